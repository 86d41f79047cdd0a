(** Advection at order 0: a step is a combination of shifts of the data; for rk3, rk4 and rk5 with CFL numbers up to 1 a convex one. *)
From Coq Require Import ZArith List Bool Arith String Lia Reals Lra Psatz.
From Verif Require Import Num Py PyStr Lib RealLib LegNumpy Ext Basis Enhance AdvectionPhysics Solution Solver RKCoeffs RK SpecDG SpecMonotone SpecTime SpecPoly SpecRK SpecUniform
  ProofsDG ProofsCons ProofsWf ProofsBasis ProofsAdv ProofsLeg ProofsTime ProofsTime2 ProofsRun ProofsRKLin ProofsRKOrder ProofsRKTables ProofsUniform ProofsAnalysis3.
Import ListNotations.
Open Scope list_scope.
Open Scope R_scope.

(** * what holds of the initial state and survives every step holds of everything a run shows *)
Section States.
  Context {A : Type} {N : Num A} {L : Libm A}.
  Variables (gamma : A) (rk : string) (d : dg) (l : @limiter A) (cfl tf : A) (nout : Z) (sol0 : solution A).
  Notation visits := (visits gamma rk d l cfl tf nout sol0).
  Notation step := (time_step gamma (rk_inner gamma rk d l) l cfl tf).
  Variable P : solution A -> Prop.
  Hypothesis P0 : P sol0.
  Hypothesis PS : forall k tout touts s sc evs s' sc' r, visits k tout touts s sc evs -> P s -> step tout s sc = Ok (s', sc', r) -> P s'.
  Lemma loop_states fuel : forall k tout touts s sc evs evs' out, visits k tout touts s sc evs -> P s -> Forall (fun ev => P (ev_sol ev)) evs ->
    time_loop gamma (rk_inner gamma rk d l) l cfl tf fuel k tout touts s sc evs = (evs', out) ->
    Forall (fun ev => P (ev_sol ev)) evs' /\ forall s', out = Finished s' -> P s'.
  Proof.
    induction fuel as [|fuel IH]; intros k tout touts s sc evs evs' out V Hs He H.
    - cbn in H. injection H as <- <-. split; [exact He|discriminate].
    - cbn [time_loop] in H. destruct (step tout s sc) as [[[s1 sc1] [[dt o] dn]]|e] eqn:Est.
      2: { injection H as <- <-. split; [exact He|discriminate]. }
      pose proof (PS _ _ _ _ _ _ _ _ _ V Hs Est) as H1. destruct o.
      + destruct (printer k dt s1) as [ev|e] eqn:Ep; [|injection H as <- <-; split; [exact He|discriminate]].
        assert (He' : Forall (fun ev => P (ev_sol ev)) (evs ++ [ev])).
        { apply Forall_app. split; [exact He|]. constructor; [|constructor]. apply printer_Ok in Ep. subst ev. exact H1. }
        destruct dn; [injection H as <- <-; split; [exact He'|intros s' E; injection E as <-; exact H1]|].
        destruct touts as [|tout' touts']; [injection H as <- <-; split; [exact He'|discriminate]|].
        eapply IH; [eapply visits_output; eassumption|exact H1|exact He'|exact H].
      + destruct dn; [injection H as <- <-; split; [exact He|intros s' E; injection E as <-; exact H1]|].
        eapply IH; [eapply visits_quiet; eassumption|exact H1|exact He|exact H].
  Qed.
  Lemma run_states fuel evs out : integrate gamma rk d l cfl tf nout fuel sol0 = (evs, out) ->
    Forall (fun ev => P (ev_sol ev)) evs /\ forall s', out = Finished s' -> P s'.
  Proof.
    intro H. rewrite integrate_run_rk in H. unfold run_rk in H.
    destruct (nout <? 0)%Z; [injection H as <- <-; split; [constructor|discriminate]|].
    destruct (printer 0 n0 sol0) as [ev|e] eqn:Ep; [|injection H as <- <-; split; [constructor|discriminate]].
    assert (He : Forall (fun ev => P (ev_sol ev)) [ev]).
    { constructor; [|constructor]. pose proof Ep as Ep'. apply printer_Ok in Ep'. subst ev. exact P0. }
    destruct (slice_from (linspace (s_t sol0) tf (Z.to_nat nout)) 1) as [|tout touts] eqn:Et; [injection H as <- <-; split; [exact He|discriminate]|].
    eapply loop_states; [apply visits_start; [exact Ep|exact Et]|exact P0|exact He|exact H].
  Qed.
End States.

(** * combinations of shifts *)
(** coefficients of (S - 1)^k in powers of S *)
Fixpoint bdiff (k j : nat) : R :=
  match k with
  | O => if (j =? 0)%nat then 1 else 0
  | S k' => (match j with O => 0 | S j' => bdiff k' j' end) - bdiff k' j
  end.
Fixpoint iter_map (sg : nat -> nat) (j e : nat) : nat := match j with O => e | S j' => sg (iter_map sg j' e) end.
Fixpoint diffs (sg : nat -> nat) (k : nat) (y : nat -> R) (e : nat) : R :=
  match k with O => y e | S k' => diffs sg k' y (sg e) - diffs sg k' y e end.
Lemma iter_shift sg j e : iter_map sg j (sg e) = iter_map sg (S j) e.
Proof. induction j as [|j IH]; [reflexivity|]. cbn [iter_map]. rewrite IH. reflexivity. Qed.
Lemma bdiff_big k : forall j, (k < j)%nat -> bdiff k j = 0.
Proof.
  induction k as [|k IH]; intros j H; cbn [bdiff]; [destruct (Nat.eqb_spec j 0); [lia|reflexivity]|].
  destruct j as [|j]; [lia|]. rewrite !IH by lia. ring.
Qed.
Lemma diffs_sum sg y k : forall e n, (k < n)%nat -> diffs sg k y e = Rsum n (fun j => bdiff k j * y (iter_map sg j e)).
Proof.
  induction k as [|k IH]; intros e n Hn; cbn [diffs].
  - rewrite (Rsum_single n 0) by (first [lia|intros j Hj Hne; cbn [bdiff]; destruct (Nat.eqb_spec j 0); [lia|ring]]). cbn. ring.
  - rewrite (IH (sg e) (n - 1)%nat), (IH e n) by lia. replace n with (S (n - 1)) at 2 3 by lia. set (m := (n - 1)%nat).
    rewrite !Rsum_S_l. cbn [bdiff iter_map].
    rewrite (Rsum_ext m (fun i => (bdiff k i - bdiff k (S i)) * y (sg (iter_map sg i e))) (fun i => bdiff k i * y (iter_map sg i (sg e)) - bdiff k (S i) * y (sg (iter_map sg i e)))).
    2:{ intros i Hi. rewrite iter_shift. cbn [iter_map]. ring. }
    rewrite Rsum_minus. ring.
Qed.
(** the coefficient of the j-th shift in a step of relative length nu *)
Definition mix (tb : rk_table) (nu : R) (j : nat) : R := Rsum (S (stages tb)) (fun k => growth tb k * nu ^ k * bdiff k j).
Lemma mix_step tb nu sg y e :
  Rsum (S (stages tb)) (fun k => growth tb k * nu ^ k * diffs sg k y e) = Rsum (S (stages tb)) (fun j => mix tb nu j * y (iter_map sg j e)).
Proof.
  unfold mix. set (n := S (stages tb)).
  rewrite (Rsum_ext n _ (fun k => Rsum n (fun j => growth tb k * nu ^ k * bdiff k j * y (iter_map sg j e)))).
  2:{ intros k Hk. rewrite (diffs_sum sg y k e n Hk), <- Rsum_scale. apply Rsum_ext. intros. ring. }
  rewrite Rsum_swap. apply Rsum_ext. intros j Hj. rewrite <- Rsum_scale_r. apply Rsum_ext. intros. ring.
Qed.
Lemma mix_total tb nu : Rsum (S (stages tb)) (mix tb nu) = 1.
Proof.
  pose proof (mix_step tb nu (fun e => e) (fun _ => 1) 0%nat) as H. cbn beta in H.
  rewrite (Rsum_ext _ (fun j => mix tb nu j * 1) (mix tb nu)) in H by (intros; ring). rewrite <- H.
  rewrite (Rsum_single _ 0); [cbn; ring|lia|]. intros k Hk Hne. destruct k as [|k]; [lia|].
  replace (diffs (fun e => e) (S k) (fun _ => 1) 0%nat) with 0; [ring|]. cbn [diffs]. ring.
Qed.

(** * the top coefficient of the stability polynomial *)
Lemma stage_sum_low tb k : forall i, (i < k)%nat -> stage_sum tb k i = 0.
Proof.
  induction k as [|k IH]; intros i H; [lia|]. cbn [stage_sum]. apply Rsum_0. intros j Hj. rewrite IH by lia. ring.
Qed.
Lemma stage_sum_diag tb k : stage_sum tb (S k) (S k) = coef tb (S k) k * stage_sum tb k k.
Proof.
  cbn [stage_sum]. rewrite (Rsum_single _ k); [reflexivity|lia|]. intros i Hi Hne. rewrite stage_sum_low by lia. ring.
Qed.
Lemma growth_top tb n : stages tb = S n -> growth tb (S n) = weight tb n * stage_sum tb n n.
Proof.
  intro E. cbn [growth]. rewrite E. rewrite (Rsum_single _ n); [reflexivity|lia|]. intros i Hi Hne. rewrite stage_sum_low by lia. ring.
Qed.
Lemma rk5_top : growth rk5_table 6 = 1 / 800.
Proof.
  rewrite (growth_top _ 5) by reflexivity. rewrite !stage_sum_diag. cbn [stage_sum]. unfold weight, coef, cval. cbn. field.
Qed.
Lemma rk6_top : growth rk6_table 7 = - (1 / 2520).
Proof.
  rewrite (growth_top _ 6) by reflexivity. rewrite !stage_sum_diag. cbn [stage_sum]. unfold weight, coef, cval. cbn.
  assert (H : sqrt 5 * sqrt 5 = 5) by (apply sqrt_sqrt; lra).
  set (r := sqrt 5) in *. clearbody r. transitivity (- (1 / 50400) * (r * (5 + 4 * r - r * r))); [field|]. rewrite H. replace (5 + 4 * r - 5) with (4 * r) by ring.
  replace (r * (4 * r)) with (4 * (r * r)) by ring. rewrite H. field.
Qed.

(** * rk3, rk4, rk5: convex combinations up to CFL 1 *)
Definition convex (tb : rk_table) (nu : R) : Prop := forall j, (j <= stages tb)%nat -> 0 <= mix tb nu j.
Ltac pos := repeat (apply Rplus_le_le_0_compat); repeat (apply Rmult_le_pos); try (apply pow_le); lra.
Lemma rk3_convex nu : 0 <= nu <= 1 -> convex rk3_table nu.
Proof.
  intros [H0 H1] j Hj. change (stages rk3_table) with 3%nat in Hj. set (mu := 1 - nu). assert (Hm : 0 <= mu) by (unfold mu; lra).
  assert (G : forall k, (k <= 3)%nat -> growth rk3_table k = / INR (fact k)) by (intros k Hk; destruct (exact_growths k) as [A3 [A4 [A5 _]]]; auto).
  unfold mix. change (stages rk3_table) with 3%nat. unfold Rsum; fold Rsum. cbn [Rsum].
  rewrite !G by lia. cbn [fact Nat.mul Nat.add INR].
  destruct j as [|[|[|[|j]]]]; [ |  |  |  | lia]; cbn [bdiff Nat.eqb].
  - match goal with |- 0 <= ?e => replace e with (1 / 1 * (nu ^ 0 * mu ^ 3) + 2 / 1 * (nu ^ 1 * mu ^ 2) + 3 / 2 * (nu ^ 2 * mu ^ 1) + 1 / 3 * (nu ^ 3 * mu ^ 0)) by (unfold mu; field) end. pos.
  - match goal with |- 0 <= ?e => replace e with (1 / 1 * (nu ^ 1 * mu ^ 2) + 1 / 1 * (nu ^ 2 * mu ^ 1) + 1 / 2 * (nu ^ 3 * mu ^ 0)) by (unfold mu; field) end. pos.
  - match goal with |- 0 <= ?e => replace e with (1 / 2 * (nu ^ 2 * mu ^ 1)) by (unfold mu; field) end. pos.
  - match goal with |- 0 <= ?e => replace e with (1 / 6 * (nu ^ 3 * mu ^ 0)) by (unfold mu; field) end. pos.
Qed.
Lemma rk4_convex nu : 0 <= nu <= 1 -> convex rk4_table nu.
Proof.
  intros [H0 H1] j Hj. change (stages rk4_table) with 4%nat in Hj. set (mu := 1 - nu). assert (Hm : 0 <= mu) by (unfold mu; lra).
  assert (G : forall k, (k <= 4)%nat -> growth rk4_table k = / INR (fact k)) by (intros k Hk; destruct (exact_growths k) as [A3 [A4 [A5 _]]]; auto).
  unfold mix. change (stages rk4_table) with 4%nat. unfold Rsum; fold Rsum. cbn [Rsum].
  rewrite !G by lia. cbn [fact Nat.mul Nat.add INR].
  destruct j as [|[|[|[|[|j]]]]]; [ |  |  |  |  | lia]; cbn [bdiff Nat.eqb].
  - match goal with |- 0 <= ?e => replace e with (1 / 1 * (nu ^ 0 * mu ^ 4) + 3 / 1 * (nu ^ 1 * mu ^ 3) + 7 / 2 * (nu ^ 2 * mu ^ 2) + 11 / 6 * (nu ^ 3 * mu ^ 1) + 3 / 8 * (nu ^ 4 * mu ^ 0)) by (unfold mu; field) end. pos.
  - match goal with |- 0 <= ?e => replace e with (1 / 1 * (nu ^ 1 * mu ^ 3) + 2 / 1 * (nu ^ 2 * mu ^ 2) + 3 / 2 * (nu ^ 3 * mu ^ 1) + 1 / 3 * (nu ^ 4 * mu ^ 0)) by (unfold mu; field) end. pos.
  - match goal with |- 0 <= ?e => replace e with (1 / 2 * (nu ^ 2 * mu ^ 2) + 1 / 2 * (nu ^ 3 * mu ^ 1) + 1 / 4 * (nu ^ 4 * mu ^ 0)) by (unfold mu; field) end. pos.
  - match goal with |- 0 <= ?e => replace e with (1 / 6 * (nu ^ 3 * mu ^ 1)) by (unfold mu; field) end. pos.
  - match goal with |- 0 <= ?e => replace e with (1 / 24 * (nu ^ 4 * mu ^ 0)) by (unfold mu; field) end. pos.
Qed.
Lemma rk5_convex nu : 0 <= nu <= 1 -> convex rk5_table nu.
Proof.
  intros [H0 H1] j Hj. change (stages rk5_table) with 6%nat in Hj. set (mu := 1 - nu). assert (Hm : 0 <= mu) by (unfold mu; lra).
  assert (G : forall k, (k <= 5)%nat -> growth rk5_table k = / INR (fact k)) by (intros k Hk; destruct (exact_growths k) as [A3 [A4 [A5 _]]]; auto).
  unfold mix. change (stages rk5_table) with 6%nat. unfold Rsum; fold Rsum. cbn [Rsum].
  rewrite rk5_top, !G by lia. cbn [fact Nat.mul Nat.add INR].
  destruct j as [|[|[|[|[|[|[|j]]]]]]]; [ |  |  |  |  |  |  | lia]; cbn [bdiff Nat.eqb].
  - match goal with |- 0 <= ?e => replace e with (1 / 1 * (nu ^ 0 * mu ^ 6) + 5 / 1 * (nu ^ 1 * mu ^ 5) + 21 / 2 * (nu ^ 2 * mu ^ 4) + 71 / 6 * (nu ^ 3 * mu ^ 3) + 181 / 24 * (nu ^ 4 * mu ^ 2) + 103 / 40 * (nu ^ 5 * mu ^ 1) + 883 / 2400 * (nu ^ 6 * mu ^ 0)) by (unfold mu; field) end. pos.
  - match goal with |- 0 <= ?e => replace e with (1 / 1 * (nu ^ 1 * mu ^ 5) + 4 / 1 * (nu ^ 2 * mu ^ 4) + 13 / 2 * (nu ^ 3 * mu ^ 3) + 16 / 3 * (nu ^ 4 * mu ^ 2) + 53 / 24 * (nu ^ 5 * mu ^ 1) + 147 / 400 * (nu ^ 6 * mu ^ 0)) by (unfold mu; field) end. pos.
  - match goal with |- 0 <= ?e => replace e with (1 / 2 * (nu ^ 2 * mu ^ 4) + 3 / 2 * (nu ^ 3 * mu ^ 3) + 7 / 4 * (nu ^ 4 * mu ^ 2) + 11 / 12 * (nu ^ 5 * mu ^ 1) + 89 / 480 * (nu ^ 6 * mu ^ 0)) by (unfold mu; field) end. pos.
  - match goal with |- 0 <= ?e => replace e with (1 / 6 * (nu ^ 3 * mu ^ 3) + 1 / 3 * (nu ^ 4 * mu ^ 2) + 1 / 4 * (nu ^ 5 * mu ^ 1) + 7 / 120 * (nu ^ 6 * mu ^ 0)) by (unfold mu; field) end. pos.
  - match goal with |- 0 <= ?e => replace e with (1 / 24 * (nu ^ 4 * mu ^ 2) + 1 / 24 * (nu ^ 5 * mu ^ 1) + 3 / 160 * (nu ^ 6 * mu ^ 0)) by (unfold mu; field) end. pos.
  - match goal with |- 0 <= ?e => replace e with (1 / 120 * (nu ^ 5 * mu ^ 1) + 1 / 1200 * (nu ^ 6 * mu ^ 0)) by (unfold mu; field) end. pos.
  - match goal with |- 0 <= ?e => replace e with (1 / 800 * (nu ^ 6 * mu ^ 0)) by (unfold mu; field) end. pos.
Qed.

Lemma Rsum_abs n f : Rabs (Rsum n f) <= Rsum n (fun i => Rabs (f i)).
Proof. induction n as [|n IH]; cbn [Rsum]; [rewrite Rabs_R0; lra|]. eapply Rle_trans; [apply Rabs_triang|]. lra. Qed.

(** * order 0 *)
Section Order0.
  Context {X : Ext R}.
  Variables (ne : nat) (sol0 : solution R).
  Hypothesis M : made ne sol0.
  Hypothesis Ha : s_euler sol0 = false.
  Hypothesis He : s_enh sol0 = None.
  Hypothesis Hp : b_p (s_basis sol0) = 0%nat.
  Hypothesis Hl : bc_known (s_bcl sol0).
  Hypothesis Hr : bc_known (s_bcr sol0).
  Notation src := (src_cell (s_bcl sol0) (s_bcr sol0) ne).
  (** the left neighbour *)
  Definition leftof (e : nat) : nat := src (e - 1).
  Lemma ne_pos : (1 <= ne)%nat. Proof. exact (wf_ne _ _ (md_wf _ _ M)). Qed.
  Lemma src_in e : (e < ne + 2)%nat -> (1 <= src e <= ne)%nat.
  Proof. intro H. apply src_interior; [exact Hl|exact Hr|apply ne_pos|exact H]. Qed.
  Lemma src_id e : (1 <= e <= ne)%nat -> src e = e.
  Proof. intro H. unfold src_cell. destruct (Nat.eqb_spec e 0); [lia|]. destruct (Nat.eqb_spec e (ne + 1)); [lia|]. reflexivity. Qed.
  Lemma leftof_in e : (1 <= e <= ne)%nat -> (1 <= leftof e <= ne)%nat.
  Proof. intro H. apply src_in. lia. Qed.
  Lemma iter_in j e : (1 <= e <= ne)%nat -> (1 <= iter_map leftof j e <= ne)%nat.
  Proof. intro H. induction j as [|j IH]; [exact H|]. cbn [iter_map]. apply leftof_in. exact IH. Qed.
  Lemma Ns1 : s_Ns sol0 = 1%nat. Proof. unfold s_Ns, b_Ns. rewrite Hp. reflexivity. Qed.
  Lemma op0 (x : nat -> nat -> R) e : (1 <= e <= ne)%nat -> adv_op ne sol0 x 0 e = (x 0%nat (leftof e) - x 0%nat e) / s_dx sol0.
  Proof.
    intro H. pose proof (md_dx _ _ M) as Hd.
    assert (BC : forall j, bc_column ne sol0 j = src j) by (intro j; unfold bc_column; rewrite (adv_NF sol0 Ha), Nat.div_1_r, Nat.mod_1_r; lia).
    assert (FU : forall j, face_up ne sol0 x j = x 0%nat (src j)).
    { intro j. unfold face_up. rewrite He, BC, Ns1. cbn [Rsum]. rewrite (md_basis _ _ M), Hp. rewrite (proj2 (psi_entry 0 0 ltac:(lia))), LegP_at1. ring. }
    unfold adv_op. cbv zeta. rewrite !FU, (adv_NF sol0 Ha), Nat.div_1_r.
    rewrite (Rsum_0 (b_NG (s_basis sol0))).
    2:{ intros g Hg. rewrite (md_basis _ _ M), Hp in Hg |- *. rewrite dphi_entry by (try exact Hg; lia). rewrite dLegP_0. ring. }
    destruct (Nat.leb_spec 1 e); [|lia]. destruct (Nat.leb_spec e ne); [|lia]. cbn [andb Nat.even].
    rewrite (md_minv _ _ M) by (rewrite Ns1; lia). cbn [Nat.mul Nat.add INR]. rewrite (src_id e H). unfold leftof. field. lra.
  Qed.
  Lemma power0 (x : nat -> nat -> R) k : forall e, (1 <= e <= ne)%nat ->
    power (adv_op ne sol0) k x 0 e = (/ s_dx sol0) ^ k * diffs leftof k (x 0%nat) e.
  Proof.
    pose proof (md_dx _ _ M) as Hd. induction k as [|k IH]; intros e H; [cbn; ring|].
    cbn [power]. rewrite op0 by exact H. rewrite (IH _ (leftof_in e H)), (IH e H). cbn [diffs pow]. field. lra.
  Qed.

  Section Step.
    Variables (gamma : R) (d : dg) (rk : string) (cfl tf : R) (nout : Z).
    Hypothesis D : wf_dg ne sol0 d.
    Notation visits := (visits gamma rk d None cfl tf nout sol0).
    Notation step := (time_step gamma (rk_inner gamma rk d None) None cfl tf).
    Notation tb := (rk_choice rk).
    (** a step is a combination of shifts *)
    Lemma step_mix k tout touts s sc evs s' sc' dt o dn : visits k tout touts s sc evs -> step tout s sc = Ok (s', sc', (dt, o, dn)) ->
      forall e, (e < ne + 2)%nat -> at2 (s_u s') 0 e = Rsum (S (stages tb)) (fun j => mix tb (dt / s_dx sol0) j * at2 (s_u s) 0 (iter_map leftof j (src e))).
    Proof.
      intros V T e Hee. pose proof (adv_step gamma ne sol0 d rk cfl tf nout _ _ _ _ _ _ _ _ _ _ _ (md_wf _ _ M) D Ha V T e 0 0 Hee
        ltac:(rewrite (adv_NF sol0 Ha); lia) ltac:(rewrite Ns1; lia)) as E.
      rewrite (adv_NF sol0 Ha), !Nat.mul_1_r, !Nat.add_0_r in E. rewrite E.
      rewrite <- (mix_step tb (dt / s_dx sol0) leftof (at2 (s_u s) 0)).
      apply Rsum_ext. intros i Hi. rewrite power0 by (apply src_in; exact Hee). unfold Rdiv. rewrite Rpow_mult_distr. ring.
    Qed.
    Lemma step_nu k tout touts s sc evs s' sc' dt o dn : (2 <= nout)%Z -> s_t sol0 <= tf -> cfl <= 1 -> visits k tout touts s sc evs -> step tout s sc = Ok (s', sc', (dt, o, dn)) ->
      0 <= dt / s_dx sol0 <= 1.
    Proof.
      intros Hn Ht Hc V T. pose proof (md_dx _ _ M) as Hd.
      destruct (step_times gamma rk d None cfl tf nout sol0 Hn Ht _ _ _ _ _ _ _ _ _ _ _ V T) as [D0 _].
      destruct (Wf_visits gamma ne sol0 d None (md_wf _ _ M) D _ _ _ _ _ _ _ _ _ _ V) as [[W1 S1] _].
      destruct (similar_fields _ _ S1) as [F1 [_ [F3 [F4 _]]]].
      destruct (time_step_clock gamma _ _ _ _ _ _ _ _ _ _ _ _ (fun _ _ _ _ _ => frame_inner gamma rk d None _ _ _ _ _) T) as [Nx _].
      apply next_step_cases in Nx. destruct Nx as [v [Hv [_ Hcs]]]. unfold max_wave_speed in Hv. rewrite F3, Ha in Hv. unfold adv_max_wave_speed in Hv. apply Ok_inj in Hv. subst v.
      rewrite F1, Hp, F4 in Hcs. cbn [Nat.mul Nat.add INR] in Hcs. unfold n1 in Hcs. cbn [nofZ NumR] in Hcs.
      assert (Q : dt <= s_dx sol0 * cfl / (1 * 1)) by (destruct Hcs as [[? [-> _]]|[[? [? [-> _]]]|[? [? [-> _]]]]]; lra).
      replace (s_dx sol0 * cfl / (1 * 1)) with (s_dx sol0 * cfl) in Q by field.
      split; [apply Rmult_le_pos; [exact D0|apply Rlt_le, Rinv_0_lt_compat, Hd]|]. apply Rmult_le_reg_r with (s_dx sol0); [exact Hd|].
      unfold Rdiv. rewrite Rmult_assoc, Rinv_l by lra. nra.
    Qed.
    (** one step: no new extrema, no growth of the variation *)
    Lemma step_range lo hi (s s' : solution R) nu : convex tb nu ->
      (forall e, (1 <= e <= ne)%nat -> at2 (s_u s') 0 e = Rsum (S (stages tb)) (fun j => mix tb nu j * at2 (s_u s) 0 (iter_map leftof j e))) ->
      (forall e, (1 <= e <= ne)%nat -> lo <= at2 (s_u s) 0 e <= hi) -> forall e, (1 <= e <= ne)%nat -> lo <= at2 (s_u s') 0 e <= hi.
    Proof.
      intros Cv E B e Hee. rewrite E by exact Hee. pose proof (mix_total tb nu) as T.
      split.
      - apply Rle_trans with (Rsum (S (stages tb)) (mix tb nu) * lo); [rewrite T; lra|]. rewrite <- Rsum_scale_r. apply Rsum_le. intros j Hj.
        apply Rmult_le_compat_l; [apply Cv; lia|apply B, iter_in; exact Hee].
      - apply Rle_trans with (Rsum (S (stages tb)) (mix tb nu) * hi); [|rewrite T; lra]. rewrite <- Rsum_scale_r. apply Rsum_le. intros j Hj.
        apply Rmult_le_compat_l; [apply Cv; lia|apply B, iter_in; exact Hee].
    Qed.
    Definition jump (y : nat -> R) (e : nat) : R := y e - y (leftof e).
    Lemma leftof_S i : (i < ne)%nat -> leftof (i + 1) = src i. Proof. intro H. unfold leftof. f_equal. lia. Qed.
    Lemma shift_le (f : nat -> R) : (forall e, 0 <= f e) -> (leftof 1 = 1%nat -> f 1%nat = 0) -> Rsum ne (fun i => f (leftof (i + 1))) <= Rsum ne (fun i => f (i + 1)%nat).
    Proof.
      intros Hf H0. pose proof ne_pos as Hne. replace ne with (S (ne - 1)) at 1 2 by lia. rewrite Rsum_S_l. cbn [Rsum Nat.add].
      rewrite (Rsum_ext (ne - 1) (fun i => f (leftof (S (i + 1)))) (fun i => f (i + 1)%nat)).
      2:{ intros i Hi. f_equal. unfold leftof. rewrite src_id by lia. lia. }
      assert (L : leftof 1 = ne \/ leftof 1 = 1%nat).
      { unfold leftof. cbn [Nat.sub]. unfold src_cell. cbn [Nat.eqb]. destruct Hl as [-> | E]; [left; reflexivity|]. destruct (is_literal (s_bcl sol0) "periodic"); [left; reflexivity|]. rewrite E. right. reflexivity. }
      destruct L as [L|L]; rewrite L.
      - replace (ne - 1 + 1)%nat with ne by lia. lra.
      - rewrite (H0 L). pose proof (Hf (ne - 1 + 1)%nat). lra.
    Qed.
    Lemma iter_comm j e : iter_map leftof j (leftof e) = leftof (iter_map leftof j e).
    Proof. rewrite iter_shift. reflexivity. Qed.
    Lemma iter_le y j : Rsum ne (fun i => Rabs (jump y (iter_map leftof j (i + 1)))) <= Rsum ne (fun i => Rabs (jump y (i + 1))).
    Proof.
      induction j as [|j IH]; [cbn [iter_map]; lra|]. eapply Rle_trans; [|exact IH].
      rewrite (Rsum_ext ne _ (fun i => Rabs (jump y (iter_map leftof j (leftof (i + 1)))))) by (intros i Hi; cbn [iter_map]; rewrite iter_comm; reflexivity).
      apply (shift_le (fun e => Rabs (jump y (iter_map leftof j e)))); [intro; apply Rabs_pos|].
      intro L1. assert (E1 : iter_map leftof j 1 = 1%nat) by (clear IH; induction j as [|j IHj]; [reflexivity|cbn [iter_map]; rewrite IHj; exact L1]).
      rewrite E1. unfold jump. rewrite L1, Rminus_diag_eq, Rabs_R0 by reflexivity. reflexivity.
    Qed.
    Lemma step_variation (y z : nat -> R) nu : convex tb nu ->
      (forall e, (1 <= e <= ne)%nat -> z e = Rsum (S (stages tb)) (fun j => mix tb nu j * y (iter_map leftof j e))) ->
      Rsum ne (fun i => Rabs (jump z (i + 1))) <= Rsum ne (fun i => Rabs (jump y (i + 1))).
    Proof.
      intros Cv E.
      apply Rle_trans with (Rsum ne (fun i => Rsum (S (stages tb)) (fun j => mix tb nu j * Rabs (jump y (iter_map leftof j (i + 1)))))).
      - apply Rsum_le. intros i Hi. unfold jump at 1. rewrite (E (i + 1)%nat), (E (leftof (i + 1))) by (first [lia|apply leftof_in; lia]).
        rewrite <- Rsum_minus. eapply Rle_trans; [apply Rsum_abs|]. apply Rsum_le. intros j Hj. rewrite <- Rmult_minus_distr_l, iter_comm.
        rewrite Rabs_mult, (Rabs_right (mix tb nu j)) by (apply Rle_ge, Cv; lia). unfold jump. apply Rle_refl.
      - rewrite Rsum_swap. apply Rle_trans with (Rsum (S (stages tb)) (fun j => mix tb nu j * Rsum ne (fun i => Rabs (jump y (i + 1))))).
        + apply Rsum_le. intros j Hj. rewrite Rsum_scale. apply Rmult_le_compat_l; [apply Cv; lia|apply iter_le].
        + rewrite Rsum_scale_r, mix_total. lra.
    Qed.
  End Step.

  Section Run.
    Variables (gamma : R) (d : dg) (rk : string) (cfl tf : R) (nout : Z).
    Hypothesis D : wf_dg ne sol0 d.
    Hypothesis Hk : In rk ["rk3"; "rk4"; "low_storage_rk4"; "rk5"]%string.
    Hypothesis Hc : cfl <= 1.
    Hypothesis Hn : (2 <= nout)%Z.
    Hypothesis Ht : s_t sol0 <= tf.
    Lemma choice_convex nu : 0 <= nu <= 1 -> convex (rk_choice rk) nu.
    Proof.
      intro H. destruct Hk as [<-|[<-|[<-|[<-|[]]]]]; [apply rk3_convex|apply rk4_convex|apply rk4_convex|apply rk5_convex]; exact H.
    Qed.
    Lemma average_at (s : solution R) e : Wf ne sol0 s -> (e < ne + 2)%nat -> average s e = at2 (s_u s) 0 e.
    Proof.
      intros [W Sim] Hee. unfold average. rewrite (modes_at ne s) by (first [exact W|exact Hee|rewrite (similar_NF _ _ Sim), (adv_NF sol0 Ha); lia|rewrite (similar_Ns _ _ Sim), Ns1; lia]).
      rewrite (similar_NF _ _ Sim), (adv_NF sol0 Ha). f_equal. lia.
    Qed.
    Lemma variation_at (s : solution R) : Wf ne sol0 s -> variation ne s = Rsum ne (fun i => Rabs (jump (fun e => at2 (s_u s) 0 e) (i + 1))).
    Proof.
      intro Ws. destruct Ws as [W Sim]. destruct (similar_fields _ _ Sim) as [_ [_ [_ [_ [E1 E2]]]]]. unfold variation. rewrite E1, E2. apply Rsum_ext. intros i Hi. unfold jump.
      pose proof (src_in i ltac:(lia)). rewrite !average_at by (first [split; assumption|lia]). rewrite leftof_S by exact Hi. reflexivity.
    Qed.
    Theorem run_range lo hi fuel evs out : (forall e, (1 <= e <= ne)%nat -> lo <= average sol0 e <= hi) ->
      integrate gamma rk d None cfl tf nout fuel sol0 = (evs, out) ->
      forall s, (exists ev, In ev evs /\ s = ev_sol ev) \/ out = Finished s ->
      (forall e, (1 <= e <= ne)%nat -> lo <= average s e <= hi) /\ variation ne s <= variation ne sol0.
    Proof.
      intros B I. pose proof (md_wf _ _ M) as W0.
      assert (W00 : Wf ne sol0 sol0) by (split; [exact W0|apply similar_refl]).
      destruct (run_states gamma rk d None cfl tf nout sol0
        (fun s => Wf ne sol0 s /\ (forall e, (1 <= e <= ne)%nat -> lo <= at2 (s_u s) 0 e <= hi) /\ variation ne s <= variation ne sol0)) with (fuel := fuel) (evs := evs) (out := out) as [HE HF].
      - split; [exact W00|]. split; [|lra]. intros e Hee. rewrite <- average_at by (first [exact W00|lia]). apply B. exact Hee.
      - intros k tout touts s sc evs0 s' sc' [[dt o] dn] V [Ws [Bs Vs]] T.
        pose proof (choice_convex _ (step_nu gamma d rk cfl tf nout D _ _ _ _ _ _ _ _ _ _ _ Hn Ht Hc V T)) as Cv.
        pose proof (step_mix gamma d rk cfl tf nout D _ _ _ _ _ _ _ _ _ _ _ V T) as Mx.
        assert (Mx' : forall e, (1 <= e <= ne)%nat -> at2 (s_u s') 0 e = Rsum (S (stages (rk_choice rk))) (fun j => mix (rk_choice rk) (dt / s_dx sol0) j * at2 (s_u s) 0 (iter_map leftof j e)))
          by (intros e Hee; rewrite (Mx e) by lia; rewrite (src_id e Hee); reflexivity).
        destruct (Wf_visits gamma ne sol0 d None W0 D _ _ _ _ _ _ _ _ _ _ V) as [_ [Wsc [K _]]].
        destruct (Wf_time_step gamma ne sol0 d None D _ _ _ _ _ _ _ _ _ Ws Wsc K T) as [Ws' _].
        split; [exact Ws'|]. split; [apply (step_range rk lo hi s s' _ Cv Mx' Bs)|].
        eapply Rle_trans; [|exact Vs]. rewrite !variation_at by assumption. apply (step_variation rk _ _ _ Cv). exact Mx'.
      - exact I.
      - assert (Q : forall s, Wf ne sol0 s /\ (forall e, (1 <= e <= ne)%nat -> lo <= at2 (s_u s) 0 e <= hi) /\ variation ne s <= variation ne sol0 ->
          (forall e, (1 <= e <= ne)%nat -> lo <= average s e <= hi) /\ variation ne s <= variation ne sol0).
        { intros s [Ws [Bs Vs]]. split; [|exact Vs]. intros e Hee. rewrite average_at by (first [exact Ws|lia]). apply Bs. exact Hee. }
        intros s [[ev [Hin ->]] | E]; apply Q; [rewrite Forall_forall in HE; apply HE; exact Hin|apply HF; exact E].
    Qed.
  End Run.
End Order0.

(** * rk6: a negative coefficient *)
Lemma single_step {X : Ext R} gamma ne (sol0 : solution R) d rk cfl tf nout : made ne sol0 -> s_euler sol0 = false -> b_p (s_basis sol0) = 0%nat ->
  tf - s_t sol0 < s_dx sol0 * cfl -> forall k tout touts s sc evs, visits gamma rk d None cfl tf nout sol0 k tout touts s sc evs -> s = sol0.
Proof.
  intros M Ha Hp Hc k tout touts s sc evs V.
  assert (Q : forall tout sc s' sc' dt o, time_step gamma (rk_inner gamma rk d None) None cfl tf tout sol0 sc = Ok (s', sc', (dt, o, false)) -> False).
  { clear - Ha Hp Hc. intros tout sc s' sc' dt o T.
    destruct (time_step_clock gamma _ _ _ _ _ _ _ _ _ _ _ _ (fun _ _ _ _ _ => frame_inner gamma rk d None _ _ _ _ _) T) as [Nx _].
    apply next_step_cases in Nx. destruct Nx as [v [Hv [_ Hcs]]]. unfold max_wave_speed in Hv. rewrite Ha in Hv. unfold adv_max_wave_speed in Hv. apply Ok_inj in Hv. subst v.
    rewrite Hp in Hcs. cbn [Nat.mul Nat.add INR] in Hcs. unfold n1 in Hcs. cbn [nofZ NumR] in Hcs.
    replace (s_dx sol0 * cfl / (1 * 1)) with (s_dx sol0 * cfl) in Hcs by field.
    destruct Hcs as [[_ [_ [_ E]]]|[[? _]|[? _]]]; [discriminate|lra|lra]. }
  induction V as [ev tout touts H1 H2 | k tout touts s sc evs s' sc' dt V IH T | k tout tout' touts s sc evs s' sc' dt ev V IH T P]; [reflexivity| |]; subst s; exfalso; eapply Q; exact T.
Qed.
Theorem rk6_undershoot {X : Ext R} gamma (sol0 : solution R) d cfl tf nout : made 8 sol0 -> s_euler sol0 = false -> s_enh sol0 = None -> b_p (s_basis sol0) = 0%nat ->
  bc_known (s_bcl sol0) -> bc_known (s_bcr sol0) -> wf_dg 8 sol0 d -> (2 <= nout)%Z -> s_t sol0 < tf -> tf - s_t sol0 < s_dx sol0 * cfl ->
  (forall e, (1 <= e <= 8)%nat -> average sol0 e = if (e =? 1)%nat then 1 else 0) ->
  forall fuel evs s, integrate gamma "rk6" d None cfl tf nout fuel sol0 = (evs, Finished s) -> average s 8 < 0.
Proof.
  intros M Ha He Hp Hl Hr D Hn Ht Hc Hy fuel evs s I. pose proof (md_wf _ _ M) as W0. pose proof (md_dx _ _ M) as Hd.
  destruct (finished_events gamma "rk6" d None cfl tf nout sol0 Hn ltac:(lra) fuel evs s I) as [k [tout [touts [s0 [sc [evs0 [sc' [dt [V [T _]]]]]]]]]].
  pose proof (single_step gamma 8 sol0 d "rk6" cfl tf nout M Ha Hp Hc _ _ _ _ _ _ V) as E. subst s0.
  destruct (step_times gamma "rk6" d None cfl tf nout sol0 Hn ltac:(lra) _ _ _ _ _ _ _ _ _ _ _ V T) as [_ [T1 [_ [_ [_ T2]]]]]. destruct (T2 eq_refl) as [T3 _].
  destruct (Wf_visits gamma 8 sol0 d None W0 D _ _ _ _ _ _ _ _ _ _ V) as [Ws [Wsc [K _]]].
  destruct (Wf_time_step gamma 8 sol0 d None D _ _ _ _ _ _ _ _ _ Ws Wsc K T) as [Ws' _].
  rewrite (average_at 8 sol0 Ha Hp s 8 Ws' ltac:(lia)).
  rewrite (step_mix 8 sol0 M Ha He Hp Hl Hr gamma d "rk6" cfl tf nout D _ _ _ _ _ _ _ _ _ _ _ V T 8 ltac:(lia)).
  change (rk_choice "rk6") with rk6_table. change (stages rk6_table) with 7%nat.
  rewrite (src_id 8 sol0 Hp 8) by lia.
  assert (IT : forall j, (j <= 7)%nat -> iter_map (leftof 8 sol0) j 8 = (8 - j)%nat).
  { induction j as [|j IH]; intro Hj; [reflexivity|]. cbn [iter_map]. rewrite IH by lia. unfold leftof. rewrite (src_id 8 sol0 Hp) by lia. lia. }
  rewrite (Rsum_single 8 7); [|lia|].
  - rewrite IT by lia. change (8 - 7)%nat with 1%nat. rewrite <- (average_at 8 sol0 Ha Hp sol0 1 ltac:(split; [exact W0|apply similar_refl]) ltac:(lia)). rewrite Hy by lia. cbn [Nat.eqb].
    unfold mix. change (stages rk6_table) with 7%nat. rewrite (Rsum_single 8 7); [|lia|intros i Hi Hne; rewrite bdiff_big by lia; ring].
    rewrite rk6_top. cbn [bdiff Nat.eqb]. assert (P : 0 < (dt / s_dx sol0) ^ 7) by (apply pow_lt, Rmult_lt_0_compat; [lra|apply Rinv_0_lt_compat, Hd]). lra.
  - intros j Hj Hne. rewrite IT by lia. rewrite <- (average_at 8 sol0 Ha Hp sol0 (8 - j) ltac:(split; [exact W0|apply similar_refl]) ltac:(lia)). rewrite Hy by lia.
    destruct (Nat.eqb_spec (8 - j) 1); [lia|]. ring.
Qed.
