(** The steps of an advection run, and the exact amplitude of its Fourier modes. *)
From Coq Require Import ZArith List Bool Arith String Lia Reals Lra Ring.
From Verif Require Import Num Py Lib RealLib LegNumpy Ext Basis Enhance Solution Solver RKCoeffs RK SpecDG SpecTime SpecPoly SpecRK SpecEnh SpecUniform SpecL2 SpecCfl Analysis SpecAnalysis
  ProofsDG ProofsCons ProofsWf ProofsAdv ProofsTime ProofsTime2 ProofsRun ProofsRKLin ProofsAnalysis ProofsAnalysis2 ProofsAnalysis3 ProofsAnalysis5 ProofsL2 ProofsL2Run.
Import ListNotations.
Open Scope R_scope.

Section Schedule.
  Context {X : Ext R}.
  Variables (gamma : R) (ne : nat) (sol0 : solution R) (d : dg) (lm : limiter (A:=R)) (rk : string) (cfl tf : R) (nout : Z) (m : nat).
  Hypothesis W : wf ne sol0.
  Hypothesis D : wf_dg ne sol0 d.
  Hypothesis Ha : s_euler sol0 = false.
  Hypothesis Hn : (2 <= nout)%Z.
  Hypothesis Htf : s_t sol0 <= tf.
  Notation full := (full_step sol0 cfl).
  Notation gap := (interval sol0 tf nout).
  Notation short := (last_step sol0 cfl tf nout m).
  Hypothesis Hm : (1 <= m)%nat.
  Hypothesis Fit : INR m * full <= gap < INR (S m) * full.
  Notation visits := (visits gamma rk d lm cfl tf nout sol0).
  Notation step := (time_step gamma (rk_inner gamma rk d lm) lm cfl tf).
  Notation out := (out_time tf nout sol0).

  Lemma full_pos : 0 < full.
  Proof. rewrite S_INR in Fit. lra. Qed.
  Lemma full_le : full <= gap.
  Proof. pose proof full_pos. assert (1 <= INR m) by (change 1 with (INR 1); apply le_INR; exact Hm). nra. Qed.
  Lemma step_kind k tout touts s sc evs s' sc' dt o dn j : visits k tout touts s sc evs -> step tout s sc = Ok (s', sc', (dt, o, dn)) ->
    (j <= m)%nat -> s_t s = out (k - 1) + INR j * full ->
    s_t s' = s_t s + dt /\ (((j < m)%nat /\ dt = full /\ o = false /\ dn = false) \/ (j = m /\ dt = short /\ o = true /\ (dn = true <-> k = (Z.to_nat nout - 1)%nat))).
  Proof.
    intros V T Hj Es. destruct (Wf_visits gamma ne sol0 d lm W D _ _ _ _ _ _ _ _ _ _ V) as [[_ Sm] _].
    pose proof (visits_inv gamma rk d lm cfl tf nout sol0 Hn Htf _ _ _ _ _ _ V) as [Ik It _ _ _ _ _].
    apply time_step_clock in T; [|intros *; apply frame_inner]. destruct T as [N [Et _]]. split; [exact Et|].
    apply next_step_cases in N. destruct N as [v [Hv [_ C]]].
    destruct (similar_fields _ _ Sm) as [Eb [_ [Ee [Edx _]]]].
    assert (v = 1) by (unfold max_wave_speed in Hv; rewrite Ee, Ha in Hv; injection Hv as <-; reflexivity). subst v.
    rewrite Rmult_1_l, Eb, Edx in C. change (s_dx sol0 * cfl / INR (2 * b_p (s_basis sol0) + 1)) with full in C.
    assert (To : tout - s_t s = gap - INR j * full).
    { rewrite It, Es. destruct k as [|k]; [lia|]. replace (S k - 1)%nat with k by lia. rewrite out_time_S. change ((tf - s_t sol0) / INR (Z.to_nat nout - 1)) with gap. ring. }
    assert (Tf : tf - s_t s = (tf - tout) + (gap - INR j * full)) by lra.
    pose proof full_pos as P. pose proof full_le as Q.
    assert (Later : (k < Z.to_nat nout - 1)%nat -> gap <= tf - tout).
    { intro Hk. rewrite It. pose proof (out_time_last tf nout sol0 Hn) as OL. pose proof (out_time_mono tf nout sol0 Hn Htf (S k) (Z.to_nat nout - 1) ltac:(lia)) as O.
      rewrite out_time_S in O. change ((tf - s_t sol0) / INR (Z.to_nat nout - 1)) with gap in O. lra. }
    assert (Last : k = (Z.to_nat nout - 1)%nat -> tout = tf) by (intros ->; rewrite It; apply out_time_last; exact Hn).
    assert (Lm : (j < m)%nat -> full <= gap - INR j * full).
    { intro Hlt. assert (INR j + 1 <= INR m) by (rewrite <- S_INR; apply le_INR; lia). nra. }
    assert (Ge : j = m -> gap - INR j * full < full) by (intros ->; rewrite S_INR in Fit; lra).
    assert (Nn : 0 <= gap - INR j * full).
    { assert (INR j <= INR m) by (apply le_INR; exact Hj). nra. }
    assert (Tl : 0 <= tf - tout) by (rewrite It; pose proof (out_time_le_tf tf nout sol0 Hn Htf k ltac:(lia)); lra).
    assert (Dj : (j < m)%nat \/ j = m) by lia. assert (Dk : (k < Z.to_nat nout - 1)%nat \/ k = (Z.to_nat nout - 1)%nat) by lia. unfold last_step.
    destruct C as [[C1 [C2 [C3 C4]]] | [[C1 [C2 [C3 [C4 C5]]]] | [C1 [C2 [C3 [C4 C5]]]]]]; destruct Dj as [Dj|Dj].
    - exfalso. specialize (Lm Dj). destruct Dk as [Dk|Dk]; [specialize (Later Dk)|specialize (Last Dk)]; lra.
    - right. destruct Dk as [Dk|Dk]; [specialize (Later Dk); lra|]. specialize (Last Dk). subst j. repeat split; [lra|exact C3|intros _; exact Dk|intros _; exact C4].
    - exfalso. specialize (Lm Dj). lra.
    - right. destruct Dk as [Dk|Dk].
      + subst j. repeat split; [lra|exact C4|intro F; congruence|intro F; lia].
      + exfalso. specialize (Last Dk). specialize (Ge Dj). lra.
    - left. auto.
    - exfalso. specialize (Ge Dj). lra.
  Qed.
  Lemma last_fits : INR m * full + short = gap. Proof. unfold last_step. lra. Qed.
End Schedule.

(** ** along the schedule *)
Section Runs.
  Context {X : Ext R}.
  Variables (gamma : R) (ne : nat) (sol0 : solution R) (d : dg) (lm : limiter (A:=R)) (rk : string) (cfl tf : R) (nout : Z) (m : nat).
  Hypothesis W : wf ne sol0.
  Hypothesis D : wf_dg ne sol0 d.
  Hypothesis Ha : s_euler sol0 = false.
  Hypothesis Hn : (2 <= nout)%Z.
  Hypothesis Htf : s_t sol0 <= tf.
  Notation full := (full_step sol0 cfl).
  Notation gap := (interval sol0 tf nout).
  Hypothesis Hm : (1 <= m)%nat.
  Hypothesis Fit : INR m * full <= gap < INR (S m) * full.
  Notation visits := (visits gamma rk d lm cfl tf nout sol0).
  Notation step := (time_step gamma (rk_inner gamma rk d lm) lm cfl tf).
  Notation out := (out_time tf nout sol0).

  (** induction over the schedule: P i j holds j full steps after output i *)
  Section Along.
    Variable P : nat -> nat -> solution R -> Prop.
    Hypothesis P0 : P 0 0 sol0.
    Hypothesis Pfull : forall k tout touts s sc evs s' sc' j, visits k tout touts s sc evs -> step tout s sc = Ok (s', sc', (full, false, false)) -> P (k - 1) j s -> P (k - 1) (S j) s'.
    Hypothesis Plast : forall k tout touts s sc evs s' sc' dn, visits k tout touts s sc evs -> step tout s sc = Ok (s', sc', (last_step sol0 cfl tf nout m, true, dn)) -> P (k - 1) m s -> P k 0 s'.
    Lemma along k tout touts s sc evs : visits k tout touts s sc evs ->
      (exists j, (j <= m)%nat /\ s_t s = out (k - 1) + INR j * full /\ P (k - 1) j s) /\ forall i ev, nth_error evs i = Some ev -> P i 0 (ev_sol ev).
    Proof.
      induction 1 as [ev0 tout touts Hp Hs | k tout touts s sc evs s' sc' dt Hv IH Hs | k tout tout' touts s sc evs s' sc' dt ev0 Hv IH Hs Hp].
      - split.
        + exists 0%nat. split; [lia|]. split; [unfold out_time; cbn; lra|exact P0].
        + intros i ev Hi. apply printer_Ok in Hp. subst ev0. destruct i as [|[|i]]; try discriminate. injection Hi as <-. exact P0.
      - destruct IH as [[j [Hj [Ej Hp]]] IE]. split; [|exact IE].
        destruct (step_kind gamma ne sol0 d lm rk cfl tf nout m W D Ha Hn Htf Hm Fit _ _ _ _ _ _ _ _ _ _ _ j Hv Hs Hj Ej) as [Et [[Lt [-> _]]|[_ [_ [F _]]]]]; [|discriminate].
        exists (S j). split; [lia|]. split; [rewrite Et, Ej, S_INR; lra|]. exact (Pfull _ _ _ _ _ _ _ _ _ Hv Hs Hp).
      - destruct IH as [[j [Hj [Ej HP]]] IE].
        destruct (step_kind gamma ne sol0 d lm rk cfl tf nout m W D Ha Hn Htf Hm Fit _ _ _ _ _ _ _ _ _ _ _ j Hv Hs Hj Ej) as [Et [[_ [_ [F _]]]|[-> [-> _]]]]; [discriminate|].
        pose proof (visits_inv gamma rk d lm cfl tf nout sol0 Hn Htf _ _ _ _ _ _ Hv) as [Ik _ _ _ _ Il _]. pose proof (Plast _ _ _ _ _ _ _ _ _ Hv Hs HP) as Q. split.
        + exists 0%nat. split; [lia|]. rewrite Nat.add_sub. split; [|exact Q]. destruct k as [|k]; [lia|]. replace (S k - 1)%nat with k in Ej by lia.
          rewrite Et, Ej, out_time_S. change ((tf - s_t sol0) / INR (Z.to_nat nout - 1)) with gap. pose proof (last_fits sol0 cfl tf nout m). cbn [INR]. lra.
        + intros i ev Hi. destruct (lt_dec i k) as [Lt|Ge]; [rewrite nth_error_app1 in Hi by lia; exact (IE i ev Hi)|].
          rewrite nth_error_app2 in Hi by lia. rewrite Il in Hi. destruct (i - k)%nat as [|q] eqn:Eq; [|destruct q; discriminate]. injection Hi as <-.
          apply printer_Ok in Hp. subst ev0. cbn [ev_sol]. replace i with k by lia. exact Q.
    Qed.
    Lemma along_run fuel evs s' : integrate gamma rk d lm cfl tf nout fuel sol0 = (evs, Finished s') ->
      List.length evs = Z.to_nat nout /\ (forall i ev, nth_error evs i = Some ev -> P i 0 (ev_sol ev)) /\ P (Z.to_nat nout - 1) 0 s'.
    Proof.
      intro I. destruct (finished_events gamma rk d lm cfl tf nout sol0 Hn Htf fuel evs s' I) as [k [tout [touts [sr [scr [evsr [sc' [dt [Vr [Tr ->]]]]]]]]]].
      destruct (along _ _ _ _ _ _ Vr) as [[j [Hj [Ej HP]]] IE].
      destruct (step_kind gamma ne sol0 d lm rk cfl tf nout m W D Ha Hn Htf Hm Fit _ _ _ _ _ _ _ _ _ _ _ j Vr Tr Hj Ej) as [Et [[_ [_ [F _]]]|[-> [-> [_ [Dk _]]]]]]; [discriminate|].
      specialize (Dk eq_refl). pose proof (visits_inv gamma rk d lm cfl tf nout sol0 Hn Htf _ _ _ _ _ _ Vr) as [Ik _ _ _ _ Il _].
      pose proof (Plast _ _ _ _ _ _ _ _ _ Vr Tr HP) as Q. split; [rewrite app_length; cbn; lia|]. split; [|rewrite <- Dk; exact Q].
      intros i ev Hi. destruct (lt_dec i k) as [Lt|Ge]; [rewrite nth_error_app1 in Hi by lia; exact (IE i ev Hi)|].
      rewrite nth_error_app2 in Hi by lia. rewrite Il in Hi. destruct (i - k)%nat as [|q] eqn:Eq; [|destruct q; discriminate]. injection Hi as <-.
      cbn [ev_sol]. replace i with k by lia. exact Q.
    Qed.
  End Along.
  Lemma step_number tout s sc s' sc' r : step tout s sc = Ok (s', sc', r) -> s_n s' = S (s_n s).
  Proof. destruct r as [[dt o] dn]. intro T. apply time_step_clock in T; [|intros *; apply frame_inner]. destruct T as [_ [_ [E _]]]. lia. Qed.
  Theorem run_steps fuel evs s' : integrate gamma rk d lm cfl tf nout fuel sol0 = (evs, Finished s') ->
    List.length evs = Z.to_nat nout /\ (forall i ev, nth_error evs i = Some ev -> s_n (ev_sol ev) = (s_n sol0 + i * S m)%nat) /\
    s_n s' = (s_n sol0 + (Z.to_nat nout - 1) * S m)%nat.
  Proof.
    intro I. destruct (along_run (fun i j s => s_n s = (s_n sol0 + i * S m + j)%nat)) with (4 := I) as [H1 [H2 H3]].
    - lia.
    - intros k tout touts s sc evs0 s1 sc' j _ T E. rewrite (step_number _ _ _ _ _ _ T), E. lia.
    - intros k tout touts s sc evs0 s1 sc' dn V T E. pose proof (visits_inv gamma rk d lm cfl tf nout sol0 Hn Htf _ _ _ _ _ _ V) as [Ik _ _ _ _ _ _].
      rewrite (step_number _ _ _ _ _ _ T), E. destruct k as [|k]; [lia|]. replace (S k - 1)%nat with k by lia. lia.
    - split; [exact H1|]. split; [intros i ev Hi; rewrite (H2 i ev Hi); lia|rewrite H3; lia].
  Qed.
End Runs.

(** ** one real mode through a run *)
Section Mode.
  Context {X : Ext R}.
  Hypothesis G : gauss_ok.
  Variables (gamma : R) (ne : nat) (sol0 : solution R) (d : dg) (rk : string) (cfl tf : R) (nout : Z) (m : nat).
  Hypothesis M : made ne sol0.
  Hypothesis D : wf_dg ne sol0 d.
  Hypothesis Ha : s_euler sol0 = false.
  Hypothesis He : s_enh sol0 = None.
  Hypothesis Hl : is_literal (s_bcl sol0) "periodic" = true.
  Hypothesis Hn : (2 <= nout)%Z.
  Hypothesis Htf : s_t sol0 <= tf.
  Hypothesis Fit : fits sol0 cfl tf nout m.
  Variables (v : nat -> nat -> R) (lam : R).
  Hypothesis Hv : forall n e, (n < s_Ns sol0)%nat -> (1 <= e <= ne)%nat -> dop (s_Ns sol0) ne (s_dx sol0) v n e = lam * v n e.
  Notation full := (full_step sol0 cfl).
  Notation short := (last_step sol0 cfl tf nout m).
  Let Hne : (1 <= ne)%nat := wf_ne _ _ (md_wf _ _ M).
  Lemma mode_entry s e n : wf ne s -> similar sol0 s -> (1 <= e <= ne)%nat -> (n < s_Ns sol0)%nat -> at1 (modes s e 0) n = at2 (s_u s) n e.
  Proof.
    intros Ws Ss H1 H2. pose proof (adv_NF sol0 Ha) as NF. rewrite (modes_at ne s); rewrite ?(similar_NF _ _ Ss), ?(similar_Ns _ _ Ss), ?NF; try assumption; try lia. f_equal. lia.
  Qed.
  Lemma dop_pow a k : eqi (s_Ns sol0) ne (power (dop (s_Ns sol0) ne (s_dx sol0)) k (fun n e => a * v n e)) (fun n e => lam ^ k * (a * v n e)).
  Proof.
    induction k as [|k IH]; intros n e H1 H2; cbn [power pow]; [ring|].
    rewrite (dop_ext _ _ (s_dx sol0) Hne _ _ IH n e H1 H2).
    assert (E : forall c, dop (s_Ns sol0) ne (s_dx sol0) (fun n e => c * v n e) n e = c * dop (s_Ns sol0) ne (s_dx sol0) v n e).
    { intro c. unfold dop, at_right. rewrite !(Rsum_scale (s_Ns sol0) c).
      rewrite (Rsum_ext _ (fun m0 => vmat n m0 * (c * v m0 e)) (fun m0 => c * (vmat n m0 * v m0 e))) by (intros; ring). rewrite Rsum_scale. ring. }
    transitivity (dop (s_Ns sol0) ne (s_dx sol0) (fun n e => (lam ^ k * a) * v n e) n e).
    { apply dop_ext; [exact Hne|intros ? ? _ _; ring|exact H1|exact H2]. }
    rewrite E, Hv by assumption. ring.
  Qed.
  Lemma step_mode k tout touts s sc evs s' sc' dt o dn a : visits gamma rk d None cfl tf nout sol0 k tout touts s sc evs ->
    time_step gamma (rk_inner gamma rk d None) None cfl tf tout s sc = Ok (s', sc', (dt, o, dn)) ->
    holds_mode ne s a v -> holds_mode ne s' (gain rk (lam * dt) * a) v.
  Proof.
    intros V T H e n Hee Hns.
    destruct (Wf_visits gamma ne sol0 d None (md_wf _ _ M) D _ _ _ _ _ _ _ _ _ _ V) as [[Ws Ss] [Wss [Ks _]]].
    destruct (Wf_time_step gamma ne sol0 d None D _ _ _ _ _ _ _ _ _ (conj Ws Ss) Wss Ks T) as [[Ws' Ss'] _].
    rewrite (similar_Ns _ _ Ss') in Hns. rewrite mode_entry by assumption.
    pose proof (adv_step gamma ne sol0 d rk cfl tf nout _ _ _ _ _ _ _ _ _ _ _ (md_wf _ _ M) D Ha V T e 0%nat n ltac:(lia) ltac:(rewrite (adv_NF sol0 Ha); lia) Hns) as A.
    rewrite (src_in_id ne sol0 M e Hee), (adv_NF sol0 Ha), Nat.mul_1_r, Nat.add_0_r in A. rewrite A. unfold gain. rewrite Rmult_assoc, <- Rsum_scale_r.
    apply Rsum_ext. intros i _.
    assert (E : eqi (s_Ns sol0) ne (at2 (s_u s)) (fun n e => a * v n e)).
    { intros n' e' H1 H2. rewrite <- (mode_entry s e' n') by assumption. apply H; [exact H2|]. rewrite (similar_Ns _ _ Ss). exact H1. }
    rewrite (adv_power G ne sol0 M Ha He Hl i _ n e Hns Hee).
    assert (Ep : eqi (s_Ns sol0) ne (power (dop (s_Ns sol0) ne (s_dx sol0)) i (at2 (s_u s))) (power (dop (s_Ns sol0) ne (s_dx sol0)) i (fun n e => a * v n e))).
    { clear A. induction i as [|i IH]; cbn [power]; [exact E|]. intros n' e' H1 H2. apply dop_ext; assumption. }
    rewrite (Ep n e Hns Hee), (dop_pow a i n e Hns Hee), Rpow_mult_distr. ring.
  Qed.
  Theorem mode_run a fuel evs s' : holds_mode ne sol0 a v -> integrate gamma rk d None cfl tf nout fuel sol0 = (evs, Finished s') ->
    let g := gain rk (lam * full) ^ m * gain rk (lam * short) in
    List.length evs = Z.to_nat nout /\ (forall i ev, nth_error evs i = Some ev -> holds_mode ne (ev_sol ev) (g ^ i * a) v) /\ holds_mode ne s' (g ^ (Z.to_nat nout - 1) * a) v.
  Proof.
    intros H0 I g. destruct Fit as [Hm F].
    destruct (along_run gamma ne sol0 d None rk cfl tf nout m (md_wf _ _ M) D Ha Hn Htf Hm F (fun i j s => holds_mode ne s (gain rk (lam * full) ^ j * (g ^ i * a)) v)) with (4 := I) as [H1 [H2 H3]].
    - intros e n H1 H2. rewrite (H0 e n H1 H2). cbn [pow]. ring.
    - intros k tout touts s sc evs0 s1 sc' j V T P. apply (step_mode _ _ _ _ _ _ _ _ _ _ _ _ V T) in P. cbn [pow]. rewrite Rmult_assoc. exact P.
    - intros k tout touts s sc evs0 s1 sc' dn V T P. apply (step_mode _ _ _ _ _ _ _ _ _ _ _ _ V T) in P.
      pose proof (visits_inv gamma rk d None cfl tf nout sol0 Hn Htf _ _ _ _ _ _ V) as [Ik _ _ _ _ _ _]. destruct k as [|k]; [lia|]. replace (S k - 1)%nat with k in P by lia.
      cbn [pow]. intros e n E1 E2. rewrite (P e n E1 E2). unfold g. ring.
    - split; [exact H1|]. split; [intros i ev Hi e n E1 E2; rewrite (H2 i ev Hi e n E1 E2)|intros e n E1 E2; rewrite (H3 e n E1 E2)]; cbn [pow]; ring.
  Qed.
End Mode.

(** ** the teeth *)
Lemma teeth_mode p ne h v : h <> 0 -> (p <= 1)%nat -> (p = 0%nat -> Nat.even ne = true) -> (1 <= ne)%nat -> v = teeth p ->
  forall n e, (n < p + 1)%nat -> (1 <= e <= ne)%nat -> dop (p + 1) ne h v n e = - 2 * INR (2 * p + 1) / h * v n e.
Proof.
  intros Hh Hp Hev Hne -> n e H1 H2. unfold dop, at_right. destruct p as [|[|p]]; [| |lia].
  - assert (n = 0%nat) by lia. subst n. specialize (Hev eq_refl). cbn [Nat.add Rsum INR Nat.mul]. unfold teeth, vmat, sgn. cbn [Nat.ltb Nat.leb Nat.even].
    assert (E : (if Nat.even (prev ne e) then 1 else -1) = - (if Nat.even e then 1 else -1)).
    { unfold prev. destruct (Nat.eqb_spec e 1) as [->|]; [rewrite Hev; cbn; lra|]. destruct e as [|e]; [lia|]. replace (S e - 1)%nat with e by lia. rewrite Nat.even_succ, <- Nat.negb_even. destruct (Nat.even e); cbn; lra. }
    rewrite E. cbn. field. exact Hh.
  - cbn [Nat.add Rsum Nat.mul]. unfold teeth, vmat, sgn. destruct n as [|[|n]]; [| |lia]; cbn [Nat.ltb Nat.leb Nat.even INR]; cbn; field; exact Hh.
Qed.
