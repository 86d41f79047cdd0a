(** Where the amplification polynomials stay between -1 and 1 on the negative real axis; growth and boundedness of the teeth. *)
From Coq Require Import ZArith List Bool Arith String Lia Reals Lra Psatz.
From Verif Require Import Num Py Lib RealLib LegNumpy Ext Basis Enhance Solution Solver RKCoeffs RK SpecDG SpecTime SpecPoly SpecRK SpecUniform SpecCfl
  ProofsDG ProofsWf ProofsTime ProofsTime2 ProofsRun ProofsRKTables ProofsL2 ProofsL2Run ProofsRKPlot ProofsCfl.
Import ListNotations.
Open Scope R_scope.

Lemma nn_pow x i : 0 <= x -> 0 <= x ^ i. Proof. apply pow_le. Qed.
Lemma gain_of rk tb g n x : rk_choice rk = tb -> S (stages tb) = n -> (forall k, (k < n)%nat -> growth tb k = g k) -> gain rk x = Rsum n (fun k => g k * x ^ k).
Proof. intros E1 E2 H. unfold gain. rewrite E1, E2. apply Rsum_ext. intros k Hk. rewrite H by exact Hk. reflexivity. Qed.
Ltac terms x w n := 
  let rec go i := match i with O => pose proof (Rmult_le_pos _ _ (nn_pow x 0 ltac:(lra)) (nn_pow w n ltac:(lra)))
    | S ?j => (let k := eval vm_compute in (n - i)%nat in pose proof (Rmult_le_pos _ _ (nn_pow x i ltac:(lra)) (nn_pow w k ltac:(lra)))); go j end in go n.
Ltac inside x b n := terms x (b - x) n; cbn [pow] in *; lra.
Ltac powers t n := let rec go i := match i with O => idtac | S ?j => pose proof (nn_pow t i ltac:(lra)); go j end in go n.

Definition poly3 x := 1 + x + x * x / 2 + x * x * x / 6.
Definition poly4 x := poly3 x + x * x * x * x / 24.
Definition poly5 x := poly4 x + x * x * x * x * x / 120 + x * x * x * x * x * x / 800.
Definition poly6 x := poly4 x + x * x * x * x * x / 120 + x * x * x * x * x * x / 720 - x * x * x * x * x * x * x / 2520.
Lemma gains x : gain "rk3" x = poly3 x /\ gain "rk4" x = poly4 x /\ gain "low_storage_rk4" x = poly4 x /\ gain "rk5" x = poly5 x /\ gain "rk6" x = poly6 x.
Proof.
  repeat split.
  - rewrite (gain_of "rk3" rk3_table rk3_g 4 x eq_refl eq_refl rk3_growths). cbn [Rsum]. unfold poly3, rk3_g. cbn [nth pow]. field.
  - rewrite (gain_of "rk4" rk4_table rk4_g 5 x eq_refl eq_refl rk4_growths). cbn [Rsum]. unfold poly4, poly3, rk4_g. cbn [nth pow]. field.
  - rewrite (gain_of "low_storage_rk4" rk4_table rk4_g 5 x eq_refl eq_refl rk4_growths). cbn [Rsum]. unfold poly4, poly3, rk4_g. cbn [nth pow]. field.
  - rewrite (gain_of "rk5" rk5_table rk5_g 7 x eq_refl eq_refl rk5_growths). cbn [Rsum]. unfold poly5, poly4, poly3, rk5_g. cbn [nth pow]. field.
  - rewrite (gain_of "rk6" rk6_table rk6_g 8 x eq_refl eq_refl rk6_growths). cbn [Rsum]. unfold poly6, poly4, poly3, rk6_g. cbn [nth pow]. field.
Qed.
Lemma poly3_in x : 0 <= x <= 12563 / 5000 -> -1 <= poly3 (- x) <= 1.
Proof. intro H. unfold poly3. split; inside x (12563 / 5000) 3%nat. Qed.
Lemma poly4_in x : 0 <= x <= 13926 / 5000 -> -1 <= poly4 (- x) <= 1.
Proof. intro H. unfold poly4, poly3. split; inside x (13926 / 5000) 4%nat. Qed.
Lemma poly5_in x : 0 <= x <= 18671 / 5000 -> -1 <= poly5 (- x) <= 1.
Proof. intro H. unfold poly5, poly4, poly3. split; inside x (18671 / 5000) 6%nat. Qed.
Lemma poly6_in x : 0 <= x <= 14526 / 5000 -> -1 <= poly6 (- x) <= 1.
Proof. intro H. unfold poly6, poly4, poly3. split; inside x (14526 / 5000) 7%nat. Qed.
Ltac beyond x b n := set (t := x - b); assert (0 <= t) by (unfold t; lra); powers t n; replace x with (b + t) by (unfold t; lra); clearbody t; cbn [pow] in *; lra.
Lemma poly3_out x : 12564 / 5000 <= x -> poly3 (- x) < -1.
Proof. intro H. unfold poly3. beyond x (12564 / 5000) 3%nat. Qed.
Lemma poly4_out x : 13927 / 5000 <= x -> 1 < poly4 (- x).
Proof. intro H. unfold poly4, poly3. beyond x (13927 / 5000) 4%nat. Qed.
Lemma poly5_out x : 18672 / 5000 <= x -> 1 < poly5 (- x).
Proof. intro H. unfold poly5, poly4, poly3. beyond x (18672 / 5000) 6%nat. Qed.
Lemma poly6_out x : 14527 / 5000 <= x -> 1 < poly6 (- x).
Proof. intro H. unfold poly6, poly4, poly3. beyond x (14527 / 5000) 7%nat. Qed.

Lemma gain_in rk lo hi x : In (rk, (lo, hi)) limits -> 0 <= x <= 2 * lo -> Rabs (gain rk (- x)) <= 1.
Proof.
  intros I H. destruct (gains (- x)) as [E3 [E4 [El [E5 E6]]]]. unfold limits in I. cbn [In] in I.
  destruct I as [I|[I|[I|[I|[I|[]]]]]]; injection I as <- <- <-; rewrite ?E3, ?E4, ?El, ?E5, ?E6; apply Rabs_le.
  - apply poly3_in. lra. - apply poly4_in. lra. - apply poly4_in. lra. - apply poly5_in. lra. - apply poly6_in. lra.
Qed.
Lemma gain_out rk lo hi x : In (rk, (lo, hi)) limits -> 2 * hi <= x -> 1 < Rabs (gain rk (- x)).
Proof.
  intros I H. destruct (gains (- x)) as [E3 [E4 [El [E5 E6]]]]. unfold limits in I. cbn [In] in I.
  destruct I as [I|[I|[I|[I|[I|[]]]]]]; injection I as <- <- <-; rewrite ?E3, ?E4, ?El, ?E5, ?E6.
  - rewrite Rabs_left; [pose proof (poly3_out x ltac:(lra)); lra|pose proof (poly3_out x ltac:(lra)); lra].
  - eapply Rlt_le_trans; [apply (poly4_out x); lra|apply Rle_abs].
  - eapply Rlt_le_trans; [apply (poly4_out x); lra|apply Rle_abs].
  - eapply Rlt_le_trans; [apply (poly5_out x); lra|apply Rle_abs].
  - eapply Rlt_le_trans; [apply (poly6_out x); lra|apply Rle_abs].
Qed.
Lemma gain_0 rk : gain rk 0 = 1.
Proof.
  unfold gain. rewrite Rsum_S_l. rewrite Rsum_0 by (intros; cbn [pow]; ring). cbn [pow growth]. ring.
Qed.

Section Teeth.
  Context {X : Ext R}.
  Hypothesis G : gauss_ok.
  Variables (gamma : R) (ne : nat) (sol0 : solution R) (d : dg) (rk : string) (cfl a : R).
  Hypothesis M : made ne sol0.
  Hypothesis D : wf_dg ne sol0 d.
  Hypothesis Ha : s_euler sol0 = false.
  Hypothesis He : s_enh sol0 = None.
  Hypothesis Hl : is_literal (s_bcl sol0) "periodic" = true.
  Notation p := (b_p (s_basis sol0)).
  Hypothesis Hp : (p <= 1)%nat.
  Hypothesis Hev : p = 0%nat -> Nat.even ne = true.
  Hypothesis H0 : holds_mode ne sol0 a (teeth p).
  Notation full := (full_step sol0 cfl).
  Let q_pos : 0 < INR (2 * p + 1). Proof. apply lt_0_INR. lia. Qed.
  Lemma teeth_run tf nout m fuel evs s' : (2 <= nout)%Z -> s_t sol0 <= tf -> fits sol0 cfl tf nout m -> integrate gamma rk d None cfl tf nout fuel sol0 = (evs, Finished s') ->
    let g := gain rk (- (2 * cfl)) ^ m * gain rk (- (2 * cfl * (last_step sol0 cfl tf nout m / full))) in
    List.length evs = Z.to_nat nout /\ (forall i ev, nth_error evs i = Some ev -> holds_mode ne (ev_sol ev) (g ^ i * a) (teeth p)) /\
    holds_mode ne s' (g ^ (Z.to_nat nout - 1) * a) (teeth p).
  Proof.
    intros Hn Ht F I g. pose proof (md_dx _ _ M) as Hh. pose proof (wf_ne _ _ (md_wf _ _ M)) as Hne.
    pose proof (full_pos sol0 cfl tf nout m (proj2 F)) as Fp.
    pose proof (mode_run G gamma ne sol0 d rk cfl tf nout m M D Ha He Hl Hn Ht F (teeth p) (- 2 * INR (2 * p + 1) / s_dx sol0)
      (fun n e H1 H2 => teeth_mode p ne (s_dx sol0) (teeth p) ltac:(lra) Hp Hev Hne eq_refl n e H1 H2) a fuel evs s' H0 I) as R. cbv zeta in R.
    assert (E1 : - 2 * INR (2 * p + 1) / s_dx sol0 * full = - (2 * cfl)) by (unfold full_step; field; lra).
    assert (E2 : - 2 * INR (2 * p + 1) / s_dx sol0 * last_step sol0 cfl tf nout m = - (2 * cfl * (last_step sol0 cfl tf nout m / full))).
    { set (r := last_step sol0 cfl tf nout m). transitivity (- 2 * INR (2 * p + 1) / s_dx sol0 * full * (r / full)); [field; lra|]. rewrite E1. ring. }
    rewrite E1, E2 in R. exact R.
  Qed.
  Lemma teeth_bounded lo hi tf nout m fuel evs s' : In (rk, (lo, hi)) limits -> 0 <= cfl <= lo -> (2 <= nout)%Z -> s_t sol0 <= tf -> fits sol0 cfl tf nout m ->
    integrate gamma rk d None cfl tf nout fuel sol0 = (evs, Finished s') ->
    (forall ev, In ev evs -> exists b, Rabs b <= Rabs a /\ holds_mode ne (ev_sol ev) b (teeth p)) /\ exists b, Rabs b <= Rabs a /\ holds_mode ne s' b (teeth p).
  Proof.
    intros Il Hc Hn Ht F I. destruct (teeth_run tf nout m fuel evs s' Hn Ht F I) as [_ [H1 H2]].
    pose proof (full_pos sol0 cfl tf nout m (proj2 F)) as Fp.
    set (g := gain rk (- (2 * cfl)) ^ m * gain rk (- (2 * cfl * (last_step sol0 cfl tf nout m / full)))) in *.
    assert (B : Rabs g <= 1).
    { unfold g. rewrite Rabs_mult, <- RPow_abs. pose proof (gain_in rk lo hi (2 * cfl) Il ltac:(lra)) as B1.
      assert (Q : 0 <= last_step sol0 cfl tf nout m / full <= 1).
      { destruct F as [_ F]. rewrite S_INR in F. unfold last_step. split; [apply Rmult_le_pos; [lra|apply Rlt_le, Rinv_0_lt_compat; exact Fp]|].
        apply Rmult_le_reg_r with (1 := Fp). unfold Rdiv. rewrite Rmult_assoc, Rinv_l by lra. lra. }
      pose proof (gain_in rk lo hi (2 * cfl * (last_step sol0 cfl tf nout m / full)) Il ltac:(nra)) as B2.
      pose proof (pow_incr (Rabs (gain rk (- (2 * cfl)))) 1 m (conj (Rabs_pos _) B1)) as P. rewrite pow1 in P. pose proof (pow_le _ m (Rabs_pos (gain rk (- (2 * cfl))))) as P0.
      pose proof (Rabs_pos (gain rk (- (2 * cfl * (last_step sol0 cfl tf nout m / full))))). nra. }
    assert (C : forall i, Rabs (g ^ i * a) <= Rabs a).
    { intro i. rewrite Rabs_mult, <- RPow_abs. pose proof (pow_incr (Rabs g) 1 i (conj (Rabs_pos _) B)) as P. rewrite pow1 in P. pose proof (Rabs_pos a). nra. }
    split.
    - intros ev Hev'. apply In_nth_error in Hev'. destruct Hev' as [i Hi]. exists (g ^ i * a). split; [apply C|apply (H1 i ev Hi)].
    - exists (g ^ (Z.to_nat nout - 1) * a). split; [apply C|exact H2].
  Qed.
  Lemma teeth_grow lo hi B : In (rk, (lo, hi)) limits -> hi <= cfl -> 1 / 100000000000000 <= full -> a <> 0 ->
    exists tf F evs s' b, s_t sol0 < tf /\ integrate gamma rk d None cfl tf 2 F sol0 = (evs, Finished s') /\ B < Rabs b /\ holds_mode ne s' b (teeth p).
  Proof.
    intros Il Hc Hf Han. pose proof (gain_out rk lo hi (2 * cfl) Il ltac:(lra)) as Gr.
    destruct (Pow_x_infinity (gain rk (- (2 * cfl))) Gr ((Rabs B + 1) / Rabs a)) as [k Hk].
    set (m := S k). set (tf := s_t sol0 + INR m * full). assert (Fp : 0 < full) by lra. assert (Mp : 1 <= INR m) by (change 1 with (INR 1); apply le_INR; unfold m; lia).
    assert (T : s_t sol0 < tf) by (unfold tf; nra).
    assert (E : interval sol0 tf 2 = INR m * full) by (unfold interval, tf; change (Z.to_nat 2 - 1)%nat with 1%nat; cbn [INR]; field).
    assert (Fi : fits sol0 cfl tf 2 m) by (split; [unfold m; lia|]; rewrite E, S_INR; lra).
    destruct (advection_completes gamma ne sol0 d rk cfl tf 2 (md_wf _ _ M) D Ha ltac:(lia) ltac:(lra) Hf) as [F [evs [s' [_ I]]]].
    specialize (I F (le_n F)). destruct (teeth_run tf 2 m F evs s' ltac:(lia) ltac:(lra) Fi I) as [_ [_ H2]].
    assert (Ls : last_step sol0 cfl tf 2 m = 0) by (unfold last_step; rewrite E; ring).
    rewrite Ls in H2. change (Z.to_nat 2 - 1)%nat with 1%nat in H2. replace (- (2 * cfl * (0 / full))) with 0 in H2 by (unfold Rdiv; ring). rewrite gain_0, Rmult_1_r, pow_1 in H2.
    exists tf, F, evs, s', (gain rk (- (2 * cfl)) ^ m * a). repeat split; [exact T|exact I| |exact H2].
    specialize (Hk m ltac:(unfold m; lia)). rewrite Rabs_mult. pose proof (Rabs_pos_lt a Han) as Pa. apply Rge_le in Hk.
    apply Rmult_le_compat_r with (r := Rabs a) in Hk; [|lra]. unfold Rdiv in Hk. rewrite Rmult_assoc, Rinv_l, Rmult_1_r in Hk by lra. pose proof (Rle_abs B). lra.
  Qed.
End Teeth.
