(** Runs of the enhanced scheme of order 3 with all modes: the growing Fourier mode grows in every run. *)
From Coq Require Import ZArith List Bool Arith String Lia Reals Lra Ring.
From Verif Require Import Num Py Lib RealLib LegNumpy Ext Basis Enhance Solution Solver RKCoeffs RK SpecDG SpecTime SpecPoly SpecRK SpecEnh SpecUniform Analysis SpecAnalysis SpecCfl SpecRKPlot SpecGrow
  ProofsDG ProofsCons ProofsWf ProofsSol ProofsAdv ProofsEnh ProofsEnh2 ProofsTime ProofsTime2 ProofsRun ProofsIO ProofsRK ProofsRKOrder ProofsRKTables ProofsDet ProofsAnalysis ProofsAnalysis2 ProofsAnalysis3 ProofsAnalysis4 ProofsAnalysis5
  ProofsRKPlot ProofsEig ProofsGrow.
Import ListNotations.
Open Scope R_scope.

(** ** one step *)
Lemma csq_mul a b : csq (nmul a b) = csq a * csq b.
Proof. destruct a, b. unfold csq. cbn. unfold n0. cbn. ring. Qed.
Lemma csum_plus n g h z : csum n (fun k => g k + h k) z = nadd (csum n g z) (csum n h z).
Proof. unfold csum, Csum. induction n as [|n IH]; cbn [ksum]; [apply C_eq; cbn; unfold n0; cbn; ring|]. rewrite IH. apply C_eq; cbn; unfold n0; cbn; ring. Qed.
Lemma csum_rk4 m z : csum (5 + m) rk4_g z = csum 5 rk4_g z.
Proof.
  induction m as [|m IH]; [reflexivity|]. rewrite Nat.add_succ_r. unfold csum, Csum in *. cbn [ksum]. rewrite IH.
  replace (rk4_g (5 + m)) with 0 by (unfold rk4_g; rewrite nth_overflow; [reflexivity|cbn; lia]). apply C_eq; cbn; unfold n0; cbn; ring.
Qed.
Lemma geometric r m : 0 <= r <= 2 / 3 -> Rsum m (fun k => r ^ k) <= 3.
Proof.
  intro Hr. assert (E : Rsum m (fun k => r ^ k) * (1 - r) = 1 - r ^ m).
  { induction m as [|m IH]; [cbn; ring|]. cbn [Rsum]. rewrite Rmult_plus_distr_r, IH. cbn [pow]. ring. }
  pose proof (pow_le r m ltac:(lra)) as Hp. nra.
Qed.
Section Disc.
  Variables h x y : R.
  Hypothesis Hh : 0 <= h <= 2 / 7.
  Hypothesis Hx : 0.096 <= x <= 0.102.
  Hypothesis Hy : 2.3075 <= y <= 2.3077.
  Let a := h * x.
  Let s := h * h * (y * y).
  Local Lemma a_lo : 0.096 * h <= a <= 0.03. Proof. unfold a. nra. Qed.
  Local Lemma yy : 5.32 <= y * y <= 5.3256. Proof. nra. Qed.
  Local Lemma hh : 0 <= h * h <= 4 / 49 /\ h * h <= 2 / 7 * h. Proof. nra. Qed.
  Local Lemma s_hi : 0 <= s <= 0.4348. Proof. unfold s. pose proof yy. pose proof hh. nra. Qed.
  Local Lemma s_h : s <= 1.5217 * h. Proof. unfold s. pose proof yy. pose proof hh. nra. Qed.
  Lemma rk4_grows : 1 + 0.185 * h <= csq (csum 5 rk4_g (h * x, h * y)).
  Proof.
    pose proof a_lo as Ha. pose proof s_hi as Hs. pose proof s_h as Hsh.
    set (Re := (1 - s / 2 + s * s / 24) + a * (1 - s / 2) + a * a * (1 / 2 - s / 4) + a * a * a / 6 + a * a * a * a / 24).
    set (Im := (1 - s / 6) + a * (1 - s / 6) + a * a / 2 + a * a * a / 6).
    assert (E : csq (csum 5 rk4_g (h * x, h * y)) = Re * Re + s * (Im * Im)).
    { unfold csq, csum, Csum, Re, Im, a, s. cbn [ksum rk4_g nth Cpow]. cbn. unfold n0. cbn. field. }
    assert (A0 : 0 <= a) by lra. assert (A2 : 0 <= a * a) by nra. assert (A3 : 0 <= a * a * a) by nra. assert (A4 : 0 <= a * a * a * a) by nra.
    assert (S2 : 0 <= s * s <= 0.4348 * s) by nra. assert (S3 : 0 <= s * s * s <= 0.4348 * (s * s)) by nra.
    set (Cc := 1 - s / 2 + s * s / 24). set (D := 1 - s / 2). set (F := 1 - s / 6).
    assert (HC : 0 <= Cc) by (unfold Cc; lra). assert (HD : 0 <= D) by (unfold D; lra). assert (HF : 0 <= F) by (unfold F; lra).
    assert (AD : 0 <= a * D) by (apply Rmult_le_pos; assumption).
    assert (R1 : Cc + a * D <= Re). { unfold Re, Cc, D. assert (0 <= a * a * (1 / 2 - s / 4)) by (apply Rmult_le_pos; lra). lra. }
    assert (I1 : F * (1 + a) <= Im) by (unfold Im, F; nra).
    assert (R2 : (Cc + a * D) * (Cc + a * D) <= Re * Re) by (apply Rmult_le_compat; lra).
    assert (FA : 0 <= F * (1 + a)) by (apply Rmult_le_pos; lra).
    assert (I2 : (F * (1 + a)) * (F * (1 + a)) <= Im * Im) by (apply Rmult_le_compat; lra).
    assert (I3 : s * ((F * (1 + a)) * (F * (1 + a))) <= s * (Im * Im)) by (apply Rmult_le_compat_l; lra).
    assert (X1 : Cc * Cc + s * (F * F) = 1 - s * s * s / 72 + s * s * s * s / 576) by (unfold Cc, F; field).
    assert (X2 : Cc * D + s * (F * F) = 1 - s * s / 24 + s * s * s / 144) by (unfold Cc, D, F; field).
    assert (X3 : (Cc + a * D) * (Cc + a * D) + s * ((F * (1 + a)) * (F * (1 + a))) = (Cc * Cc + s * (F * F)) + 2 * a * (Cc * D + s * (F * F)) + a * a * (D * D + s * (F * F))) by ring.
    assert (X4 : 0 <= a * a * (D * D + s * (F * F))) by (apply Rmult_le_pos; [exact A2|nra]).
    rewrite X1, X2 in X3. rewrite E.
    assert (S4 : 0 <= s * s * s * s) by nra.
    assert (X5 : 2 * a * (1 - 0.008) <= 2 * a * (1 - s * s / 24 + s * s * s / 144)) by (apply Rmult_le_compat_l; lra).
    lra.
  Qed.
  Lemma rk3_grows : 1 + 0.136 * h <= csq (csum 4 rk3_g (h * x, h * y)).
  Proof.
    pose proof a_lo as Ha. pose proof s_hi as Hs. pose proof s_h as Hsh. pose proof hh as Hhh. pose proof yy as Hyy.
    set (Re := (1 - s / 2) * (1 + a) + a * a / 2 + a * a * a / 6). set (Im := (1 - s / 6) + a + a * a / 2).
    assert (E : csq (csum 4 rk3_g (h * x, h * y)) = Re * Re + s * (Im * Im)).
    { unfold csq, csum, Csum, Re, Im, a, s. cbn [ksum rk3_g nth Cpow]. cbn. unfold n0. cbn. field. }
    assert (A0 : 0 <= a) by lra. assert (A2 : 0 <= a * a) by nra. assert (A3 : 0 <= a * a * a) by nra.
    assert (S2 : 0 <= s * s) by nra. assert (S3 : 0 <= s * s * s) by nra.
    assert (R0 : 0 <= (1 - s / 2) * (1 + a)) by (apply Rmult_le_pos; lra).
    assert (R2 : ((1 - s / 2) * (1 + a)) * ((1 - s / 2) * (1 + a)) <= Re * Re) by (unfold Re; apply Rmult_le_compat; lra).
    assert (I2 : ((1 - s / 6) + a) * ((1 - s / 6) + a) <= Im * Im) by (unfold Im; apply Rmult_le_compat; lra).
    assert (I3 : s * (((1 - s / 6) + a) * ((1 - s / 6) + a)) <= s * (Im * Im)) by (apply Rmult_le_compat_l; lra).
    assert (X3 : ((1 - s / 2) * (1 + a)) * ((1 - s / 2) * (1 + a)) + s * (((1 - s / 6) + a) * ((1 - s / 6) + a)) =
      1 - s * s / 12 + s * s * s / 36 + 2 * a * (1 + s * s / 12) + a * a * ((1 - s / 2) * (1 - s / 2) + s)) by field.
    assert (X4 : 0 <= a * a * ((1 - s / 2) * (1 - s / 2) + s)) by (apply Rmult_le_pos; [exact A2|nra]).
    assert (X5 : 0 <= 2 * a * (s * s / 12)) by (apply Rmult_le_pos; lra).
    assert (S5 : s * s <= 0.6617 * h).
    { apply Rle_trans with (0.4348 * s); [nra|]. lra. }
    rewrite E. lra.
  Qed.
  (** a method that agrees with the fourth Taylor polynomial and has small further coefficients *)
  Lemma close_grows m g : (4 <= m)%nat -> g 0%nat = 1 -> (forall k, (1 <= k <= 4)%nat -> Rabs (g k - rk4_g k) <= 0.001 * 0.001) -> (forall k, (5 <= k <= m)%nat -> Rabs (g k) <= 0.0094) ->
    1 + 0.136 * h <= csq (csum (S m) g (h * x, h * y)).
  Proof.
    intros Hm G0 Hg Ht. set (z := (h * x, h * y)). set (r := cmod z).
    assert (R0 : 0 <= r) by apply cmod_nonneg.
    assert (R1 : r <= 2.31 * h).
    { unfold r, cmod. rewrite <- (sqrt_square (2.31 * h)) by lra. apply sqrt_le_1_alt. unfold csq, z. cbn [fst snd]. pose proof yy. pose proof hh.
      assert (Hxx : x * x <= 0.0105) by nra. replace (h * x * (h * x) + h * y * (h * y)) with ((h * h) * (x * x + y * y)) by ring. replace (2.31 * h * (2.31 * h)) with ((h * h) * 5.3361) by lra.
      apply Rmult_le_compat_l; lra. }
    assert (R3 : r <= 2 / 3) by lra.
    replace (S m) with (5 + (m - 4))%nat by lia.
    set (e := fun k => g k - rk4_g k).
    assert (E : csum (5 + (m - 4)) g z = nadd (csum 5 rk4_g z) (csum (5 + (m - 4)) e z)).
    { rewrite <- (csum_rk4 (m - 4)), <- csum_plus. apply csum_ext. intros k _. unfold e. ring. }
    assert (B : cmod (csum (5 + (m - 4)) e z) <= 0.0125 * h).
    { eapply Rle_trans; [apply cmod_csum|]. fold r. rewrite Rsum_app.
      assert (E0 : Rabs (e 0%nat) = 0) by (unfold e; rewrite G0; unfold rk4_g; cbn [nth]; rewrite Rminus_diag_eq, Rabs_R0; reflexivity).
      assert (P : forall k, 0 <= r ^ k <= 1). { intro k. split; [apply pow_le; exact R0|]. rewrite <- (pow1 k). apply pow_incr. lra. }
      assert (F1 : Rsum 5 (fun k => Rabs (e k) * r ^ k) <= 0.000004 * r).
      { cbn [Rsum]. rewrite E0.
        assert (Q : forall k, (1 <= k <= 4)%nat -> Rabs (e k) * r ^ k <= 0.001 * 0.001 * r).
        { intros k Hk. apply Rmult_le_compat; [apply Rabs_pos|apply P|apply Hg; exact Hk|]. destruct k as [|k]; [lia|]. cbn [pow]. pose proof (P k). nra. }
        pose proof (Q 1%nat ltac:(lia)). pose proof (Q 2%nat ltac:(lia)). pose proof (Q 3%nat ltac:(lia)). pose proof (Q 4%nat ltac:(lia)). lra. }
      assert (F2 : Rsum (m - 4) (fun k => Rabs (e (5 + k)%nat) * r ^ (5 + k)) <= 0.0094 * r ^ 5 * 3).
      { apply Rle_trans with (Rsum (m - 4) (fun k => 0.0094 * r ^ 5 * r ^ k)).
        - apply Rsum_le. intros k Hk. rewrite pow_add, Rmult_assoc. apply Rmult_le_compat.
          + apply Rabs_pos.
          + apply Rmult_le_pos; apply P.
          + unfold e. replace (rk4_g (5 + k)) with 0 by (unfold rk4_g; rewrite nth_overflow; [reflexivity|cbn; lia]). rewrite Rminus_0_r. apply Ht. lia.
          + lra.
        - rewrite Rsum_scale. apply Rmult_le_compat_l; [|apply geometric; lra]. apply Rmult_le_pos; [lra|apply P]. }
      assert (F3 : r ^ 5 <= 0.44 * h).
      { apply Rle_trans with ((2.31 * h) ^ 5); [apply pow_incr; lra|]. replace ((2.31 * h) ^ 5) with (2.31 ^ 5 * (h * h * (h * h)) * h) by ring. apply Rmult_le_compat_r; [lra|].
        pose proof hh as [[Q0 Q] _]. assert (h * h * (h * h) <= 4 / 49 * (4 / 49)) by (apply Rmult_le_compat; lra). apply Rle_trans with (2.31 ^ 5 * (4 / 49 * (4 / 49))); [apply Rmult_le_compat_l; lra|lra]. }
      lra. }
    assert (L : 1 + 0.09 * h <= cmod (csum 5 rk4_g z)).
    { apply cmod_ge; [lra|]. apply Rle_trans with (1 + 0.185 * h); [|apply rk4_grows]. pose proof hh. nra. }
    assert (T : cmod (csum 5 rk4_g z) <= cmod (csum (5 + (m - 4)) g z) + cmod (csum (5 + (m - 4)) e z)).
    { rewrite E. set (u := csum 5 rk4_g z). set (v := csum (5 + (m - 4)) e z).
      replace (cmod v) with (cmod (nmul (Cr (-1)) v)) by (rewrite cmod_mul, cmod_Cr, (Rabs_left (-1)) by lra; ring).
      eapply Rle_trans; [|apply cmod_triangle]. right. f_equal. destruct u, v. apply C_eq; cbn; unfold n0; cbn; ring. }
    assert (K : 1 + 0.0775 * h <= cmod (csum (5 + (m - 4)) g z)) by lra.
    set (q := csum (5 + (m - 4)) g z) in *. rewrite <- (sqrt_sqrt (csq q)) by apply csq_nonneg. fold (cmod q). nra.
  Qed.
End Disc.
(** every option *)
Lemma tables_close tb : In tb [rk4_table; rk5_table; rk6_table; rk8_table; rk10_table; rk12_table; rk14_table] ->
  (4 <= stages tb)%nat /\ (forall k, (1 <= k <= 4)%nat -> Rabs (growth tb k - rk4_g k) <= 0.001 * 0.001) /\ forall k, (5 <= k <= stages tb)%nat -> Rabs (growth tb k) <= 0.0094.
Proof.
  assert (F4 : forall k, (1 <= k <= 4)%nat -> / INR (fact k) = rk4_g k).
  { intros k Hk. destruct k as [|[|[|[|[|k]]]]]; try lia; unfold rk4_g; cbn [nth fact Nat.mul Nat.add]; cbn [INR]; lra. }
  assert (Z0 : forall a, a = 0 -> Rabs a <= 0.001 * 0.001) by (intros a ->; rewrite Rabs_R0; lra).
  assert (Q17 : / IZR (10 ^ 17) <= 0.001 * 0.001) by (replace (0.001 * 0.001) with (/ IZR 1000000) by lra; apply Rinv_le_contravar; [lra|apply IZR_le; lia]).
  assert (Q26 : / IZR (10 ^ 26) <= 0.001 * 0.001) by (replace (0.001 * 0.001) with (/ IZR 1000000) by lra; apply Rinv_le_contravar; [lra|apply IZR_le; lia]).
  assert (Q24 : / IZR (10 ^ 24) <= 0.001 * 0.001) by (replace (0.001 * 0.001) with (/ IZR 1000000) by lra; apply Rinv_le_contravar; [lra|apply IZR_le; lia]).
  assert (TL : forall k g, (5 <= k)%nat -> Rabs (g - / INR (fact k)) <= / IZR 1000 -> Rabs g <= 0.0094).
  { intros k g Hk Hb. assert (I1 : 0 < / INR (fact k) <= 1 / 120).
    { split; [apply Rinv_0_lt_compat, INR_fact_lt_0|]. replace (1 / 120) with (/ INR (fact 5)) by (cbn; lra). apply Rinv_le_contravar; [apply INR_fact_lt_0|]. apply le_INR, fact_le. exact Hk. }
    replace g with ((g - / INR (fact k)) + / INR (fact k)) by ring. eapply Rle_trans; [apply Rabs_triang|]. rewrite (Rabs_right (/ INR (fact k))) by lra. lra. }
  intro H. cbn [In] in H. destruct H as [<-|[<-|[<-|[<-|[<-|[<-|[<-|[]]]]]]]].
  - split; [apply Nat.leb_le; reflexivity|]. split; [|change (stages rk4_table) with 4%nat; intros; lia].
    intros k Hk. apply Z0. rewrite (proj1 (proj2 (exact_growths k)) ltac:(lia)), F4 by exact Hk. ring.
  - split; [apply Nat.leb_le; reflexivity|]. split.
    + intros k Hk. apply Z0. rewrite (proj1 (proj2 (proj2 (exact_growths k))) ltac:(lia)), F4 by exact Hk. ring.
    + change (stages rk5_table) with 6%nat. intros k Hk. rewrite rk5_growths by lia. unfold rk5_g. destruct k as [|[|[|[|[|[|[|k]]]]]]]; try lia; cbn [nth]; rewrite Rabs_right; lra.
  - split; [apply Nat.leb_le; reflexivity|]. split.
    + intros k Hk. apply Z0. rewrite (proj2 (proj2 (proj2 (exact_growths k))) ltac:(lia)), F4 by exact Hk. ring.
    + change (stages rk6_table) with 7%nat. intros k Hk. rewrite rk6_growths by lia. unfold rk6_g.
      destruct k as [|[|[|[|[|[|[|[|k]]]]]]]]; try lia; cbn [nth]; first [rewrite Rabs_right; lra|rewrite Rabs_left; lra].
  - split; [apply Nat.leb_le; reflexivity|]. split.
    + intros k Hk. rewrite <- F4 by exact Hk. eapply Rle_trans; [apply rk8_growth; lia|exact Q17].
    + intros k Hk. apply (TL k _ (proj1 Hk)). apply (ball_growth 60 _ _ (stages rk8_table)); [lia|lia|known|vm_cast_no_check (eq_refl true)|lia].
  - split; [apply Nat.leb_le; reflexivity|]. split.
    + intros k Hk. rewrite <- F4 by exact Hk. eapply Rle_trans; [apply rk10_growth; lia|exact Q26].
    + intros k Hk. apply (TL k _ (proj1 Hk)). apply (ball_growth 60 _ _ (stages rk10_table)); [lia|lia|known|vm_cast_no_check (eq_refl true)|lia].
  - split; [apply Nat.leb_le; reflexivity|]. split.
    + intros k Hk. rewrite <- F4 by exact Hk. eapply Rle_trans; [apply rk12_growth; lia|exact Q26].
    + intros k Hk. apply (TL k _ (proj1 Hk)). apply (ball_growth 80 _ _ (stages rk12_table)); [lia|lia|known|vm_cast_no_check (eq_refl true)|lia].
  - split; [apply Nat.leb_le; reflexivity|]. split.
    + intros k Hk. rewrite <- F4 by exact Hk. eapply Rle_trans; [apply rk14_growth; lia|exact Q24].
    + intros k Hk. apply (TL k _ (proj1 Hk)). apply (ball_growth 80 _ _ (stages rk14_table)); [lia|lia|known|vm_cast_no_check (eq_refl true)|lia].
Qed.
Lemma step_grows det rk dx x y dt : det_ok det -> 0 < dx -> 0.096 <= x <= 0.102 -> 2.3075 <= y <= 2.3077 -> 0 <= dt <= dx / 7 ->
  exp (dt / (4 * dx)) <= csq (rk_factor det rk dx (x, y) dt).
Proof.
  intros HD Pdx Hx Hy Hdt. set (h := 2 * dt / dx).
  assert (Hh : 0 <= h <= 2 / 7).
  { unfold h. split; [apply Rmult_le_pos; [lra|apply Rlt_le, Rinv_0_lt_compat, Pdx]|]. apply (Rmult_le_reg_r dx); [exact Pdx|]. unfold Rdiv. rewrite (Rmult_assoc (2 * dt)), Rinv_l by lra. lra. }
  assert (G : 1 + 0.136 * h <= csq (rk_factor det rk dx (x, y) dt)).
  { unfold rk_factor. rewrite (rk_determinant det rk _ HD). fold h.
    replace (nmul (Cr h) (x, y)) with (h * x, h * y) by (apply C_eq; cbn; unfold n0; cbn; ring).
    change (Csum (S (stages (rk_choice rk))) (fun k => nmul (Cr (growth (rk_choice rk) k)) (Cpow (h * x, h * y) k))) with (csum (S (stages (rk_choice rk))) (growth (rk_choice rk)) (h * x, h * y)).
    pose proof (rk_choice_known rk) as K. unfold all_tables in K. cbn [In] in K. destruct K as [K|K].
    - rewrite <- K. change (S (stages rk3_table)) with 4%nat. rewrite (csum_ext 4 _ rk3_g) by (intros; apply rk3_growths; assumption). apply rk3_grows; assumption.
    - destruct (tables_close (rk_choice rk)) as [K1 [K2 K3]]; [cbn [In]; tauto|]. apply close_grows; try assumption. reflexivity. }
  eapply Rle_trans; [|exact G]. replace (dt / (4 * dx)) with (h / 8) by (unfold h; field; lra).
  pose proof (exp_ineq1_le (- (h / 8))) as H. rewrite exp_Ropp in H. pose proof (exp_pos (h / 8)) as P. set (ex := exp (h / 8)) in *.
  assert (K : (1 + - (h / 8)) * ex <= 1). { apply (Rmult_le_compat_r ex) in H; [|lra]. rewrite Rinv_l in H by lra. exact H. }
  apply (Rmult_le_reg_l (1 - h / 8)); [lra|]. assert (h * h <= 2 / 7 * h) by nra. nra.
Qed.
Lemma product_grows det rk dx x y dts : det_ok det -> 0 < dx -> 0.096 <= x <= 0.102 -> 2.3075 <= y <= 2.3077 -> Forall (fun dt => 0 <= dt <= dx / 7) dts ->
  exp (total_time dts / (4 * dx)) <= csq (Cprod (rk_factor det rk dx (x, y)) dts).
Proof.
  intros HD Pdx Hx Hy F. induction F as [|dt dts Hdt F IH].
  - unfold total_time. cbn [fold_right Cprod]. unfold Rdiv. rewrite Rmult_0_l, exp_0. unfold csq. cbn. unfold n0. cbn. lra.
  - cbn [Cprod fold_right]. fold (Cprod (rk_factor det rk dx (x, y)) dts). rewrite csq_mul. unfold total_time in *. cbn [fold_right].
    replace ((dt + fold_right Rplus 0 dts) / (4 * dx)) with (dt / (4 * dx) + fold_right Rplus 0 dts / (4 * dx)) by (field; lra). rewrite exp_plus.
    apply Rmult_le_compat; [apply Rlt_le, exp_pos|apply Rlt_le, exp_pos|apply step_grows; assumption|exact IH].
Qed.
(** ** the sum of the squares of mode n over the cells *)
Lemma quarter q (v : C) : Rsum (4 * q) (fun c => fst (nmul (Cpow (0, 1) (S c)) v) * fst (nmul (Cpow (0, 1) (S c)) v)) = 2 * INR q * csq v.
Proof.
  assert (P : forall k, Cpow (0, 1) (4 * k) = nofZ 1).
  { induction k as [|k IH]; [reflexivity|]. replace (4 * S k)%nat with (S (S (S (S (4 * k))))) by lia. cbn [Cpow]. rewrite IH. apply C_eq; cbn; unfold n0; cbn; ring. }
  induction q as [|q IH]; [cbn; ring|]. replace (4 * S q)%nat with (4 * q + 4)%nat by lia. rewrite Rsum_app, IH, S_INR. cbn [Rsum].
  replace (S (4 * q + 0)) with (S (4 * q)) by lia. replace (S (4 * q + 1)) with (S (S (4 * q))) by lia. replace (S (4 * q + 2)) with (S (S (S (4 * q)))) by lia.
  replace (S (4 * q + 3)) with (S (S (S (S (4 * q))))) by lia. cbn [Cpow]. rewrite P. destruct v as [a b]. unfold csq. cbn. unfold n0. cbn. ring.
Qed.
(** ** whole runs *)
Section Run.
  Context {X : Ext R}.
  Hypothesis G : gauss_ok.
  Hypothesis IV : inv_ok.
  Lemma icb_FK_ok p mthd e T : Enhance p mthd = Ok e -> exists M, icb_FK p (e_modes e) T = Ok M.
  Proof.
    intro E. unfold icb_FK, icb_interface_flux_matrix, enhancement_matrices.
    destruct (Enhance_inv p mthd e E) as [_ [_ [_ [_ [_ [_ [Ai [Bi [HA [HBi _]]]]]]]]]].
    change (linv (enhancement_A p (e_modes e) (nofZ 2))) with (linv (enhancement_A p (e_modes e) 2)). rewrite HA.
    change (linv (enhancement_A p (e_modes e) (nofZ (-2)))) with (linv (enhancement_A p (e_modes e) (-2))). rewrite HBi. cbn [rbind]. eauto.
  Qed.
  Lemma grow_mode : exists x y, 0.096 <= x <= 0.102 /\ 2.3075 <= y <= 2.3077 /\
    forall mthd e M, Enhance 3 mthd = Ok e -> e_modes e = [0; 1; 2; 3]%nat -> icb_FK 3 (e_modes e) (0, 1) = Ok M -> eigen 4 M (x, y) (w0123 (x, y)).
  Proof.
    destruct root0123 as [x [y [Hx [Hy Hq]]]]. exists x, y. split; [exact Hx|]. split; [exact Hy|]. intros mthd e M HE Em HM.
    apply (eigen0123 IV mthd e (x, y) M HE Em HM); [|exact Hq]. intro H. apply (f_equal fst) in H. cbn in H. lra.
  Qed.
  Variables (x y : R).
  Hypothesis Hx : 0.096 <= x <= 0.102.
  Hypothesis Hy : 2.3075 <= y <= 2.3077.
  Lemma run_grows det gamma q (sol0 : solution R) d rk cfl tf nout mthd e w M fuel evs s' : det_ok det ->
    made (4 * q) sol0 -> wf_dg (4 * q) sol0 d -> s_euler sol0 = false -> b_p (s_basis sol0) = 3%nat -> s_enh sol0 = Some e -> Enhance 3 mthd = Ok e -> e_modes e = [0; 1; 2; 3]%nat ->
    is_literal (s_bcl sol0) "periodic" = true -> is_literal (s_bcr sol0) "periodic" = true ->
    icb_FK 3 (e_modes e) (0, 1) = Ok M -> eigen 4 M (x, y) w ->
    (forall c n, (1 <= c <= 4 * q)%nat -> (n < 4)%nat -> at1 (modes sol0 c 0) n = fst (nmul (Cpow (0, 1) c) (w n))) ->
    cfl <= 1 -> (2 <= nout)%Z -> s_t sol0 <= tf -> integrate gamma rk d None cfl tf nout fuel sol0 = (evs, Finished s') ->
    ((1 <= q)%nat -> exists n, (n < 4)%nat /\ 0 < energy (4 * q) sol0 n) /\
    (forall n, (n < 4)%nat -> exp ((tf - s_t sol0) / (4 * s_dx sol0)) * energy (4 * q) sol0 n <= energy (4 * q) s' n) /\
    Forall (fun ev => forall n, (n < 4)%nat -> exp ((s_t (ev_sol ev) - s_t sol0) / (4 * s_dx sol0)) * energy (4 * q) sol0 n <= energy (4 * q) (ev_sol ev) n) evs.
  Proof.
    intros HD Hm D Ha Bp He HE Em Pl Pr HM [Nz Hw] H0 Hcfl Hn Htf HI.
    pose proof (md_wf _ _ Hm) as W0. assert (Ns : s_Ns sol0 = 4%nat) by (unfold s_Ns, b_Ns; rewrite Bp; reflexivity).
    set (soli := with_u sol0 (tab2 (s_Ns sol0) ((4 * q + 2) * s_NF sol0) (fun n j => snd (nmul (Cpow (0, 1) (j / s_NF sol0)) (w n))))).
    assert (Wi : wf (4 * q) soli) by (apply wf_with_u; [exact W0|apply shape_tab2]).
    assert (Sim : similar sol0 soli) by apply similar_with_u.
    assert (En : enh_sound sol0). { unfold enh_sound. rewrite He. exists mthd. rewrite Bp. assert (ND : NoDup (e_modes e)) by (rewrite Em; repeat constructor; cbn; intuition lia).
      assert (HB : forall m, In m (e_modes e) -> (m <= 3)%nat) by (rewrite Em; intros m K; cbn in K; lia). auto. }
    assert (HS : symbol sol0 (0, 1) = Ok M) by (unfold symbol; rewrite He, Bp; exact HM).
    assert (T1 : Cpow (0, 1) (4 * q) = nofZ 1).
    { clear. induction q as [|k IH]; [reflexivity|]. replace (4 * S k)%nat with (S (S (S (S (4 * k))))) by lia. cbn [Cpow]. rewrite IH. apply C_eq; cbn; unfold n0; cbn; ring. }
    assert (Wv : wave (4 * q) sol0 soli (0, 1) w).
    { intros c n Hc Hnn. unfold cmode. rewrite H0 by (first [assumption|rewrite <- Ns; assumption]).
      rewrite (modes_at (4 * q) soli c 0 n) by (first [exact Wi | exact Hnn | lia | rewrite adv_NF by exact Ha; lia]).
      change (s_NF soli) with (s_NF sol0). unfold soli. cbn [with_u s_u]. rewrite (adv_NF sol0 Ha), at2_tab2 by (first [exact Hnn|lia]).
      rewrite Nat.div_1_r, Nat.mul_1_r, Nat.add_0_r. destruct (nmul (Cpow (0, 1) c) (w n)); reflexivity. }
    assert (Hw' : forall i, (i < s_Ns sol0)%nat -> Capply (s_Ns sol0) M w i = nmul (x, y) (w i)) by (rewrite Ns; exact Hw).
    assert (Et : s_t soli = s_t sol0) by reflexivity.
    destruct (companion G IV gamma (4 * q) sol0 soli d rk cfl tf nout (0, 1) (x, y) w M det Hm Wi Sim Et D Ha En Pl Pr T1 HS Hw' HD Wv Hn Htf fuel evs s' HI) as [fi [evsi [si HIi]]].
    destruct (run_amplification G IV gamma (4 * q) sol0 soli d rk cfl tf nout (0, 1) (x, y) w M det Hm Wi Sim Et D Ha En Pl Pr T1 HS Hw' HD Wv Hn Htf fuel evs s' fi evsi si HI HIi) as [[dts [E1 [E2 E3]]] E4].
    pose proof (md_dx _ _ Hm) as Pdx.
    assert (Step : forall l, Forall (fun dt => 0 <= dt <= full_step sol0 cfl) l -> Forall (fun dt => 0 <= dt <= s_dx sol0 / 7) l).
    { intros l F. eapply Forall_impl; [|exact F]. cbv beta. intros dt Hdt. split; [apply Hdt|]. eapply Rle_trans; [apply Hdt|]. unfold full_step. rewrite Bp. replace (INR (2 * 3 + 1)) with 7 by (cbn; lra). nra. }
    assert (En0 : forall n, (n < 4)%nat -> energy (4 * q) sol0 n = 2 * INR q * csq (w n)).
    { intros n Hnn. rewrite <- quarter. unfold energy. apply Rsum_ext. intros c Hc. rewrite H0 by lia. reflexivity. }
    assert (Key : forall sa sb l n, wave (4 * q) sa sb (0, 1) (fun n => nmul (Cprod (rk_factor det rk (s_dx sol0) (x, y)) l) (w n)) -> s_Ns sa = 4%nat ->
      Forall (fun dt => 0 <= dt <= full_step sol0 cfl) l -> (n < 4)%nat -> exp (total_time l / (4 * s_dx sol0)) * energy (4 * q) sol0 n <= energy (4 * q) sa n).
    { intros sa sb l n Wa Na F Hnn. rewrite En0 by exact Hnn.
      assert (Ea : energy (4 * q) sa n = 2 * INR q * csq (nmul (Cprod (rk_factor det rk (s_dx sol0) (x, y)) l) (w n))).
      { rewrite <- quarter. unfold energy. apply Rsum_ext. intros c Hc. assert (K : at1 (modes sa (S c) 0) n = fst (cmode sa sb (S c) n)) by reflexivity. rewrite K, (Wa (S c) n) by lia. reflexivity. }
      rewrite Ea, csq_mul. pose proof (product_grows det rk (s_dx sol0) x y l HD Pdx Hx Hy (Step l F)) as PG. pose proof (csq_nonneg (w n)). pose proof (pos_INR q).
      replace (exp (total_time l / (4 * s_dx sol0)) * (2 * INR q * csq (w n))) with (2 * INR q * (exp (total_time l / (4 * s_dx sol0)) * csq (w n))) by ring.
      apply Rmult_le_compat_l; [lra|]. apply Rmult_le_compat_r; assumption. }
    destruct (Wf_integrate gamma (4 * q) d None sol0 rk cfl tf nout fuel evs _ W0 D HI) as [S2 S1]. destruct (S1 s' eq_refl) as [_ S1'].
    assert (S3 : Forall (fun ev => s_Ns (ev_sol ev) = 4%nat) evs) by (eapply Forall_impl; [|exact S2]; cbv beta; intros ev [_ Q]; rewrite (similar_Ns _ _ Q); exact Ns).
    split; [|split].
    - intro Hq. destruct Nz as [n [Hnn Hz]]. exists n. split; [exact Hnn|]. rewrite En0 by exact Hnn. apply Rmult_lt_0_compat; [apply le_INR in Hq; cbn [INR] in Hq; lra|].
      unfold csq. destruct (w n) as [u v]. cbn [fst snd]. apply Rnot_le_lt. intro L. apply Hz. assert (u = 0) by nra. assert (v = 0) by nra. subst. reflexivity.
    - intros n Hnn. rewrite <- E1. apply (Key s' si dts n E2); [rewrite (similar_Ns _ _ S1'); exact Ns|exact E3|exact Hnn].
    - clear - E4 S3 Key Ns. induction E4 as [|ev evi l li Hev F IH]; [constructor|]. inversion S3; subst. constructor; [|apply IH; assumption].
      destruct Hev as [dts [T [Wv F']]]. intros n Hnn. replace (s_t (ev_sol ev) - s_t sol0) with (total_time dts) by lra. apply (Key _ _ _ _ Wv); assumption.
  Qed.
End Run.
