(** Flows of uniform velocity and pressure: the density of a Roe or Godunov run follows the advection scheme (C63). *)
From Coq Require Import ZArith List Bool Arith String Lia Reals Lra.
From Verif Require Import Num Py PyStr Lib RealLib LegNumpy Ext Basis Sensor Enhance Limiting EulerPhysics Solution Solver RKCoeffs RK
  SpecTime SpecDG SpecPoly SpecRK SpecEuler SpecUniform SpecTrace SpecContact ProofsPoly ProofsBasis ProofsLeg ProofsDG ProofsDG2 ProofsWf ProofsCons ProofsLim ProofsLimRun ProofsRK ProofsRKLin
  ProofsRiemann ProofsTime ProofsTime2 ProofsRun ProofsUniform ProofsContact.
Import ListNotations.
Open Scope list_scope.
Open Scope R_scope.

(** * stages of linear problems *)
Section Poly.
  Variables (r c : nat) (LL : (nat -> nat -> R) -> nat -> nat -> R).
  Hypothesis LIN : linear_on r c LL.
  Variables (tb : rk_table) (tau : R) (x : nat -> nat -> R).
  Definition incr_poly (i n j : nat) : R := Rsum (stages tb) (fun k => stage_sum tb k i * tau ^ (S k) * power LL (S k) x n j).
  Lemma stage_input i n j : (i < stages tb)%nat -> x n j + Rsum i (fun k => coef tb i k * incr_poly k n j) = stage_poly tb LL tau x i n j.
  Proof.
    intro Hi. unfold stage_poly, incr_poly. f_equal.
    rewrite (Rsum_ext i _ (fun k => Rsum (stages tb) (fun l => coef tb i k * (stage_sum tb l k * tau ^ (S l) * power LL (S l) x n j)))) by (intros k Hk; symmetry; apply Rsum_scale).
    rewrite Rsum_swap. apply Rsum_ext. intros l Hl. cbn [stage_sum]. rewrite !Rmult_assoc, <- Rsum_scale_r. apply Rsum_ext. intros k Hk. ring.
  Qed.
  Lemma stage_incr i : (i < stages tb)%nat -> same_on r c (fun n j => tau * LL (stage_poly tb LL tau x i) n j) (incr_poly i).
  Proof.
    intros Hi n j Hn Hj. set (m := stages tb). unfold incr_poly. fold m.
    transitivity (tau * (LL x n j + Rsum m (fun k => stage_sum tb (S k) i * tau ^ (S k) * LL (power LL (S k) x) n j))).
    { f_equal. unfold stage_poly. etransitivity; [apply (lin_add _ _ _ LIN x (fun n j => Rsum m (fun k => stage_sum tb (S k) i * tau ^ (S k) * power LL (S k) x n j))); assumption|].
      f_equal. apply (lin_sum r c LL LIN m (fun k => stage_sum tb (S k) i * tau ^ (S k)) (fun k => power LL (S k) x)); assumption. }
    pose proof (Rsum_S_l m (fun k => stage_sum tb k i * tau ^ (S k) * power LL (S k) x n j)) as E. cbn [Rsum] in E.
    rewrite (stage_sum_0 tb m i Hi) in E.
    transitivity (Rsum m (fun k => stage_sum tb k i * tau ^ (S k) * power LL (S k) x n j) + 0 * tau ^ S m * power LL (S m) x n j); [|ring].
    etransitivity; [|symmetry; exact E]. rewrite Rmult_plus_distr_l. f_equal.
    - cbn [pow power stage_sum]. ring.
    - rewrite <- Rsum_scale. apply Rsum_ext. intros k Hk. cbn [pow stage_sum power]. ring.
  Qed.
  Lemma result_poly n j : x n j + Rsum (stages tb) (fun i => weight tb i * incr_poly i n j) = Rsum (S (stages tb)) (fun k => growth tb k * tau ^ k * power LL k x n j).
  Proof.
    rewrite Rsum_S_l. f_equal; [cbn [growth pow power]; ring|]. unfold incr_poly.
    rewrite (Rsum_ext (stages tb) _ (fun i => Rsum (stages tb) (fun k => weight tb i * (stage_sum tb k i * tau ^ (S k) * power LL (S k) x n j)))) by (intros i Hi; symmetry; apply Rsum_scale).
    rewrite Rsum_swap. apply Rsum_ext. intros k Hk. cbn [growth]. rewrite !Rmult_assoc, <- Rsum_scale_r. apply Rsum_ext. intros i Hi. ring.
  Qed.
End Poly.

(** * the advection problem for the density *)
Lemma density_wf ne (s : solution R) : wf ne s -> wf ne (density_of ne s).
Proof.
  intro W. destruct W as [W1 W2 W3 W4 W5 W6 W7 W8 W9 W10 W11 W12]. constructor; try assumption.
  - cbn [s_u density_of]. change (s_Ns (density_of ne s)) with (s_Ns s). change (s_NF (density_of ne s)) with 1%nat. rewrite Nat.mul_1_r. apply shape_tab2.
  - split; reflexivity.
Qed.
Lemma density_made ne (s : solution R) {X : Ext R} : made ne s -> made ne (density_of ne s).
Proof. intros [M1 M2 M3 M4]. constructor; [apply density_wf; exact M1|exact M2|exact M3|exact M4]. Qed.
Lemma density_op ne (s s' : solution R) : similar s s' -> adv_op ne (density_of ne s') = adv_op ne (density_of ne s).
Proof. intros [t [n [sn [u [-> _]]]]]. reflexivity. Qed.
Lemma adv_interior ne (a : solution R) (x y : nat -> nat -> R) : wf ne a -> s_euler a = false -> bc_known (s_bcl a) -> bc_known (s_bcr a) ->
  (forall n e, (n < s_Ns a)%nat -> (1 <= e <= ne)%nat -> x n e = y n e) -> forall n e, (n < s_Ns a)%nat -> (e < ne + 2)%nat -> adv_op ne a x n e = adv_op ne a y n e.
Proof.
  intros W Ha Bl Br E n e Hn He. pose proof (wf_ne _ _ W) as Hne.
  assert (NF1 : s_NF a = 1%nat) by (unfold s_NF; rewrite Ha; reflexivity).
  assert (BC : forall j, bc_column ne a j = src_cell (s_bcl a) (s_bcr a) ne j) by (intro j; unfold bc_column; rewrite NF1, Nat.div_1_r, Nat.mod_1_r; lia).
  assert (XY : forall m j, (m < s_Ns a)%nat -> (j < ne + 2)%nat -> x m (bc_column ne a j) = y m (bc_column ne a j)) by (intros m j Hm Hj; rewrite BC; apply E; [exact Hm|apply src_interior; assumption]).
  assert (FU : forall j, (j <= ne)%nat -> face_up ne a x j = face_up ne a y j).
  { intros j Hj. unfold face_up. rewrite NF1. destruct (s_enh a).
    - f_equal; apply Rsum_ext; intros m Hm; rewrite XY by (exact Hm || lia); reflexivity.
    - apply Rsum_ext; intros m Hm; rewrite XY by (exact Hm || lia); reflexivity. }
  unfold adv_op. cbv zeta. rewrite NF1, Nat.div_1_r.
  rewrite (Rsum_ext (b_NG (s_basis a)) _ (fun g => at2 (b_dphi_w (s_basis a)) n g * Rsum (s_Ns a) (fun m => at2 (b_phi (s_basis a)) g m * y m (bc_column ne a e)))).
  2:{ intros g _. f_equal. apply Rsum_ext. intros m Hm. rewrite XY by assumption. reflexivity. }
  destruct ((1 <=? e)%nat && (e <=? ne)%nat)%bool eqn:Ei; [|reflexivity]. apply andb_prop in Ei. destruct Ei as [E1 E2]. apply Nat.leb_le in E1, E2.
  rewrite !FU by lia. reflexivity.
Qed.

Section Wave.
  Context {X : Ext R}.
  Variable gamma : R.
  Hypothesis Hg : 1 < gamma.
  Hypothesis G : gauss_ok.
  Hypothesis IV : inv_ok.
  Variables v p : R.
  Hypothesis Hv : 0 <= v.
  Hypothesis Hp : 0 < p.
  Variables (ne : nat) (sol0 : solution R) (d : dg).
  Hypothesis M0 : made ne sol0.
  Hypothesis D0 : wf_dg ne sol0 d.
  Hypothesis HE : enh_sound sol0.
  Hypothesis Bl : bc_known (s_bcl sol0).
  Hypothesis Br : bc_known (s_bcr sol0).
  Hypothesis Eu : s_euler sol0 = true.
  Hypothesis HR : s_riemann sol0 = RRoe \/ s_riemann sol0 = RGodunov.
  Let W0 := md_wf _ _ M0.
  Let NF3 : s_NF sol0 = 3%nat. Proof. unfold s_NF. rewrite Eu. reflexivity. Qed.
  Let a0 := density_of ne sol0.
  Let LL := adv_op ne a0.
  Notation Vp := (Vp gamma v p ne sol0).
  Notation VpK := (VpK v ne sol0).
  Let Hne : (1 <= ne)%nat. Proof. exact (wf_ne _ _ W0). Qed.
  Let Wa : wf ne a0. Proof. apply density_wf. exact W0. Qed.

  Lemma rate_op s (x : nat -> nat -> R) : Wf ne sol0 s -> (forall n e, (n < s_Ns sol0)%nat -> (1 <= e <= ne)%nat -> at2 (s_u s) n (e * 3 + 0) = x n e) ->
    forall n e, (n < s_Ns sol0)%nat -> (1 <= e <= ne)%nat -> rho_rate v ne s n e = LL x n e.
  Proof.
    intros [W S] Hx n e Hn He. destruct (similar_static _ _ S) as [E1 [E2 [E3 _]]].
    pose proof (similar_basis _ _ S) as Eb. pose proof (similar_Ns _ _ S) as ENs. pose proof (similar_NF _ _ S) as ENF. rewrite NF3 in ENF.
    assert (Em : s_minv s = s_minv sol0) by (destruct S as [? [? [? [? [-> _]]]]]; reflexivity).
    assert (MX : forall e m, (1 <= e <= ne)%nat -> (m < s_Ns sol0)%nat -> at1 (modes s e 0) m = x m e).
    { intros e' m He' Hm. rewrite (modes_at ne s) by (first [exact W|lia]). rewrite ENF. apply Hx; assumption. }
    assert (VM : forall (w : vec R) e, List.length w = s_Ns sol0 -> (1 <= e <= ne)%nat -> vdot w (modes s e 0) = Rsum (s_Ns sol0) (fun m => at1 w m * x m e)).
    { intros w e' Lw He'. rewrite (vdot_R w _ (s_Ns sol0) Lw) by (rewrite (length_modes ne s e' 0 W); exact ENs).
      apply Rsum_ext. intros m Hm. rewrite MX by assumption. reflexivity. }
    assert (BC : forall j, bc_column ne a0 j = src_cell (s_bcl sol0) (s_bcr sol0) ne j) by (intro j; unfold bc_column; change (s_NF a0) with 1%nat; rewrite Nat.div_1_r, Nat.mod_1_r; change (s_bcl a0) with (s_bcl sol0); change (s_bcr a0) with (s_bcr sol0); lia).
    assert (FU : forall e, (e <= ne)%nat -> rho_face v ne s e = face_up ne a0 x e).
    { intros e' He'. unfold rho_face, upwind. destruct (Rle_dec 0 v); [|contradiction]. unfold rho_minus, face_minus, face_up, filled. rewrite E1, E2, E3, Eb.
      change (s_enh a0) with (s_enh sol0). change (s_Ns a0) with (s_Ns sol0). change (s_NF a0) with 1%nat. change (s_basis a0) with (s_basis sol0). rewrite !BC.
      pose proof (wf_enh _ _ W0) as We. destruct (s_enh sol0) as [en|].
      - destruct We as [La [Lb _]]. numR. rewrite !VM by (first [assumption|apply src_interior; try assumption; lia]). reflexivity.
      - rewrite VM by first [apply src_interior; try assumption; lia | apply (shape_row 2); [apply (wf_psi _ _ W0)|lia]]. reflexivity. }
    assert (VOL : vdot (row (b_dphi_w (s_basis s)) n) (tab (b_NG (s_basis s)) (rho_node s e)) =
       Rsum (b_NG (s_basis sol0)) (fun g => at2 (b_dphi_w (s_basis sol0)) n g * Rsum (s_Ns sol0) (fun m => at2 (b_phi (s_basis sol0)) g m * x m (bc_column ne a0 e)))).
    { rewrite Eb. rewrite (vdot_R _ _ (b_NG (s_basis sol0))); [|apply (shape_row (s_Ns sol0)); [apply (wf_dphi _ _ W0)|exact Hn]|apply length_tab].
      apply Rsum_ext. intros g Hgg. rewrite at1_tab by exact Hgg. unfold at2, row. f_equal. unfold rho_node. rewrite Eb.
      assert (Lm : List.length (modes s e 0) = (b_p (s_basis sol0) + 1)%nat) by (rewrite (length_modes ne s e 0 W), ENs; apply Ns_p).
      transitivity (vdot (row (b_phi (s_basis sol0)) g) (modes s e 0)).
      - symmetry. unfold b_NG in Hgg. rewrite (md_basis _ _ M0) in Hgg |- *. apply phi_row; [exact Hgg|]. rewrite (md_basis _ _ M0), b_p_Basis in Lm. exact Lm.
      - rewrite VM by (first [exact He|apply (shape_row (b_NG (s_basis sol0))); [apply (wf_phi _ _ W0)|exact Hgg]]).
        apply Rsum_ext. intros m Hm. rewrite BC. unfold src_cell. destruct (Nat.eqb_spec e 0); [lia|]. destruct (Nat.eqb_spec e (ne + 1)); [lia|]. reflexivity. }
    unfold rho_rate, LL, adv_op. cbv zeta. rewrite VOL, Em. change (s_NF a0) with 1%nat. rewrite Nat.div_1_r. rewrite !FU by lia.
    change (s_minv a0) with (s_minv sol0). change (s_basis a0) with (s_basis sol0). change (s_Ns a0) with (s_Ns sol0).
    destruct (Nat.leb_spec 1 e); [|lia]. destruct (Nat.leb_spec e ne); [|lia]. cbn [andb]. unfold face_term. destruct (Nat.even n); numR; ring.
  Qed.

  Variable tb : rk_table.
  Hypothesis T : sound_table tb.
  Variable dt : R.
  Variable x : nat -> nat -> R.
  Let Stg := stage_poly tb LL (v * dt) x.
  Let Inc := incr_poly LL tb (v * dt) x.
  Hypothesis HD : forall i, (i < stages tb)%nat -> dense ne (with_u a0 (tab2 (s_Ns sol0) (ne + 2) (Stg i))).

  Definition holds (y : nat -> nat -> R) (K : mat R) : Prop := forall n e, (n < s_Ns sol0)%nat -> (1 <= e <= ne)%nat -> at2 K n (e * 3 + 0) = y n e.
  Lemma stage_dense s i : Wf ne sol0 s -> (i < stages tb)%nat -> holds (Stg i) (s_u s) -> dense ne s.
  Proof.
    intros [W S] Hi Hs. destruct (similar_static _ _ S) as [E1 [E2 [E3 _]]]. pose proof (similar_basis _ _ S) as Eb. pose proof (similar_Ns _ _ S) as ENs.
    pose proof (similar_NF _ _ S) as ENF. rewrite NF3 in ENF.
    destruct (HD i Hi) as [Q1 Q2]. set (a := with_u a0 _) in *.
    assert (WA : wf ne a) by (apply wf_with_u; [exact Wa|]; change (s_Ns a0) with (s_Ns sol0); change (s_NF a0) with 1%nat; rewrite Nat.mul_1_r; apply shape_tab2).
    assert (ME : forall e, (1 <= e <= ne)%nat -> modes s e 0 = modes a e 0).
    { intros e He. apply (vec_ext (s_Ns sol0)); [rewrite (length_modes ne s e 0 W); exact ENs|apply (length_modes ne a e 0 WA)|].
      intros m Hm. rewrite (modes_at ne s e 0 m W), (modes_at ne a e 0 m WA) by (first [lia|change (s_NF a) with 1%nat; lia|exact Hm]).
      change (s_NF a) with 1%nat. rewrite ENF, (Hs m e Hm He). unfold a. cbn [s_u with_u]. replace (e * 1 + 0)%nat with e by lia.
      rewrite at2_tab2 by (first [exact Hm|lia]). reflexivity. }
    split.
    - intros e g He Hk. rewrite Eb in Hk |- *. rewrite ME by exact He. apply Q1; assumption.
    - intros e He. destruct (Q2 e He) as [P1 P2]. unfold rho_minus, rho_plus, face_minus, face_plus, filled in *. rewrite E1, E2, E3, Eb.
      rewrite !ME by (apply src_interior; try assumption; lia). split; assumption.
  Qed.
  Lemma stage_residual s i : Vp s -> (i < stages tb)%nat -> holds (Stg i) (s_u s) ->
    exists s' F, residual gamma d s = Ok (s', F) /\ Vp s' /\ VpK (mscale dt F) /\ holds (Inc i) (mscale dt F).
  Proof.
    intros H Hi Hs. pose proof H as [HW _]. pose proof HW as [W S]. destruct (similar_static _ _ S) as [E1 [E2 [E3 E4]]].
    pose proof (stage_dense s i HW Hi Hs) as DN. pose proof (Wf_dg ne sol0 d D0 s HW) as D.
    destruct (residual_vp gamma Hg G IV v p Hp ne s d) as [s1 [F [R1 [_ [_ [_ [_ [_ R4]]]]]]]]; try exact D; try exact DN.
    - eapply made_similar; eassumption. - unfold enh_sound. rewrite E3, (similar_basis _ _ S). exact HE. - rewrite E1. exact Bl. - rewrite E2. exact Br.
    - rewrite (similar_euler _ _ S). exact Eu. - apply (Vp_cells gamma v p ne sol0 Eu s H).
    - exists s1, F. split; [exact R1|]. destruct (Vp_res gamma Hg G IV v p Hp ne sol0 d M0 D0 HE Bl Br Eu dt s s1 F DN H R1) as [V1 V2].
      split; [exact V1|]. split; [exact V2|]. rewrite E4 in R4. specialize (R4 HR). rewrite (similar_Ns _ _ S) in R4.
      destruct (wf_residual gamma _ _ _ _ _ W D R1) as [_ SF]. rewrite (similar_NF _ _ S), (similar_Ns _ _ S), NF3 in SF.
      intros n e Hn He. rewrite (at2_mscale (s_Ns sol0) ((ne + 2) * 3)) by (first [exact SF|exact Hn|nia]). rewrite (R4 n e Hn He). numR.
      rewrite (rate_op s (Stg i) HW Hs n e Hn He).
      pose proof (stage_incr _ _ LL (adv_linear ne a0 Wa) tb (v * dt) x i Hi n e Hn ltac:(change (s_NF a0) with 1%nat; lia)) as Q. fold Stg Inc in Q.
      rewrite <- Q. ring.
  Qed.
  Lemma holds_at y K n e : holds y K -> (n < s_Ns sol0)%nat -> (1 <= e <= ne)%nat -> at2 K n (e * 3 + 0) = y n e. Proof. auto. Qed.

  Lemma classic_wave cas : forall k sol sc,
    Vp sol -> Vp (sc_us sc) -> Vp (sc_uk sc) -> Forall VpK (sc_K sc) -> (k + List.length cas <= List.length (sc_K sc))%nat ->
    (k + List.length cas <= stages tb)%nat -> (forall y, In y cas -> good (fst y)) ->
    holds x (s_u (sc_us sc)) -> (forall i, (i < k)%nat -> holds (Inc i) (nth i (sc_K sc) [])) ->
    exists sol' sc', classic_stages gamma d None (map (map ceval) (tb_betas tb)) dt k cas sol sc = Ok (sol', sc') /\
      Vp sol' /\ Vp (sc_us sc') /\ Vp (sc_uk sc') /\ Forall VpK (sc_K sc') /\ List.length (sc_K sc') = List.length (sc_K sc) /\
      (forall n e, (n < s_Ns sol0)%nat -> (1 <= e <= ne)%nat -> at2 (s_u sol') n (e * 3 + 0) =
         at2 (s_u sol) n (e * 3 + 0) + Rsum (List.length cas) (fun i => fst (nth i cas (0, 0)) * Inc (k + i)%nat n e)).
  Proof.
    induction cas as [|[co al] cas IH]; intros k sol sc Vsol Vus Vuk VKs HlK Hst Hgd Hx HK; cbn [classic_stages].
    - exists sol, sc. repeat (split; [first [reflexivity|assumption]|]). intros. cbn. ring.
    - cbn [List.length] in *. set (bs := firstn k (row (map (map ceval) (tb_betas tb)) k)) in *.
      assert (Ebs : forall i, (i < k)%nat -> nth i bs 0 = coef tb k i).
      { intros i Hi. unfold bs, row. rewrite nth_firstn' by exact Hi. rewrite (nth_indep _ [] (map ceval [])) by (rewrite map_length, (st_betas _ T); lia).
        rewrite map_nth. unfold coef. rewrite <- cval_ceval. rewrite <- (map_nth ceval). apply nth_indep. rewrite map_length. pose proof (st_rows _ T k ltac:(lia)). lia. }
      assert (Lbs : List.length bs = k).
      { unfold bs, row. rewrite firstn_length, (nth_indep _ [] (map ceval [])) by (rewrite map_length, (st_betas _ T); lia).
        rewrite map_nth, map_length. pose proof (st_rows _ T k ltac:(lia)). lia. }
      assert (Gbs : forall b, In b bs -> good b).
      { intros b Hb. apply (In_nth _ _ 0) in Hb. destruct Hb as [i [Hi <-]]. rewrite Ebs by lia. apply (st_coef _ T). }
      assert (WKs : Forall (WfK ne sol0) (sc_K sc)) by (eapply Forall_impl; [|exact VKs]; intros K [HK1 _]; exact HK1).
      pose proof (Vp_copy gamma v p ne sol0 _ _ Vuk Vus) as Vc.
      destruct (fold_axpy_at ne sol0 bs (sc_K sc) (copy_data_only (sc_uk sc) (sc_us sc)) Gbs WKs (proj1 Vc)) as [_ [_ G3]].
      assert (V1 : Vp (fold_left (fun uk bk => smart_axpy uk (fst bk) (snd bk)) (combine bs (sc_K sc)) (copy_data_only (sc_uk sc) (sc_us sc)))).
      { clear - Eu Vc VKs. revert VKs Vc. generalize (sc_K sc) (copy_data_only (sc_uk sc) (sc_us sc)). induction bs as [|b bs IHb]; intros Ks s HKs Vs; [exact Vs|].
        destruct Ks as [|K Ks]; [exact Vs|]. inversion HKs; subst. cbn [combine fold_left fst snd]. apply IHb; [assumption|]. apply (Vp_axpy gamma v p ne sol0 Eu); assumption. }
      set (uk1 := fold_left _ (combine bs (sc_K sc)) (copy_data_only (sc_uk sc) (sc_us sc))) in *.
      set (uk2 := with_t uk1 _). assert (V2 : Vp uk2) by (apply Vp_t; exact V1).
      replace (if (0 <? k)%nat then limit gamma None uk2 else Ok uk2) with (@Ok (solution R) uk2) by (destruct (0 <? k)%nat; reflexivity). cbn [rbind].
      assert (H2 : holds (Stg k) (s_u uk2)).
      { intros n e Hn He. unfold uk2. cbn [s_u with_t]. rewrite G3 by (try exact Hn; rewrite NF3; nia). cbn [s_u copy_data_only with_u]. rewrite (Hx n e Hn He).
        unfold Stg. rewrite <- stage_input by lia. f_equal. rewrite Lbs, Nat.min_l by lia. apply Rsum_ext. intros i Hi. rewrite Ebs by exact Hi. rewrite (HK i Hi n e Hn He). reflexivity. }
      destruct (stage_residual uk2 k V2 ltac:(lia) H2) as [uk4 [F [R1 [V4 [VF HF]]]]]. rewrite R1. cbn [rbind].
      assert (Lk : (k < List.length (sc_K sc))%nat) by lia.
      destruct (IH (S k) (smart_axpy sol co (mscale dt F)) {| sc_us := sc_us sc; sc_uk := uk4; sc_K := lset (sc_K sc) k (mscale dt F) |}) as [sol' [sc' [Q1 [Q2 [Q3 [Q4 [Q5 [Q6 Q7]]]]]]]]; cbn [sc_us sc_uk sc_K].
      + apply (Vp_axpy gamma v p ne sol0 Eu); assumption. + exact Vus. + exact V4. + apply Forall_lset; assumption.
      + rewrite (length_lset ne sol0) by exact Lk. lia. + lia. + intros y Hy. apply Hgd. right. exact Hy. + exact Hx.
      + intros i Hi. rewrite (nth_lset ne sol0) by exact Lk. destruct (Nat.eqb_spec i k) as [->|]; [exact HF|]. apply HK. lia.
      + cbn [sc_us sc_uk sc_K] in *. exists sol', sc'. split; [exact Q1|]. split; [exact Q2|]. split; [exact Q3|]. split; [exact Q4|]. split; [exact Q5|].
        rewrite (length_lset ne sol0) in Q6 by exact Lk. split; [exact Q6|].
        intros n e Hn He. rewrite (Q7 n e Hn He). unfold smart_axpy. cbn [s_u with_u].
        assert (Sh : shape (s_Ns sol0) ((ne + 2) * 3) (s_u sol)).
        { destruct Vsol as [[Wx Sx] _]. pose proof (wf_u _ _ Wx) as Q. rewrite (similar_Ns _ _ Sx), (similar_NF _ _ Sx), NF3 in Q. exact Q. }
        assert (ShF : shape (s_Ns sol0) ((ne + 2) * 3) (mscale dt F)) by (destruct VF as [Q _]; unfold WfK in Q; rewrite NF3 in Q; exact Q).
        rewrite (axpy_at (s_Ns sol0) ((ne + 2) * 3)) by (first [assumption|apply (Hgd (co, al)); left; reflexivity|nia]).
        rewrite (HF n e Hn He), Rsum_S_l. cbn [nth fst]. rewrite (Nat.add_0_r k).
        rewrite (Rsum_ext (List.length cas) (fun i => fst (nth i cas (0, 0)) * Inc (S k + i)%nat n e) (fun i => fst (nth i cas (0, 0)) * Inc (k + S i)%nat n e)); [ring|].
        intros i Hi. f_equal. f_equal. lia.
  Qed.
  Lemma classic_wave_step sol sc : Vp sol -> Vp (sc_us sc) -> Vp (sc_uk sc) -> Forall VpK (sc_K sc) -> List.length (sc_K sc) = stages tb ->
    holds x (s_u sol) -> holds x (s_u (sc_us sc)) ->
    exists sol' sc', classic_stages gamma d None (map (map ceval) (tb_betas tb)) dt 0 (combine (map ceval (tb_coeffs tb)) (map ceval (tb_alphas tb))) sol sc = Ok (sol', sc') /\
      Vp sol' /\ Vp (sc_us sc') /\ Vp (sc_uk sc') /\ Forall VpK (sc_K sc') /\ List.length (sc_K sc') = stages tb /\
      holds (fun n e => Rsum (S (stages tb)) (fun k => growth tb k * (v * dt) ^ k * power LL k x n e)) (s_u sol').
  Proof.
    intros V1 V2 V3 V4 HK H1 H2. pose proof (st_alphas _ T) as La.
    match goal with |- context [classic_stages _ _ _ _ _ _ ?cas _ _] => set (CA := cas) end.
    assert (Lc : List.length CA = stages tb).
    { unfold CA. rewrite combine_length, !map_length, La. unfold stages. lia. }
    assert (Nc : forall i, (i < stages tb)%nat -> fst (nth i CA (0, 0)) = weight tb i).
    { intros i Hi. unfold CA. rewrite combine_nth by (rewrite !map_length; symmetry; exact La). cbn [fst]. unfold weight. rewrite <- cval_ceval, <- (map_nth ceval).
      apply nth_indep. rewrite map_length. exact Hi. }
    clearbody CA. destruct (classic_wave CA 0 sol sc V1 V2 V3 V4) as [sol' [sc' [Q1 [Q2 [Q3 [Q4 [Q5 [Q6 Q7]]]]]]]].
    - rewrite Lc, HK. lia. - rewrite Lc. lia.
    - intros y Hy. apply (In_nth _ _ (0, 0)) in Hy. destruct Hy as [i [Hi <-]]. rewrite Nc by lia. apply (st_weight _ T).
    - exact H2. - intros; lia.
    - exists sol', sc'. split; [exact Q1|]. split; [exact Q2|]. split; [exact Q3|]. split; [exact Q4|]. split; [exact Q5|]. split; [rewrite Q6; exact HK|].
      intros n e Hn He. rewrite (Q7 n e Hn He), (H1 n e Hn He), Lc. rewrite <- result_poly. f_equal. apply Rsum_ext. intros i Hi. rewrite Nc by exact Hi. reflexivity.
  Qed.
End Wave.

Section WaveRun.
  Context {X : Ext R}.
  Variable gamma : R.
  Hypothesis Hg : 1 < gamma.
  Hypothesis G : gauss_ok.
  Hypothesis IV : inv_ok.
  Variables v p : R.
  Hypothesis Hv : 0 <= v.
  Hypothesis Hp : 0 < p.
  Variables (ne : nat) (sol0 : solution R) (d : dg).
  Hypothesis M0 : made ne sol0.
  Hypothesis D0 : wf_dg ne sol0 d.
  Hypothesis HE : enh_sound sol0.
  Hypothesis Bl : bc_known (s_bcl sol0).
  Hypothesis Br : bc_known (s_bcr sol0).
  Hypothesis Eu : s_euler sol0 = true.
  Hypothesis HR : s_riemann sol0 = RRoe \/ s_riemann sol0 = RGodunov.
  Hypothesis U0 : uniform_vp gamma ne v p sol0.
  Let W0 := md_wf _ _ M0.
  Let NF3 : s_NF sol0 = 3%nat. Proof. unfold s_NF. rewrite Eu. reflexivity. Qed.
  Notation Vp := (Vp gamma v p ne sol0).
  Notation VpK := (VpK v ne sol0).
  Variable rk : string.
  Let tb := rk_choice rk.
  (** the density after a step of length dt from s *)
  Definition advanced (dt : R) (s : solution R) (n e : nat) : R :=
    Rsum (S (stages tb)) (fun k => growth tb k * (v * dt) ^ k * power (adv_op ne (density_of ne s)) k (at2 (s_u (density_of ne s))) n e).
  Definition VS (sc : scratch R) : Prop := Vp (sc_us sc) /\ Vp (sc_uk sc) /\ (String.eqb rk "low_storage_rk4" = false -> Forall VpK (sc_K sc) /\ List.length (sc_K sc) = stages tb).

  Lemma density_at s n e : Wf ne sol0 s -> (n < s_Ns sol0)%nat -> (1 <= e <= ne)%nat -> at2 (s_u s) n (e * 3 + 0) = at2 (s_u (density_of ne s)) n e.
  Proof.
    intros [W S] Hn He. cbn [s_u density_of]. rewrite (similar_Ns _ _ S), (similar_NF _ _ S), NF3. rewrite at2_tab2 by (first [exact Hn|lia]). f_equal. lia.
  Qed.
  Lemma inner_wave dt sol sc : Vp sol -> VS sc -> s_u (sc_us sc) = s_u sol -> dense_stages ne tb (v * dt) sol ->
    exists sol' sc', rk_inner gamma rk d None dt sol sc = Ok (sol', sc') /\ Vp sol' /\ VS sc' /\ holds ne sol0 (advanced dt sol) (s_u sol').
  Proof.
    intros Vs [V1 [V2 V3]] Eus HD. pose proof (table_sound tb (rk_choice_known rk)) as T. pose proof Vs as [Ws _]. pose proof Ws as [_ S].
    assert (Hx : holds ne sol0 (at2 (s_u (density_of ne sol))) (s_u sol)) by (intros n e Hn He; apply density_at; assumption).
    assert (Hx' : holds ne sol0 (at2 (s_u (density_of ne sol))) (s_u (sc_us sc))) by (rewrite Eus; exact Hx).
    assert (HD' : forall i, (i < stages tb)%nat -> dense ne (with_u (density_of ne sol0) (tab2 (s_Ns sol0) (ne + 2) (stage_poly tb (adv_op ne (density_of ne sol0)) (v * dt) (at2 (s_u (density_of ne sol))) i)))).
    { intros i Hi. specialize (HD i Hi). rewrite (density_op ne _ _ S), (similar_Ns _ _ S) in HD. destruct S as [t [n [sn [u [E _]]]]].
      revert HD. generalize (tab2 (s_Ns sol0) (ne + 2) (stage_poly tb (adv_op ne (density_of ne sol0)) (v * dt) (at2 (s_u (density_of ne sol))) i)). intro q. rewrite E. intro Q. exact Q. }
    unfold advanced. rewrite (density_op ne _ _ S).
    pose proof (classic_wave_step gamma Hg G IV v p Hv Hp ne sol0 d M0 D0 HE Bl Br Eu HR) as CW.
    unfold rk_inner. destruct (String.eqb_spec rk "low_storage_rk4") as [E|Hne].
    - assert (Etb : tb = rk4_table) by (unfold tb; rewrite E; reflexivity). rewrite Etb in *.
      set (sc1 := {| sc_us := sc_us sc; sc_uk := sc_uk sc; sc_K := repeat (zeros2 (nrows (s_u sol0)) (ncols (s_u sol0))) 4 |}).
      assert (SS : same_scratch sc1 sc) by (repeat split; reflexivity).
      pose proof (ls_inner gamma) as LS.
      assert (L1 : nltb (lit 1 1000000000000000) (nabs (n0 : R)) = false) by (unfold lit, n0; numR; rewrite Rabs_R0; Rcase (1 / 1000000000000000) 0; [lra|reflexivity]).
      assert (L2 : (lit 0 1 : R) = n0) by (unfold lit, n0; numR; lra).
      assert (L3 : (lit 1 1 : R) = n1) by (unfold lit, n1; numR; lra).
      specialize (LS L1 L2 L3 d None dt sol sc1 sc SS).
      destruct (CW rk4_table T dt _ HD' sol sc1) as [sol' [sc' [Q1 [Q2 [Q3 [Q4 [_ [_ Q5]]]]]]]]; try assumption.
      { apply Forall_forall. intros K HKin. apply repeat_spec in HKin. subst K. apply (VpK_0 v ne sol0 M0 Eu). }
      { reflexivity. }
      rewrite Q1 in LS. unfold same_result in LS. destruct (low_storage_stages gamma d None dt 0 (combine ls_betas ls_gammas) sol sc) as [[s2 sc2]|er]; [|contradiction].
      destruct LS as [<- [N1 [N2 _]]]. exists sol', sc2. split; [reflexivity|]. split; [exact Q2|]. split; [|exact Q5].
      split; [rewrite <- N1; exact Q3|]. split; [rewrite <- N2; exact Q4|]. rewrite E. discriminate.
    - assert (El : String.eqb rk "low_storage_rk4" = false) by (apply String.eqb_neq; exact Hne). destruct (V3 eq_refl) as [VK1 VK2].
      destruct (CW tb T dt _ HD' sol sc) as [sol' [sc' [Q1 [Q2 [Q3 [Q4 [Q5 [Q6 Q7]]]]]]]]; try assumption.
      exists sol', sc'. split; [exact Q1|]. split; [exact Q2|]. split; [|exact Q7]. split; [exact Q3|]. split; [exact Q4|]. intros _. split; assumption.
  Qed.
  (** the ghost cells are filled *)
  Definition closed (s : solution R) : Prop := forall e f, (e < ne + 2)%nat -> (f < 3)%nat -> modes s e f = filled ne s e f.
  Lemma closed_bc s s' : Wf ne sol0 s -> apply_bc s = Ok s' -> closed s'.
  Proof.
    intros [W S] E e f He Hf. rewrite (apply_bc_eq _ _ W) in E. apply Ok_inj in E. subst s'.
    assert (Hf' : (f < s_NF s)%nat) by (rewrite (similar_NF _ _ S), NF3; exact Hf). destruct (similar_static _ _ S) as [E1 [E2 _]].
    unfold filled. change (s_bcl (with_u s (bc_u ne s))) with (s_bcl s). change (s_bcr (with_u s (bc_u ne s))) with (s_bcr s).
    pose proof (src_interior (s_bcl s) (s_bcr s) ne e ltac:(rewrite E1; exact Bl) ltac:(rewrite E2; exact Br) (wf_ne _ _ W) He) as Hi.
    rewrite (modes_bc ne s e f W He Hf'), (modes_bc ne s (src_cell (s_bcl s) (s_bcr s) ne e) f W) by (exact Hf' || lia). f_equal. unfold src_cell at 2.
    destruct (Nat.eqb_spec (src_cell (s_bcl s) (s_bcr s) ne e) 0); [lia|]. destruct (Nat.eqb_spec (src_cell (s_bcl s) (s_bcr s) ne e) (ne + 1)); [lia|reflexivity].
  Qed.
  Lemma step_wave cfl tf tout s sc dt o dn : Vp s -> VS sc -> get_next_time_step gamma s tout cfl tf = Ok (dt, o, dn) -> dense_stages ne tb (v * dt) s ->
    exists s' sc', time_step gamma (rk_inner gamma rk d None) None cfl tf tout s sc = Ok (s', sc', (dt, o, dn)) /\ Vp s' /\ VS sc' /\ closed s' /\ holds ne sol0 (advanced dt s) (s_u s').
  Proof.
    intros Vs [V1 [V2 V3]] Hn HD. unfold time_step. rewrite Hn. cbn [rbind].
    destruct (inner_wave dt s (set_us sc s) Vs) as [s1 [sc1 [E1 [Q1 [Q2 Q3]]]]]; [|reflexivity|exact HD|].
    { split; [apply Vp_copy; assumption|]. split; assumption. }
    rewrite E1. cbn [rbind]. set (s2 := with_n _ _). assert (Vs2 : Vp s2) by (apply Vp_clock; exact Q1).
    pose proof Vs2 as [[W2 S2] _]. rewrite (apply_bc_eq ne s2 W2). cbn [rbind limit]. set (s3 := with_u s2 (bc_u ne s2)).
    assert (E3 : apply_bc s2 = Ok s3) by (apply apply_bc_eq; exact W2).
    exists s3, sc1. split; [reflexivity|]. pose proof (Vp_bc gamma v p ne sol0 Eu s2 s3 Vs2 E3) as Vs3. split; [exact Vs3|]. split; [exact Q2|]. split; [apply (closed_bc s2 s3); [exact (conj W2 S2)|exact E3]|].
    intros n e Hn' He. rewrite <- (Q3 n e Hn' He). pose proof Vs3 as [[W3 S3] _].
    pose proof (modes_bc ne s2 e 0 W2 ltac:(lia) ltac:(rewrite (similar_NF _ _ S2), NF3; lia)) as ME. fold s3 in ME.
    assert (Ei : src_cell (s_bcl s2) (s_bcr s2) ne e = e).
    { unfold src_cell. destruct (Nat.eqb_spec e 0); [lia|]. destruct (Nat.eqb_spec e (ne + 1)); [lia|reflexivity]. }
    rewrite Ei in ME. apply (f_equal (fun w => at1 w n)) in ME.
    rewrite (modes_at ne s3 e 0 n W3), (modes_at ne s2 e 0 n W2) in ME by (first [lia|rewrite ?(similar_NF _ _ S2), ?(similar_NF _ _ S3), NF3; lia|rewrite ?(similar_Ns _ _ S2), ?(similar_Ns _ _ S3); exact Hn']).
    rewrite (similar_NF _ _ S2), (similar_NF _ _ S3), NF3 in ME. exact ME.
  Qed.
  Lemma VS_0 : VS {| sc_us := sol0; sc_uk := sol0; sc_K := rk_K0 rk sol0 |}.
  Proof.
    pose proof (Vp_0 gamma Hg v p ne sol0 M0 Eu U0) as V0. split; [exact V0|]. split; [exact V0|]. cbn [sc_K]. intro E. unfold rk_K0. rewrite E. split; [|apply map_length].
    apply Forall_forall. intros K HK. apply in_map_iff in HK. destruct HK as [q [<- _]]. apply (VpK_0 v ne sol0 M0 Eu).
  Qed.

  Section Along.
    Variables (cfl tf : R) (nout : Z).
    Notation visits := (visits gamma rk d None cfl tf nout sol0).
    (** a property of the density that steps keep and that gives positive stages *)
    Variable Inv : solution R -> Prop.
    Hypothesis I0 : Inv sol0.
    Hypothesis IS : forall k tout touts s sc evs dt o dn, visits k tout touts s sc evs -> Vp s -> Inv s -> get_next_time_step gamma s tout cfl tf = Ok (dt, o, dn) ->
      dense_stages ne tb (v * dt) s /\ forall s', Vp s' -> closed s' -> s_t s' = s_t s + dt -> holds ne sol0 (advanced dt s) (s_u s') -> Inv s'.
    Lemma along k tout touts s sc evs : visits k tout touts s sc evs -> Vp s /\ VS sc /\ Inv s.
    Proof.
      assert (ST : forall k tout touts s sc evs s' sc' dt o dn, visits k tout touts s sc evs -> Vp s /\ VS sc /\ Inv s ->
        time_step gamma (rk_inner gamma rk d None) None cfl tf tout s sc = Ok (s', sc', (dt, o, dn)) -> Vp s' /\ VS sc' /\ Inv s').
      { intros k1 tout1 touts1 s1 sc1 evs1 s' sc' dt o dn V [A1 [A2 A3]] E.
        assert (Nx : get_next_time_step gamma s1 tout1 cfl tf = Ok (dt, o, dn)).
        { unfold time_step in E. destruct (get_next_time_step gamma s1 tout1 cfl tf) as [[[dt' o'] dn']|er]; cbn [rbind] in E; [|discriminate].
          inv_bind E. destruct x as [q1 q2]. inv_bind E. inv_bind E. apply Ok_inj in E. injection E as _ _ <- <- <-. reflexivity. }
        destruct (IS _ _ _ _ _ _ _ _ _ V A1 A3 Nx) as [B1 B2]. destruct (step_wave cfl tf tout1 s1 sc1 dt o dn A1 A2 Nx B1) as [s2 [sc2 [E2 [C1 [C2 [C4 C3]]]]]].
        destruct (time_step_clock gamma _ _ _ _ _ _ _ _ _ _ _ _ (fun _ _ _ _ _ => frame_inner gamma rk d None _ _ _ _ _) E) as [_ [Et _]]. numR.
        rewrite E in E2. apply Ok_inj in E2. injection E2 as <- <-. split; [exact C1|]. split; [exact C2|]. apply B2; assumption. }
      intro V. induction V as [ev tout touts Hpr Hs|k tout touts s sc evs s' sc' dt V IH H|k tout tout' touts s sc evs s' sc' dt ev V IH H Hpr].
      - split; [apply (Vp_0 gamma Hg v p ne sol0 M0 Eu U0)|]. split; [apply VS_0|exact I0].
      - exact (ST _ _ _ _ _ _ _ _ _ _ _ V IH H).
      - exact (ST _ _ _ _ _ _ _ _ _ _ _ V IH H).
    Qed.
    Lemma along_step k tout touts s sc evs dt o dn : visits k tout touts s sc evs -> get_next_time_step gamma s tout cfl tf = Ok (dt, o, dn) ->
      exists s' sc', time_step gamma (rk_inner gamma rk d None) None cfl tf tout s sc = Ok (s', sc', (dt, o, dn)) /\ Vp s' /\ Inv s' /\ holds ne sol0 (advanced dt s) (s_u s').
    Proof.
      intros V Nx. destruct (along _ _ _ _ _ _ V) as [A1 [A2 A3]]. destruct (IS _ _ _ _ _ _ _ _ _ V A1 A3 Nx) as [B1 B2].
      destruct (step_wave cfl tf tout s sc dt o dn A1 A2 Nx B1) as [s2 [sc2 [E2 [C1 [C2 [C4 C3]]]]]]. exists s2, sc2. split; [exact E2|].
      destruct (time_step_clock gamma _ _ _ _ _ _ _ _ _ _ _ _ (fun _ _ _ _ _ => frame_inner gamma rk d None _ _ _ _ _) E2) as [_ [Et _]]. numR. split; [exact C1|]. split; [apply B2; assumption|exact C3].
    Qed.
  End Along.
End WaveRun.
