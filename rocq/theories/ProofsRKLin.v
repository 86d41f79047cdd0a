(** Runge-Kutta steps for linear right-hand sides (C09). *)
From Coq Require Import ZArith List Bool Arith String Lia Reals Lra.
From Verif Require Import Num Py PyStr Lib RealLib LegNumpy Ext Basis Sensor Enhance Limiting Solution Solver RKCoeffs RK SpecTime SpecDG SpecRK ProofsTime
  ProofsDG ProofsDG2 ProofsWf ProofsCons ProofsRK.
Import ListNotations.
Open Scope R_scope.

Section Linear.
  Variables (r c : nat) (LL : (nat -> nat -> R) -> nat -> nat -> R).
  Hypothesis LIN : linear_on r c LL.
  Lemma lin_zero : same_on r c (LL (fun _ _ => 0)) (fun _ _ => 0).
  Proof.
    intros n j Hn Hj. pose proof (lin_scale _ _ _ LIN 0 (fun _ _ => 0) n j Hn Hj) as H. cbv beta in H.
    rewrite !Rmult_0_l in H. exact H.
  Qed.
  Lemma lin_sum m (a : nat -> R) (x : nat -> nat -> nat -> R) :
    same_on r c (LL (fun n j => Rsum m (fun i => a i * x i n j))) (fun n j => Rsum m (fun i => a i * LL (x i) n j)).
  Proof.
    induction m as [|m IH]; intros n j Hn Hj.
    - apply lin_zero; assumption.
    - cbn [Rsum]. etransitivity; [apply (lin_add _ _ _ LIN (fun n j => Rsum m (fun i => a i * x i n j)) (fun n j => a m * x m n j)); assumption|].
      f_equal; [apply IH; assumption|apply (lin_scale _ _ _ LIN); assumption].
  Qed.
  Lemma power_ext k x y : same_on r c x y -> same_on r c (power LL k x) (power LL k y).
  Proof. intro H. induction k as [|k IH]; [exact H|]. cbn [power]. apply (lin_ext _ _ _ LIN). exact IH. Qed.

  Variable tb : rk_table.
  Lemma stage_sum_0 : forall k i, (i < k)%nat -> stage_sum tb k i = 0.
  Proof.
    induction k as [|k IH]; intros i Hi; [lia|]. cbn [stage_sum]. apply Rsum_0. intros j Hj. rewrite IH by lia. ring.
  Qed.
  Variables (Res : mat R -> mat R -> Prop) (dt : R) (u : mat R).
  Hypothesis HR : forall U F, shape r c U -> shape r c F -> Res U F -> same_on r c (at2 F) (LL (at2 U)).
  Let P k := power LL k (at2 u).
  Lemma stages_taylor (K : nat -> mat R) :
    (forall i, (i < stages tb)%nat -> exists U F, shape r c U /\ shape r c F /\ Res U F /\
       forall n j, (n < r)%nat -> (j < c)%nat ->
         at2 U n j = at2 u n j + Rsum i (fun k => coef tb i k * at2 (K k) n j) /\ at2 (K i) n j = dt * at2 F n j) ->
    forall i, (i < stages tb)%nat -> same_on r c (at2 (K i)) (fun n j => Rsum (stages tb) (fun k => stage_sum tb k i * dt ^ (S k) * P (S k) n j)).
  Proof.
    intro HK. induction i as [i IH] using (well_founded_induction lt_wf). intros Hi n j Hn Hj.
    destruct (HK i Hi) as [U [F [SU [SF [HF HU]]]]]. destruct (HU n j Hn Hj) as [_ ->]. rewrite (HR U F SU SF HF n j Hn Hj).
    set (m := stages tb) in *.
    assert (EU : same_on r c (at2 U) (fun n j => 1 * at2 u n j + 1 * Rsum m (fun k => stage_sum tb (S k) i * dt ^ (S k) * P (S k) n j))).
    { intros n' j' Hn' Hj'. destruct (HU n' j' Hn' Hj') as [-> _]. rewrite !Rmult_1_l. f_equal.
      rewrite (Rsum_ext i _ (fun k => Rsum m (fun l => coef tb i k * (stage_sum tb l k * dt ^ (S l) * P (S l) n' j')))).
      - rewrite Rsum_swap. apply Rsum_ext. intros l Hl. cbn [stage_sum].
        rewrite !Rmult_assoc, <- Rsum_scale_r. apply Rsum_ext. intros k Hk. ring.
      - intros k Hk. rewrite (IH k Hk ltac:(lia) n' j' Hn' Hj'). symmetry. apply Rsum_scale. }
    transitivity (dt * (LL (at2 u) n j + Rsum m (fun k => stage_sum tb (S k) i * dt ^ (S k) * LL (P (S k)) n j))).
    { f_equal. rewrite (lin_ext _ _ _ LIN _ _ EU n j Hn Hj).
      etransitivity; [apply (lin_add _ _ _ LIN (fun n j => 1 * at2 u n j) (fun n j => 1 * Rsum m (fun k => stage_sum tb (S k) i * dt ^ (S k) * P (S k) n j))); assumption|].
      f_equal.
      - etransitivity; [apply (lin_scale _ _ _ LIN 1 (at2 u)); assumption|]. ring.
      - etransitivity; [apply (lin_scale _ _ _ LIN 1 (fun n j => Rsum m (fun k => stage_sum tb (S k) i * dt ^ (S k) * P (S k) n j))); assumption|].
        rewrite Rmult_1_l. apply (lin_sum m (fun k => stage_sum tb (S k) i * dt ^ (S k)) (fun k => P (S k))); assumption. }
    pose proof (Rsum_S_l m (fun k => stage_sum tb k i * dt ^ (S k) * P (S k) n j)) as E. cbn [Rsum] in E.
    rewrite (stage_sum_0 m i Hi) in E. cbn [stage_sum] in E.
    transitivity (Rsum m (fun k => stage_sum tb k i * dt ^ (S k) * P (S k) n j) + 0 * dt ^ S m * P (S m) n j); [|ring].
    etransitivity; [|symmetry; exact E]. rewrite Rmult_plus_distr_l. f_equal.
    - cbn [pow]. unfold P. cbn [power]. ring.
    - rewrite <- Rsum_scale. apply Rsum_ext. intros k Hk. cbn [pow stage_sum]. unfold P. cbn [power]. ring.
  Qed.

  Lemma butcher_taylor u' : butcher_step tb Res dt r c u u' ->
    same_on r c (at2 u') (fun n j => Rsum (S (stages tb)) (fun k => growth tb k * dt ^ k * P k n j)).
  Proof.
    intros [_ [K [HK Hu]]] n j Hn Hj. rewrite Hu by assumption. rewrite Rsum_S_l. f_equal.
    - cbn [growth pow]. unfold P. cbn [power]. ring.
    - rewrite (Rsum_ext (stages tb) _ (fun i => Rsum (stages tb) (fun k => weight tb i * (stage_sum tb k i * dt ^ (S k) * P (S k) n j)))).
      + rewrite Rsum_swap. apply Rsum_ext. intros k Hk. cbn [growth]. rewrite !Rmult_assoc, <- Rsum_scale_r. apply Rsum_ext. intros i Hi. ring.
      + intros i Hi. rewrite (stages_taylor K HK i Hi n j Hn Hj). symmetry. apply Rsum_scale.
  Qed.
End Linear.

(** * upwind advection is linear *)
Section Adv.
  Variable gamma : R.
  Variables (ne : nat) (s0 : solution R) (d : dg).
  Hypothesis W0 : wf ne s0.
  Hypothesis D0 : wf_dg ne s0 d.
  Hypothesis ADV : s_euler s0 = false.
  Let r := s_Ns s0.
  Let NF := s_NF s0.
  Let c := ((ne + 2) * NF)%nat.
  Lemma src_cell_range bl br e : (e < ne + 2)%nat -> (src_cell bl br ne e < ne + 2)%nat.
  Proof.
    intro He. pose proof (wf_ne _ _ W0). unfold src_cell. repeat match goal with |- context [if ?b then _ else _] => destruct b end; lia.
  Qed.
  Lemma bc_column_range j : (j < c)%nat -> (bc_column ne s0 j < c)%nat.
  Proof.
    unfold c, bc_column. fold NF. intro Hj. destruct (Nat.eq_dec NF 0) as [E|E]; [rewrite E in *; lia|].
    pose proof (src_cell_range (s_bcl s0) (s_bcr s0) (j / NF) ltac:(apply Nat.div_lt_upper_bound; lia)). pose proof (Nat.mod_upper_bound j NF E). nia.
  Qed.
  Lemma adv_linear : linear_on r c (adv_op ne s0).
  Proof.
    pose proof (wf_ne _ _ W0) as Hne.
    constructor; intros.
    - intros n j Hn Hj. unfold adv_op. fold NF r. cbv zeta.
      destruct (Nat.eq_dec NF 0) as [E|E]; [unfold c in Hj; rewrite E in *; lia|].
      assert (B : forall j m, (j < c)%nat -> (m < r)%nat -> x m (bc_column ne s0 j) = y m (bc_column ne s0 j)) by (intros; apply H; [assumption|apply bc_column_range; assumption]).
      rewrite (Rsum_ext (b_NG (s_basis s0)) (fun g => at2 (b_dphi_w (s_basis s0)) n g * Rsum r (fun m => at2 (b_phi (s_basis s0)) g m * x m (bc_column ne s0 j)))
                 (fun g => at2 (b_dphi_w (s_basis s0)) n g * Rsum r (fun m => at2 (b_phi (s_basis s0)) g m * y m (bc_column ne s0 j)))).
      2: { intros g _. f_equal. apply Rsum_ext. intros m Hm. rewrite B by assumption. reflexivity. }
      destruct ((1 <=? j / NF)%nat && (j / NF <=? ne)%nat)%bool eqn:Ei; [|reflexivity].
      apply andb_prop in Ei. destruct Ei as [E1 E2]. apply Nat.leb_le in E1, E2.
      assert (Hj2 : (j + NF < c)%nat). { unfold c. pose proof (Nat.div_mod j NF E). pose proof (Nat.mod_upper_bound j NF E). nia. }
      assert (Hj1 : (NF <= j)%nat). { pose proof (Nat.div_mod j NF E). nia. }
      assert (FU : forall i, (i + NF < c)%nat -> face_up ne s0 x i = face_up ne s0 y i).
      { intros i Hi. unfold face_up. fold r NF. destruct (s_enh s0).
        - f_equal; apply Rsum_ext; intros m Hm; rewrite B by (assumption || lia); reflexivity.
        - apply Rsum_ext; intros m Hm; rewrite B by (assumption || lia); reflexivity. }
      rewrite !FU by lia. reflexivity.
    - intros n j Hn Hj. unfold adv_op. fold NF r. cbv zeta.
      assert (S1 : forall k (a : nat -> R) (p q : nat -> R), Rsum k (fun m => a m * (p m + q m)) = Rsum k (fun m => a m * p m) + Rsum k (fun m => a m * q m))
        by (intros; rewrite <- Rsum_plus; apply Rsum_ext; intros; ring).
      assert (FU : forall i, face_up ne s0 (fun n j => x n j + y n j) i = face_up ne s0 x i + face_up ne s0 y i).
      { intro i. unfold face_up. fold r NF. destruct (s_enh s0).
        - rewrite (S1 r _ (fun m => x m _) (fun m => y m _)), (S1 r _ (fun m => x m (bc_column ne s0 (i + NF))) (fun m => y m (bc_column ne s0 (i + NF)))). ring.
        - rewrite (S1 r _ (fun m => x m _) (fun m => y m _)). ring. }
      rewrite !FU. 
      rewrite (Rsum_ext (b_NG (s_basis s0)) _ (fun g => at2 (b_dphi_w (s_basis s0)) n g *
         (Rsum r (fun m => at2 (b_phi (s_basis s0)) g m * x m (bc_column ne s0 j)) + Rsum r (fun m => at2 (b_phi (s_basis s0)) g m * y m (bc_column ne s0 j))))).
      2: { intros g _. f_equal. apply (S1 r _ (fun m => x m _) (fun m => y m _)). }
      rewrite (S1 (b_NG (s_basis s0))). destruct (_ && _)%bool; destruct (Nat.even n); ring.
    - intros n j Hn Hj. unfold adv_op. fold NF r. cbv zeta.
      assert (S1 : forall k (b p : nat -> R), Rsum k (fun m => b m * (a * p m)) = a * Rsum k (fun m => b m * p m))
        by (intros; rewrite <- Rsum_scale; apply Rsum_ext; intros; ring).
      assert (FU : forall i, face_up ne s0 (fun n j => a * x n j) i = a * face_up ne s0 x i).
      { intro i. unfold face_up. fold r NF. destruct (s_enh s0).
        - rewrite (S1 r _ (fun m => x m _)), (S1 r _ (fun m => x m (bc_column ne s0 (i + NF)))). ring.
        - rewrite (S1 r _ (fun m => x m _)). ring. }
      rewrite !FU.
      rewrite (Rsum_ext (b_NG (s_basis s0)) _ (fun g => at2 (b_dphi_w (s_basis s0)) n g *
         (a * Rsum r (fun m => at2 (b_phi (s_basis s0)) g m * x m (bc_column ne s0 j))))).
      2: { intros g _. f_equal. apply (S1 r _ (fun m => x m _)). }
      rewrite (S1 (b_NG (s_basis s0))). destruct (_ && _)%bool; destruct (Nat.even n); ring.
  Qed.
  Lemma adv_rhs U F : shape r c U -> rhs_of gamma d s0 U F -> same_on r c (at2 F) (adv_op ne s0 (at2 U)).
  Proof.
    intros SU [s1 H] n j Hn Hj. unfold c in Hj.
    assert (WU : wf ne (with_u s0 U)) by (apply wf_with_u; assumption).
    apply (residual_char gamma ne _ d s1 F WU) in H; [|exact D0]. destruct H as [Hbc [q [Hq ->]]].
    destruct (apply_bc_modes ne _ WU) as [s1' [E1 [S1 [W1 M1]]]]. rewrite Hbc in E1. apply Ok_inj in E1. subst s1'.
    assert (B1 : s_basis s1 = s_basis s0 /\ s_minv s1 = s_minv s0 /\ s_enh s1 = s_enh s0 /\ s_euler s1 = false /\ s_riemann s1 = RUpwind).
    { destruct S1 as [? [? [? [? [-> _]]]]]. cbn. repeat split; try reflexivity; try exact ADV. apply (wf_kind _ _ W0). exact ADV. }
    destruct B1 as [Bb [Bm [Be [Bu Br]]]].
    assert (BN : s_Ns s1 = r) by (rewrite (similar_Ns _ _ S1); reflexivity).
    assert (BF : s_NF s1 = NF) by (rewrite (similar_NF _ _ S1); reflexivity).
    assert (EN : NF <> 0%nat) by (intro E; rewrite E in Hj; lia).
    assert (MA : forall e f m, (e < ne + 2)%nat -> (f < NF)%nat -> (m < r)%nat -> at1 (modes s1 e f) m = at2 U m (src_cell (s_bcl s0) (s_bcr s0) ne e * NF + f)).
    { intros e f m He Hf Hm. rewrite M1 by assumption. rewrite (modes_at ne (with_u s0 U)); try assumption; [reflexivity|].
      apply src_cell_range. exact He. }
    assert (VM : forall (v : vec R) e f, List.length v = r -> (e < ne + 2)%nat -> (f < NF)%nat ->
              vdot v (modes s1 e f) = Rsum r (fun m => at1 v m * at2 U m (bc_column ne s0 (e * NF + f)))).
    { intros v e f Lv He Hf. rewrite (vdot_R v _ r Lv) by (rewrite (length_modes ne s1 e f W1); exact BN).
      apply Rsum_ext. intros m Hm. rewrite MA by assumption. f_equal. f_equal. unfold bc_column. fold NF.
      rewrite (Nat.add_comm (e * NF)), Nat.div_add, Nat.mod_add, Nat.div_small, Nat.mod_small by assumption. rewrite Nat.add_0_l. reflexivity. }
    assert (FQ : forall e f, (e <= ne)%nat -> (f < NF)%nat -> at1 (q e) f = face_up ne s0 (at2 U) (e * NF + f)).
    { intros e f He Hf. specialize (Hq e He). unfold iface_flux, num_flux in Hq. rewrite Br in Hq. apply Ok_inj in Hq. rewrite <- Hq.
      rewrite BF, at1_tab by exact Hf. unfold face_minus, face_up. rewrite Be, Bb. fold r NF.
      pose proof (wf_enh _ _ W0) as We. destruct (s_enh s0) as [en|].
      - destruct We as [La [Lb _]]. numR. rewrite !VM by (assumption || lia). f_equal. apply Rsum_ext. intros m Hm. do 3 f_equal. nia.
      - rewrite VM by first [lia | apply (shape_row 2); [apply (wf_psi _ _ W0)|lia]]. reflexivity. }
    assert (He : (j / NF < ne + 2)%nat) by (apply Nat.div_lt_upper_bound; lia).
    assert (Hf : (j mod NF < NF)%nat) by (apply Nat.mod_upper_bound; exact EN).
    assert (Ej : (j / NF * NF + j mod NF = j)%nat) by (pose proof (Nat.div_mod j NF EN); nia).
    assert (VOL : volume_term gamma s1 (modes s1) n (j / NF) (j mod NF) =
       Rsum (b_NG (s_basis s0)) (fun g => at2 (b_dphi_w (s_basis s0)) n g * Rsum r (fun m => at2 (b_phi (s_basis s0)) g m * at2 U m (bc_column ne s0 j)))).
    { unfold volume_term. rewrite Bb.
      rewrite (vdot_R _ _ (b_NG (s_basis s0))); [|apply (shape_row (s_Ns s0)); [apply (wf_dphi _ _ W0)|exact Hn]|apply length_tab].
      apply Rsum_ext. intros g Hg. rewrite at1_tab by exact Hg. unfold at2, row. f_equal. unfold phys_flux. rewrite Bu. unfold node_state.
      rewrite BF, at1_tab by exact Hf. rewrite Bb, VM.
      - rewrite Ej. reflexivity.
      - apply (shape_row (b_NG (s_basis s0))); [apply (wf_phi _ _ W0)|exact Hg].
      - exact He.
      - exact Hf. }
    unfold residual_mat. rewrite at2_tab2 by (rewrite ?BN, ?BF; assumption). cbv zeta. rewrite BF. unfold adv_op. cbv zeta. fold r NF.
    destruct ((1 <=? j / NF)%nat && (j / NF <=? ne)%nat)%bool eqn:Ei.
    - apply andb_prop in Ei. destruct Ei as [E1 E2]. apply Nat.leb_le in E1, E2.
      unfold residual_of, face_term. rewrite VOL, Bm, !FQ by lia. numR.
      replace (j / NF * NF + j mod NF)%nat with j by lia. replace ((j / NF - 1) * NF + j mod NF)%nat with (j - NF)%nat by nia.
      destruct (Nat.even n); ring.
    - rewrite VOL, Bm. numR. ring.
  Qed.
End Adv.

(** * steps of advection runs *)
Lemma adv_step gamma ne sol0 d rk cfl tf nout k tout touts s sc evs s' sc' dt o dn :
  wf ne sol0 -> wf_dg ne sol0 d -> s_euler sol0 = false ->
  visits gamma rk d None cfl tf nout sol0 k tout touts s sc evs ->
  time_step gamma (rk_inner gamma rk d None) None cfl tf tout s sc = Ok (s', sc', (dt, o, dn)) ->
  forall e f n, (e < ne + 2)%nat -> (f < s_NF sol0)%nat -> (n < s_Ns sol0)%nat ->
    at2 (s_u s') n (e * s_NF sol0 + f) =
    Rsum (S (stages (rk_choice rk))) (fun i => growth (rk_choice rk) i * dt ^ i *
      power (adv_op ne sol0) i (at2 (s_u s)) n (src_cell (s_bcl sol0) (s_bcr sol0) ne e * s_NF sol0 + f)).
Proof.
  intros W D Ha V H e f n He Hf Hn. destruct (step_butcher gamma ne sol0 d W D rk _ _ _ _ _ _ _ _ _ _ _ _ _ _ V H) as [[u' [B E]] _].
  rewrite E by assumption.
  refine (butcher_taylor _ _ _ (adv_linear ne sol0 W) _ _ _ _ _ u' B n _ Hn _).
  - intros U F SU _ R1. apply (adv_rhs gamma ne sol0 d W D Ha U F SU R1).
  - pose proof (src_cell_range ne sol0 W (s_bcl sol0) (s_bcr sol0) e He). nia.
Qed.
