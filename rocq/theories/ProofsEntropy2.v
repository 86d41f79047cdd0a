(** The advection step beside an Euler step (C63); first-order runs with uniform velocity and pressure (C64). *)
From Coq Require Import ZArith List Bool Arith String Lia Reals Lra.
From Verif Require Import Num Py PyStr Lib RealLib LegNumpy Ext Basis Sensor Enhance Limiting EulerPhysics Solution Solver RKCoeffs RK
  SpecTime SpecDG SpecPoly SpecRK SpecEuler SpecUniform SpecTrace SpecContact ProofsPoly ProofsBasis ProofsLeg ProofsDG ProofsDG2 ProofsWf ProofsCons ProofsLim ProofsLimRun ProofsRK ProofsRKLin
  ProofsRiemann ProofsTime ProofsTime2 ProofsRun ProofsUniform ProofsContact ProofsEntropy ProofsMonotone ProofsShift ProofsGodunov ProofsSol.
Import ListNotations.
Open Scope list_scope.
Open Scope R_scope.

(** * the advection step *)
Lemma companion_step gamma ne (a : solution R) d' rk tau : wf ne a -> s_euler a = false -> wf_dg ne a d' ->
  exists a' sc', rk_inner gamma rk d' None tau a {| sc_us := a; sc_uk := a; sc_K := rk_K0 rk a |} = Ok (a', sc') /\ Wf ne a a' /\
    forall n e, (n < s_Ns a)%nat -> (e < ne + 2)%nat ->
      at2 (s_u a') n e = Rsum (S (stages (rk_choice rk))) (fun k => growth (rk_choice rk) k * tau ^ k * power (adv_op ne a) k (at2 (s_u a)) n e).
Proof.
  intros W Ha D. assert (HR : s_riemann a <> RGodunov) by (rewrite (proj2 (wf_kind _ _ W) Ha); discriminate).
  destruct (start_sc ne a W rk) as [SC NE]. pose proof (Wf_0 ne a W) as Wa.
  destruct (inner_total gamma ne a d' None D HR (no_limiter_total gamma ne a) rk tau a _ SC NE Wa) as [[a' sc'] E].
  exists a', sc'. split; [exact E|].
  pose proof (rk_inner_step gamma ne a d' W D rk tau a _ a' sc' Wa SC) as RS. cbn [sc_K sc_us] in RS.
  destruct RS as [B [Wa' _]]; [intro El; unfold rk_K0; rewrite El; apply map_length|reflexivity|exact E|]. split; [exact Wa'|].
  intros n e Hn He.
  refine (butcher_taylor _ _ _ (adv_linear ne a W) _ _ _ _ _ (s_u a') B n e Hn _).
  - intros U F SU _ R1. apply (adv_rhs gamma ne a d' W D Ha U F SU R1).
  - unfold s_NF. rewrite Ha. lia.
Qed.

(** * stages at order 0 *)
Definition smix (tb : rk_table) (nu : R) (i j : nat) : R := Rsum (S (stages tb)) (fun k => stage_sum tb k i * nu ^ k * bdiff k j).
Lemma smix_step tb nu i sg y e :
  Rsum (S (stages tb)) (fun k => stage_sum tb k i * nu ^ k * diffs sg k y e) = Rsum (S (stages tb)) (fun j => smix tb nu i j * y (iter_map sg j e)).
Proof.
  unfold smix. set (n := S (stages tb)).
  rewrite (Rsum_ext n _ (fun k => Rsum n (fun j => stage_sum tb k i * nu ^ k * bdiff k j * y (iter_map sg j e)))).
  2:{ intros k Hk. rewrite (diffs_sum sg y k e n Hk), <- Rsum_scale. apply Rsum_ext. intros. ring. }
  rewrite Rsum_swap. apply Rsum_ext. intros j Hj. rewrite <- Rsum_scale_r. apply Rsum_ext. intros. ring.
Qed.
Lemma smix_total tb nu i : Rsum (S (stages tb)) (smix tb nu i) = 1.
Proof.
  pose proof (smix_step tb nu i (fun e => e) (fun _ => 1) 0%nat) as H. cbn beta in H.
  rewrite (Rsum_ext _ (fun j => smix tb nu i j * 1) (smix tb nu i)) in H by (intros; ring). rewrite <- H.
  rewrite (Rsum_single _ 0); [cbn; ring|lia|]. intros k Hk Hne. destruct k as [|k]; [lia|].
  replace (diffs (fun e => e) (S k) (fun _ => 1) 0%nat) with 0; [ring|]. cbn [diffs]. ring.
Qed.
Definition convex_stages (tb : rk_table) (nu : R) : Prop := forall i j, (i < stages tb)%nat -> (j <= stages tb)%nat -> 0 <= smix tb nu i j.
Lemma rk3_stages nu : 0 <= nu <= 1 / 2 -> convex_stages rk3_table nu.
Proof.
  intros [H0 H1] i j Hi Hj. change (stages rk3_table) with 3%nat in *. unfold smix. change (stages rk3_table) with 3%nat.
  destruct i as [|[|[|i]]]; [ | | |lia]; (destruct j as [|[|[|[|j]]]]; [ | | | |lia]);
    cbn [Rsum stage_sum bdiff Nat.eqb]; unfold coef, cval; cbn; match goal with |- 0 <= ?e => idtac end; nra.
Qed.
Lemma rk4_stages nu : 0 <= nu <= 1 / 2 -> convex_stages rk4_table nu.
Proof.
  intros [H0 H1] i j Hi Hj. change (stages rk4_table) with 4%nat in *. unfold smix. change (stages rk4_table) with 4%nat.
  assert (Q : 0 <= nu * nu <= nu / 2) by nra. assert (Q3 : 0 <= nu * nu * nu <= nu * nu / 2) by nra.
  destruct i as [|[|[|[|i]]]]; [ | | | |lia]; (destruct j as [|[|[|[|[|j]]]]]; [ | | | | |lia]);
    cbn [Rsum stage_sum bdiff Nat.eqb]; unfold coef, cval; cbn; nra.
Qed.

(** * order 0: a positive average in every cell is a positive density everywhere *)
Lemma dense_order0 {X : Ext R} ne (a : solution R) : made ne a -> b_p (s_basis a) = 0%nat -> s_enh a = None -> bc_known (s_bcl a) -> bc_known (s_bcr a) ->
  (forall e, (1 <= e <= ne)%nat -> 0 < at1 (modes a e 0) 0) -> dense ne a.
Proof.
  intros M Hp He Bl Br Hpos. pose proof (md_wf _ _ M) as W. assert (Ns1 : s_Ns a = 1%nat) by (unfold s_Ns, b_Ns; rewrite Hp; reflexivity).
  assert (M1 : forall e, exists c, modes a e 0 = [c] /\ c = at1 (modes a e 0) 0).
  { intro e. pose proof (length_modes ne a e 0 W) as L. rewrite Ns1 in L. destruct (modes a e 0) as [|c [|? ?]]; try discriminate. exists c. split; reflexivity. }
  split.
  - intros e g Hee Hgg. destruct (M1 e) as [c [E1 E2]]. pose proof (Hpos e Hee) as Q. rewrite <- E2 in Q. rewrite E1. unfold legseries. cbn [List.length Rsum nth]. rewrite LegP_0. lra.
  - intros e Hee. pose proof (wf_ne _ _ W) as Hne.
    assert (F : forall w e', List.length w = 1%nat -> at1 w 0 = 1 -> (e' < ne + 2)%nat -> 0 < vdot w (filled ne a e' 0)).
    { intros w e' Lw Ew He'. unfold filled. pose proof (src_interior (s_bcl a) (s_bcr a) ne e' Bl Br Hne He') as Hi. set (e2 := src_cell _ _ _ _) in *.
      rewrite (vdot_R w _ 1 Lw) by (rewrite (length_modes ne a e2 0 W); exact Ns1). cbn [Rsum]. rewrite Ew. pose proof (Hpos e2 Hi). lra. }
    assert (PS : forall k, (k < 2)%nat -> List.length (row (b_psi (s_basis a)) k) = 1%nat /\ at1 (row (b_psi (s_basis a)) k) 0 = 1).
    { intros k Hk. split; [rewrite <- Ns1; apply (shape_row 2); [apply (wf_psi _ _ W)|exact Hk]|].
      change (at2 (b_psi (s_basis a)) k 0 = 1). rewrite (md_basis _ _ M), Hp. destruct (psi_entry 0 0 (le_n _)) as [Q1 Q2].
      destruct k as [|[|k]]; [rewrite Q1; apply LegP_0|rewrite Q2; apply LegP_0|lia]. }
    unfold rho_minus, rho_plus, face_minus, face_plus. rewrite He. split; (apply F; [apply PS; lia|apply PS; lia|lia]).
Qed.

Section First.
  Context {X : Ext R}.
  Variable gamma : R.
  Hypothesis Hg : 1 < gamma.
  Hypothesis G : gauss_ok.
  Hypothesis IV : inv_ok.
  Variables v p : R.
  Hypothesis Hv : 0 <= v.
  Hypothesis Hp : 0 < p.
  Variables (ne : nat) (sol0 : solution R) (d : dg).
  Hypothesis M0 : made ne sol0.
  Hypothesis D0 : wf_dg ne sol0 d.
  Hypothesis He : s_enh sol0 = None.
  Hypothesis Hp0 : b_p (s_basis sol0) = 0%nat.
  Hypothesis Bl : bc_known (s_bcl sol0).
  Hypothesis Br : bc_known (s_bcr sol0).
  Hypothesis Eu : s_euler sol0 = true.
  Hypothesis HR : s_riemann sol0 = RRoe \/ s_riemann sol0 = RGodunov.
  Hypothesis U0 : uniform_vp gamma ne v p sol0.
  Hypothesis B0 : apply_bc sol0 = Ok sol0.
  Variables lo hi : R.
  Hypothesis Hlo : 0 < lo.
  Hypothesis R0 : forall e, (1 <= e <= ne)%nat -> lo <= at1 (modes sol0 e 0) 0 <= hi.
  Variables (rk : string) (cfl tf : R) (nout : Z).
  Hypothesis Hk : In rk ["rk3"; "rk4"; "low_storage_rk4"]%string.
  Hypothesis Hc : 0 <= cfl <= 1 / 2.
  Hypothesis Hn : (2 <= nout)%Z.
  Hypothesis Ht : s_t sol0 <= tf.
  Let W0 := md_wf _ _ M0.
  Let NF3 : s_NF sol0 = 3%nat. Proof. unfold s_NF. rewrite Eu. reflexivity. Qed.
  Let Ns1 : s_Ns sol0 = 1%nat. Proof. unfold s_Ns, b_Ns. rewrite Hp0. reflexivity. Qed.
  Let Hne : (1 <= ne)%nat. Proof. exact (wf_ne _ _ W0). Qed.
  Notation Vp := (Vp gamma v p ne sol0).
  Notation visits := (visits gamma rk d None cfl tf nout sol0).
  Notation src := (src_cell (s_bcl sol0) (s_bcr sol0) ne).
  Let HE : enh_sound sol0. Proof. unfold enh_sound. rewrite He. exact I. Qed.

  Definition Rng (s : solution R) : Prop := closed ne s /\ forall e, (1 <= e <= ne)%nat -> lo <= at2 (s_u s) 0 (e * 3 + 0) <= hi.
  Lemma avg_at s e f : Wf ne sol0 s -> (e < ne + 2)%nat -> (f < 3)%nat -> at1 (modes s e f) 0 = at2 (s_u s) 0 (e * 3 + f).
  Proof.
    intros [W S] Hee Hf. rewrite (modes_at ne s) by (first [exact W|exact Hee|rewrite (similar_NF _ _ S), NF3; exact Hf|apply Ns_pos]). rewrite (similar_NF _ _ S), NF3. reflexivity.
  Qed.
  Lemma Rng_speed s : Vp s -> Rng s -> exists w, max_wave_speed gamma s = Ok w /\ v < w /\ w <= v + sqrt (gamma * p / lo).
  Proof.
    intros [HW HL] [C Rg]. pose proof HW as [W S]. destruct (similar_static _ _ S) as [E1 [E2 _]].
    assert (Q : forall e, (e < ne + 2)%nat -> 0 < at1 (modes s (src e) 0) 0 /\ 0 < p /\
       (at1 (modes s e 0) 0, at1 (modes s e 1) 0, at1 (modes s e 2) 0) = cons gamma (at1 (modes s (src e) 0) 0) v p).
    { intros e Hee. pose proof (src_interior (s_bcl sol0) (s_bcr sol0) ne e Bl Br Hne Hee) as Hi. rewrite (C e 0%nat Hee ltac:(lia)), (C e 1%nat Hee ltac:(lia)), (C e 2%nat Hee ltac:(lia)). unfold filled. rewrite E1, E2. set (e2 := src e) in *.
      destruct (HL 0%nat e2 ltac:(rewrite Ns1; lia) Hi) as [L1 L2].
      rewrite !(avg_at s e2) by (first [exact HW|lia]). pose proof (Rg e2 Hi) as Rr. split; [lra|]. split; [exact Hp|]. rewrite L1, L2. unfold cons, energy. cbn [unit0]. st3; field; lra. }
    destruct (max_speed_bounds gamma Hg ne s (fun e => at1 (modes s (src e) 0) 0) (fun _ => v) (fun _ => p) W ltac:(rewrite (similar_euler _ _ S); exact Eu) Q) as [m [Em [_ [e [Hee ->]]]]].
    exists (Rabs v + sound_of gamma (at1 (modes s (src e) 0) 0) p). split; [exact Em|]. rewrite (Rabs_right v) by lra.
    destruct (Q e Hee) as [P1 _]. pose proof (src_interior (s_bcl sol0) (s_bcr sol0) ne e Bl Br Hne Hee) as Hi. set (e2 := src e) in *.
    assert (Lr : lo <= at1 (modes s e2 0) 0) by (rewrite (avg_at s e2) by (first [exact HW|lia]); apply Rg; exact Hi). unfold sound_of. set (r := at1 (modes s e2 0) 0) in *.
    assert (Gp : 0 < gamma * p) by nra.
    assert (0 < gamma * p / r) by (apply Rdiv_lt_0_compat; assumption).
    split; [pose proof (sqrt_lt_R0 _ H); lra|]. apply Rplus_le_compat_l. apply sqrt_le_1_alt. unfold Rdiv. apply Rmult_le_compat_l; [lra|]. apply Rinv_le_contravar; assumption.
  Qed.
  Lemma step_size k tout touts s sc evs dt o dn : visits k tout touts s sc evs -> Vp s -> Rng s -> get_next_time_step gamma s tout cfl tf = Ok (dt, o, dn) ->
    0 <= v * dt / s_dx sol0 <= 1 / 2.
  Proof.
    intros V Vs Rs Nx. pose proof (md_dx _ _ M0) as Hd. apply next_step_cases in Nx. destruct Nx as [w [Ew [He' Hcs]]].
    destruct (Rng_speed s Vs Rs) as [w' [Ew' [W1 _]]]. rewrite Ew in Ew'. apply Ok_inj in Ew'. subst w'.
    apply (visits_inv gamma rk d None cfl tf nout sol0 Hn Ht) in V.
    assert (Htt : tout <= tf) by (rewrite (li_tout _ _ _ _ _ _ _ _ V); apply out_time_le_tf; first [exact Ht|pose proof (li_k _ _ _ _ _ _ _ _ V); lia]).
    pose proof (li_t _ _ _ _ _ _ _ _ V) as Hle. destruct Vs as [[_ S] _].
    assert (Ex : s_dx s = s_dx sol0) by (destruct S as [? [? [? [? [-> _]]]]]; reflexivity). rewrite Ex, (similar_basis _ _ S), Hp0 in Hcs, He'. cbn [Nat.mul Nat.add INR] in Hcs, He'. rewrite Rmult_1_r in Hcs, He'.
    unfold eps_dt in He'. numR.
    assert (Q : 0 <= dt <= s_dx sol0 * cfl / w) by (destruct Hcs as [[? [-> _]]|[[? [? [-> _]]]|[? [? [-> _]]]]]; lra).
    assert (Wp : 0 < w) by lra.
    assert (Q2 : dt * w <= s_dx sol0 * cfl).
    { apply Rle_trans with (s_dx sol0 * cfl / w * w); [apply Rmult_le_compat_r; lra|]. right. field. lra. }
    split; [apply Rmult_le_pos; [nra|apply Rlt_le, Rinv_0_lt_compat, Hd]|]. apply Rmult_le_reg_r with (s_dx sol0); [exact Hd|].
    unfold Rdiv. rewrite Rmult_assoc, Rinv_l by lra. nra.
  Qed.
  Lemma choice_stages nu : 0 <= nu <= 1 / 2 -> convex_stages (rk_choice rk) nu /\ convex (rk_choice rk) nu.
  Proof.
    intro H. assert (H' : 0 <= nu <= 1) by lra.
    destruct Hk as [<-|[<-|[<-|[]]]]; (split; [first [apply rk3_stages|apply rk4_stages]; exact H|first [apply rk3_convex|apply rk4_convex]; exact H']).
  Qed.
  Section AtState.
    Variable s : solution R.
    Hypothesis Vs : Vp s.
    Hypothesis Rs : Rng s.
    Variable dt : R.
    Hypothesis Nu : 0 <= v * dt / s_dx sol0 <= 1 / 2.
    Let a := density_of ne s.
    Let x := at2 (s_u a).
    Let tb := rk_choice rk.
    Let Ma : made ne a. Proof. destruct Vs as [[W S] _]. apply density_made. eapply made_similar; eassumption. Qed.
    Let Sa : similar sol0 s. Proof. apply Vs. Qed.
    Let Pa : b_p (s_basis a) = 0%nat. Proof. change (s_basis a) with (s_basis s). rewrite (similar_basis _ _ Sa). exact Hp0. Qed.
    Let Ea : s_enh a = None. Proof. change (s_enh a) with (s_enh s). destruct (similar_static _ _ Sa) as [_ [_ [-> _]]]. exact He. Qed.
    Let Bla : bc_known (s_bcl a). Proof. change (s_bcl a) with (s_bcl s). destruct (similar_static _ _ Sa) as [-> _]. exact Bl. Qed.
    Let Bra : bc_known (s_bcr a). Proof. change (s_bcr a) with (s_bcr s). destruct (similar_static _ _ Sa) as [_ [-> _]]. exact Br. Qed.
    Let Xa : s_dx a = s_dx sol0. Proof. change (s_dx a) with (s_dx s). destruct Sa as [? [? [? [? [-> _]]]]]. reflexivity. Qed.
    Let nu := v * dt / s_dx sol0.
    Lemma x_range e : (1 <= e <= ne)%nat -> lo <= x 0%nat e <= hi.
    Proof.
      intro Hee. unfold x, a. rewrite <- (density_at ne sol0 Eu s 0 e) by (first [apply Vs|exact Hee|rewrite Ns1; lia]). apply Rs. exact Hee.
    Qed.
    Lemma powers k e : (1 <= e <= ne)%nat -> (v * dt) ^ k * power (adv_op ne a) k x 0 e = nu ^ k * diffs (leftof ne a) k (x 0%nat) e.
    Proof.
      intro Hee. rewrite (power0 ne a Ma eq_refl Ea Pa Bla Bra x k e Hee). rewrite Xa. unfold nu, Rdiv. rewrite !Rpow_mult_distr. ring.
    Qed.
    Lemma combine_range (c : nat -> R) m e : (forall j, (j < m)%nat -> 0 <= c j) -> Rsum m c = 1 -> (1 <= e <= ne)%nat ->
      lo <= Rsum m (fun j => c j * x 0%nat (iter_map (leftof ne a) j e)) <= hi.
    Proof.
      intros Cp Ct Hee. split.
      - apply Rle_trans with (Rsum m c * lo); [rewrite Ct; lra|]. rewrite <- Rsum_scale_r. apply Rsum_le. intros j Hj.
        apply Rmult_le_compat_l; [apply Cp; exact Hj|apply x_range, (iter_in ne a Ma Pa Bla Bra); exact Hee].
      - apply Rle_trans with (Rsum m c * hi); [|rewrite Ct; lra]. rewrite <- Rsum_scale_r. apply Rsum_le. intros j Hj.
        apply Rmult_le_compat_l; [apply Cp; exact Hj|apply x_range, (iter_in ne a Ma Pa Bla Bra); exact Hee].
    Qed.
    Lemma stage_range i e : (i < stages tb)%nat -> (1 <= e <= ne)%nat -> lo <= stage_poly tb (adv_op ne a) (v * dt) x i 0 e <= hi.
    Proof.
      intros Hi Hee. replace (stage_poly tb (adv_op ne a) (v * dt) x i 0 e) with (Rsum (S (stages tb)) (fun k => stage_sum tb k i * nu ^ k * diffs (leftof ne a) k (x 0%nat) e)).
      - rewrite smix_step. apply combine_range; [|apply smix_total|exact Hee]. intros j Hj. apply (choice_stages nu Nu); [exact Hi|unfold tb in Hj; lia].
      - rewrite Rsum_S_l. unfold stage_poly. f_equal; [cbn [stage_sum pow diffs]; ring|]. apply Rsum_ext. intros k Hkk. rewrite !Rmult_assoc, <- (powers (S k) e Hee). ring.
    Qed.
    Lemma next_range e : (1 <= e <= ne)%nat -> lo <= advanced v ne rk dt s 0 e <= hi.
    Proof.
      intro Hee. unfold advanced. fold tb a x.
      rewrite (Rsum_ext (S (stages tb)) _ (fun k => growth tb k * nu ^ k * diffs (leftof ne a) k (x 0%nat) e)) by (intros k Hkk; rewrite !Rmult_assoc, <- (powers k e Hee); ring).
      rewrite mix_step. apply combine_range; [|apply mix_total|exact Hee]. intros j Hj. apply (choice_stages nu Nu). unfold tb in Hj. lia.
    Qed.
    Lemma stages_dense : dense_stages ne tb (v * dt) s.
    Proof.
      intros i Hi. fold a x. set (b := with_u a _).
      assert (Wb : wf ne b) by (apply wf_with_u; [apply Ma|]; change (s_Ns a) with (s_Ns s); change (s_NF a) with 1%nat; rewrite Nat.mul_1_r; apply shape_tab2).
      assert (Mb : made ne b) by (eapply made_similar; [exact Ma|apply similar_with_u|exact Wb]).
      apply (dense_order0 ne b Mb Pa Ea Bla Bra). intros e Hee.
      rewrite (modes_at ne b e 0 0 Wb) by (first [lia|change (s_NF b) with 1%nat; lia|apply Ns_pos]). change (s_NF b) with 1%nat. replace (e * 1 + 0)%nat with e by lia.
      unfold b. cbn [s_u with_u]. rewrite at2_tab2 by (first [apply Ns_pos|lia]). pose proof (stage_range i e Hi Hee). lra.
    Qed.
  End AtState.
  Lemma first_inv k tout touts s sc evs dt o dn : visits k tout touts s sc evs -> Vp s -> Rng s -> get_next_time_step gamma s tout cfl tf = Ok (dt, o, dn) ->
    dense_stages ne (rk_choice rk) (v * dt) s /\ forall s', Vp s' -> closed ne s' -> s_t s' = s_t s + dt -> holds ne sol0 (advanced v ne rk dt s) (s_u s') -> Rng s'.
  Proof.
    intros V Vs Rs Nx. pose proof (step_size _ _ _ _ _ _ _ _ _ V Vs Rs Nx) as Nu. split; [apply (stages_dense s Vs Rs dt Nu)|].
    intros s' Vs' C' _ Hs. split; [exact C'|]. intros e Hee. rewrite (Hs 0%nat e ltac:(rewrite Ns1; lia) Hee). apply (next_range s Vs Rs dt Nu e Hee).
  Qed.
  Lemma Rng_0 : Rng sol0.
  Proof.
    split; [apply (closed_bc ne sol0 Bl Br Eu sol0 sol0); [apply Wf_0; exact W0|exact B0]|]. intros e Hee. rewrite <- (avg_at sol0 e 0) by (first [apply Wf_0; exact W0|lia]). apply R0. exact Hee.
  Qed.
  Lemma first_visits k tout touts s sc evs : visits k tout touts s sc evs -> Vp s /\ VS gamma v p ne sol0 rk sc /\ Rng s.
  Proof. exact (along gamma Hg G IV v p Hv Hp ne sol0 d M0 D0 HE Bl Br Eu HR U0 rk cfl tf nout Rng Rng_0 first_inv k tout touts s sc evs). Qed.
  Lemma first_stages k tout touts s sc evs dt o dn : visits k tout touts s sc evs -> get_next_time_step gamma s tout cfl tf = Ok (dt, o, dn) ->
    dense_stages ne (rk_choice rk) (v * dt) s.
  Proof. intros V Nx. destruct (first_visits _ _ _ _ _ _ V) as [V1 [_ V3]]. exact (proj1 (first_inv _ _ _ _ _ _ _ _ _ V V1 V3 Nx)). Qed.
  Lemma first_run fuel evs out : integrate gamma rk d None cfl tf nout fuel sol0 = (evs, out) ->
    forall s, (exists ev, In ev evs /\ s = ev_sol ev) \/ out = Finished s ->
    similar sol0 s /\ uniform_vp gamma ne v p s /\ forall e, (1 <= e <= ne)%nat -> lo <= at1 (modes s e 0) 0 <= hi.
  Proof.
    intros I s Hs.
    assert (Q : forall s, Vp s /\ Rng s -> similar sol0 s /\ uniform_vp gamma ne v p s /\ forall e, (1 <= e <= ne)%nat -> lo <= at1 (modes s e 0) 0 <= hi).
    { intros s1 [Q1 Q2]. split; [apply Q1|]. split; [apply (Vp_uniform gamma Hg v p ne sol0 Eu s1 Q1)|]. intros e Hee. rewrite (avg_at s1 e 0) by (first [apply Q1|lia]). apply Q2. exact Hee. }
    destruct (run_states gamma rk d None cfl tf nout sol0 (fun s => Vp s /\ Rng s)) with (fuel := fuel) (evs := evs) (out := out) as [HE1 HF].
    - split; [apply (Vp_0 gamma Hg v p ne sol0 M0 Eu U0)|exact Rng_0].
    - intros k tout touts s1 sc evs0 s' sc' [[dt o] dn] V [V1 V2] T.
      destruct (time_step_clock gamma _ _ _ _ _ _ _ _ _ _ _ _ (fun _ _ _ _ _ => frame_inner gamma rk d None _ _ _ _ _) T) as [Nx _].
      destruct (along_step gamma Hg G IV v p Hv Hp ne sol0 d M0 D0 HE Bl Br Eu HR U0 rk cfl tf nout Rng Rng_0 first_inv _ _ _ _ _ _ _ _ _ V Nx) as [s2 [sc2 [E2 [A1 [A2 _]]]]].
      rewrite T in E2. apply Ok_inj in E2. injection E2 as <- <-. split; assumption.
    - exact I.
    - rewrite Forall_forall in HE1. apply Q. destruct Hs as [[ev [Hi ->]]|Hs]; [apply HE1; exact Hi|apply HF; exact Hs].
  Qed.
  Lemma first_completes : 1 / 100000000000000 <= s_dx sol0 * cfl / (v + sqrt (gamma * p / lo)) ->
    exists F evs s, s_t s = tf /\ forall fuel, (F <= fuel)%nat -> integrate gamma rk d None cfl tf nout fuel sol0 = (evs, Finished s).
  Proof.
    intro Hd. destruct (run_terminates gamma rk d None cfl tf nout sol0 Hn Ht) as [F [evs [out [_ [HF [[e ->]|[s [-> Es]]]]]]]].
    2:{ exists F, evs, s. split; [exact Es|exact HF]. }
    exfalso. destruct (integrate_ends gamma rk d None cfl tf nout sol0 Hn Ht) as [F' [r [_ [HF' Hr]]]].
    specialize (HF (Nat.max F F') (Nat.le_max_l _ _)). rewrite HF' in HF by apply Nat.le_max_r. subst r.
    destruct Hr as [[e' [Hpr _]]|Hr]; [rewrite (printer_total ne) in Hpr by exact W0; discriminate|].
    cbn [good_end] in Hr. destruct Hr as [k [tout [touts [s [sc [Hvis Hcs]]]]]]. destruct (first_visits _ _ _ _ _ _ Hvis) as [V1 [V2 V3]].
    assert (Hgn : exists r, get_next_time_step gamma s tout cfl tf = Ok r).
    { destruct (Rng_speed s V1 V3) as [w [Ew [W1 W2]]]. unfold get_next_time_step, cfl_time_step. rewrite Ew. cbn [rbind].
      pose proof V1 as [[_ S] _]. assert (Ex : s_dx s = s_dx sol0) by (destruct S as [? [? [? [? [-> _]]]]]; reflexivity). rewrite Ex, (similar_basis _ _ S), Hp0.
      unfold sanity_check_dt, nnat, lit. numR. rewrite <- INR_IZR_INZ. cbn [Nat.mul Nat.add INR]. rewrite Rmult_1_r.
      pose proof (md_dx _ _ M0) as Hdx.
      assert (s_dx sol0 * cfl / (v + sqrt (gamma * p / lo)) <= s_dx sol0 * cfl / w).
      { unfold Rdiv. apply Rmult_le_compat_l; [nra|]. apply Rinv_le_contravar; lra. }
      match goal with |- context [Rltb ?a ?b] => Rcase a b end; [lra|]. cbn [rbind]. eauto. }
    destruct Hgn as [[[dt o] dn] Hgn].
    destruct (along_step gamma Hg G IV v p Hv Hp ne sol0 d M0 D0 HE Bl Br Eu HR U0 rk cfl tf nout Rng Rng_0 first_inv _ _ _ _ _ _ _ _ _ Hvis Hgn) as [s2 [sc2 [E2 [A1 _]]]].
    destruct Hcs as [Hcs|[s'' [sc'' [dt' [b [Hcs Hpr]]]]]]; [congruence|].
    rewrite E2 in Hcs. apply Ok_inj in Hcs. injection Hcs as <- _ _ _ _. rewrite (printer_total ne) in Hpr by apply A1. discriminate.
  Qed.
End First.

(** * every step of a run beside the advection solver's step *)
Section Steps.
  Context {X : Ext R}.
  Variable gamma : R.
  Hypothesis Hg : 1 < gamma.
  Hypothesis G : gauss_ok.
  Hypothesis IV : inv_ok.
  Variables v p : R.
  Hypothesis Hv : 0 <= v.
  Hypothesis Hp : 0 < p.
  Variables (ne : nat) (sol0 : solution R) (d : dg).
  Hypothesis M0 : made ne sol0.
  Hypothesis D0 : wf_dg ne sol0 d.
  Hypothesis HE : enh_sound sol0.
  Hypothesis Bl : bc_known (s_bcl sol0).
  Hypothesis Br : bc_known (s_bcr sol0).
  Hypothesis Eu : s_euler sol0 = true.
  Hypothesis HR : s_riemann sol0 = RRoe \/ s_riemann sol0 = RGodunov.
  Hypothesis U0 : uniform_vp gamma ne v p sol0.
  Lemma wave_steps rk cfl tf nout :
    (forall k tout touts s sc evs dt o dn, visits gamma rk d None cfl tf nout sol0 k tout touts s sc evs ->
       get_next_time_step gamma s tout cfl tf = Ok (dt, o, dn) -> dense_stages ne (rk_choice rk) (v * dt) s) ->
    forall k tout touts s sc evs, visits gamma rk d None cfl tf nout sol0 k tout touts s sc evs ->
    uniform_vp gamma ne v p s /\
    forall dt o dn, get_next_time_step gamma s tout cfl tf = Ok (dt, o, dn) ->
    exists s' sc', time_step gamma (rk_inner gamma rk d None) None cfl tf tout s sc = Ok (s', sc', (dt, o, dn)) /\ uniform_vp gamma ne v p s' /\
    let a := density_of ne s in
    exists d' a' sca, DG a = Ok d' /\ rk_inner gamma rk d' None (v * dt) a {| sc_us := a; sc_uk := a; sc_K := rk_K0 rk a |} = Ok (a', sca) /\
      forall e, (1 <= e <= ne)%nat -> modes s' e 0 = modes a' e 0.
  Proof.
    intros HS k tout touts s sc evs V.
    assert (IS : forall k tout touts s sc evs dt o dn, visits gamma rk d None cfl tf nout sol0 k tout touts s sc evs -> Vp gamma v p ne sol0 s -> True -> get_next_time_step gamma s tout cfl tf = Ok (dt, o, dn) ->
      dense_stages ne (rk_choice rk) (v * dt) s /\ forall s', Vp gamma v p ne sol0 s' -> closed ne s' -> s_t s' = s_t s + dt -> holds ne sol0 (advanced v ne rk dt s) (s_u s') -> True).
    { intros. split; [eapply HS; eassumption|trivial]. }
    destruct (along gamma Hg G IV v p Hv Hp ne sol0 d M0 D0 HE Bl Br Eu HR U0 rk cfl tf nout (fun _ => True) I IS _ _ _ _ _ _ V) as [Vs _].
    split; [apply (Vp_uniform gamma Hg v p ne sol0 Eu s Vs)|]. intros dt o dn Nx.
    destruct (along_step gamma Hg G IV v p Hv Hp ne sol0 d M0 D0 HE Bl Br Eu HR U0 rk cfl tf nout (fun _ => True) I IS _ _ _ _ _ _ _ _ _ V Nx) as [s' [sc' [E [A1 [_ A2]]]]].
    exists s', sc'. split; [exact E|]. split; [apply (Vp_uniform gamma Hg v p ne sol0 Eu s' A1)|]. cbv zeta.
    pose proof Vs as [[W S] _]. pose proof A1 as [[W' S'] _]. assert (Ma : made ne (density_of ne s)) by (apply density_made; eapply made_similar; [exact M0|exact S|exact W]).
    pose proof (md_wf _ _ Ma) as Wa. destruct (DG_total ne _ Wa) as [d' Ed]. pose proof (DG_wf ne _ d' Wa Ed) as Dw.
    destruct (companion_step gamma ne (density_of ne s) d' rk (v * dt) Wa eq_refl Dw) as [a' [sca [Ea [[Wa' Sa'] Ha]]]].
    exists d', a', sca. split; [exact Ed|]. split; [exact Ea|]. intros e He.
    assert (NF3 : s_NF sol0 = 3%nat) by (unfold s_NF; rewrite Eu; reflexivity).
    assert (NsE : s_Ns a' = s_Ns sol0) by (rewrite (similar_Ns _ _ Sa'); change (s_Ns (density_of ne s)) with (s_Ns s); apply (similar_Ns _ _ S)).
    assert (NF1 : s_NF a' = 1%nat) by (rewrite (similar_NF _ _ Sa'); reflexivity).
    apply (vec_ext (s_Ns sol0)); [rewrite (length_modes ne s' e 0 W'); apply (similar_Ns _ _ S')|rewrite (length_modes ne a' e 0 Wa'); exact NsE|]. intros n Hn.
    rewrite (modes_at ne s' e 0 n W'), (modes_at ne a' e 0 n Wa') by (first [lia|rewrite (similar_NF _ _ S'), NF3; lia|rewrite (similar_Ns _ _ S'); exact Hn|rewrite NsE; exact Hn]).
    rewrite (similar_NF _ _ S'), NF3, NF1. rewrite (A2 n e Hn He). replace (e * 1 + 0)%nat with e by lia.
    rewrite Ha by (first [change (s_Ns (density_of ne s)) with (s_Ns s); rewrite (similar_Ns _ _ S); exact Hn|lia]). reflexivity.
  Qed.
End Steps.
