(** Superposition of advection runs, and what follows for two runs with close data. *)
From Coq Require Import ZArith List Bool Arith String Lia Reals Lra Psatz.
From Verif Require Import Num Py PyStr Lib RealLib LegNumpy Ext Basis Enhance AdvectionPhysics Solution Solver RKCoeffs RK SpecDG SpecMonotone SpecTime SpecPoly SpecRK SpecUniform SpecSuper
  ProofsDG ProofsDG2 ProofsCons ProofsWf ProofsBasis ProofsAdv ProofsLeg ProofsTime ProofsTime2 ProofsRun ProofsRKLin ProofsRKOrder ProofsRKTables ProofsUniform ProofsAnalysis3 ProofsMonotone.
Import ListNotations.
Open Scope list_scope.
Open Scope R_scope.

Lemma all3_app {P} (Rel : P -> P -> P -> Prop) xs ys zs xs' ys' zs' : all3 Rel xs ys zs -> all3 Rel xs' ys' zs' -> all3 Rel (xs ++ xs') (ys ++ ys') (zs ++ zs').
Proof. intros H H'. induction H; cbn [app]; [exact H'|constructor; assumption]. Qed.
Lemma power_lin r c LL : linear_on r c LL -> forall a b x y k, same_on r c (power LL k (fun n j => a * x n j + b * y n j)) (fun n j => a * power LL k x n j + b * power LL k y n j).
Proof.
  intros LO a b x y k. induction k as [|k IH]; intros n j Hn Hj; [reflexivity|]. cbn [power].
  rewrite (lin_ext _ _ _ LO _ _ IH n j Hn Hj).
  rewrite (lin_add _ _ _ LO (fun n j => a * power LL k x n j) (fun n j => b * power LL k y n j) n j Hn Hj). cbn beta.
  rewrite (lin_scale _ _ _ LO a (power LL k x) n j Hn Hj), (lin_scale _ _ _ LO b (power LL k y) n j Hn Hj). reflexivity.
Qed.
Lemma similar_eul (s s' : solution R) : similar s s' -> s_euler s' = s_euler s.
Proof. intros [? [? [? [? [-> _]]]]]. reflexivity. Qed.
Lemma next_step_same gamma (s s' : solution R) tout cfl tf : similar s s' -> s_euler s = false -> s_t s' = s_t s ->
  get_next_time_step gamma s' tout cfl tf = get_next_time_step gamma s tout cfl tf.
Proof.
  intros S E T. destruct (similar_fields _ _ S) as [F1 [_ [F3 [F4 _]]]]. unfold get_next_time_step, cfl_time_step, max_wave_speed. rewrite F3, E, F1, F4, T. reflexivity.
Qed.

Section Super.
  Variables (gamma a b : R) (ne : nat) (sol1 sol2 sol3 : solution R) (d : dg).
  Hypothesis W1 : wf ne sol1.
  Hypothesis W2 : wf ne sol2.
  Hypothesis W3 : wf ne sol3.
  Hypothesis S1 : similar sol3 sol1.
  Hypothesis S2 : similar sol3 sol2.
  Hypothesis Ha : s_euler sol3 = false.
  Hypothesis D : wf_dg ne sol3 d.
  Variables (rk : string) (cfl tf : R) (nout : Z).
  Notation visits := (visits gamma rk d None cfl tf nout).
  Notation step := (time_step gamma (rk_inner gamma rk d None) None cfl tf).
  Let D1 : wf_dg ne sol1 d. Proof. unfold wf_dg in *. rewrite (similar_Ns _ _ S1), (similar_NF _ _ S1). exact D. Qed.
  Let D2 : wf_dg ne sol2 d. Proof. unfold wf_dg in *. rewrite (similar_Ns _ _ S2), (similar_NF _ _ S2). exact D. Qed.
  Let E1 : s_euler sol1 = false. Proof. rewrite (similar_eul _ _ S1). exact Ha. Qed.
  Let E2 : s_euler sol2 = false. Proof. rewrite (similar_eul _ _ S2). exact Ha. Qed.

  Lemma combines_at s1 s2 s3 : Wf ne sol1 s1 -> Wf ne sol2 s2 -> Wf ne sol3 s3 ->
    (forall e f n, (e < ne + 2)%nat -> (f < s_NF s3)%nat -> (n < s_Ns s3)%nat -> at1 (modes s3 e f) n = a * at1 (modes s1 e f) n + b * at1 (modes s2 e f) n) <->
    (forall n j, (n < s_Ns sol3)%nat -> (j < (ne + 2) * s_NF sol3)%nat -> at2 (s_u s3) n j = a * at2 (s_u s1) n j + b * at2 (s_u s2) n j).
  Proof.
    intros [V1 T1] [V2 T2] [V3 T3].
    assert (N3 : s_NF s3 = s_NF sol3) by apply (similar_NF _ _ T3). assert (M3 : s_Ns s3 = s_Ns sol3) by apply (similar_Ns _ _ T3).
    assert (N1 : s_NF s1 = s_NF sol3) by (rewrite (similar_NF _ _ T1); apply (similar_NF _ _ S1)). assert (M1 : s_Ns s1 = s_Ns sol3) by (rewrite (similar_Ns _ _ T1); apply (similar_Ns _ _ S1)).
    assert (N2 : s_NF s2 = s_NF sol3) by (rewrite (similar_NF _ _ T2); apply (similar_NF _ _ S2)). assert (M2 : s_Ns s2 = s_Ns sol3) by (rewrite (similar_Ns _ _ T2); apply (similar_Ns _ _ S2)).
    pose proof (NF_pos sol3) as NFp.
    split; intros H.
    - intros n j Hn Hj. pose proof (Nat.div_mod j (s_NF sol3) ltac:(lia)) as DM. pose proof (Nat.mod_upper_bound j (s_NF sol3) ltac:(lia)) as MB.
      assert (Hq : (j / s_NF sol3 < ne + 2)%nat) by (apply Nat.div_lt_upper_bound; lia).
      specialize (H (j / s_NF sol3)%nat (j mod s_NF sol3)%nat n Hq ltac:(rewrite N3; exact MB) ltac:(rewrite M3; exact Hn)).
      rewrite (modes_at ne s3), (modes_at ne s1), (modes_at ne s2) in H by (first [assumption|rewrite ?N1, ?N2, ?N3, ?M1, ?M2, ?M3; assumption]).
      rewrite N1, N2, N3 in H. replace (j / s_NF sol3 * s_NF sol3 + j mod s_NF sol3)%nat with j in H by lia. exact H.
    - intros e f n He Hf Hn. rewrite N3 in Hf. rewrite M3 in Hn.
      rewrite (modes_at ne s3), (modes_at ne s1), (modes_at ne s2) by (first [assumption|rewrite ?N1, ?N2, ?N3, ?M1, ?M2, ?M3; assumption]).
      rewrite N1, N2, N3. apply H; [exact Hn|nia].
  Qed.
  Definition Cmb (s1 s2 s3 : solution R) : Prop := Wf ne sol1 s1 /\ Wf ne sol2 s2 /\ Wf ne sol3 s3 /\ combines a b ne s1 s2 s3.

  Lemma super_step k1 tout t1 s1 sc1 v1 k2 t2 s2 sc2 v2 k3 t3 s3 sc3 v3 :
    visits sol1 k1 tout t1 s1 sc1 v1 -> visits sol2 k2 tout t2 s2 sc2 v2 -> visits sol3 k3 tout t3 s3 sc3 v3 -> combines a b ne s1 s2 s3 ->
    (exists e, step tout s1 sc1 = Raise e /\ step tout s2 sc2 = Raise e /\ step tout s3 sc3 = Raise e) \/
    exists s1' sc1' s2' sc2' s3' sc3' r, step tout s1 sc1 = Ok (s1', sc1', r) /\ step tout s2 sc2 = Ok (s2', sc2', r) /\ step tout s3 sc3 = Ok (s3', sc3', r) /\ Cmb s1' s2' s3'.
  Proof.
    intros V1 V2 V3 [C1 [C2 [C3 [C4 C5]]]].
    destruct (Wf_visits gamma ne sol1 d None W1 D1 _ _ _ _ _ _ _ _ _ _ V1) as [X1 [Y1 [Z1 _]]].
    destruct (Wf_visits gamma ne sol2 d None W2 D2 _ _ _ _ _ _ _ _ _ _ V2) as [X2 [Y2 [Z2 _]]].
    destruct (Wf_visits gamma ne sol3 d None W3 D _ _ _ _ _ _ _ _ _ _ V3) as [X3 [Y3 [Z3 _]]].
    assert (G1 : get_next_time_step gamma s1 tout cfl tf = get_next_time_step gamma s3 tout cfl tf).
    { unfold get_next_time_step, cfl_time_step, max_wave_speed. destruct (similar_fields _ _ S1) as [A1 [_ [A3 [A4 _]]]]. destruct (similar_fields _ _ (proj2 X1)) as [B1 [_ [B3 [B4 _]]]]. destruct (similar_fields _ _ (proj2 X3)) as [Q1 [_ [Q3 [Q4 _]]]].
      rewrite B3, A3, Q3, Ha, B1, A1, Q1, B4, A4, Q4, C1. reflexivity. }
    assert (G2 : get_next_time_step gamma s2 tout cfl tf = get_next_time_step gamma s3 tout cfl tf).
    { unfold get_next_time_step, cfl_time_step, max_wave_speed. destruct (similar_fields _ _ S2) as [A1 [_ [A3 [A4 _]]]]. destruct (similar_fields _ _ (proj2 X2)) as [B1 [_ [B3 [B4 _]]]]. destruct (similar_fields _ _ (proj2 X3)) as [Q1 [_ [Q3 [Q4 _]]]].
      rewrite B3, A3, Q3, Ha, B1, A1, Q1, B4, A4, Q4, C2. reflexivity. }
    destruct (get_next_time_step gamma s3 tout cfl tf) as [r|e] eqn:G3.
    2:{ left. exists e. unfold time_step. rewrite G1, G2, G3. cbn [rbind]. auto. }
    right.
    assert (U1 : s_riemann sol1 <> RGodunov) by (rewrite (proj2 (wf_kind _ _ W1) E1); discriminate).
    assert (U2 : s_riemann sol2 <> RGodunov) by (rewrite (proj2 (wf_kind _ _ W2) E2); discriminate).
    assert (U3 : s_riemann sol3 <> RGodunov) by (rewrite (proj2 (wf_kind _ _ W3) Ha); discriminate).
    destruct (time_step_total gamma ne sol1 d None D1 U1 (no_limiter_total gamma ne sol1) rk cfl tf tout s1 sc1 r X1 Y1 Z1 G1) as [s1' [sc1' T1]].
    destruct (time_step_total gamma ne sol2 d None D2 U2 (no_limiter_total gamma ne sol2) rk cfl tf tout s2 sc2 r X2 Y2 Z2 G2) as [s2' [sc2' T2]].
    destruct (time_step_total gamma ne sol3 d None D U3 (no_limiter_total gamma ne sol3) rk cfl tf tout s3 sc3 r X3 Y3 Z3 G3) as [s3' [sc3' T3]].
    exists s1', sc1', s2', sc2', s3', sc3', r. split; [exact T1|]. split; [exact T2|]. split; [exact T3|].
    destruct (Wf_time_step gamma ne sol1 d None D1 _ _ _ _ _ _ _ _ _ X1 Y1 Z1 T1) as [X1' _].
    destruct (Wf_time_step gamma ne sol2 d None D2 _ _ _ _ _ _ _ _ _ X2 Y2 Z2 T2) as [X2' _].
    destruct (Wf_time_step gamma ne sol3 d None D _ _ _ _ _ _ _ _ _ X3 Y3 Z3 T3) as [X3' _].
    split; [exact X1'|]. split; [exact X2'|]. split; [exact X3'|]. destruct r as [[dt o] dn].
    destruct (time_step_clock gamma _ _ _ _ _ _ _ _ _ _ _ _ (fun _ _ _ _ _ => frame_inner gamma rk d None _ _ _ _ _) T1) as [_ [K1 [K2 _]]].
    destruct (time_step_clock gamma _ _ _ _ _ _ _ _ _ _ _ _ (fun _ _ _ _ _ => frame_inner gamma rk d None _ _ _ _ _) T2) as [_ [K3 [K4 _]]].
    destruct (time_step_clock gamma _ _ _ _ _ _ _ _ _ _ _ _ (fun _ _ _ _ _ => frame_inner gamma rk d None _ _ _ _ _) T3) as [_ [K5 [K6 _]]].
    split; [rewrite K1, K5, C1; reflexivity|]. split; [rewrite K3, K5, C2; reflexivity|]. split; [rewrite K2, K6, C3; reflexivity|]. split; [rewrite K4, K6, C4; reflexivity|].
    apply (combines_at s1' s2' s3' X1' X2' X3'). intros n j Hn Hj.
    pose proof (proj1 (combines_at s1 s2 s3 X1 X2 X3) C5) as Lin.
    pose proof (NF_pos sol3) as NFp. pose proof (Nat.div_mod j (s_NF sol3) ltac:(lia)) as DM. pose proof (Nat.mod_upper_bound j (s_NF sol3) ltac:(lia)) as MB.
    assert (Hq : (j / s_NF sol3 < ne + 2)%nat) by (apply Nat.div_lt_upper_bound; lia).
    pose proof (adv_step gamma ne sol1 d rk cfl tf nout _ _ _ _ _ _ _ _ _ _ _ W1 D1 E1 V1 T1 (j / s_NF sol3)%nat (j mod s_NF sol3)%nat n Hq ltac:(rewrite (similar_NF _ _ S1); exact MB) ltac:(rewrite (similar_Ns _ _ S1); exact Hn)) as A1.
    pose proof (adv_step gamma ne sol2 d rk cfl tf nout _ _ _ _ _ _ _ _ _ _ _ W2 D2 E2 V2 T2 (j / s_NF sol3)%nat (j mod s_NF sol3)%nat n Hq ltac:(rewrite (similar_NF _ _ S2); exact MB) ltac:(rewrite (similar_Ns _ _ S2); exact Hn)) as A2.
    pose proof (adv_step gamma ne sol3 d rk cfl tf nout _ _ _ _ _ _ _ _ _ _ _ W3 D Ha V3 T3 (j / s_NF sol3)%nat (j mod s_NF sol3)%nat n Hq MB Hn) as A3.
    destruct (similar_fields _ _ S1) as [_ [_ [_ [_ [L1 R1]]]]]. destruct (similar_fields _ _ S2) as [_ [_ [_ [_ [L2 R2]]]]].
    rewrite (similar_NF _ _ S1), L1, R1 in A1. rewrite (similar_NF _ _ S2), L2, R2 in A2.
    replace (j / s_NF sol3 * s_NF sol3 + j mod s_NF sol3)%nat with j in A1, A2, A3 by lia. rewrite A1, A2, A3.
    pose proof (src_cell_range ne sol3 W3 (s_bcl sol3) (s_bcr sol3) _ Hq) as SR.
    set (i0 := (src_cell (s_bcl sol3) (s_bcr sol3) ne (j / s_NF sol3) * s_NF sol3 + j mod s_NF sol3)%nat) in *.
    assert (Hi0 : (i0 < (ne + 2) * s_NF sol3)%nat) by (unfold i0; nia).
    assert (PO : forall s k x, similar sol3 s -> power (adv_op ne s) k x = power (adv_op ne sol3) k x).
    { intros s k x Ss. induction k as [|k IH]; [reflexivity|]. cbn [power]. rewrite IH. apply adv_op_similar. exact Ss. }
    rewrite <- !Rsum_scale, <- Rsum_plus. apply Rsum_ext. intros k Hk. rewrite (PO sol1 k _ S1), (PO sol2 k _ S2).
    pose proof (power_lin _ _ _ (adv_linear ne sol3 W3) a b (at2 (s_u s1)) (at2 (s_u s2)) k n i0 Hn Hi0) as PL. cbn beta in PL.
    replace (power (adv_op ne sol3) k (at2 (s_u s3)) n i0) with (a * power (adv_op ne sol3) k (at2 (s_u s1)) n i0 + b * power (adv_op ne sol3) k (at2 (s_u s2)) n i0); [ring|].
    rewrite <- PL. symmetry. apply (power_ext _ _ _ (adv_linear ne sol3 W3)); [|exact Hn|exact Hi0]. intros n' j' Hn' Hj'. apply Lin; assumption.
  Qed.

  Lemma event_rel k dt s1 s2 s3 v1 v2 v3 : Cmb s1 s2 s3 -> printer k dt s1 = Ok v1 -> printer k dt s2 = Ok v2 -> printer k dt s3 = Ok v3 -> combines_event a b ne v1 v2 v3.
  Proof.
    intros [_ [_ [_ C]]] H1 H2 H3. apply printer_Ok in H1, H2, H3. subst. cbn. unfold combines_event. cbn. repeat (split; [reflexivity|]). exact C.
  Qed.
  Lemma super_loop : forall fuel k tout touts s1 sc1 v1 s2 sc2 v2 s3 sc3 v3,
    visits sol1 k tout touts s1 sc1 v1 -> visits sol2 k tout touts s2 sc2 v2 -> visits sol3 k tout touts s3 sc3 v3 -> combines a b ne s1 s2 s3 ->
    all3 (combines_event a b ne) v1 v2 v3 ->
    let r1 := time_loop gamma (rk_inner gamma rk d None) None cfl tf fuel k tout touts s1 sc1 v1 in
    let r2 := time_loop gamma (rk_inner gamma rk d None) None cfl tf fuel k tout touts s2 sc2 v2 in
    let r3 := time_loop gamma (rk_inner gamma rk d None) None cfl tf fuel k tout touts s3 sc3 v3 in
    all3 (combines_event a b ne) (fst r1) (fst r2) (fst r3) /\ combines_outcome a b ne (snd r1) (snd r2) (snd r3).
  Proof.
    induction fuel as [|fuel IH]; intros k tout touts s1 sc1 v1 s2 sc2 v2 s3 sc3 v3 V1 V2 V3 C Hv; cbv zeta.
    - split; [exact Hv|constructor].
    - cbn [time_loop]. destruct (super_step _ _ _ _ _ _ _ _ _ _ _ _ _ _ _ _ V1 V2 V3 C) as [[e [T1 [T2 T3]]]|[s1' [sc1' [s2' [sc2' [s3' [sc3' [[[dt o] dn] [T1 [T2 [T3 C']]]]]]]]]]].
      { rewrite T1, T2, T3. split; [exact Hv|constructor]. }
      rewrite T1, T2, T3. pose proof C' as [X1 [X2 [X3 CC]]]. destruct o.
      + pose proof (printer_total ne k dt s1' (proj1 X1)) as P1. pose proof (printer_total ne k dt s2' (proj1 X2)) as P2. pose proof (printer_total ne k dt s3' (proj1 X3)) as P3.
        rewrite P1, P2, P3.
        match type of P1 with _ = Ok ?w1 => match type of P2 with _ = Ok ?w2 => match type of P3 with _ = Ok ?w3 =>
          assert (Hv' : all3 (combines_event a b ne) (v1 ++ [w1]) (v2 ++ [w2]) (v3 ++ [w3])) by (apply all3_app; [exact Hv|constructor; [eapply event_rel; eassumption|constructor]]) end end end.
        destruct dn; [split; [exact Hv'|constructor; exact CC]|].
        destruct touts as [|tout' touts]; [split; [exact Hv'|constructor]|].
        apply IH; [eapply visits_output; eassumption|eapply visits_output; eassumption|eapply visits_output; eassumption|exact CC|exact Hv'].
      + destruct dn; [split; [exact Hv|constructor; exact CC]|].
        apply IH; [eapply visits_quiet; eassumption|eapply visits_quiet; eassumption|eapply visits_quiet; eassumption|exact CC|exact Hv].
  Qed.
  Theorem superposition fuel : combines a b ne sol1 sol2 sol3 ->
    let r1 := integrate gamma rk d None cfl tf nout fuel sol1 in
    let r2 := integrate gamma rk d None cfl tf nout fuel sol2 in
    let r3 := integrate gamma rk d None cfl tf nout fuel sol3 in
    all3 (combines_event a b ne) (fst r1) (fst r2) (fst r3) /\ combines_outcome a b ne (snd r1) (snd r2) (snd r3).
  Proof.
    intros C. cbv zeta. rewrite !integrate_run_rk. unfold run_rk. destruct (nout <? 0)%Z; [split; constructor|].
    pose proof (printer_total ne 0 n0 sol1 W1) as P1. pose proof (printer_total ne 0 n0 sol2 W2) as P2. pose proof (printer_total ne 0 n0 sol3 W3) as P3.
    destruct C as [C1 [C2 C3]]. rewrite P1, P2, P3.
    assert (CC : Cmb sol1 sol2 sol3) by (split; [apply Wf_0; exact W1|]; split; [apply Wf_0; exact W2|]; split; [apply Wf_0; exact W3|]; split; [exact C1|]; split; [exact C2|exact C3]).
    match type of P1 with _ = Ok ?w1 => match type of P2 with _ = Ok ?w2 => match type of P3 with _ = Ok ?w3 =>
      assert (Hv : all3 (combines_event a b ne) [w1] [w2] [w3]) by (constructor; [eapply event_rel; eassumption|constructor]) end end end.
    destruct (slice_from (linspace (s_t sol3) tf (Z.to_nat nout)) 1) as [|tout touts] eqn:Es.
    { rewrite C1, C2, Es. split; [exact Hv|constructor]. }
    assert (Es1 : slice_from (linspace (s_t sol1) tf (Z.to_nat nout)) 1 = tout :: touts) by (rewrite C1; exact Es).
    assert (Es2 : slice_from (linspace (s_t sol2) tf (Z.to_nat nout)) 1 = tout :: touts) by (rewrite C2; exact Es).
    rewrite Es1, Es2. apply super_loop; [apply visits_start; assumption|apply visits_start; assumption|apply visits_start; assumption|apply CC|exact Hv].
  Qed.
End Super.

(** * order 0: the integral of |u| does not grow in a periodic domain *)
Section Mass.
  Context {X : Ext R}.
  Variables (ne : nat) (sol0 : solution R).
  Hypothesis M : made ne sol0.
  Hypothesis Ha : s_euler sol0 = false.
  Hypothesis He : s_enh sol0 = None.
  Hypothesis Hp : b_p (s_basis sol0) = 0%nat.
  Hypothesis Hl : is_literal (s_bcl sol0) "periodic" = true.
  Hypothesis Hr : bc_known (s_bcr sol0).
  Variables (gamma : R) (d : dg) (rk : string) (cfl tf : R) (nout : Z).
  Hypothesis D : wf_dg ne sol0 d.
  Hypothesis Hk : In rk ["rk3"; "rk4"; "low_storage_rk4"; "rk5"]%string.
  Hypothesis Hc : cfl <= 1.
  Hypothesis Hn : (2 <= nout)%Z.
  Hypothesis Ht : s_t sol0 <= tf.
  Let Hl' : bc_known (s_bcl sol0). Proof. left. exact Hl. Qed.
  Lemma shift_sum (f : nat -> R) : Rsum ne (fun i => f (leftof ne sol0 (i + 1))) = Rsum ne (fun i => f (i + 1)%nat).
  Proof.
    pose proof (ne_pos ne sol0 M) as Hne. assert (En : ne = S (ne - 1)) by lia.
    transitivity (Rsum (S (ne - 1)) (fun i => f (leftof ne sol0 (i + 1)))); [rewrite <- En; reflexivity|].
    transitivity (Rsum (S (ne - 1)) (fun i => f (i + 1)%nat)); [|rewrite <- En; reflexivity]. rewrite Rsum_S_l. cbn [Rsum Nat.add].
    rewrite (Rsum_ext (ne - 1) (fun i => f (leftof ne sol0 (S (i + 1)))) (fun i => f (i + 1)%nat)).
    2:{ intros i Hi. f_equal. unfold leftof. rewrite (src_id ne sol0 Hp) by lia. lia. }
    assert (L : leftof ne sol0 1 = ne) by (unfold leftof; cbn [Nat.sub]; unfold src_cell; cbn [Nat.eqb]; rewrite Hl; reflexivity). rewrite L. replace (ne - 1 + 1)%nat with ne by lia. ring.
  Qed.
  Lemma iter_sum (f : nat -> R) j : Rsum ne (fun i => f (iter_map (leftof ne sol0) j (i + 1))) = Rsum ne (fun i => f (i + 1)%nat).
  Proof.
    induction j as [|j IH]; [reflexivity|]. rewrite <- IH. rewrite <- (shift_sum (fun e => f (iter_map (leftof ne sol0) j e))). apply Rsum_ext. intros i Hi. rewrite iter_shift. reflexivity.
  Qed.
  Lemma step_mass (y z : nat -> R) nu : convex (rk_choice rk) nu ->
    (forall e, (1 <= e <= ne)%nat -> z e = Rsum (S (stages (rk_choice rk))) (fun j => mix (rk_choice rk) nu j * y (iter_map (leftof ne sol0) j e))) ->
    Rsum ne (fun i => Rabs (z (i + 1)%nat)) <= Rsum ne (fun i => Rabs (y (i + 1)%nat)).
  Proof.
    intros Cv E. set (tb := rk_choice rk) in *.
    apply Rle_trans with (Rsum ne (fun i => Rsum (S (stages tb)) (fun j => mix tb nu j * Rabs (y (iter_map (leftof ne sol0) j (i + 1)))))).
    - apply Rsum_le. intros i Hi. rewrite (E (i + 1)%nat) by lia. eapply Rle_trans; [apply Rsum_abs|]. apply Rsum_le. intros j Hj.
      rewrite Rabs_mult, (Rabs_right (mix tb nu j)) by (apply Rle_ge, Cv; lia). apply Rle_refl.
    - rewrite Rsum_swap. rewrite (Rsum_ext _ _ (fun j => mix tb nu j * Rsum ne (fun i => Rabs (y (i + 1)%nat)))).
      + rewrite Rsum_scale_r, mix_total. lra.
      + intros j Hj. rewrite Rsum_scale. f_equal. apply (iter_sum (fun e => Rabs (y e)) j).
  Qed.
  Lemma run_mass fuel evs out : integrate gamma rk d None cfl tf nout fuel sol0 = (evs, out) ->
    forall s, (exists ev, In ev evs /\ s = ev_sol ev) \/ out = Finished s ->
    Rsum ne (fun i => Rabs (average s (i + 1))) <= Rsum ne (fun i => Rabs (average sol0 (i + 1))).
  Proof.
    intros I. pose proof (md_wf _ _ M) as W0.
    assert (W00 : Wf ne sol0 sol0) by (split; [exact W0|apply similar_refl]).
    assert (AV : forall s, Wf ne sol0 s -> Rsum ne (fun i => Rabs (average s (i + 1))) = Rsum ne (fun i => Rabs (at2 (s_u s) 0 (i + 1)))).
    { intros s Ws. apply Rsum_ext. intros i Hi. rewrite (average_at ne sol0 Ha Hp) by (first [exact Ws|lia]). reflexivity. }
    destruct (run_states gamma rk d None cfl tf nout sol0
      (fun s => Wf ne sol0 s /\ Rsum ne (fun i => Rabs (average s (i + 1))) <= Rsum ne (fun i => Rabs (average sol0 (i + 1))))) with (fuel := fuel) (evs := evs) (out := out) as [HE HF].
    - split; [exact W00|lra].
    - intros k tout touts s sc evs0 s' sc' [[dt o] dn] V [Ws Vs] T.
      pose proof (choice_convex rk Hk _ (step_nu ne sol0 M Ha Hp gamma d rk cfl tf nout D _ _ _ _ _ _ _ _ _ _ _ Hn Ht Hc V T)) as Cv.
      pose proof (step_mix ne sol0 M Ha He Hp Hl' Hr gamma d rk cfl tf nout D _ _ _ _ _ _ _ _ _ _ _ V T) as Mx.
      destruct (Wf_visits gamma ne sol0 d None W0 D _ _ _ _ _ _ _ _ _ _ V) as [_ [Wsc [K _]]].
      destruct (Wf_time_step gamma ne sol0 d None D _ _ _ _ _ _ _ _ _ Ws Wsc K T) as [Ws' _].
      split; [exact Ws'|]. eapply Rle_trans; [|exact Vs]. rewrite (AV s' Ws'), (AV s Ws). apply (step_mass (at2 (s_u s) 0) (at2 (s_u s') 0) _ Cv).
      intros e Hee. rewrite (Mx e) by lia. rewrite (src_id ne sol0 Hp e Hee). reflexivity.
    - exact I.
    - intros s [[ev [Hin ->]] | E]; [rewrite Forall_forall in HE; apply HE; exact Hin|apply HF; exact E].
  Qed.
End Mass.

Lemma rebuild (s : solution R) u : with_u (with_sens (with_n (with_t (with_u s u) (s_t s)) (s_n s)) (s_sens s)) (s_u s) = s.
Proof. destruct s; reflexivity. Qed.
(** * two runs: the difference is a run *)
Section Two.
  Context {X : Ext R}.
  Variables (ne : nat) (sol1 sol2 : solution R).
  Hypothesis M : made ne sol1.
  Hypothesis W2 : wf ne sol2.
  Hypothesis S2 : similar sol1 sol2.
  Hypothesis T2 : s_t sol2 = s_t sol1.
  Hypothesis N2 : s_n sol2 = s_n sol1.
  Hypothesis Ha : s_euler sol1 = false.
  Definition difference : solution R := with_u sol1 (tab2 (s_Ns sol1) ((ne + 2) * s_NF sol1) (fun n j => at2 (s_u sol1) n j - at2 (s_u sol2) n j)).
  Lemma difference_wf : wf ne difference.
  Proof. apply wf_with_u; [apply M|apply shape_tab2]. Qed.
  Lemma difference_made : made ne difference.
  Proof. eapply made_similar; [exact M|apply similar_with_u|apply difference_wf]. Qed.
  Lemma difference_combines : combines 1 (-1) ne sol1 sol2 difference.
  Proof.
    split; [reflexivity|]. split; [exact T2|]. split; [reflexivity|]. split; [exact N2|].
    intros e f n He Hf Hn. change (s_NF difference) with (s_NF sol1) in Hf. change (s_Ns difference) with (s_Ns sol1) in Hn.
    rewrite (modes_at ne difference) by (first [apply difference_wf|assumption]). rewrite (modes_at ne sol1) by (first [apply M|assumption]).
    rewrite (modes_at ne sol2) by (first [exact W2|assumption|rewrite (similar_NF _ _ S2); assumption|rewrite (similar_Ns _ _ S2); assumption]).
    rewrite (similar_NF _ _ S2). change (s_NF difference) with (s_NF sol1). unfold difference. cbn [with_u s_u]. rewrite at2_tab2 by (first [exact Hn|nia]). ring.
  Qed.
  Lemma difference_similar : similar difference sol1 /\ similar difference sol2.
  Proof.
    clear M W2 T2 N2 Ha. destruct S2 as [t [n [sn [u [-> Hsn]]]]]. split.
    - exists (s_t sol1), (s_n sol1), (s_sens sol1), (s_u sol1). split; [symmetry; apply rebuild|]. cbn. destruct (s_sens sol1); auto.
    - exists t, n, sn, u. split; [reflexivity|]. exact Hsn.
  Qed.
  Lemma average_difference e : (e < ne + 2)%nat -> average difference e = average sol1 e - average sol2 e.
  Proof.
    intro Hee. destruct difference_combines as [_ [_ [_ [_ C]]]]. unfold average. rewrite (C e 0%nat 0%nat Hee); [ring|change (s_NF difference) with (s_NF sol1); pose proof (NF_pos sol1); lia|unfold s_Ns, b_Ns; lia].
  Qed.
End Two.

(** two order-0 runs: the range of their difference does not grow, nor, in a periodic domain, its integral *)
Section Stable.
  Context {X : Ext R}.
  Variables (ne : nat) (sol1 sol2 : solution R).
  Hypothesis M : made ne sol1.
  Hypothesis W2 : wf ne sol2.
  Hypothesis S2 : similar sol1 sol2.
  Hypothesis T2 : s_t sol2 = s_t sol1.
  Hypothesis N2 : s_n sol2 = s_n sol1.
  Hypothesis Ha : s_euler sol1 = false.
  Hypothesis He : s_enh sol1 = None.
  Hypothesis Hp : b_p (s_basis sol1) = 0%nat.
  Hypothesis Hl : bc_known (s_bcl sol1).
  Hypothesis Hr : bc_known (s_bcr sol1).
  Variables (gamma : R) (d : dg) (rk : string) (cfl tf : R) (nout : Z).
  Hypothesis D : wf_dg ne sol1 d.
  Hypothesis Hk : In rk ["rk3"; "rk4"; "low_storage_rk4"; "rk5"]%string.
  Hypothesis Hc : cfl <= 1.
  Hypothesis Hn : (2 <= nout)%Z.
  Hypothesis Ht : s_t sol1 <= tf.
  Let Df := difference ne sol1 sol2.
  Notation run := (integrate gamma rk d None cfl tf nout).

  Lemma stable_pair (Q : solution R -> solution R -> Prop) fuel :
    (forall s1 s2 s3, (forall e, (e < ne + 2)%nat -> average s3 e = average s1 e - average s2 e) ->
      (exists ev, In ev (fst (run fuel Df)) /\ s3 = ev_sol ev) \/ snd (run fuel Df) = Finished s3 -> Q s1 s2) -> alike Q (run fuel sol1) (run fuel sol2).
  Proof.
    intros HQ.
    pose proof (difference_wf ne sol1 sol2 M) as WD. destruct (difference_similar ne sol1 sol2 S2) as [SD1 SD2].
    pose proof (superposition gamma 1 (-1) ne sol1 sol2 Df d (md_wf _ _ M) W2 WD SD1 SD2 Ha D rk cfl tf nout fuel (difference_combines ne sol1 sol2 M W2 S2 T2 N2)) as [H1 H2].
    assert (AV : forall s1 s2 s3, combines 1 (-1) ne s1 s2 s3 -> forall e, (e < ne + 2)%nat -> average s3 e = average s1 e - average s2 e).
    { intros s1 s2 s3 [_ [_ [_ [_ C]]]] e Hee. unfold average. rewrite (C e 0%nat 0%nat Hee); [ring|pose proof (NF_pos s3); lia|unfold s_Ns, b_Ns; lia]. }
    split.
    - assert (HE : forall ev, In ev (fst (run fuel Df)) -> forall s1 s2, combines 1 (-1) ne s1 s2 (ev_sol ev) -> Q s1 s2).
      { intros ev Hi s1 s2 C. apply (HQ s1 s2 (ev_sol ev) (AV _ _ _ C)). left. exists ev. auto. }
      clear HQ H2. revert HE. induction H1 as [|x y z xs ys zs C H IH]; intro HE; constructor.
      + destruct C as [C1 [C2 [C3 [C4 C5]]]]. split; [congruence|]. split; [congruence|]. split; [destruct C5 as [-> [-> _]]; reflexivity|]. apply (HE z); [left; reflexivity|exact C5].
      + apply IH. intros ev Hi. apply HE. right. exact Hi.
    - remember (snd (run fuel Df)) as o3 eqn:E3. destruct H2 as [s1 s2 s3 C|e|]; [|reflexivity|exact I]. apply (HQ s1 s2 s3 (AV _ _ _ C)). right. reflexivity.
  Qed.
  Theorem stable_range lo hi fuel : (forall e, (1 <= e <= ne)%nat -> lo <= average sol1 e - average sol2 e <= hi) ->
    alike (fun s1 s2 => forall e, (1 <= e <= ne)%nat -> lo <= average s1 e - average s2 e <= hi) (run fuel sol1) (run fuel sol2).
  Proof.
    intro B. apply stable_pair. intros s1 s2 s3 A3 H3 e Hee. rewrite <- A3 by lia.
    destruct (run fuel Df) as [evs3 out3] eqn:I3. cbn [fst snd] in H3.
    apply (run_range ne Df (difference_made ne sol1 sol2 M) Ha He Hp Hl Hr gamma d rk cfl tf nout D Hk Hc Hn Ht lo hi fuel evs3 out3); [|exact I3|exact H3|exact Hee].
    intros e' He'. unfold Df. rewrite (average_difference ne sol1 sol2 M W2 S2 T2 N2) by lia. apply B. exact He'.
  Qed.
  Theorem stable_distance fuel : is_literal (s_bcl sol1) "periodic" = true ->
    alike (fun s1 s2 => distance ne s1 s2 <= distance ne sol1 sol2) (run fuel sol1) (run fuel sol2).
  Proof.
    intro Hl2. apply stable_pair. intros s1 s2 s3 A3 H3. unfold distance.
    destruct (run fuel Df) as [evs3 out3] eqn:I3. cbn [fst snd] in H3.
    pose proof (run_mass ne Df (difference_made ne sol1 sol2 M) Ha He Hp Hl2 Hr gamma d rk cfl tf nout D Hk Hc Hn Ht fuel evs3 out3 I3 s3 H3) as RM.
    rewrite (Rsum_ext ne (fun i => Rabs (average s3 (i + 1))) (fun i => Rabs (average s1 (i + 1) - average s2 (i + 1)))) in RM by (intros i Hi; rewrite A3 by lia; reflexivity).
    rewrite (Rsum_ext ne (fun i => Rabs (average Df (i + 1))) (fun i => Rabs (average sol1 (i + 1) - average sol2 (i + 1)))) in RM
      by (intros i Hi; unfold Df; rewrite (average_difference ne sol1 sol2 M W2 S2 T2 N2) by lia; reflexivity). exact RM.
  Qed.
End Stable.
