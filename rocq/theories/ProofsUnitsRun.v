(** C71: whole runs in other units. *)
From Coq Require Import ZArith List Bool Arith String Lia Reals Lra.
From Verif Require Import Num Py Lib RealLib LegNumpy Ext Basis Sensor Enhance Limiting AdvectionPhysics EulerPhysics
  Solution Solver RKCoeffs RK SpecTime ProofsTime SpecDG ProofsDG ProofsDG2 ProofsWf ProofsCons ProofsRel ProofsShift SpecLimit ProofsLim ProofsAHR SpecUnits ProofsUnits ProofsUnitsGodunov ProofsRaise ProofsRelTime.
Import ListNotations.
Open Scope list_scope.
Open Scope R_scope.

Section Run.
  Variables (gamma al be le : R) (ne : nat) (b0 : basis R) (d : dg) (l : limiter (A:=R)).
  Hypothesis Ha : 0 < al.
  Hypothesis Hb : 0 < be.
  Hypothesis Hl : 0 < le.
  Hypothesis D0 : dg_rows d = b_Ns b0 /\ dg_cols d = (ne * 3)%nat.
  Let fu := field_unit al be.
  Let tau := le / be.
  Let Nu := b_Ns b0.
  Let Co := ((ne + 2) * 3)%nat.
  Definition scaled (u u' : mat R) : Prop := shape Nu Co u /\ shape Nu Co u' /\ forall n j, (n < Nu)%nat -> (j < Co)%nat -> at2 u' n j = fu (j mod 3) * at2 u n j.
  Definition Urw (s s' : solution R) : Prop := rescaled al be le ne s s' /\ s_basis s = b0 /\ unit_flux al be (s_riemann s).

  Lemma U_NF s s' : rescaled al be le ne s s' -> s_NF s = 3%nat /\ s_NF s' = 3%nat.
  Proof. intros [_ _ [E1 E2] _ _ _ _ _]. unfold s_NF. rewrite E1, E2. split; reflexivity. Qed.
  Lemma U_basis s s' : rescaled al be le ne s s' -> s_basis s' = s_basis s. Proof. intros []. tauto. Qed.
  Lemma U_Ns s s' : Urw s s' -> s_Ns s = Nu /\ s_Ns s' = Nu.
  Proof. intros [H [E _]]. unfold s_Ns. rewrite (U_basis _ _ H), E. split; reflexivity. Qed.
  Lemma U_scaled s s' : Urw s s' -> scaled (s_u s) (s_u s').
  Proof.
    intros H. destruct (U_Ns _ _ H) as [N1 N2]. destruct H as [H [Eb _]]. destruct (U_NF _ _ H) as [F1 F2]. destruct H as [W W' Eu S Ed Em Et M].
    pose proof (wf_u _ _ W) as U1. pose proof (wf_u _ _ W') as U2. rewrite N1, F1 in U1. rewrite N2, F2 in U2. split; [exact U1|]. split; [exact U2|].
    intros n j Hn Hj. pose proof (Nat.div_mod j 3 ltac:(lia)) as E. pose proof (Nat.mod_upper_bound j 3 ltac:(lia)) as Hm.
    assert (He : (j / 3 < ne + 2)%nat) by (apply Nat.div_lt_upper_bound; unfold Co in Hj; lia).
    assert (Mj := M (j / 3)%nat (j mod 3) n He Hm ltac:(rewrite N1; exact Hn)).
    rewrite (modes_at ne s), (modes_at ne s') in Mj by (first [assumption|lia]).
    rewrite F1, F2 in Mj. replace (j / 3 * 3 + j mod 3)%nat with j in Mj by lia. exact Mj.
  Qed.
  Lemma scaled_U s s' u u' : Urw s s' -> scaled u u' -> Urw (with_u s u) (with_u s' u').
  Proof.
    intros H [S1 [S2 S3]]. destruct (U_Ns _ _ H) as [N1 N2]. destruct H as [H [Eb Er]]. destruct (U_NF _ _ H) as [F1 F2]. destruct H as [W W' Eu S Ed Em Et M].
    assert (V : wf ne (with_u s u)) by (apply wf_with_u; [exact W|rewrite N1, F1; exact S1]).
    assert (V' : wf ne (with_u s' u')) by (apply wf_with_u; [exact W'|rewrite N2, F2; exact S2]).
    split; [|split; assumption]. constructor; try assumption.
    intros e f n He Hf Hn. change (s_Ns (with_u s u)) with (s_Ns s) in Hn.
    rewrite (modes_at ne (with_u s u)), (modes_at ne (with_u s' u')); try assumption; change (s_NF (with_u s u)) with (s_NF s); change (s_NF (with_u s' u')) with (s_NF s'); change (s_Ns (with_u s' u')) with (s_Ns s'); try lia.
    cbn [s_u with_u]. rewrite F1, F2, S3 by (first [lia|unfold Co; nia]). replace ((e * 3 + f) mod 3) with f; [reflexivity|].
    rewrite Nat.add_comm, Nat.mod_add by lia. symmetry. apply Nat.mod_small. exact Hf.
  Qed.
  Lemma scaled_axpy u u' a K K' : scaled u u' -> scaled K K' -> scaled (axpy_mat u a K) (axpy_mat u' a K').
  Proof.
    intros [S1 [S2 S3]] [T1 [T2 T3]]. split; [apply shape_axpy; assumption|]. split; [apply shape_axpy; assumption|]. intros n j Hn Hj.
    unfold axpy_mat. destruct (nltb _ _); [|apply S3; assumption].
    etransitivity; [refine (at2_madd _ _ u' (mscale a K') n j S2 (shape_mscale _ _ a K' T2) Hn Hj)|].
    replace (at2 (madd u (mscale a K)) n j) with (at2 u n j + a * at2 K n j).
    - replace (at2 (mscale a K') n j) with (a * at2 K' n j) by (symmetry; refine (at2_mscale _ _ a K' n j T2 Hn Hj)). rewrite S3, T3 by assumption. cbn. ring.
    - symmetry. etransitivity; [refine (at2_madd _ _ u (mscale a K) n j S1 (shape_mscale _ _ a K T1) Hn Hj)|].
      replace (at2 (mscale a K) n j) with (a * at2 K n j) by (symmetry; refine (at2_mscale _ _ a K n j T1 Hn Hj)). reflexivity.
  Qed.
  Lemma U_copy s s' t t' : Urw s s' -> Urw t t' -> Urw (copy_data_only s t) (copy_data_only s' t').
  Proof. intros H1 H2. apply scaled_U; [exact H1|apply U_scaled; exact H2]. Qed.
  Lemma U_axpy s s' a K K' : Urw s s' -> scaled K K' -> Urw (smart_axpy s a K) (smart_axpy s' a K').
  Proof. intros H1 H2. apply scaled_U; [exact H1|]. apply scaled_axpy; [apply U_scaled; exact H1|exact H2]. Qed.
  Lemma U_t s s' t : Urw s s' -> Urw (with_t s t) (with_t s' (tau * t)).
  Proof. intros [[W W' Eu S Ed Em Et M] [Eb Er]]. split; [|split; assumption]. constructor; try assumption; try (apply wf_with_t; assumption). reflexivity. Qed.
  Lemma U_n s s' n : Urw s s' -> Urw (with_n s n) (with_n s' n).
  Proof. intros [[W W' Eu S Ed Em Et M] [Eb Er]]. split; [|split; assumption]. constructor; try assumption; try (apply wf_with_n; assumption). cbn. tauto. Qed.
  Lemma U_time s s' : Urw s s' -> s_t s' = tau * s_t s /\ s_n s' = s_n s.
  Proof. intros [[W W' Eu S Ed Em Et M] [Eb Er]]. split; [exact Et|tauto]. Qed.

  (** cell by cell *)
  Lemma U_modes s s' e f : Urw s s' -> (e < ne + 2)%nat -> (f < 3)%nat -> modes s' e f = map (Rmult (fu f)) (modes s e f).
  Proof.
    intros H He Hf. destruct (U_Ns _ _ H) as [N1 N2]. destruct H as [[W W' Eu S Ed Em Et M] [Eb Er]].
    apply (vec_ext Nu); [rewrite (length_modes ne s') by exact W'; exact N2|rewrite map_length, (length_modes ne s) by exact W; exact N1|].
    intros n Hn. rewrite (at1_sc (fu f)). apply M; [exact He|exact Hf|rewrite N1; exact Hn].
  Qed.
  Lemma vdot_sc k r v : vdot r (map (Rmult k) v) = k * vdot r v.
  Proof.
    pose proof (dotv_sc k [r] v) as H. cbn [dotv map] in H. injection H as H. exact H.
  Qed.
  Lemma U_bc s s' : Urw s s' -> lop (tau <> 1) Urw (apply_bc s) (apply_bc s').
  Proof.
    intros H. pose proof (U_scaled _ _ H) as [S1 [S2 S3]]. destruct (U_Ns _ _ H) as [N1 N2]. pose proof (proj1 H) as R0. destruct (U_NF _ _ R0) as [F1 F2]. destruct R0 as [W W' Eu S Ed Em Et M].
    rewrite (apply_bc_eq ne s W), (apply_bc_eq ne s' W'). constructor 1. apply scaled_U; [exact H|].
    assert (B1 := bc_u_shape ne s). assert (B2 := bc_u_shape ne s'). rewrite N1, F1 in B1. rewrite N2, F2 in B2. split; [exact B1|]. split; [exact B2|]. intros n j Hn Hj.
    pose proof (Nat.div_mod j 3 ltac:(lia)) as E. pose proof (Nat.mod_upper_bound j 3 ltac:(lia)) as Hm.
    assert (He : (j / 3 < ne + 2)%nat) by (apply Nat.div_lt_upper_bound; unfold Co in Hj; lia).
    pose proof (wf_apply_bc ne s W) as V. pose proof (wf_apply_bc ne s' W') as V'.
    assert (X1 : at2 (bc_u ne s) n j = at1 (modes (with_u s (bc_u ne s)) (j / 3) (j mod 3)) n).
    { rewrite (modes_at ne _ _ _ _ V He); change (s_NF (with_u s (bc_u ne s))) with (s_NF s); change (s_Ns (with_u s (bc_u ne s))) with (s_Ns s); rewrite ?F1, ?N1; try assumption. cbn [s_u with_u]. f_equal. lia. }
    assert (X2 : at2 (bc_u ne s') n j = at1 (modes (with_u s' (bc_u ne s')) (j / 3) (j mod 3)) n).
    { rewrite (modes_at ne _ _ _ _ V' He); change (s_NF (with_u s' (bc_u ne s'))) with (s_NF s'); change (s_Ns (with_u s' (bc_u ne s'))) with (s_Ns s'); rewrite ?F2, ?N2; try assumption. cbn [s_u with_u]. f_equal. lia. }
    rewrite X1, X2, (modes_bc ne s), (modes_bc ne s') by (first [assumption|lia]).
    replace (s_bcl s') with (s_bcl s) by (symmetry; tauto). replace (s_bcr s') with (s_bcr s) by (symmetry; tauto).
    apply M; [apply src_cell_lt; [apply (wf_ne _ _ W)|exact He]|exact Hm|rewrite N1; exact Hn].
  Qed.
  (** fluxes *)
  Definition q_unit (q : list R) : list R := [be * fu 0 * at1 q 0; be * fu 1 * at1 q 1; be * fu 2 * at1 q 2].
  Lemma q_unit_at q f : (f < 3)%nat -> at1 (q_unit q) f = be * fu f * at1 q f.
  Proof. intro Hf. destruct f as [|[|[|f]]]; [reflexivity|reflexivity|reflexivity|lia]. Qed.
  Lemma U_face s s' e f : Urw s s' -> (e <= ne)%nat -> (f < 3)%nat ->
    face_minus s' (modes s') e f = fu f * face_minus s (modes s) e f /\ face_plus s' (modes s') e f = fu f * face_plus s (modes s) e f.
  Proof.
    intros H He Hf. pose proof (proj1 H) as [_ _ _ S _ _ _ _]. destruct S as [Sb [_ [_ [_ [Se _]]]]]. unfold face_minus, face_plus. rewrite Se, Sb, !(U_modes s s') by (first [exact H|lia]).
    destruct (s_enh s); rewrite !vdot_sc; cbn; split; ring.
  Qed.
  Lemma fu_pack x y z : (fu 0 * x, fu 1 * y, fu 2 * z) = state_unit al be (x, y, z). Proof. reflexivity. Qed.
  Lemma U_iface s s' e : Urw s s' -> (e <= ne)%nat -> iface_flux gamma s' (modes s') e = match iface_flux gamma s (modes s) e with Ok q => Ok (q_unit q) | Raise x => Raise x end.
  Proof.
    intros H He. pose proof (proj1 H) as R0. destruct (U_NF _ _ R0) as [F1 F2]. pose proof R0 as [_ _ _ S _ _ _ _]. destruct S as [_ [Sr _]].
    pose proof (fun f Hf => proj1 (U_face s s' e f H He Hf)) as P1. pose proof (fun f Hf => proj2 (U_face s s' e f H He Hf)) as P2.
    unfold iface_flux, num_flux. rewrite F1, F2, Sr. rewrite !at1_tab by lia. rewrite !P1, !P2 by lia. rewrite !fu_pack.
    assert (K : forall q, match flux_unit al be q with (a, b, c) => Ok [a; b; c] end = Ok (q_unit (let '(a, b, c) := q in [a; b; c]))).
    { intros [[a b] c]. unfold flux_unit, q_unit, fu, field_unit, at1. cbn [nth]. do 2 f_equal; [ring|f_equal; [ring|f_equal; ring]]. }
    destruct (proj2 (proj2 H)) as [E|[E|[E E1]]]; rewrite E.
    - rewrite rusanov_unit by assumption. rewrite K. destruct (rusanov1 _ _ _) as [[a b] c]. reflexivity.
    - rewrite roe1_unit by assumption. rewrite K. destruct (roe1 _ _ _) as [[a b] c]. reflexivity.
    - rewrite (godunov_unit gamma al be Ha Hb E1). destruct (godunov1 _ _ _) as [q|x]; [|reflexivity]. cbn [rmap rbind]. etransitivity; [apply K|]. destruct q as [[a b] c]. reflexivity.
  Qed.
  Lemma U_volume s s' n e f : Urw s s' -> (e < ne + 2)%nat -> (f < 3)%nat -> volume_term gamma s' (modes s') n e f = be * fu f * volume_term gamma s (modes s) n e f.
  Proof.
    intros H He Hf. pose proof (proj1 H) as R0. destruct (U_NF _ _ R0) as [F1 F2]. pose proof R0 as [_ _ [E1 E2] S _ _ _ _]. destruct S as [Sb _].
    unfold volume_term. rewrite Sb, <- vdot_sc. f_equal. rewrite map_tab. apply tab_ext. intros g Hg. unfold phys_flux. rewrite E1, E2.
    unfold node_state. rewrite F1, F2, !at1_tab by lia. rewrite Sb, !(U_modes s s'), !vdot_sc by (first [exact H|lia]). rewrite !fu_pack, flux1_unit by assumption.
    destruct (flux1 _ _) as [[a b] c]. unfold flux_unit. destruct f as [|[|[|f]]]; [| | |lia]; unfold at1, fu, field_unit; cbn [nth]; ring.
  Qed.
  Lemma mapM_same {P Q Q' : Type} (psi : Q -> Q') (f : P -> res Q) (h : P -> res Q') js x : (forall j, In j js -> h j = match f j with Ok q => Ok (psi q) | Raise y => Raise y end) ->
    mapM f js = Raise x -> mapM h js = Raise x.
  Proof.
    revert x. induction js as [|j js IH]; intros x H Hm; [discriminate|]. cbn [mapM] in *. rewrite (H j) by (left; reflexivity). destruct (f j) as [v|e]; cbn [rbind] in *; [|congruence].
    destruct (mapM f js) as [vs|y] eqn:E; [discriminate|]. cbn [rbind] in Hm. rewrite (IH y); [cbn [rbind]; congruence| |reflexivity]. intros i Hi. apply H. right. exact Hi.
  Qed.
  Lemma U_res dt s s' : Urw s s' ->
    lop (tau <> 1) (fun p p' => Urw (fst p) (fst p') /\ scaled (mscale dt (snd p)) (mscale (tau * dt) (snd p'))) (residual gamma d s) (residual gamma d s').
  Proof.
    intro H. destruct (U_Ns _ _ H) as [N1 N2]. pose proof (proj1 H) as R0. destruct (U_NF _ _ R0) as [F1 F2]. pose proof R0 as [W W' Eu S Ed Em Et M].
    assert (D1 : wf_dg ne s d) by (unfold wf_dg; rewrite N1, F1; exact D0). assert (D2 : wf_dg ne s' d) by (unfold wf_dg; rewrite N2, F2; exact D0).
    pose proof (U_bc _ _ H) as Hbc. rewrite (apply_bc_eq ne s W), (apply_bc_eq ne s' W') in Hbc.
    set (t := with_u s (bc_u ne s)) in *. set (t' := with_u s' (bc_u ne s')) in *.
    assert (Ht : Urw t t') by (inversion Hbc; assumption). clear Hbc.
    destruct (mapM (iface_flux gamma t (modes t)) (seq 0 (ne + 1))) as [qs|x] eqn:Eq.
    2:{ pose proof (residual_first gamma ne s d W D1) as X. pose proof (residual_first gamma ne s' d W' D2) as X'. cbv zeta in X, X'. fold t in X. fold t' in X'. rewrite Eq in X.
        assert (Eq' : mapM (iface_flux gamma t' (modes t')) (seq 0 (ne + 1)) = Raise x).
        { refine (mapM_same q_unit _ _ _ x _ Eq). intros e He. apply in_seq in He. apply (U_iface t t' e Ht). lia. }
        rewrite Eq' in X'. rewrite X, X'. constructor 2. }
    set (q := fun e => nth e qs ([] : vec R)).
    assert (Hq : forall e, (e <= ne)%nat -> iface_flux gamma t (modes t) e = Ok (q e)).
    { intros e He. pose proof (mapM_Ok_nth _ _ _ e 0%nat [] Eq) as X. rewrite seq_length, seq_nth in X by lia. apply X. lia. }
    assert (R1 : residual gamma d s = Ok (t, residual_mat gamma ne t q)) by (apply (residual_iff gamma ne s d); [exact W|exact D1|split; [reflexivity|exists q; split; [exact Hq|reflexivity]]]).
    assert (R2 : residual gamma d s' = Ok (t', residual_mat gamma ne t' (fun e => q_unit (q e)))).
    { apply (residual_iff gamma ne s' d); [exact W'|exact D2|]. split; [reflexivity|]. exists (fun e => q_unit (q e)). split; [|reflexivity]. intros e He. fold t'. rewrite (U_iface t t' e Ht He), (Hq e He). reflexivity. }
    rewrite R1, R2. constructor 1. cbn [fst snd]. split; [exact Ht|].
    assert (G1 := shape_residual_mat gamma ne t q). assert (G2 := shape_residual_mat gamma ne t' (fun e => q_unit (q e))).
    change (s_Ns t) with (s_Ns s) in G1. change (s_NF t) with (s_NF s) in G1. change (s_Ns t') with (s_Ns s') in G2. change (s_NF t') with (s_NF s') in G2. rewrite N1, F1 in G1. rewrite N2, F2 in G2.
    split; [apply shape_mscale; exact G1|]. split; [apply shape_mscale; exact G2|]. intros n j Hn Hj.
    etransitivity; [refine (at2_mscale _ _ (tau * dt) _ n j G2 Hn Hj)|]. symmetry. etransitivity; [apply f_equal; refine (at2_mscale _ _ dt _ n j G1 Hn Hj)|]. symmetry.
    assert (K : at2 (residual_mat gamma ne t' (fun e => q_unit (q e))) n j = be / le * fu (j mod 3) * at2 (residual_mat gamma ne t q) n j).
    { unfold residual_mat. change (s_Ns t) with (s_Ns s). change (s_NF t) with (s_NF s). change (s_Ns t') with (s_Ns s'). change (s_NF t') with (s_NF s'). rewrite N1, F1, N2, F2.
      rewrite !at2_tab2 by assumption. cbv zeta. pose proof (Nat.mod_upper_bound j 3 ltac:(lia)) as Hm.
      assert (He : (j / 3 < ne + 2)%nat) by (apply Nat.div_lt_upper_bound; unfold Co in Hj; lia).
      assert (Em' : at1 (s_minv t') n = at1 (s_minv t) n / le) by (apply Em; rewrite N1; exact Hn).
      destruct ((1 <=? j / 3)%nat && (j / 3 <=? ne)%nat)%bool.
      - unfold residual_of, face_term. rewrite (U_volume t t' n _ _ Ht He Hm), !q_unit_at, Em' by exact Hm. destruct (Nat.even n); cbn; field; lra.
      - rewrite (U_volume t t' n _ _ Ht He Hm), Em'. cbn. field. lra. }
    rewrite K. unfold tau. cbn. field. lra.
  Qed.
  (** limiting *)
  Lemma U_state s s' e : Urw s s' -> (e < ne + 2)%nat -> state3 s' e = state_unit al be (state3 s e).
  Proof.
    intros H He. destruct (U_Ns _ _ H) as [N1 _]. destruct H as [[W W' Eu S Ed Em Et M] _]. unfold state3, cell_mean. rewrite !M by (first [lia|exact He|apply Ns_pos]). reflexivity.
  Qed.
  Lemma U_sensing s s' sn : Urw s s' -> s_sens s = Some sn -> sensing gamma true sn (s_u s') (s_NF s') = sensing gamma true sn (s_u s) (s_NF s).
  Proof.
    intros H Hs. pose proof (proj1 H) as [W W' [E1 E2] S Ed Em Et M]. rewrite (sensing_euler gamma ne s sn W E1 Hs), (sensing_euler gamma ne s' sn W' E2) by (rewrite <- Hs; tauto).
    destruct (nth_error (sn_thresholds sn) 0) as [t0|]; [|reflexivity]. destruct (nth_error (sn_thresholds sn) 1) as [t1|]; [|reflexivity]. do 2 f_equal. apply tab_ext. intros e He.
    assert (C : forall i, (i <= ne)%nat -> contact_at gamma s' t0 i = contact_at gamma s t0 i) by (intros; unfold contact_at; rewrite !(U_state s s') by (first [exact H|lia]); rewrite contact_unit by assumption; reflexivity).
    assert (K : forall i, (i <= ne)%nat -> shock_at gamma s' t1 i = shock_at gamma s t1 i) by (intros; unfold shock_at; rewrite !(U_state s s') by (first [exact H|lia]); rewrite shock_unit, compressive_unit by assumption; reflexivity).
    assert (Nr : forall P Q, (forall i, (i <= ne)%nat -> P i = Q i) -> near ne P e = near ne Q e).
    { intros P Q PQ. unfold near. rewrite (PQ (e - 1)%nat) by lia. destruct (Nat.leb_spec e ne); [rewrite (PQ e) by lia; reflexivity|reflexivity]. }
    rewrite (Nr _ _ C), (Nr _ _ K). reflexivity.
  Qed.
  Lemma mapM_sc (k : nat -> R) (f g : nat -> res (vec R)) js : (forall j, In j js -> g j = match f j with Ok v => Ok (map (Rmult (k j)) v) | Raise e => Raise e end) ->
    mapM g js = match mapM f js with Ok cs => Ok (map2 (fun j c => map (Rmult (k j)) c) js cs) | Raise e => Raise e end.
  Proof.
    induction js as [|j js IH]; intro H; [reflexivity|]. cbn [mapM]. rewrite (H j) by (left; reflexivity). destruct (f j) as [v|e]; [|reflexivity]. cbn [rbind].
    rewrite IH by (intros; apply H; right; assumption). destruct (mapM f js); reflexivity.
  Qed.
  Lemma col_scaled u u' j : scaled u u' -> (j < Co)%nat -> col u' j = map (Rmult (fu (j mod 3))) (col u j).
  Proof.
    intros [[L1 _] [[L2 _] S3]] Hj. apply (vec_ext Nu); [rewrite length_col; exact L2|rewrite map_length, length_col; exact L1|]. intros n Hn. rewrite at1_sc, !at1_col by lia. apply S3; assumption.
  Qed.
  Lemma U_limit s s' : Urw s s' -> lop (tau <> 1) Urw (limit gamma l s) (limit gamma l s').
  Proof.
    intro H. destruct l as [h|]; [|constructor 1; exact H]. cbn [limit]. unfold adaptive_hr.
    pose proof (U_scaled _ _ H) as Sc. destruct (U_Ns _ _ H) as [N1 N2]. pose proof (proj1 H) as R0. destruct (U_NF _ _ R0) as [F1 F2]. pose proof R0 as [W W' [E1 E2] S Ed Em Et M].
    destruct S as [Sb [Sr [Sl [Sr' [Se [Ss Sn]]]]]]. rewrite Ss, E1, E2. destruct (s_sens s) as [sn|] eqn:Es; [|constructor 2].
    rewrite (U_sensing s s' sn H Es). destruct (sensing gamma true sn (s_u s) (s_NF s)) as [sn'|e] eqn:Hsn; [|constructor 2]. cbn [rbind].
    pose proof (wf_u _ _ W) as U1. pose proof (wf_u _ _ W') as U2. rewrite (shape_ncols _ _ _ U1 (Ns_pos s)), (shape_ncols _ _ _ U2 (Ns_pos s')), F1, F2. fold Co.
    rewrite (mapM_sc (fun j => fu (j mod 3)) (limited_column h s (sn_sensors sn')) (limited_column h s' (sn_sensors sn')) (seq 0 Co)).
    2:{ intros j Hj. apply in_seq in Hj. unfold limited_column. rewrite F1, F2, (wf_NE _ _ W), (wf_NE _ _ W'), (shape_ncols _ _ _ U1 (Ns_pos s)), (shape_ncols _ _ _ U2 (Ns_pos s')), F1, F2. fold Co.
        destruct ((1 <=? Z.of_nat (j / 3)) && (Z.of_nat (j / 3) <=? Z.of_nat ne) && negb (nth (j / 3) (sn_sensors sn') 0 =? 0))%Z%bool eqn:C.
        - destruct (Nat.ltb_spec (j + 3) Co) as [Hlt|]; [|reflexivity].
          assert (J3 : (3 <= j)%nat). { apply andb_true_iff in C. destruct C as [C _]. apply andb_true_iff in C. destruct C as [C _]. apply Z.leb_le in C. destruct (Nat.le_gt_cases 3 j); [assumption|]. rewrite Nat.div_small in C by lia. cbn in C. lia. }
          rewrite (col_scaled (s_u s) (s_u s') j Sc), (col_scaled (s_u s) (s_u s') (j - 3) Sc), (col_scaled (s_u s) (s_u s') (j + 3) Sc) by lia.
          replace ((j + 3) mod 3) with (j mod 3) by (replace (j + 3)%nat with (j + 1 * 3)%nat by lia; symmetry; apply Nat.mod_add; lia).
          replace ((j - 3) mod 3) with (j mod 3) by (replace j with (j - 3 + 1 * 3)%nat at 1 by lia; apply Nat.mod_add; lia). apply hr_sc.
        - rewrite (col_scaled (s_u s) (s_u s') j Sc) by lia. reflexivity. }
    destruct (mapM (limited_column h s (sn_sensors sn')) (seq 0 Co)) as [cs|e] eqn:Hc; [|constructor 2]. cbn [rbind].
    apply U_bc. pose proof (mapM_Ok_length _ _ _ Hc) as Lc. rewrite seq_length in Lc.
    assert (H' : Urw (with_sens s (Some sn')) (with_sens s' (Some sn'))).
    { destruct H as [_ [Eb Er]]. assert (Ls : List.length (sn_sensors sn') = (ne + 2)%nat) by (rewrite (length_sensing _ _ _ _ _ _ Hsn); pose proof (wf_sens _ _ W) as X; rewrite Es in X; exact X).
      split; [|split; assumption]. constructor; try assumption.
      - destruct W. constructor; assumption.
      - destruct W'. constructor; assumption.
      - split; assumption.
      - cbn. tauto. }
    apply scaled_U; [exact H'|]. rewrite (proj1 U1 : nrows (s_u s) = s_Ns s), (proj1 U2 : nrows (s_u s') = s_Ns s'), N1, N2.
    set (g := fun (j : nat) (c : vec R) => map (Rmult (fu (j mod 3))) c).
    assert (L2 : List.length (map2 g (seq 0 Co) cs) = Co) by (rewrite length_map2, seq_length; etransitivity; [apply (f_equal (Nat.min Co)); exact Lc|apply Nat.min_id]).
    split; [apply shape_of_columns; exact Lc|]. split; [apply shape_of_columns; exact L2|].
    assert (A : forall (xs : list (vec R)) n j, (n < Nu)%nat -> (j < List.length xs)%nat -> at2 (of_columns Nu xs) n j = at1 (nth j xs []) n).
    { intros xs n j Hn Hj. unfold of_columns, at2, row. rewrite nth_tab by exact Hn. unfold at1 at 1. rewrite nth_indep with (d' := at1 (A:=R) [] n) by (rewrite map_length; exact Hj). apply (map_nth (fun c : vec R => at1 c n)). }
    intros n j Hn Hj. assert (J1 : (j < List.length cs)%nat) by (rewrite Lc; exact Hj). assert (J2 : (j < List.length (map2 g (seq 0 Co) cs))%nat) by (rewrite L2; exact Hj).
    rewrite (A _ n j Hn J1). transitivity (at1 (nth j (map2 g (seq 0 Co) cs) []) n); [exact (A _ n j Hn J2)|].
    rewrite nth_map2 with (dx := O) (dy := []) by (rewrite ?seq_length; first [exact Hj|exact J1]). rewrite seq_nth by exact Hj. apply (at1_sc (fu (j mod 3))).
  Qed.
  (** the time step *)
  Lemma npmax_sc (x : list R) : npmax (map (Rmult be) x) = option_map (Rmult be) (npmax x).
  Proof.
    destruct x as [|a x]; [reflexivity|]. cbn [map npmax option_map]. f_equal. revert a. induction x as [|b x IH]; intro a; [reflexivity|].
    cbn [map fold_left]. rewrite npmaximum_unit by exact Hb. apply IH.
  Qed.
  Lemma U_step s s' tout cfl tf : Urw s s' ->
    lop (tau <> 1) (fun r r' => r' = (tau * fst (fst r), snd (fst r), snd r)) (get_next_time_step gamma s tout cfl tf) (get_next_time_step gamma s' (tau * tout) cfl (tau * tf)).
  Proof.
    intro H. pose proof (proj1 H) as [W W' [E1 E2] S Ed Em Et M]. unfold get_next_time_step, cfl_time_step. rewrite (euler_speed_cells gamma ne s W E1), (euler_speed_cells gamma ne s' W' E2).
    replace (tab (ne + 2) (fun e => wave_speed gamma (at1 (modes s' e 0) 0, at1 (modes s' e 1) 0, at1 (modes s' e 2) 0)))
      with (map (Rmult be) (tab (ne + 2) (fun e => wave_speed gamma (at1 (modes s e 0) 0, at1 (modes s e 1) 0, at1 (modes s e 2) 0)))).
    2:{ rewrite map_tab. apply tab_ext. intros e He. rewrite <- (speed_unit gamma al be Ha Hb). f_equal. symmetry. exact (U_state s s' e H He). }
    rewrite npmax_sc. destruct (npmax _) as [v|]; cbn [option_map]; [|constructor 2]. cbn [rbind]. rewrite (U_basis _ _ (proj1 H)), Ed, Et. fold tau.
    set (c := nnat (2 * b_p (s_basis s) + 1)). set (dt := ndiv (nmul (s_dx s) cfl) (nmul v c)).
    replace (ndiv (nmul (le * s_dx s) cfl) (nmul (be * v) c)) with (tau * dt).
    2:{ unfold dt, tau. clearbody c. cbn. symmetry. replace (le * s_dx s * cfl) with (le * (s_dx s * cfl)) by ring. replace (be * v * c) with (be * (v * c)) by ring. apply (div_unit le be). lra. }
    assert (T : 0 < tau) by (unfold tau; apply Rdiv_lt_0_compat; assumption).
    unfold sanity_check_dt. numR.
    destruct (Req_dec tau 1) as [E|NE].
    - rewrite E, !Rmult_1_l. destruct (Rltb dt _); [constructor 2|]. cbn [rbind]. constructor 1. unfold adjust_for_output. rewrite !Rmult_1_l. destruct (nltb _ dt); [reflexivity|]. destruct (nltb _ dt); reflexivity.
    - destruct (Rltb (tau * dt) _) eqn:C1; [constructor 4; exact NE|]. destruct (Rltb dt _) eqn:C2; [constructor 3; exact NE|]. cbn [rbind]. constructor 1.
      assert (L : forall x y, Rltb (tau * x - tau * y) (tau * dt) = Rltb (x - y) dt) by (intros x y; rewrite <- Rmult_minus_distr_l; apply ltb_unit; exact T).
      unfold adjust_for_output. numR. rewrite !L. destruct (Rltb (tf - s_t s) dt); [cbn; f_equal; f_equal; ring|]. destruct (Rltb (tout - s_t s) dt); cbn; [f_equal; f_equal; ring|reflexivity].
  Qed.
  Lemma scaled_0 s s' : Urw s s' -> scaled (zeros2 (nrows (s_u s)) (ncols (s_u s))) (zeros2 (nrows (s_u s')) (ncols (s_u s'))).
  Proof.
    intro H. destruct (U_scaled _ _ H) as [S1 [S2 _]]. assert (P : (1 <= Nu)%nat) by (unfold Nu, b_Ns; lia).
    rewrite (shape_ncols _ _ _ S1 P), (shape_ncols _ _ _ S2 P), (proj1 S1 : nrows (s_u s) = Nu), (proj1 S2 : nrows (s_u s') = Nu).
    split; [apply shape_tab2|]. split; [apply shape_tab2|]. intros n j Hn Hj. unfold zeros2. rewrite !at2_tab2 by assumption. cbn. ring.
  Qed.
  Lemma U_run rk cfl tf nout fuel sol sol' : Urw sol sol' ->
    Tagree tau (tau <> 1) Urw (integrate gamma rk d l cfl tf nout fuel sol) (integrate gamma rk d l cfl (tau * tf) nout fuel sol').
  Proof.
    intro H. apply (Tintegrate_rel gamma tau (tau <> 1) Urw Urw scaled d l).
    - auto. - exact U_copy. - exact U_axpy. - exact U_t. - exact U_time. - exact U_limit. - exact U_res. - exact U_n. - exact U_bc. - exact U_limit.
    - intros. apply U_step. assumption.
    - intros s s' k dt dt' [[W W' _ _ _ _ _ _] _]. rewrite (printer_total ne k dt s W), (printer_total ne k dt' s' W'). eauto.
    - exact H.
    - apply scaled_0. exact H.
  Qed.
End Run.

Lemma units_run gamma al be le ne (sol sol' : solution R) d : 0 < al -> 0 < be -> 0 < le -> rescaled al be le ne sol sol' -> unit_flux al be (s_riemann sol) -> wf_dg ne sol d ->
  forall l rk cfl tf nout fuel,
  let r := integrate gamma rk d l cfl tf nout fuel sol in
  let r' := integrate gamma rk d l cfl (le / be * tf) nout fuel sol' in
  common (rescaled_event al be le ne) (fst r) (fst r') /\ ((List.length (fst r') = List.length (fst r) /\ rescaled_outcome al be le ne (snd r) (snd r')) \/ (le <> be /\ (too_small (snd r) \/ too_small (snd r')))).
Proof.
  intros Ha Hb Hl H Er D l rk cfl tf nout fuel. cbv zeta.
  assert (F3 : s_NF sol = 3%nat) by apply (U_NF _ _ _ _ _ _ H). destruct D as [D1 D2]. rewrite F3 in D2.
  destruct (U_run gamma al be le ne (s_basis sol) d l Ha Hb Hl (conj D1 D2) rk cfl tf nout fuel sol sol' (conj H (conj eq_refl Er))) as [C O].
  assert (Ev : forall x y, TRev (le / be) (Urw al be le ne (s_basis sol)) x y -> rescaled_event al be le ne x y) by (intros x y [X1 [X2 [X3 _]]]; split; [exact X1|split; [exact X2|exact X3]]).
  split; [intros i x y Hx Hy; apply Ev; exact (C i x y Hx Hy)|].
  destruct O as [[O1 O2]|[O1 O2]].
  - left. split; [clear - O1; induction O1; cbn [List.length]; congruence|]. destruct O2 as [s s' [X _]|e|]; constructor. exact X.
  - right. split; [|exact O2]. intros ->. apply O1. field. lra.
Qed.
Lemma convert_rescaled al be le ne s : wf ne s -> s_euler s = true -> rescaled al be le ne s (convert al be le ne s).
Proof.
  intros W Eu. assert (F3 : s_NF s = 3%nat) by (unfold s_NF; rewrite Eu; reflexivity).
  assert (W' : wf ne (convert al be le ne s)).
  { pose proof W as [? ? ? ? ? ? ? Wm ? ? Wx ?]. constructor; try assumption; [apply shape_tab2|cbn [convert s_minv]; rewrite map_length; exact Wm|cbn [convert s_xc]; rewrite map_length; exact Wx]. }
  constructor; [exact W|exact W'|split; exact Eu|repeat split|reflexivity| |reflexivity|].
  - intros n Hn. cbn [convert s_minv]. unfold at1. rewrite nth_indep with (d' := (fun x => x / le) n0) by (rewrite map_length, (wf_minv _ _ W); exact Hn). apply (map_nth (fun x => x / le)).
  - intros e f n He Hf Hn. change (s_Ns s) with (s_Ns (convert al be le ne s)) in Hn. rewrite (modes_at ne (convert al be le ne s)), (modes_at ne s) by (first [assumption|unfold s_NF; cbn [convert s_euler]; rewrite Eu; assumption]).
    change (s_NF (convert al be le ne s)) with (s_NF s). rewrite F3. cbn [convert s_u]. rewrite F3, at2_tab2 by (first [exact Hn|nia]). rewrite (proj2 (divmod_idx 3 e f Hf)). reflexivity.
Qed.
