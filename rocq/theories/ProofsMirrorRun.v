(** C72: whole runs of mirrored flows. *)
From Coq Require Import ZArith List Bool Arith String Lia Reals Lra.
From Verif Require Import Num Py Lib RealLib LegNumpy Ext Basis Sensor Enhance Limiting AdvectionPhysics EulerPhysics
  Solution Solver RKCoeffs RK SpecTime ProofsTime SpecDG SpecPoly SpecUniform SpecEuler ProofsDG ProofsDG2 ProofsWf ProofsCons ProofsRel ProofsShift ProofsRiemann ProofsGodunov ProofsEnh2 SpecTrace ProofsRelTrace SpecMirror ProofsMirror.
Import ListNotations.
Open Scope list_scope.
Open Scope R_scope.

(** the cell a boundary condition reads, seen in a mirror *)
Lemma src_mirror bl br ne e : (1 <= ne)%nat -> (e < ne + 2)%nat -> src_cell br bl ne (ne + 1 - e) = (ne + 1 - src_cell bl br ne e)%nat.
Proof.
  intros Hne He. unfold src_cell.
  destruct (Nat.eqb_spec (ne + 1 - e) 0); destruct (Nat.eqb_spec (ne + 1 - e) (ne + 1)); destruct (Nat.eqb_spec e 0); destruct (Nat.eqb_spec e (ne + 1)); try lia;
    destruct (is_literal bl "periodic"), (is_literal bl "zerograd"), (is_literal br "periodic"), (is_literal br "zerograd"); lia.
Qed.

Lemma in_tab n (r : nat -> R) y : In y (tab n r) <-> exists i, (i < n)%nat /\ r i = y.
Proof. unfold tab. rewrite in_map_iff. split; intros [i [A B]]; exists i; rewrite in_seq in *; split; first [assumption|lia]. Qed.

Section Run.
  Context {X : Ext R}.
  Hypothesis G : gauss_ok.
  Hypothesis IV : inv_ok.
  Variables (gamma : R) (ne : nat) (b0 : basis R) (d : dg).
  Hypothesis D0 : dg_rows d = b_Ns b0 /\ dg_cols d = (ne * 3)%nat.
  Let Nu := b_Ns b0.
  Let Co := ((ne + 2) * 3)%nat.
  Definition Mir (u u' : mat R) : Prop := shape Nu Co u /\ shape Nu Co u' /\
    forall n e f, (n < Nu)%nat -> (e < ne + 2)%nat -> (f < 3)%nat -> at2 u' n (e * 3 + f) = parity f * ((-1) ^ n * at2 u n ((ne + 1 - e) * 3 + f)).
  Definition Mrw (s s' : solution R) : Prop := mirrored ne s s' /\ s_basis s = b0 /\ enh_sound s.

  Lemma M_Ns s s' : Mrw s s' -> s_Ns s = Nu /\ s_Ns s' = Nu.
  Proof. intros [H [E _]]. rewrite (mi_Ns _ _ _ H). unfold s_Ns. rewrite E. split; reflexivity. Qed.
  Lemma M_Mir s s' : Mrw s s' -> Mir (s_u s) (s_u s').
  Proof.
    intros H. destruct (M_Ns _ _ H) as [N1 N2]. destruct H as [H _]. destruct (mi_NF _ _ _ H) as [F1 F2]. destruct H as [M M' _ _ _ Hm].
    pose proof (wf_u _ _ (md_wf _ _ M)) as U1. pose proof (wf_u _ _ (md_wf _ _ M')) as U2. rewrite N1, F1 in U1. rewrite N2, F2 in U2. split; [exact U1|]. split; [exact U2|].
    intros n e f Hn He Hf. assert (Mj := Hm e f n He Hf ltac:(rewrite N1; exact Hn)).
    rewrite (modes_at ne s'), (modes_at ne s), F1, F2 in Mj by (first [apply md_wf; assumption|lia]). exact Mj.
  Qed.
  Lemma Mir_M s s' u u' : Mrw s s' -> Mir u u' -> Mrw (with_u s u) (with_u s' u').
  Proof.
    intros H [S1 [S2 S3]]. destruct (M_Ns _ _ H) as [N1 N2]. destruct H as [H [Eb Er]]. destruct (mi_NF _ _ _ H) as [F1 F2]. destruct H as [M M' Eu S Bc Hm].
    assert (V : wf ne (with_u s u)) by (apply wf_with_u; [apply md_wf; exact M|rewrite N1, F1; exact S1]).
    assert (V' : wf ne (with_u s' u')) by (apply wf_with_u; [apply md_wf; exact M'|rewrite N2, F2; exact S2]).
    split; [|split; assumption]. constructor; try assumption.
    - eapply made_similar; [exact M|apply similar_with_u|exact V].
    - eapply made_similar; [exact M'|apply similar_with_u|exact V'].
    - intros e f n He Hf Hn. change (s_Ns (with_u s u)) with (s_Ns s) in Hn.
      rewrite (modes_at ne (with_u s' u')), (modes_at ne (with_u s u)); try assumption; change (s_NF (with_u s u)) with (s_NF s); change (s_NF (with_u s' u')) with (s_NF s'); change (s_Ns (with_u s' u')) with (s_Ns s'); try lia.
      cbn [s_u with_u]. rewrite F1, F2. apply S3; lia.
  Qed.
  Lemma cell_col e f : (e < ne + 2)%nat -> (f < 3)%nat -> (e * 3 + f < Co)%nat. Proof. unfold Co. nia. Qed.
  Lemma Mir_axpy u u' a K K' : Mir u u' -> Mir K K' -> Mir (axpy_mat u a K) (axpy_mat u' a K').
  Proof.
    intros [S1 [S2 S3]] [T1 [T2 T3]]. split; [apply shape_axpy; assumption|]. split; [apply shape_axpy; assumption|]. intros n e f Hn He Hf.
    unfold axpy_mat. destruct (nltb _ _); [|apply S3; assumption].
    assert (A : forall (v k : mat R) j, shape Nu Co v -> shape Nu Co k -> (j < Co)%nat -> at2 (madd v (mscale a k)) n j = at2 v n j + a * at2 k n j).
    { intros v k j Hv Hk Hj. etransitivity; [refine (at2_madd _ _ v (mscale a k) n j Hv (shape_mscale _ _ a k Hk) Hn Hj)|].
      replace (at2 (mscale a k) n j) with (a * at2 k n j) by (symmetry; refine (at2_mscale _ _ a k n j Hk Hn Hj)). reflexivity. }
    etransitivity; [exact (A u' K' _ S2 T2 (cell_col e f He Hf))|]. symmetry. etransitivity; [do 2 apply f_equal; refine (A u K _ S1 T1 (cell_col (ne + 1 - e) f ltac:(lia) Hf))|]. symmetry.
    rewrite S3, T3 by assumption. ring.
  Qed.
  Lemma M_copy s s' t t' : Mrw s s' -> Mrw t t' -> Mrw (copy_data_only s t) (copy_data_only s' t').
  Proof. intros H1 H2. apply Mir_M; [exact H1|apply M_Mir; exact H2]. Qed.
  Lemma M_axpy s s' a K K' : Mrw s s' -> Mir K K' -> Mrw (smart_axpy s a K) (smart_axpy s' a K').
  Proof. intros H1 H2. apply Mir_M; [exact H1|]. apply Mir_axpy; [apply M_Mir; exact H1|exact H2]. Qed.
  Lemma M_t s s' t : Mrw s s' -> Mrw (with_t s t) (with_t s' t).
  Proof.
    intros [[M M' Eu S Bc Hm] [Eb Er]]. split; [|split; assumption]. constructor; try assumption.
    - destruct M. constructor; try assumption. apply wf_with_t. assumption.
    - destruct M'. constructor; try assumption. apply wf_with_t. assumption.
    - cbn. tauto.
  Qed.
  Lemma M_n s s' n : Mrw s s' -> Mrw (with_n s n) (with_n s' n).
  Proof.
    intros [[M M' Eu S Bc Hm] [Eb Er]]. split; [|split; assumption]. constructor; try assumption.
    - destruct M. constructor; try assumption. apply wf_with_n. assumption.
    - destruct M'. constructor; try assumption. apply wf_with_n. assumption.
    - cbn. tauto.
  Qed.
  Lemma M_time s s' : Mrw s s' -> s_t s = s_t s' /\ s_n s = s_n s'.
  Proof. intros [[M M' Eu S Bc Hm] _]. destruct S as [_ [_ [_ [S1 [S2 _]]]]]. split; symmetry; assumption. Qed.
  Lemma M_bc_u s s' : Mrw s s' -> Mrw (with_u s (bc_u ne s)) (with_u s' (bc_u ne s')).
  Proof.
    intros H. destruct (M_Ns _ _ H) as [N1 N2]. pose proof (proj1 H) as R0. destruct (mi_NF _ _ _ R0) as [F1 F2]. destruct R0 as [M M' Eu S Bc Hm]. pose proof (md_wf _ _ M) as W. pose proof (md_wf _ _ M') as W'.
    apply Mir_M; [exact H|]. assert (B1 := bc_u_shape ne s). assert (B2 := bc_u_shape ne s'). rewrite N1, F1 in B1. rewrite N2, F2 in B2. split; [exact B1|]. split; [exact B2|]. intros n e f Hn He Hf.
    pose proof (wf_apply_bc ne s W) as V. pose proof (wf_apply_bc ne s' W') as V'.
    assert (X1 : forall c, (c < ne + 2)%nat -> at2 (bc_u ne s) n (c * 3 + f) = at1 (modes (with_u s (bc_u ne s)) c f) n).
    { intros c Hc. rewrite (modes_at ne _ _ _ _ V Hc); change (s_NF (with_u s (bc_u ne s))) with (s_NF s); change (s_Ns (with_u s (bc_u ne s))) with (s_Ns s); rewrite ?F1, ?N1; try assumption. reflexivity. }
    assert (X2 : at2 (bc_u ne s') n (e * 3 + f) = at1 (modes (with_u s' (bc_u ne s')) e f) n).
    { rewrite (modes_at ne _ _ _ _ V' He); change (s_NF (with_u s' (bc_u ne s'))) with (s_NF s'); change (s_Ns (with_u s' (bc_u ne s'))) with (s_Ns s'); rewrite ?F2, ?N2; try assumption. reflexivity. }
    rewrite X1, X2, (modes_bc ne s), (modes_bc ne s') by (first [assumption|lia]). destruct Bc as [-> ->].
    rewrite Hm by (first [apply src_cell_lt; [apply (wf_ne _ _ W)|exact He]|exact Hf|rewrite N1; exact Hn]). rewrite <- src_mirror by (first [apply (wf_ne _ _ W)|exact He]). reflexivity.
  Qed.
  (** fluxes *)
  Definition q_mir (q : list R) : list R := [- at1 q 0; at1 q 1; - at1 q 2].
  Lemma q_mir_at q f : (f < 3)%nat -> at1 (q_mir q) f = - parity f * at1 q f.
  Proof. intro Hf. destruct f as [|[|[|f]]]; [| | |lia]; unfold q_mir, at1, parity; cbn [nth]; ring. Qed.
  Definition flux_of (r : riemann_kind) (a b : R * R * R) : res (list R) :=
    match r with
    | RUpwind => let '(x, y, z) := a in Ok [x; y; z]
    | RRusanov => let '(x, y, z) := rusanov1 gamma a b in Ok [x; y; z]
    | RRoe => let '(x, y, z) := roe1 gamma a b in Ok [x; y; z]
    | RGodunov => let! q := godunov1 gamma a b in let '(x, y, z) := q in Ok [x; y; z]
    end.
  Lemma iface_of s e : wf ne s -> s_euler s = true -> iface_flux gamma s (modes s) e = flux_of (s_riemann s) (left_of s e) (right_of s e).
  Proof.
    intros W Eu. assert (F : s_NF s = 3%nat) by (unfold s_NF; rewrite Eu; reflexivity). pose proof (wf_kind _ _ W) as K. unfold iface_flux, num_flux, flux_of, left_of, right_of. rewrite F, !at1_tab by lia.
    destruct (s_riemann s); try reflexivity.
  Qed.
  Definition mirrors (r : riemann_kind) (a b : R * R * R) : Prop := flux_of r (flip b) (flip a) = match flux_of r a b with Ok q => Ok (q_mir q) | Raise x => Raise x end.
  Lemma mirrors_rusanov a b : mirrors RRusanov a b.
  Proof. unfold mirrors, flux_of. rewrite rusanov_flip. destruct (rusanov1 gamma a b) as [[x y] z]. reflexivity. Qed.
  Lemma mirrors_roe a b : 1 < gamma -> admissible gamma a -> admissible gamma b -> mirrors RRoe a b.
  Proof.
    intros Hg [ra [va [pa [A1 [A2 ->]]]]] [rb [vb [pb [B1 [B2 ->]]]]]. unfold mirrors, flux_of. rewrite roe_mirror by assumption. destruct (roe1 gamma _ _) as [[x y] z]. reflexivity.
  Qed.
  Lemma M_sides s s' e : Mrw s s' -> (e <= ne)%nat -> left_of s' e = flip (right_of s (ne - e)) /\ right_of s' e = flip (left_of s (ne - e)).
  Proof.
    intros [H [_ HS]] He. pose proof (fun f Hf => mi_face IV ne s s' e f H HS He Hf) as Q. unfold left_of, right_of.
    rewrite (proj1 (Q 0%nat ltac:(lia))), (proj1 (Q 1%nat ltac:(lia))), (proj1 (Q 2%nat ltac:(lia))), (proj2 (Q 0%nat ltac:(lia))), (proj2 (Q 1%nat ltac:(lia))), (proj2 (Q 2%nat ltac:(lia))).
    cbn [flip parity]. split; (f_equal; [f_equal|]; ring).
  Qed.
  Lemma M_iface s s' e : Mrw s s' -> (e <= ne)%nat -> mirrors (s_riemann s) (left_of s (ne - e)) (right_of s (ne - e)) ->
    iface_flux gamma s' (modes s') e = match iface_flux gamma s (modes s) (ne - e) with Ok q => Ok (q_mir q) | Raise x => Raise x end.
  Proof.
    intros H He Hm. pose proof (proj1 H) as [M M' [E1 E2] [_ [Sr _]] _ _]. destruct (M_sides _ _ _ H He) as [A B].
    rewrite (iface_of s'), (iface_of s) by (first [apply md_wf; assumption|assumption]). rewrite A, B, Sr. exact Hm.
  Qed.
  Lemma M_res_mat t t' (q q' : nat -> list R) : Mrw t t' -> (forall e, (e <= ne)%nat -> q' e = q_mir (q (ne - e)%nat)) -> Mir (residual_mat gamma ne t q) (residual_mat gamma ne t' q').
  Proof.
    intros H Hq. destruct (M_Ns _ _ H) as [N1 N2]. pose proof (proj1 H) as R0. destruct (mi_NF _ _ _ R0) as [F1 F2]. pose proof R0 as [M M' Eu S Bc Hm]. destruct S as [Sb [_ [_ [_ [_ Sd]]]]].
    assert (G1 := shape_residual_mat gamma ne t q). assert (G2 := shape_residual_mat gamma ne t' q'). rewrite N1, F1 in G1. rewrite N2, F2 in G2.
    split; [exact G1|]. split; [exact G2|]. intros n e f Hn He Hf.
    unfold residual_mat. rewrite N1, F1, N2, F2. rewrite !at2_tab2 by (first [exact Hn|apply cell_col; first [exact Hf|lia]]). cbv zeta.
    rewrite (proj1 (divmod_idx 3 e f Hf)), (proj2 (divmod_idx 3 e f Hf)), (proj1 (divmod_idx 3 (ne + 1 - e) f Hf)), (proj2 (divmod_idx 3 (ne + 1 - e) f Hf)).
    assert (Em : at1 (s_minv t') n = at1 (s_minv t) n) by (rewrite (md_minv _ _ M n), (md_minv _ _ M' n), Sd by lia; reflexivity).
    assert (Hv := mi_volume G gamma ne t t' n e f R0 ltac:(lia) He Hf).
    destruct (Nat.leb_spec 1 e), (Nat.leb_spec e ne), (Nat.leb_spec 1 (ne + 1 - e)), (Nat.leb_spec (ne + 1 - e) ne); try lia; cbn [andb]; rewrite ?Hv, ?Em; try (unfold residual_of; rewrite ?Hv, ?Em).
    2,3: numR; ring.
    rewrite !Hq by lia. replace (ne - (e - 1))%nat with (ne + 1 - e)%nat by lia. replace (ne - e)%nat with (ne + 1 - e - 1)%nat by lia.
    unfold face_term. rewrite !q_mir_at by exact Hf. rewrite m1_odd, <- Nat.negb_odd. destruct (Nat.odd n); cbn [negb]; numR; ring.
  Qed.
  (** the residual, if the flux function is mirror symmetric at every interface *)
  Lemma M_residual s s' : Mrw s s' -> let t := with_u s (bc_u ne s) in let t' := with_u s' (bc_u ne s') in
    (forall e, (e <= ne)%nat -> mirrors (s_riemann s) (left_of t e) (right_of t e)) ->
    (forall F, residual gamma d s = Ok (t, F) -> exists F', residual gamma d s' = Ok (t', F') /\ Mir F F') /\ (forall x, residual gamma d s = Raise x -> exists y, residual gamma d s' = Raise y).
  Proof.
    intros H t t' HM. destruct (M_Ns _ _ H) as [N1 N2]. pose proof (proj1 H) as R0. destruct (mi_NF _ _ _ R0) as [F1 F2]. pose proof R0 as [M M' Eu S Bc Hm].
    assert (D1 : wf_dg ne s d) by (unfold wf_dg; rewrite N1, F1; exact D0). assert (D2 : wf_dg ne s' d) by (unfold wf_dg; rewrite N2, F2; exact D0).
    pose proof (md_wf _ _ M) as W. pose proof (md_wf _ _ M') as W'. assert (Ht : Mrw t t') by (apply M_bc_u; exact H).
    assert (HI : forall e, (e <= ne)%nat -> iface_flux gamma t' (modes t') e = match iface_flux gamma t (modes t) (ne - e) with Ok q => Ok (q_mir q) | Raise x => Raise x end).
    { intros e He. apply M_iface; [exact Ht|exact He|]. apply HM. lia. }
    split.
    - intros F HF. apply (residual_iff gamma ne s d t F W D1) in HF. destruct HF as [_ [q [Hq ->]]]. fold t in Hq.
      exists (residual_mat gamma ne t' (fun e => q_mir (q (ne - e)%nat))). split; [|apply M_res_mat; [exact Ht|reflexivity]].
      apply (residual_iff gamma ne s' d); [exact W'|exact D2|]. split; [reflexivity|]. eexists. split; [|reflexivity]. intros e He. fold t'. rewrite HI, Hq by lia. reflexivity.
    - intros x HF. destruct (residual gamma d s') as [[t1 F1']|y] eqn:E; [|exists y; reflexivity]. exfalso.
      apply (residual_iff gamma ne s' d t1 F1' W' D2) in E. destruct E as [_ [q [Hq _]]]. fold t' in Hq.
      assert (Hs : exists q0, forall e, (e <= ne)%nat -> iface_flux gamma t (modes t) e = Ok (q0 e)).
      { exists (fun e => match iface_flux gamma t (modes t) e with Ok y => y | Raise _ => [] end). intros e He. specialize (HI (ne - e)%nat ltac:(lia)). rewrite Hq in HI by lia. replace (ne - (ne - e))%nat with e in HI by lia.
        destruct (iface_flux gamma t (modes t) e); [reflexivity|discriminate]. }
      destruct Hs as [q0 Hq0]. assert (R1 : residual gamma d s = Ok (t, residual_mat gamma ne t q0)).
      { apply (residual_iff gamma ne s d); [exact W|exact D1|]. split; [reflexivity|]. exists q0. split; [exact Hq0|reflexivity]. }
      rewrite R1 in HF. discriminate.
  Qed.
  Lemma Mir_scale dt K K' : Mir K K' -> Mir (mscale dt K) (mscale dt K').
  Proof.
    intros [S1 [S2 S3]]. split; [apply shape_mscale; exact S1|]. split; [apply shape_mscale; exact S2|]. intros n e f Hn He Hf.
    etransitivity; [refine (at2_mscale _ _ dt K' n _ S2 Hn (cell_col e f He Hf))|]. symmetry. etransitivity; [do 2 apply f_equal; refine (at2_mscale _ _ dt K n _ S1 Hn (cell_col (ne + 1 - e) f ltac:(lia) Hf))|]. symmetry.
    rewrite S3 by assumption. cbn. ring.
  Qed.
  Lemma mirrors_godunov rl vl pl rr vr pr : 1 < gamma -> 0 < rl -> 0 < pl -> 0 < rr -> 0 < pr -> vl < sound_of gamma rl pl \/ - sound_of gamma rr pr < vr ->
    mirrors RGodunov (cons gamma rl vl pl) (cons gamma rr vr pr).
  Proof.
    intros Hg A1 A2 B1 B2 Hs. unfold mirrors, flux_of. rewrite godunov_mirror by assumption. destruct (godunov1 gamma _ _) as [[[x y] z]|e]; reflexivity.
  Qed.
  (** from here on: one flux function, which either never fails, or whose exceptions are not compared *)
  Variables (r0 : riemann_kind) (Ex : exn -> exn -> Prop).
  Hypothesis Exr : forall e, Ex e e.
  Hypothesis HEx : (forall e e', Ex e e') \/ (forall a b, exists q, flux_of r0 a b = Ok q).
  Definition Mr s s' : Prop := Mrw s s' /\ s_riemann s = r0.
  Definition symmetric_at s : Prop := forall t, apply_bc s = Ok t -> forall e, (e <= ne)%nat -> mirrors r0 (left_of t e) (right_of t e).
  Lemma Mr_res dt s s' : symmetric_at s -> Mr s s' -> resx Ex (fun p p' => Mr (fst p) (fst p') /\ Mir (mscale dt (snd p)) (mscale dt (snd p'))) (residual gamma d s) (residual gamma d s').
  Proof.
    intros HG [H HR]. pose proof (proj1 H) as R0. destruct (M_Ns _ _ H) as [N1 N2]. destruct (mi_NF _ _ _ R0) as [F1 F2]. pose proof R0 as [M M' [E1 E2] S Bc Hm]. pose proof (md_wf _ _ M) as W.
    assert (D1 : wf_dg ne s d) by (unfold wf_dg; rewrite N1, F1; exact D0).
    destruct (M_residual s s' H) as [A B]; [intros e He; rewrite HR; apply HG; [apply apply_bc_eq; exact W|exact He]|]. set (t := with_u s (bc_u ne s)) in *.
    destruct (residual gamma d s) as [[t1 F]|x] eqn:E.
    - pose proof E as E0. apply (residual_iff gamma ne s d t1 F W D1) in E0. destruct E0 as [-> _]. fold t in E |- *.
      destruct (A _ eq_refl) as [F' [R2 HF]]. rewrite R2. constructor. cbn [fst snd]. split; [split; [apply M_bc_u; exact H|exact HR]|]. apply Mir_scale. exact HF.
    - destruct (B _ eq_refl) as [y Hy]. rewrite Hy. constructor. destruct HEx as [HE|HE]; [apply HE|]. exfalso.
      assert (Hq : exists q, forall e, (e <= ne)%nat -> iface_flux gamma t (modes t) e = Ok (q e)).
      { exists (fun e => match iface_flux gamma t (modes t) e with Ok y => y | Raise _ => [] end). intros e He. rewrite (iface_of t) by (first [apply wf_apply_bc; exact W|exact E1]).
        change (s_riemann t) with (s_riemann s). rewrite HR. destruct (HE (left_of t e) (right_of t e)) as [q ->]. reflexivity. }
      destruct Hq as [q Hq]. assert (R1 : residual gamma d s = Ok (t, residual_mat gamma ne t q)).
      { apply (residual_iff gamma ne s d); [exact W|exact D1|]. split; [reflexivity|]. exists q. split; [exact Hq|reflexivity]. }
      rewrite R1 in E. discriminate.
  Qed.
  Lemma M_step s s' tout cfl tf : Mrw s s' ->
    resx Ex eq (get_next_time_step gamma s tout cfl tf) (get_next_time_step gamma s' tout cfl tf).
  Proof.
    intro H. pose proof (M_Ns _ _ H) as [N1 N2]. pose proof (proj1 H) as [M M' [E1 E2] S Bc Hm]. destruct S as [Sb [_ [_ [_ [St Sd]]]]].
    pose proof (md_wf _ _ M) as W. pose proof (md_wf _ _ M') as W'.
    assert (E : get_next_time_step gamma s' tout cfl tf = get_next_time_step gamma s tout cfl tf).
    { unfold get_next_time_step, cfl_time_step. rewrite (euler_speed_cells gamma ne s W E1), (euler_speed_cells gamma ne s' W' E2), Sb, Sd, St.
      replace (npmax (tab (ne + 2) (fun e => wave_speed gamma (at1 (modes s' e 0) 0, at1 (modes s' e 1) 0, at1 (modes s' e 2) 0))))
        with (npmax (tab (ne + 2) (fun e => wave_speed gamma (at1 (modes s e 0) 0, at1 (modes s e 1) 0, at1 (modes s e 2) 0)))); [reflexivity|].
      assert (P : (0 < s_Ns s)%nat) by apply Ns_pos.
      assert (K : forall e, (e < ne + 2)%nat -> wave_speed gamma (at1 (modes s' e 0) 0, at1 (modes s' e 1) 0, at1 (modes s' e 2) 0) =
        wave_speed gamma (at1 (modes s (ne + 1 - e) 0) 0, at1 (modes s (ne + 1 - e) 1) 0, at1 (modes s (ne + 1 - e) 2) 0)).
      { intros e He. rewrite !Hm by (first [exact He|exact P|lia]). rewrite <- speed_flip. f_equal. unfold flip, parity. cbn [pow]. f_equal; [f_equal|]; ring. }
      apply npmax_same. intro y. split; intro Hy; apply in_tab in Hy; destruct Hy as [e [He Ey]]; apply in_tab; exists (ne + 1 - e)%nat; (split; [lia|]).
      - rewrite K by lia. replace (ne + 1 - (ne + 1 - e))%nat with e by lia. exact Ey.
      - rewrite K in Ey by exact He. exact Ey. }
    rewrite E. destruct (get_next_time_step gamma s tout cfl tf) as [r|x]; constructor; [reflexivity|apply Exr].
  Qed.
  Lemma Mir_0 s s' : Mrw s s' -> Mir (zeros2 (nrows (s_u s)) (ncols (s_u s))) (zeros2 (nrows (s_u s')) (ncols (s_u s'))).
  Proof.
    intro H. destruct (M_Mir _ _ H) as [S1 [S2 _]]. assert (P : (1 <= Nu)%nat) by (unfold Nu, b_Ns; lia).
    rewrite (shape_ncols _ _ _ S1 P), (shape_ncols _ _ _ S2 P), (proj1 S1 : nrows (s_u s) = Nu), (proj1 S2 : nrows (s_u s') = Nu).
    split; [apply shape_tab2|]. split; [apply shape_tab2|]. intros n e f Hn He Hf. unfold zeros2. rewrite !at2_tab2 by (first [exact Hn|apply cell_col; first [exact Hf|lia]]). cbn. ring.
  Qed.
  Lemma M_run rk cfl tf nout fuel sol sol' : (forall x, evaluated gamma rk d None cfl tf nout sol x -> symmetric_at x) -> Mr sol sol' ->
    let r := integrate gamma rk d None cfl tf nout fuel sol in
    let r' := integrate gamma rk d None cfl tf nout fuel sol' in
    Forall2 (Rev Mr) (fst r) (fst r') /\ outx Ex Mr (snd r) (snd r').
  Proof.
    intros HG H. apply (integrate_relG gamma Ex Exr Mr Mr Mir symmetric_at (fun _ => True) d None).
    - auto.
    - intros s s' t t' [H1 R1] [H2 _]. split; [apply M_copy; assumption|exact R1].
    - intros s s' a K K' [H1 R1] HK. split; [apply M_axpy; assumption|exact R1].
    - intros s s' t [H1 R1]. split; [apply M_t; assumption|exact R1].
    - intros s s' [H1 _]. apply M_time. exact H1.
    - intros s s' _ H1. constructor 1. exact H1.
    - exact Mr_res.
    - intros s s' n [H1 R1]. split; [apply M_n; assumption|exact R1].
    - intros s s' [H1 R1]. pose proof (proj1 H1) as [M M' _ _ _ _]. rewrite (apply_bc_eq ne s (md_wf _ _ M)), (apply_bc_eq ne s' (md_wf _ _ M')). constructor 1. split; [apply M_bc_u; exact H1|exact R1].
    - intros s s' _ H1. constructor 1. exact H1.
    - intros s s' tout c t [H1 _]. apply M_step. exact H1.
    - intros s s' k dt [[[M M' _ _ _ _] _] _]. rewrite (printer_total ne k dt s (md_wf _ _ M)), (printer_total ne k dt s' (md_wf _ _ M')). eauto.
    - exact HG.
    - auto.
    - exact H.
    - apply Mir_0. apply H.
  Qed.
End Run.

Lemma mirror_run_gen {X : Ext R} gamma ne (sol sol' : solution R) d (Ex : exn -> exn -> Prop) r0 : gauss_ok -> inv_ok -> mirrored ne sol sol' -> enh_sound sol -> s_riemann sol = r0 -> wf_dg ne sol d ->
  (forall e, Ex e e) -> (forall e e', Ex e e') \/ (forall a b, exists q, flux_of gamma r0 a b = Ok q) ->
  forall rk cfl tf nout fuel, (forall x, evaluated gamma rk d None cfl tf nout sol x -> symmetric_at gamma ne r0 x) ->
  let r := integrate gamma rk d None cfl tf nout fuel sol in
  let r' := integrate gamma rk d None cfl tf nout fuel sol' in
  Forall2 (mirrored_event ne) (fst r) (fst r') /\ mirrored_outcome ne Ex (snd r) (snd r').
Proof.
  intros G IV H HS HR D Exr HEx rk cfl tf nout fuel HG. cbv zeta. destruct (mi_NF _ _ _ H) as [F3 _]. destruct D as [D1 D2]. rewrite F3 in D2.
  destruct (M_run G IV gamma ne (s_basis sol) d (conj D1 D2) r0 Ex Exr HEx rk cfl tf nout fuel sol sol' HG (conj (conj H (conj eq_refl HS)) HR)) as [E O]. split.
  - clear - E. induction E as [|x y xs ys [X1 [X2 X3]] _ IH]; constructor; [|exact IH]. split; [symmetry; exact X1|]. split; [symmetry; exact X2|apply X3].
  - destruct O as [s s' [[Y _] _]|e e' He|]; constructor; assumption.
Qed.
(** Rusanov's flux: no condition on the states *)
Lemma mirror_run {X : Ext R} gamma ne (sol sol' : solution R) d : gauss_ok -> inv_ok -> mirrored ne sol sol' -> enh_sound sol -> s_riemann sol = RRusanov -> wf_dg ne sol d ->
  forall rk cfl tf nout fuel,
  let r := integrate gamma rk d None cfl tf nout fuel sol in
  let r' := integrate gamma rk d None cfl tf nout fuel sol' in
  Forall2 (mirrored_event ne) (fst r) (fst r') /\ mirrored_outcome ne eq (snd r) (snd r').
Proof.
  intros G IV H HS HR D rk cfl tf nout fuel. apply (mirror_run_gen gamma ne sol sol' d eq RRusanov); try assumption; try reflexivity.
  - right. intros a b. unfold flux_of. destruct (rusanov1 gamma a b) as [[x y] z]. eauto.
  - intros x _ t _ e _. apply mirrors_rusanov.
Qed.
Lemma mirror_run_roe {X : Ext R} gamma ne (sol sol' : solution R) d : 1 < gamma -> gauss_ok -> inv_ok -> mirrored ne sol sol' -> enh_sound sol -> s_riemann sol = RRoe -> wf_dg ne sol d ->
  forall rk cfl tf nout fuel, (forall x, evaluated gamma rk d None cfl tf nout sol x -> physical gamma ne x) ->
  let r := integrate gamma rk d None cfl tf nout fuel sol in
  let r' := integrate gamma rk d None cfl tf nout fuel sol' in
  Forall2 (mirrored_event ne) (fst r) (fst r') /\ mirrored_outcome ne eq (snd r) (snd r').
Proof.
  intros Hg G IV H HS HR D rk cfl tf nout fuel HP. apply (mirror_run_gen gamma ne sol sol' d eq RRoe); try assumption; try reflexivity.
  - right. intros a b. unfold flux_of. destruct (roe1 gamma a b) as [[x y] z]. eauto.
  - intros x Hx t Et e He. destruct (HP x Hx t Et e He) as [A B]. apply mirrors_roe; assumption.
Qed.
Lemma mirror_run_godunov {X : Ext R} gamma ne (sol sol' : solution R) d : 1 < gamma -> gauss_ok -> inv_ok -> mirrored ne sol sol' -> enh_sound sol -> s_riemann sol = RGodunov -> wf_dg ne sol d ->
  forall rk cfl tf nout fuel, (forall x, evaluated gamma rk d None cfl tf nout sol x -> no_collision gamma ne x) ->
  let r := integrate gamma rk d None cfl tf nout fuel sol in
  let r' := integrate gamma rk d None cfl tf nout fuel sol' in
  Forall2 (mirrored_event ne) (fst r) (fst r') /\ mirrored_outcome ne (fun _ _ => True) (snd r) (snd r').
Proof.
  intros Hg G IV H HS HR D rk cfl tf nout fuel HP. apply (mirror_run_gen gamma ne sol sol' d (fun _ _ => True) RGodunov); try assumption; auto.
  intros x Hx t Et e He. destruct (HP x Hx t Et e He) as [rl [vl [pl [rr [vr [pr [A1 [A2 [A3 [A4 [-> [-> A5]]]]]]]]]]]]. apply mirrors_godunov; assumption.
Qed.
Lemma reflect_mirrored {X : Ext R} ne s : made ne s -> s_euler s = true -> mirrored ne s (reflect ne s).
Proof.
  intros M Eu. pose proof (md_wf _ _ M) as W. assert (F3 : s_NF s = 3%nat) by (unfold s_NF; rewrite Eu; reflexivity).
  assert (W' : wf ne (reflect ne s)).
  { pose proof W as [? ? ? ? ? ? ? ? ? ? Wx ?]. constructor; try assumption; [apply shape_tab2|cbn [reflect s_xc]; rewrite rev_length, map_length; exact Wx]. }
  constructor; [exact M| |split; exact Eu|repeat split|split; reflexivity|].
  - destruct M. constructor; assumption.
  - intros e f n He Hf Hn. rewrite (modes_at ne (reflect ne s)), (modes_at ne s) by (first [assumption|change (s_NF (reflect ne s)) with (s_NF s); lia|lia]).
    change (s_NF (reflect ne s)) with (s_NF s). cbn [reflect s_u]. rewrite F3, at2_tab2 by (first [exact Hn|nia]). rewrite (proj1 (divmod_idx 3 e f Hf)), (proj2 (divmod_idx 3 e f Hf)). reflexivity.
Qed.
Lemma mirrored_self_gen {X : Ext R} ne Ex (sol : solution R) (r : list (event R) * outcome R) : Forall2 (mirrored_event ne) (fst r) (fst r) -> mirrored_outcome ne Ex (snd r) (snd r) ->
  Forall (fun ev => mirrored ne (ev_sol ev) (ev_sol ev)) (fst r) /\ forall s1, snd r = Finished s1 -> mirrored ne s1 s1.
Proof.
  destruct r as [evs o]. cbn [fst snd]. intros E O. split.
  - clear - E. induction evs as [|x xs IH]; constructor; inversion E as [|? ? ? ? E1 E2]; subst; [apply E1|apply IH; exact E2].
  - intros s1 ->. inversion O; assumption.
Qed.
(** data that are their own mirror image stay so *)
Lemma mirrored_self_run {X : Ext R} gamma ne (sol : solution R) d : 1 < gamma -> gauss_ok -> inv_ok -> mirrored ne sol sol -> enh_sound sol -> wf_dg ne sol d ->
  forall rk cfl tf nout fuel evs o,
  match s_riemann sol with
  | RRoe => forall x, evaluated gamma rk d None cfl tf nout sol x -> physical gamma ne x
  | RGodunov => forall x, evaluated gamma rk d None cfl tf nout sol x -> no_collision gamma ne x
  | RRusanov => True
  | RUpwind => False
  end ->
  integrate gamma rk d None cfl tf nout fuel sol = (evs, o) ->
  Forall (fun ev => mirrored ne (ev_sol ev) (ev_sol ev)) evs /\ forall s1, o = Finished s1 -> mirrored ne s1 s1.
Proof.
  intros Hg G IV H HS D rk cfl tf nout fuel evs o HC HI. replace evs with (fst (integrate gamma rk d None cfl tf nout fuel sol)) by (rewrite HI; reflexivity). replace o with (snd (integrate gamma rk d None cfl tf nout fuel sol)) by (rewrite HI; reflexivity).
  destruct (s_riemann sol) eqn:HR; [contradiction| | |].
  all: eapply mirrored_self_gen; [exact sol| |].
  all: first [apply (mirror_run gamma ne sol sol d); assumption|apply (mirror_run_roe gamma ne sol sol d); assumption|apply (mirror_run_godunov gamma ne sol sol d); assumption].
Qed.
Lemma mirrored_series {X : Ext R} ne (s s' : solution R) e f x : mirrored ne s s' -> (e < ne + 2)%nat -> (f < 3)%nat ->
  legseries (modes s' e f) x = match f with 1%nat => - legseries (modes s (ne + 1 - e) f) (- x) | _ => legseries (modes s (ne + 1 - e) f) (- x) end.
Proof. intros H He Hf. rewrite (series_mi ne s s' e f x H He Hf). destruct f as [|[|[|f]]]; [| | |lia]; unfold parity; ring. Qed.
