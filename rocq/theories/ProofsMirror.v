(** C72: fluxes, interface values and volume terms of mirrored flows. *)
From Coq Require Import ZArith List Bool Arith String Lia Reals Lra.
From Verif Require Import Num Py Lib RealLib LegNumpy Ext Basis Sensor Enhance EulerPhysics Solution Solver SpecDG SpecPoly SpecEnh SpecUniform SpecEuler SpecMirror
  ProofsPoly ProofsLeg ProofsGauss ProofsDG ProofsDG2 ProofsWf ProofsSol ProofsBasis ProofsEnh ProofsDescartes ProofsEnh2 ProofsMirrorQuad ProofsUnits ProofsRiemann ProofsCons ProofsShift ProofsUnitsRun.
Import ListNotations.
Open Scope list_scope.
Open Scope R_scope.

Notation refl := ProofsDescartes.mirror.
Notation flip := SpecEuler.mirror.

Section Flux.
  Variable g : R.
  Lemma vel_flip c : vel (flip c) = - vel c.
  Proof. destruct c as [[r m] E]. cbn. unfold Rdiv. ring. Qed.
  Lemma pres_flip c : pres g (flip c) = pres g c.
  Proof. destruct c as [[r m] E]. pose proof (vel_flip (r, m, E)) as V. unfold pres, flip in *. rewrite V. numR. ring. Qed.
  Lemma sound_flip c : sound g (flip c) = sound g c.
  Proof. pose proof (pres_flip c) as P. destruct c as [[r m] E]. unfold sound, flip in *. rewrite P. reflexivity. Qed.
  Lemma speed_flip c : wave_speed g (flip c) = wave_speed g c.
  Proof. unfold wave_speed. rewrite vel_flip, sound_flip. cbn. rewrite Rabs_Ropp. reflexivity. Qed.
  Lemma flux1_flip c : flux1 g (flip c) = mirror_flux (flux1 g c).
  Proof.
    rewrite !flux1_eq, vel_flip, pres_flip. destruct c as [[r m] E]. generalize (vel (r, m, E)) (pres g (r, m, E)). intros v p. cbn. f_equal; [f_equal|]; ring.
  Qed.
  Lemma rusanov_flip l r : rusanov1 g (flip r) (flip l) = mirror_flux (rusanov1 g l r).
  Proof.
    pose proof (vel_flip l) as V1. pose proof (vel_flip r) as V2. pose proof (pres_flip l) as P1. pose proof (pres_flip r) as P2. pose proof (speed_flip l) as S1. pose proof (speed_flip r) as S2.
    destruct l as [[rL mL] EL], r as [[rR mR] ER]. cbn [flip] in *. rewrite !rus_eq, V1, V2, P1, P2, S1, S2.
    rewrite !(npmaximum_R (wave_speed _ _)), (Rmax_comm (wave_speed g (rR, mR, ER))).
    generalize (vel (rL, mL, EL)) (vel (rR, mR, ER)) (pres g (rL, mL, EL)) (pres g (rR, mR, ER)) (Rmax (wave_speed g (rL, mL, EL)) (wave_speed g (rR, mR, ER))). intros.
    unfold rus_of, mirror_flux. f_equal; [f_equal|]; ring.
  Qed.
End Flux.

(** reflected polynomials *)
Lemma length_refl (c : list R) : List.length (refl c) = List.length c. Proof. apply length_tab. Qed.
Lemma refl_scale k (c : list R) : refl (map (Rmult k) c) = map (Rmult k) (refl c).
Proof.
  apply (list_ext 0); [rewrite length_refl, !map_length, length_refl; reflexivity|]. intros n Hn.
  rewrite mirror_nth, !(nth_map0 (Rmult k)) by ring. rewrite mirror_nth. ring.
Qed.
Lemma m1_m1 n : (-1) ^ n * (-1) ^ n = 1.
Proof. rewrite <- Rpow_mult_distr. replace (-1 * -1) with 1 by ring. apply pow1. Qed.
Lemma m1_odd n : (-1) ^ n = if Nat.odd n then -1 else 1.
Proof. induction n as [|n IH]; [reflexivity|]. rewrite Nat.odd_succ, <- Nat.negb_odd. cbn [pow]. rewrite IH. destruct (Nat.odd n); cbn; ring. Qed.
Lemma refl_refl (c : list R) : refl (refl c) = c.
Proof. apply (list_ext 0); [rewrite !length_refl; reflexivity|]. intros n Hn. rewrite !mirror_nth, <- Rmult_assoc, m1_m1. ring. Qed.
Lemma dLegP_neg n x : dLegP n (- x) = - ((-1) ^ n * dLegP n x).
Proof.
  (* differentiate P_n(-x) = (-1)^n P_n(x) *)
  assert (D1 : derivable_pt_lim (fun y => LegP n (- y)) x (- dLegP n (- x))).
  { pose proof (dlim_affine (LegP n) (-1) 0 x (dLegP n (- x))) as D. replace (-1 * x + 0) with (- x) in D by ring. specialize (D (LegP_deriv n (- x))).
    apply (dlim_ext (fun y => LegP n (-1 * y + 0))); [intro y; f_equal; ring|]. apply (dlim_eq _ _ (-1 * dLegP n (- x))); [ring|exact D]. }
  assert (D2 : derivable_pt_lim (fun y => LegP n (- y)) x ((-1) ^ n * dLegP n x)).
  { apply (dlim_ext (fun y => (-1) ^ n * LegP n y)); [intro y; rewrite LegP_neg, m1_odd; reflexivity|]. apply dlim_scal, LegP_deriv. }
  pose proof (uniqueness_limite _ _ _ _ D1 D2). lra.
Qed.
Lemma shift_coefs q d m : nth m (shift_legendre (refl q) (- d)) 0 = (-1) ^ m * nth m (shift_legendre q d) 0.
Proof.
  rewrite <- mirror_nth. apply legseries_inj_nth. intro x. rewrite mirror_series, !shift_legendre_ok, mirror_series. f_equal. ring.
Qed.

Lemma refl_reconstructs p ms d k cell nb q : reconstructs p ms d cell nb q -> reconstructs p ms (- d) (map (Rmult k) (refl cell)) (map (Rmult k) (refl nb)) (map (Rmult k) (refl q)).
Proof.
  intros [L [H1 H2]]. assert (Z : k * 0 = 0) by ring. split; [rewrite map_length, length_refl; exact L|]. split.
  - intros m Hm. apply same_moment_coef. rewrite !(nth_map0 (Rmult k)), !mirror_nth by exact Z. specialize (H1 m Hm). apply same_moment_coef in H1. rewrite H1. reflexivity.
  - intros m Hm. apply same_moment_shift. specialize (H2 m Hm). apply same_moment_shift in H2. rewrite (nth_map0 (Rmult k)), mirror_nth, <- H2, <- shift_coefs by exact Z.
    transitivity (nth m (map (Rmult k) (shift_legendre (refl q) (- d))) 0); [|rewrite (nth_map0 (Rmult k)) by exact Z; reflexivity].
    apply legseries_inj_nth. intro x. rewrite shift_legendre_ok. change (map (Rmult k)) with (legscale (A:=R) k). rewrite !legseries_scale, shift_legendre_ok. reflexivity.
Qed.

Section Cells.
  Context {X : Ext R}.
  Hypothesis G : gauss_ok.
  Hypothesis IV : inv_ok.
  Variables (gamma : R) (ne : nat).
  Implicit Types s : solution R.

  Lemma mi_NF s s' : mirrored ne s s' -> s_NF s = 3%nat /\ s_NF s' = 3%nat.
  Proof. intros [_ _ [E1 E2] _ _ _]. unfold s_NF. rewrite E1, E2. split; reflexivity. Qed.
  Lemma mi_Ns s s' : mirrored ne s s' -> s_Ns s' = s_Ns s.
  Proof. intros [_ _ _ [E _] _ _]. unfold s_Ns. rewrite E. reflexivity. Qed.
  Lemma mi_vec s s' e f : mirrored ne s s' -> (e < ne + 2)%nat -> (f < 3)%nat -> modes s' e f = map (Rmult (parity f)) (refl (modes s (ne + 1 - e) f)).
  Proof.
    intros H He Hf. pose proof (mi_Ns _ _ H) as EN. destruct H as [M M' _ _ _ Hm]. assert (L := length_modes ne s (ne + 1 - e) f (md_wf _ _ M)).
    apply (list_ext 0); [rewrite map_length, length_refl, L, (length_modes ne s' e f (md_wf _ _ M')); exact EN|].
    rewrite (length_modes ne s' e f (md_wf _ _ M')), EN. intros n Hn. rewrite (nth_map0 (Rmult (parity f))), mirror_nth by ring. exact (Hm e f n He Hf Hn).
  Qed.
  Lemma series_mi s s' e f x : mirrored ne s s' -> (e < ne + 2)%nat -> (f < 3)%nat -> legseries (modes s' e f) x = parity f * legseries (modes s (ne + 1 - e) f) (- x).
  Proof. intros H He Hf. rewrite (mi_vec s s' e f H He Hf). change (map (Rmult (parity f))) with (legscale (A:=R) (parity f)). rewrite legseries_scale, mirror_series. reflexivity. Qed.
  Lemma len_modes s e f : made ne s -> List.length (modes s e f) = (b_p (s_basis s) + 1)%nat.
  Proof. intro M. rewrite (length_modes ne s e f (md_wf _ _ M)). apply (made_Ns ne). exact M. Qed.
  (** interface values: left and right change places *)
  Lemma mi_face s s' e f : mirrored ne s s' -> enh_sound s -> (e <= ne)%nat -> (f < 3)%nat ->
    face_minus s' (modes s') e f = parity f * face_plus s (modes s) (ne - e) f /\ face_plus s' (modes s') e f = parity f * face_minus s (modes s) (ne - e) f.
  Proof.
    intros H HS He Hf. pose proof (mi_NF _ _ H) as [F1 F2]. pose proof H as [M M' _ [Sb [_ [Se _]]] _ _].
    replace (ne - e)%nat with (ne + 1 - (e + 1))%nat by lia. set (E := (ne + 1 - (e + 1))%nat).
    assert (EE : (ne + 1 - e = E + 1)%nat) by (unfold E; lia). assert (HE : (E <= ne)%nat) by (unfold E; lia).
    unfold enh_sound in HS. destruct (s_enh s) as [en|] eqn:Een.
    - destruct HS as [mthd [HE1 [ND HB]]].
      destruct (evaluate_faces_Ok ne s (md_wf _ _ M)) as [uf [U1 [_ [_ V]]]]. destruct (evaluate_faces_Ok ne s' (md_wf _ _ M')) as [uf' [U1' [_ [_ V']]]].
      assert (Een' : s_enh s' = Some en) by exact Se.
      destruct (enhanced_faces IV ne s mthd en uf M Een HE1 ND HB U1 E f HE ltac:(lia)) as [A1 A2].
      rewrite <- Sb in HE1, HB. destruct (enhanced_faces IV ne s' mthd en uf' M' Een' HE1 ND HB U1' e f He ltac:(lia)) as [B1 B2].
      destruct (V E f HE ltac:(lia)) as [V1 V2]. destruct (V' e f He ltac:(lia)) as [V3 V4]. rewrite V1 in A1. rewrite V2 in A2. rewrite V3 in B1. rewrite V4 in B2. rewrite Sb in B1, B2.
      rewrite (mi_vec s s' e f H), (mi_vec s s' (e + 1) f H) in B1, B2 by lia. fold E in B1, B2. rewrite EE in B1, B2.
      destruct A1 as [q1 [Q1 [_ W1]]]. destruct A2 as [q2 [Q2 [_ W2]]].
      pose proof (refl_reconstructs _ _ _ (parity f) _ _ _ Q1) as T1. pose proof (refl_reconstructs _ _ _ (parity f) _ _ _ Q2) as T2. replace (- -2) with 2 in T2 by ring.
      split.
      + rewrite (reconstructed_exact _ _ _ _ _ _ _ _ B1 T2), <- W2. change (map (Rmult (parity f))) with (legscale (A:=R) (parity f)). rewrite legseries_scale, mirror_series. apply f_equal. apply f_equal. ring.
      + change (- (2)) with (Ropp 2) in T1. replace (Ropp 2) with (-2) in T1 by ring.
        rewrite (reconstructed_exact _ _ _ _ _ _ _ _ B2 T1), <- W1. change (map (Rmult (parity f))) with (legscale (A:=R) (parity f)). rewrite legseries_scale, mirror_series. apply f_equal. apply f_equal. ring.
    - unfold face_minus, face_plus. rewrite Se, Een, Sb. rewrite (md_basis _ _ M). set (p := b_p (s_basis s)).
      assert (L : forall c, List.length (modes s c f) = (p + 1)%nat) by (intro; apply len_modes; exact M). assert (L' : forall c, List.length (modes s' c f) = (p + 1)%nat) by (intro; rewrite len_modes, Sb by exact M'; reflexivity).
      rewrite !psi_right, !psi_left, !(series_mi s s') by (first [exact H|apply L|apply L'|lia]). fold E. rewrite EE. split; apply f_equal; apply f_equal; ring.
  Qed.
  (** volume terms *)
  Lemma volume_sum s n e f : made ne s -> s_euler s = true -> (n < s_Ns s)%nat -> volume_term gamma s (modes s) n e f =
    Rsum (b_p (s_basis s) + 1) (fun i => nth i (b_w (s_basis s)) 0 * (dLegP n (nth i (b_x (s_basis s)) 0) *
      at1 (let '(a, b, c) := flux1 gamma (legseries (modes s e 0) (nth i (b_x (s_basis s)) 0), legseries (modes s e 1) (nth i (b_x (s_basis s)) 0), legseries (modes s e 2) (nth i (b_x (s_basis s)) 0)) in [a; b; c]) f)).
  Proof.
    intros M Eu Hn. assert (F : s_NF s = 3%nat) by (unfold s_NF; rewrite Eu; reflexivity). unfold volume_term. pose proof (made_Ns ne s M) as EN.
    assert (L : forall c f0, List.length (modes s c f0) = (b_p (s_basis s) + 1)%nat) by (intros; apply len_modes; exact M).
    pose proof (md_basis _ _ M) as B. set (p := b_p (s_basis s)) in *. rewrite B. pose proof (G_len G p) as Lx. 
    assert (SH := wf_dphi _ _ (md_wf _ _ M)). rewrite B in SH.
    rewrite (vdot_R _ _ (p + 1)); [|rewrite (shape_row _ _ _ n SH Hn); exact Lx|rewrite length_tab; exact Lx].
    apply Rsum_ext. intros i Hi. assert (Hi' : (i < List.length (b_x (Basis p)))%nat) by (rewrite Lx; exact Hi).
    rewrite at1_tab by exact Hi'. unfold phys_flux. rewrite Eu. unfold node_state. rewrite F, !at1_tab by lia.
    rewrite B, !phi_row by (first [exact Hi'|apply L]).
    replace (at1 (row (b_dphi_w (Basis p)) n) i) with (dLegP n (at1 (b_x (Basis p)) i) * at1 (b_w (Basis p)) i) by (symmetry; apply dphi_entry; [exact Hi'|lia]).
    unfold at1. numR. destruct (flux1 gamma _) as [[a b] c]. change (vec R) with (list R). generalize (nth f [a; b; c] 0). intro y. ring.
  Qed.
  Lemma mi_volume s s' n e f : mirrored ne s s' -> (n < s_Ns s)%nat -> (e < ne + 2)%nat -> (f < 3)%nat ->
    volume_term gamma s' (modes s') n e f = parity f * ((-1) ^ n * volume_term gamma s (modes s) n (ne + 1 - e) f).
  Proof.
    intros H Hn He Hf. pose proof (mi_Ns _ _ H) as EN. pose proof H as [M M' [E1 E2] [Sb _] _ _].
    rewrite (volume_sum s'), (volume_sum s) by (first [assumption|lia]). rewrite Sb. set (p := b_p (s_basis s)).
    pose proof (G_rule G p) as GR. pose proof (md_basis _ _ M) as B. fold p in B. rewrite <- B in GR.
    set (V := fun x => at1 (let '(a, b, c) := flux1 gamma (legseries (modes s (ne + 1 - e) 0) x, legseries (modes s (ne + 1 - e) 1) x, legseries (modes s (ne + 1 - e) 2) x) in [a; b; c]) f).
    transitivity (parity f * ((-1) ^ n * Rsum (p + 1) (fun i => nth i (b_w (s_basis s)) 0 * (dLegP n (- nth i (b_x (s_basis s)) 0) * V (- nth i (b_x (s_basis s)) 0)))));
      [|do 2 apply f_equal; symmetry; exact (rule_mirror (p + 1) _ _ ltac:(lia) GR (fun x => dLegP n x * V x))].
    rewrite <- !Rsum_scale. apply Rsum_ext. intros i Hi. set (x := nth i (b_x (s_basis s)) 0).
    rewrite !(series_mi s s') by (first [exact H|lia]).
    assert (K : at1 (let '(a, b, c) := flux1 gamma (parity 0 * legseries (modes s (ne + 1 - e) 0) (- x), parity 1 * legseries (modes s (ne + 1 - e) 1) (- x), parity 2 * legseries (modes s (ne + 1 - e) 2) (- x)) in [a; b; c]) f = - parity f * V (- x)).
    { unfold V. set (l0 := legseries (modes s (ne + 1 - e) 0) (- x)). set (l1 := legseries (modes s (ne + 1 - e) 1) (- x)). set (l2 := legseries (modes s (ne + 1 - e) 2) (- x)).
      replace (parity 0 * l0, parity 1 * l1, parity 2 * l2) with (flip (l0, l1, l2)) by (cbn; f_equal; [f_equal|]; ring).
      rewrite flux1_flip. destruct (flux1 gamma (l0, l1, l2)) as [[a b] c]. cbn [mirror_flux]. destruct f as [|[|[|f]]]; [| | |lia]; unfold at1, parity; cbn [nth]; ring. }
    rewrite K, dLegP_neg. generalize (m1_m1 n), (V (- x)), (dLegP n x), (nth i (b_w (s_basis s)) 0). intros Q v dp w.
    transitivity ((-1) ^ n * (-1) ^ n * (w * (dp * (- parity f * v)))); [rewrite Q; ring|ring].
  Qed.
End Cells.
