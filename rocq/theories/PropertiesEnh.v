(** Property C45: enhanced face values.  [inv_ok] is the contract of numpy's inv; ExtReal meets it.
    A mode list is given as text, e.g. "icb 0 1". *)
From Coq Require Import ZArith List Bool Arith String Reals Lra Lia Permutation.
From Verif Require Import Lib Num Py PyStr Constants LegNumpy Ext Basis Enhance Sensor Limiting Solution Solver RealLib SpecDG SpecPoly SpecEnh
  ProofsPoly ProofsLeg ProofsGauss ProofsDG ProofsWf ProofsSol ProofsBasis ProofsEnh ProofsDescartes ProofsEnh2 ExtReal Witness.
Import ListNotations.
Open Scope list_scope.
Open Scope nat_scope.

(** the right face of cell c (seen from the left) and the left face of cell c+1 (seen from the right) *)
Theorem C45_face_value : forall (X : Ext R), inv_ok -> forall ne (s : solution R) mthd e,
  made ne s -> Enhance (b_p (s_basis s)) mthd = Ok e ->
  NoDup (e_modes e) -> (forall m, In m (e_modes e) -> m <= b_p (s_basis s)) ->
  exists uf, evaluate_faces (with_enh s (Some e)) = Ok uf /\ forall c f, c <= ne -> f < s_NF s ->
    reconstructed_value (b_p (s_basis s)) (e_modes e) 2 (modes s c f) (modes s (c + 1) f) 1 (at1 (row uf 1) (c * s_NF s + f)) /\
    reconstructed_value (b_p (s_basis s)) (e_modes e) (-2) (modes s (c + 1) f) (modes s c f) (-1) (at1 (row uf 0) ((c + 1) * s_NF s + f)).
Proof. exact @face_values. Qed.
(** exact when both cells carry (the moments of) one polynomial q of degree p + number of modes *)
Theorem C45_exact : forall (X : Ext R), inv_ok -> forall ne (s : solution R) mthd e uf,
  made ne s -> Enhance (b_p (s_basis s)) mthd = Ok e ->
  NoDup (e_modes e) -> (forall m, In m (e_modes e) -> m <= b_p (s_basis s)) ->
  evaluate_faces (with_enh s (Some e)) = Ok uf -> forall c f q, c <= ne -> f < s_NF s ->
  (reconstructs (b_p (s_basis s)) (e_modes e) 2 (modes s c f) (modes s (c + 1) f) q -> at1 (row uf 1) (c * s_NF s + f) = legseries q 1) /\
  (reconstructs (b_p (s_basis s)) (e_modes e) (-2) (modes s (c + 1) f) (modes s c f) q -> at1 (row uf 0) ((c + 1) * s_NF s + f) = legseries q (-1)).
Proof.
  intros X IV ne s mthd e uf M HE ND HB HF c f q Hc Hf. destruct (face_values IV ne s mthd e M HE ND HB) as [uf' [E V]].
  rewrite E in HF. injection HF as ->. destruct (V c f Hc Hf) as [V1 V2]. split; intro H; eapply reconstructed_exact; eassumption.
Qed.
(** every duplicate-free list of modes up to the order is accepted, and the modes are those of the text *)
Theorem C45_constructible : forall (X : Ext R), inv_ok -> forall p mthd kind ws ms,
  split_ws mthd = kind :: ws -> Forall2 (fun w m => parse_int w = Some (Z.of_nat m)) ws ms ->
  NoDup ms -> (forall m, In m ms -> m <= p) -> exists e, Enhance p mthd = Ok e /\ Permutation (e_modes e) ms.
Proof.
  intros X IV p mthd kind ws ms H1 H2 H3 H4. destruct (Enhance_ok IV p mthd kind ws ms H1 H2 H3 H4) as [e [E M]]. exists e. split; [exact E|]. rewrite M. apply sort_perm.
Qed.
(** no other list of modes gives face values: repeated modes are refused when constructing (the matrix is singular), modes above
    the order when evaluating *)
Theorem C45_repeated_refused : forall (X : Ext R), inv_ok -> forall p mthd e, Enhance p mthd = Ok e -> NoDup (e_modes e).
Proof. exact @Enhance_dup. Qed.
Theorem C45_large_refused : forall (X : Ext R), inv_ok -> forall ne (s : solution R) mthd e m,
  made ne s -> Enhance (b_p (s_basis s)) mthd = Ok e -> In m (e_modes e) -> b_p (s_basis s) < m ->
  evaluate_faces (with_enh s (Some e)) = Raise ValueError.
Proof. exact @large_mode. Qed.

(** sin(2 pi x) on eight cells, order 1 or more, modes 1 and 0 *)
Example C45_witness : forall p, 1 <= p -> exists s e uf, @made ExtReal 8 s /\ b_p (s_basis s) = p /\
  @Enhance R NumR ExtReal p "icb 1 0" = Ok e /\ e_modes e = [0; 1] /\ evaluate_faces (with_enh s (Some e)) = Ok uf.
Proof.
  intros p Hp. destruct (sine_built p) as [s [d [B _]]]. exists s.
  destruct (@Enhance_ok ExtReal ExtReal_inv p "icb 1 0" "icb" ["1"; "0"]%string [1; 0]) as [e [E M]].
  - reflexivity.
  - repeat constructor.
  - repeat constructor; cbn; intuition lia.
  - intros m Hm. cbn in Hm. lia.
  - change (sort_nat [1; 0]) with [0; 1] in M. pose proof (bl_made _ _ _ _ _ _ _ B) as Md. pose proof (bl_p _ _ _ _ _ _ _ B) as Bp.
    destruct (@face_values ExtReal ExtReal_inv 8 s "icb 1 0" e Md) as [uf [EF _]].
    + rewrite Bp. exact E.
    + rewrite M. repeat constructor; cbn; intuition lia.
    + rewrite M, Bp. intros m Hm. cbn in Hm. lia.
    + exists e, uf. exact (conj Md (conj Bp (conj E (conj M EF)))).
Qed.
(** mode 2 at order 1: accepted by the constructor *)
Example C45_large_witness : exists e, @Enhance R NumR ExtReal 1 "icb 2" = Ok e /\ e_modes e = [2].
Proof.
  assert (I3 : forall d : R, exists Mi, is_inverse 3 (enhancement_A 1 [2] d) Mi).
  { intro d. apply inj_inverse; [apply (enh_shape 1 [2] d)|]. intros v Hv.
    assert (V : forall i, i < 2 -> v i = 0%R).
    { intros i Hi. specialize (Hv i ltac:(lia)). rewrite (Rsum_single 3 i) in Hv; [|lia|].
      - rewrite (enh_entry_top 1 [2]) in Hv by (cbn; lia). rewrite Nat.eqb_refl in Hv. lra.
      - intros j Hj Hne. rewrite (enh_entry_top 1 [2]) by (cbn; lia). destruct (Nat.eqb_spec i j); [congruence|ring]. }
    intros j Hj. destruct (Nat.eq_dec j 2) as [->|]; [|apply V; lia].
    specialize (Hv 2 ltac:(lia)). rewrite (Rsum_single 3 2) in Hv; [|lia|].
    - pose proof (enh_entry_low 1 [2] d 0 2 ltac:(cbn; lia) ltac:(cbn; lia)) as EL. cbn [Nat.add nth] in EL. rewrite EL in Hv.
      rewrite (legseries_inj_nth _ [3 / 2 * (d * d); 3 * d; 1]%R) in Hv; [cbn [nth] in Hv; lra|].
      intro x. rewrite shift_legendre_ok, legseries_basis. unfold legseries. cbn [List.length Rsum nth]. rewrite !LegP_SS, !LegP_1, !LegP_0. cbn [INR]. field.
    - intros k Hk Hne. rewrite V by lia. ring. }
  unfold Enhance. change (split_ws "icb 2") with ["icb"; "2"]%string. cbv beta iota. rewrite (parse_modes ["2"%string] [2]) by (repeat constructor). cbn [rbind].
  change (sort_nat [2]) with [2]. unfold enhancement_matrices. cbn [List.length Nat.add].
  pose proof (ExtReal_inv 3 _ (enh_shape 1 [2] 2)) as IA. pose proof (ExtReal_inv 3 _ (enh_shape 1 [2] (-2))) as IB. numR.
  destruct (@linv R ExtReal (enhancement_A 1 [2] 2%R)) as [Ai|ex]; [|exfalso; apply IA; apply I3].
  destruct (@linv R ExtReal (enhancement_A 1 [2] (-2)%R)) as [Bi|ex]; [|exfalso; apply IB; apply I3].
  cbn [rbind]. unfold left_enhancement_vectors.
  assert (LS : forall v Mi, is_inverse 3 v Mi -> forall psi0, exists a, skipn 2 (rowdot psi0 Mi) = [a]).
  { intros v Mi [_ [SM _]] psi0. assert (L : List.length (skipn 2 (rowdot psi0 Mi)) = 1).
    { rewrite skipn_length. unfold rowdot. rewrite (shape_ncols 3 3 Mi SM) by lia. rewrite length_rowcomb by exact (proj2 SM). lia. }
    destruct (skipn 2 (rowdot psi0 Mi)) as [|a [|b l]]; try discriminate. exists a. reflexivity. }
  cbn [Nat.add]. destruct (LS _ _ IB (row (basis_psi 3) 0)) as [a ->]. destruct (LS _ _ IA (row (basis_psi 3) 1)) as [b ->].
  eexists. split; reflexivity.
Qed.

Print Assumptions C45_face_value.
Print Assumptions C45_exact.
Print Assumptions C45_constructible.
Print Assumptions C45_repeated_refused.
Print Assumptions C45_large_refused.
Print Assumptions C45_witness.
Print Assumptions C45_large_witness.
