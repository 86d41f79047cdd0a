(** The enhancement constructor: when it succeeds, and the face values of an enhanced solution. *)
From Coq Require Import ZArith List Bool Arith String Reals Lra Lia Permutation Sorting.Sorted.
From Verif Require Import Num Py PyStr Lib LegNumpy Ext Basis Enhance Sensor Limiting Solution RealLib SpecDG SpecPoly SpecEnh
  ProofsPoly ProofsLeg ProofsGauss ProofsDG ProofsWf ProofsSol ProofsBasis ProofsEnh ProofsDescartes.
Import ListNotations.
Open Scope list_scope.
Open Scope R_scope.

Lemma reconstructed_exact p modes d cell nb x v q : reconstructed_value p modes d cell nb x v -> reconstructs p modes d cell nb q -> v = legseries q x.
Proof. intros [q0 [_ [U <-]]] H. rewrite (U q H). reflexivity. Qed.

Section Cons.
  Context {X : Ext R}.
  Hypothesis IV : inv_ok.
  Lemma parse_modes ws ms : Forall2 (fun w m => parse_int w = Some (Z.of_nat m)) ws ms -> mapM parse_mode ws = Ok ms.
  Proof.
    induction 1 as [|w m ws ms Hw _ IH]; [reflexivity|]. cbn [mapM]. unfold parse_mode at 1. rewrite Hw.
    destruct (Z.ltb_spec (Z.of_nat m) 0); [lia|]. rewrite Nat2Z.id. cbn [rbind]. rewrite IH. reflexivity.
  Qed.
  Lemma Enhance_ok p mthd kind ws ms : split_ws mthd = kind :: ws -> Forall2 (fun w m => parse_int w = Some (Z.of_nat m)) ws ms ->
    NoDup ms -> (forall m, In m ms -> (m <= p)%nat) -> exists e, Enhance p mthd = Ok e /\ e_modes e = sort_nat ms.
  Proof.
    intros Hs Hw ND HB. unfold Enhance. rewrite Hs, (parse_modes _ _ Hw). cbn [rbind]. set (modes := sort_nat ms).
    assert (PM : Permutation modes ms) by apply sort_perm.
    assert (ND' : NoDup modes) by (apply (Permutation_NoDup (l := ms)); [symmetry; exact PM|exact ND]).
    assert (HB' : forall m, In m modes -> (m <= p)%nat) by (intros m Hm; apply HB; apply (Permutation_in _ PM Hm)).
    assert (HS : StronglySorted lt modes) by (apply sort_sorted; exact ND).
    unfold enhancement_matrices.
    destruct (enh_invertible p modes 2 (or_introl eq_refl) ND' HB') as [Ai' HAi']. destruct (enh_invertible p modes (-2) (or_intror eq_refl) ND' HB') as [Bi' HBi'].
    pose proof (IV _ _ (enh_shape p modes 2)) as IA. pose proof (IV _ _ (enh_shape p modes (-2))) as IB.
    numR. destruct (linv (enhancement_A p modes 2)) as [Ai|ex]; [|exfalso; apply IA; exists Ai'; exact HAi'].
    destruct (linv (enhancement_A p modes (-2))) as [Bi|ex]; [|exfalso; apply IB; exists Bi'; exact HBi'].
    cbn [rbind]. unfold left_enhancement_vectors. set (n := (p + List.length modes + 1)%nat) in *.
    assert (LS : forall v Mi, is_inverse n v Mi -> forall psi0, List.length (skipn (p + 1) (rowdot psi0 Mi)) = List.length modes).
    { intros v Mi [_ [SM _]] psi0. rewrite skipn_length. unfold rowdot. rewrite (shape_ncols n n Mi SM) by (unfold n; lia). rewrite length_rowcomb by exact (proj2 SM). unfold n. lia. }
    rewrite !insert_missing_spread by (first [exact (LS _ _ IA _)|exact (LS _ _ IB _)|exact HS|exact HB']). cbn [rbind].
    eexists. split; [reflexivity|]. reflexivity.
  Qed.
  Lemma Enhance_lengths p mthd e : Enhance p mthd = Ok e -> NoDup (e_modes e) -> (forall m, In m (e_modes e) -> (m <= p)%nat) ->
    List.length (e_alphaL e) = (p + 1)%nat /\ List.length (e_alphaR e) = (p + 1)%nat /\ List.length (e_betaL e) = (p + 1)%nat /\ List.length (e_betaR e) = (p + 1)%nat.
  Proof.
    intros HE ND HB. destruct (Enhance_inv _ _ _ HE) as [kind [ms [modes0 [_ [_ [Em [Ai [Bi [EA [EB [e1 [e2 [e3 e4]]]]]]]]]]]]].
    assert (HSo : StronglySorted lt (e_modes e)). { rewrite Em. apply sort_sorted. apply (Permutation_NoDup (l := e_modes e)); [rewrite Em; apply sort_perm|exact ND]. }
    pose proof (IV _ _ (enh_shape p (e_modes e) 2)) as IA. rewrite EA in IA.
    pose proof (IV _ _ (enh_shape p (e_modes e) (-2))) as IB. rewrite EB in IB.
    set (n := (p + List.length (e_modes e) + 1)%nat) in *.
    assert (PV : forall j, (j < n)%nat -> at1 (row (basis_psi n) 0) j = LegP j (-1) /\ at1 (row (basis_psi n) 1) j = LegP j 1).
    { intros j Hj. unfold basis_psi, row. cbn [nth]. rewrite !at1_tab by exact Hj. rewrite LegP_atm1, LegP_at1. numR. split; [destruct (Nat.odd j); reflexivity|reflexivity]. }
    set (z := tab (p + 1) (fun _ => 0)). assert (Lz : List.length z = (p + 1)%nat) by apply length_tab.
    destruct (pair_value p (e_modes e) HSo HB 2 Ai (row (basis_psi n) 1) 1 z z (e_alphaR e) IA) as [L1 [L2 _]];
      [apply length_tab|intros j Hj; apply PV; exact Hj|exact Lz|exact Lz|exact e4|].
    destruct (pair_value p (e_modes e) HSo HB (-2) Bi (row (basis_psi n) 0) (-1) z z (e_betaL e) IB) as [L3 [L4 _]];
      [apply length_tab|intros j Hj; apply PV; exact Hj|exact Lz|exact Lz|exact e2|].
    rewrite e1, e3. repeat split; assumption.
  Qed.
  Lemma made_enh ne s e : made ne s -> List.length (e_alphaL e) = s_Ns s -> List.length (e_alphaR e) = s_Ns s -> List.length (e_betaL e) = s_Ns s -> List.length (e_betaR e) = s_Ns s ->
    made ne (with_enh s (Some e)).
  Proof.
    intros [W B D M] L1 L2 L3 L4. constructor; [|exact B|exact D|exact M]. destruct W. constructor; try assumption. cbn [with_enh s_enh]. repeat split; assumption.
  Qed.
  Lemma made_Ns ne s : made ne s -> s_Ns s = (b_p (s_basis s) + 1)%nat.
  Proof. intro M. unfold s_Ns, b_Ns. rewrite (md_basis _ _ M), Basis_eq. reflexivity. Qed.
  Lemma face_values ne (s : solution R) mthd e : made ne s -> Enhance (b_p (s_basis s)) mthd = Ok e ->
    NoDup (e_modes e) -> (forall m, In m (e_modes e) -> (m <= b_p (s_basis s))%nat) ->
    exists uf, evaluate_faces (with_enh s (Some e)) = Ok uf /\ forall c f, (c <= ne)%nat -> (f < s_NF s)%nat ->
    reconstructed_value (b_p (s_basis s)) (e_modes e) 2 (modes s c f) (modes s (c + 1) f) 1 (at1 (row uf 1) (c * s_NF s + f)) /\
    reconstructed_value (b_p (s_basis s)) (e_modes e) (-2) (modes s (c + 1) f) (modes s c f) (-1) (at1 (row uf 0) ((c + 1) * s_NF s + f)).
  Proof.
    intros M HE ND HB. destruct (Enhance_lengths _ _ _ HE ND HB) as [L1 [L2 [L3 L4]]]. rewrite <- (made_Ns ne s M) in L1, L2, L3, L4.
    pose proof (made_enh ne s e M L1 L2 L3 L4) as M'.
    destruct (evaluate_faces_Ok ne _ (md_wf _ _ M')) as [uf [E _]]. exists uf. split; [exact E|].
    exact (enhanced_faces IV ne (with_enh s (Some e)) mthd e uf M' eq_refl HE ND HB E).
  Qed.
  (** repeated modes *)
  Lemma dup_singular p modes d Mi : ~ NoDup modes -> ~ is_inverse (p + List.length modes + 1) (enhancement_A p modes d) Mi.
  Proof.
    intros HD [_ [_ [I1 _]]]. apply HD. apply (NoDup_nth _ 0%nat). intros i j Hi Hj E.
    destruct (Nat.eq_dec i j) as [|Hne]; [assumption|exfalso].
    pose proof (I1 (p + 1 + i)%nat (p + 1 + i)%nat ltac:(lia) ltac:(lia)) as A1. pose proof (I1 (p + 1 + j)%nat (p + 1 + i)%nat ltac:(lia) ltac:(lia)) as A2.
    rewrite Nat.eqb_refl in A1. destruct (Nat.eqb_spec (p + 1 + j) (p + 1 + i)); [lia|].
    assert (1 = 0); [|lra]. rewrite <- A1, <- A2 at 1. apply Rsum_ext. intros k Hk. f_equal. rewrite !enh_entry_low by (try exact Hk; assumption). rewrite E. reflexivity.
  Qed.
  Lemma Enhance_dup p mthd e : Enhance p mthd = Ok e -> NoDup (e_modes e).
  Proof.
    intro HE. destruct (Enhance_inv _ _ _ HE) as [kind [ms [modes0 [_ [_ [_ [Ai [Bi [EA _]]]]]]]]].
    pose proof (IV _ _ (enh_shape p (e_modes e) 2)) as IA. rewrite EA in IA. apply Classical_Prop.NNPP. intro N. exact (dup_singular _ _ _ _ N IA).
  Qed.
  (** modes above the order *)
  Lemma insert_missing_length p modes (v w : vec R) : insert_missing p modes v = Ok w ->
    List.length w = (List.length v + List.length (filter (fun i => negb (existsb (Nat.eqb i) modes)) (seq 0 (p + 1))))%nat.
  Proof.
    unfold insert_missing. generalize (seq 0 (p + 1)). intro l. revert v. induction l as [|i l IH]; intros v H.
    - apply Ok_inj in H. subst. cbn. lia.
    - cbn [fold_left rbind filter] in *. destruct (existsb (Nat.eqb i) modes); cbn [negb].
      + apply IH. exact H.
      + unfold np_insert0 in H at 2. destruct (Nat.leb_spec i (List.length v)) as [Hi|Hi].
        * rewrite (IH _ H). rewrite !app_length, firstn_length, skipn_length. cbn [List.length]. lia.
        * exfalso. clear IH. revert H. induction l as [|j l IH]; [discriminate|]. cbn [fold_left rbind]. exact IH.
  Qed.
  Lemma missing_many p modes m : In m modes -> (p < m)%nat ->
    (p + 1 < List.length modes + List.length (filter (fun i => negb (existsb (Nat.eqb i) modes)) (seq 0 (p + 1))))%nat.
  Proof.
    intros Hm Hp. set (t := fun i => existsb (Nat.eqb i) modes).
    assert (F : (List.length (filter t (seq 0 (p + 1))) + List.length (filter (fun i => negb (t i)) (seq 0 (p + 1))) = p + 1)%nat).
    { assert (A : forall l, (List.length (filter t l) + List.length (filter (fun i => negb (t i)) l) = List.length l)%nat).
      { induction l as [|i l IH]; [reflexivity|]. cbn [filter]. destruct (t i); cbn [negb List.length]; lia. }
      rewrite A. apply seq_length. }
    assert (G : (List.length (m :: filter t (seq 0 (p + 1))) <= List.length modes)%nat).
    { apply NoDup_incl_length.
      - constructor; [|apply NoDup_filter; apply seq_NoDup]. intro H. apply filter_In in H. destruct H as [H _]. apply in_seq in H. lia.
      - intros i [<-|Hi]; [exact Hm|]. apply filter_In in Hi. destruct Hi as [_ Hi]. unfold t in Hi. apply existsb_exists in Hi. destruct Hi as [j [Hj E]]. apply Nat.eqb_eq in E. subst. exact Hj. }
    cbn [List.length] in G. change (p + 1 < List.length modes + List.length (filter (fun i => negb (t i)) (seq 0 (p + 1))))%nat. lia.
  Qed.
  Lemma large_mode ne (s : solution R) mthd e m : made ne s -> Enhance (b_p (s_basis s)) mthd = Ok e -> In m (e_modes e) -> (b_p (s_basis s) < m)%nat ->
    evaluate_faces (with_enh s (Some e)) = Raise ValueError.
  Proof.
    intros M HE Hm Hp. set (p := b_p (s_basis s)) in *.
    destruct (Enhance_inv _ _ _ HE) as [kind [ms [modes0 [_ [_ [_ [Ai [Bi [EA [EB [e1 [e2 [e3 e4]]]]]]]]]]]]].
    pose proof (IV _ _ (enh_shape p (e_modes e) 2)) as IA. rewrite EA in IA. destruct IA as [_ [SA _]].
    apply insert_missing_length in e4. rewrite skipn_length in e4. unfold rowdot in e4. rewrite (shape_ncols _ _ Ai SA) in e4 by lia. rewrite length_rowcomb in e4 by exact (proj2 SA).
    pose proof (missing_many p (e_modes e) m Hm Hp) as G.
    unfold evaluate_faces. cbn [with_enh s_enh]. unfold face_value.
    replace (List.length (e_alphaR e) =? nrows (s_u (with_enh s (Some e))))%nat with false; [rewrite andb_false_r; reflexivity|].
    symmetry. apply Nat.eqb_neq. cbn [with_enh s_u]. unfold nrows. rewrite (proj1 (wf_u _ _ (md_wf _ _ M))), (made_Ns ne s M). fold p. lia.
  Qed.
End Cons.
