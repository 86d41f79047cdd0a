(** The DG residual in terms of cells and interfaces, over any arithmetic. *)
From Coq Require Import ZArith List Bool Arith String Lia Reals Lra.
From Verif Require Import Num Py Lib LegNumpy Ext Basis Sensor Enhance Limiting AdvectionPhysics EulerPhysics
  Solution Solver SpecDG.
Import ListNotations.
Open Scope list_scope.
Open Scope nat_scope.

Section ListMore.
  Context {A : Type} {N : Num A}.

  Lemma length_col (m : mat A) j : List.length (col m j) = List.length m.
  Proof. apply map_length. Qed.
  Lemma at1_col (m : mat A) j n : n < List.length m -> at1 (col m j) n = at2 m n j.
  Proof.
    intro H. unfold col, at2, at1, row.
    rewrite nth_indep with (d' := (fun r => nth j r n0) []) by (rewrite map_length; exact H).
    apply (map_nth (fun r => nth j r n0)).
  Qed.
  Lemma vdot_nil_l (y : vec A) : vdot [] y = n0. Proof. reflexivity. Qed.
  Lemma vdot_cons x (v : vec A) y (w : vec A) : vdot (x :: v) (y :: w) = nadd (nmul x y) (vdot v w).
  Proof. reflexivity. Qed.

  Lemma length_rowcomb c (v : vec A) (m : mat A) : (forall x, In x m -> List.length x = c) ->
    List.length (rowcomb c v m) = c.
  Proof.
    revert m. induction v as [|x v IH]; intros m H; [apply length_zeros|].
    destruct m as [|r m]; [apply length_zeros|]. cbn [rowcomb].
    rewrite length_vadd, length_vscale, IH by (intros; apply H; right; assumption).
    rewrite H by (left; reflexivity). apply Nat.min_id.
  Qed.
  Lemma at1_rowcomb c (v : vec A) (m : mat A) j : (forall x, In x m -> List.length x = c) -> j < c ->
    at1 (rowcomb c v m) j = vdot v (col m j).
  Proof.
    revert m. induction v as [|x v IH]; intros m H Hj; [apply at1_zeros|].
    destruct m as [|r m]; [apply at1_zeros|]. cbn [rowcomb].
    rewrite at1_vadd.
    - rewrite at1_vscale by (rewrite H by (left; reflexivity); exact Hj).
      rewrite IH by (assumption || intros; apply H; right; assumption). reflexivity.
    - rewrite length_vscale, H by (left; reflexivity). exact Hj.
    - rewrite length_rowcomb by (intros; apply H; right; assumption). exact Hj.
  Qed.

  Lemma shape_row r c (m : mat A) i : shape r c m -> i < r -> List.length (row m i) = c.
  Proof. intros [H1 H2] Hi. apply H2. unfold row. apply nth_In. lia. Qed.
  Lemma shape_ncols r c (m : mat A) : shape r c m -> 1 <= r -> ncols m = c.
  Proof. intros [H1 H2] Hr. unfold ncols. destruct m; [simpl in H1; lia|]. apply H2. left. reflexivity. Qed.
  Lemma shape_dot r c k (m u : mat A) : shape r k m -> (forall x, In x u -> List.length x = c) -> ncols u = c ->
    shape r c (dot m u).
  Proof.
    intros [H1 _] H2 Hc. unfold dot. split; [rewrite map_length; exact H1|].
    intros x Hx. apply in_map_iff in Hx. destruct Hx as [v [<- _]]. rewrite Hc. apply length_rowcomb. exact H2.
  Qed.
  Lemma at2_dot c (m u : mat A) i j : (forall x, In x u -> List.length x = c) -> ncols u = c ->
    i < List.length m -> j < c -> at2 (dot m u) i j = vdot (row m i) (col u j).
  Proof.
    intros H Hc Hi Hj. unfold at2, dot. unfold row at 1.
    rewrite nth_indep with (d' := rowcomb (ncols u) [] u) by (rewrite map_length; exact Hi).
    rewrite (map_nth (fun v => rowcomb (ncols u) v u)). rewrite Hc.
    rewrite at1_rowcomb by assumption. reflexivity.
  Qed.
  Lemma shape_tab2 r c (f : nat -> nat -> A) : shape r c (tab2 r c f).
  Proof.
    split; [apply length_tab2|]. intros x Hx. unfold tab2, tab in Hx. apply in_map_iff in Hx.
    destruct Hx as [i [<- _]]. apply length_tab.
  Qed.
  Lemma mat_ext r c (m m' : mat A) : shape r c m -> shape r c m' ->
    (forall i j, i < r -> j < c -> at2 m i j = at2 m' i j) -> m = m'.
  Proof.
    intros [H1 H2] [H3 H4] H. apply (list_ext []); [lia|]. intros i Hi.
    apply (list_ext n0).
    - rewrite H2 by (apply nth_In; exact Hi). rewrite H4 by (apply nth_In; lia). reflexivity.
    - intros j Hj. rewrite H2 in Hj by (apply nth_In; exact Hi). apply (H i j); [lia|exact Hj].
  Qed.
  Lemma vec_ext c (v w : vec A) : List.length v = c -> List.length w = c ->
    (forall j, j < c -> at1 v j = at1 w j) -> v = w.
  Proof. intros H1 H2 H. apply (list_ext n0); [lia|]. intros j Hj. apply H. lia. Qed.

  (** ** interleaving *)
  Lemma every_aux_skip {Y} s k (l : list Y) : k <= List.length l -> every_aux s k l = every_aux s 0 (skipn k l).
  Proof. revert l. induction k; intros l H; [reflexivity|]. destruct l; [simpl in H; lia|]. simpl. apply IHk. simpl in H. lia. Qed.

  Lemma split3_cons3 (a b c : A) l : split3 (a :: b :: c :: l) = (a, b, c) :: split3 l.
  Proof. reflexivity. Qed.
  Lemma split3_tab k (v : vec A) : List.length v = 3 * k ->
    split3 v = tab k (fun e => (at1 v (3 * e), at1 v (3 * e + 1), at1 v (3 * e + 2))).
  Proof.
    revert v. induction k as [|k IH]; intros v H.
    - destruct v; [reflexivity|simpl in H; lia].
    - destruct v as [|a [|b [|c v]]]; [simpl in H; lia ..|].
      rewrite split3_cons3, tab_S. rewrite IH by (simpl in H; lia).
      apply (f_equal2 cons); [reflexivity|].
      apply tab_ext. intros e _. unfold at1.
      replace (3 * S e) with (S (S (S (3 * e)))) by lia. reflexivity.
  Qed.
  Definition comp3 (t : A * A * A) (f : nat) : A := let '(a, b, c) := t in nth f [a; b; c] n0.
  Lemma length_join3 (l : list (A * A * A)) : List.length (join3 l) = 3 * List.length l.
  Proof. unfold join3. induction l as [|[[a b] c] l IH]; [reflexivity|]. cbn [flat_map app List.length]. rewrite IH. lia. Qed.
  Lemma at1_join3 (l : list (A * A * A)) e f d : e < List.length l -> f < 3 ->
    at1 (join3 l) (e * 3 + f) = comp3 (nth e l d) f.
  Proof.
    revert e. induction l as [|[[a b] c] l IH]; intros e He Hf; [simpl in He; lia|].
    destruct e as [|e].
    - unfold at1. simpl. destruct f as [|[|[|f]]]; try reflexivity. lia.
    - simpl in He. change (nth (S e) ((a, b, c) :: l) d) with (nth e l d). rewrite <- IH by lia.
      unfold at1. replace (S e * 3 + f) with (S (S (S (e * 3 + f)))) by lia. reflexivity.
  Qed.
End ListMore.

(** ** boundary conditions *)
Section BC.
  Context {A : Type} {N : Num A}.
  (** the ghost value a boundary condition prescribes *)
  Definition ghost_left (bc : pystr) (g first last : list A) : list A :=
    if is_literal bc "periodic" then last else if is_literal bc "zerograd" then first else g.
  Definition ghost_right (bc : pystr) (g first last : list A) : list A :=
    if is_literal bc "periodic" then first else if is_literal bc "zerograd" then last else g.

  Lemma firstn_app_exact {Y} (a b : list Y) n : List.length a = n -> firstn n (a ++ b) = a.
  Proof. intros <-. rewrite firstn_app, Nat.sub_diag, firstn_all. simpl. apply app_nil_r. Qed.
  Lemma skipn_app_exact {Y} (a b : list Y) n : List.length a = n -> skipn n (a ++ b) = b.
  Proof. intros <-. rewrite skipn_app, Nat.sub_diag, skipn_all. reflexivity. Qed.

  (** a row = left ghost, first cell, middle, right ghost; the last cell is a suffix *)
  Lemma slice_pos {Y} (l : list Y) a b : a <= b -> b <= List.length l ->
    slice l (Z.of_nat a) (Z.of_nat b) = firstn (b - a) (skipn a l).
  Proof. intros. apply slice_nat_nat. Qed.
  Lemma bound_neg' len k z : z = (- Z.of_nat k)%Z -> 0 < k -> bound len z = len - k.
  Proof. intros -> H. apply bound_neg. exact H. Qed.
  Lemma bound_pos' len k z : z = Z.of_nat k -> bound len z = Nat.min len k.
  Proof. intros ->. apply bound_nonneg. Qed.

  Lemma apply_bc_row_char bl br NF ne (g0 m g1 : list A) :
    1 <= NF -> 1 <= ne -> List.length g0 = NF -> List.length g1 = NF -> List.length m = ne * NF ->
    apply_bc_row bl br NF (g0 ++ m ++ g1) =
    Ok (ghost_left bl g0 (firstn NF m) (skipn ((ne - 1) * NF) m) ++ m ++
        ghost_right br g1 (firstn NF m) (skipn ((ne - 1) * NF) m)).
  Proof.
    intros HNF Hne H0 H1 Hm.
    assert (Hge : NF <= ne * NF) by nia.
    assert (Hl : List.length (g0 ++ m ++ g1) = NF + ne * NF + NF) by (rewrite !app_length; lia).
    assert (Hfirst : forall h0 h1 : list A, List.length h0 = NF -> List.length h1 = NF ->
              slice (h0 ++ m ++ h1) (Z.of_nat NF) (2 * Z.of_nat NF) = firstn NF m).
    { intros h0 h1 Hh0 Hh1. unfold slice.
      rewrite (bound_pos' _ NF (Z.of_nat NF)%Z), (bound_pos' _ (2 * NF) (2 * Z.of_nat NF)%Z) by lia.
      rewrite !app_length, Hh0, Hh1, Hm. rewrite !Nat.min_r by lia.
      rewrite skipn_app_exact by exact Hh0. replace (2 * NF - NF) with NF by lia.
      rewrite firstn_app. replace (NF - List.length m) with 0 by lia. simpl. rewrite app_nil_r. reflexivity. }
    assert (Hlast : forall h0 h1 : list A, List.length h0 = NF -> List.length h1 = NF ->
              slice (h0 ++ m ++ h1) (-2 * Z.of_nat NF) (- Z.of_nat NF) = skipn ((ne - 1) * NF) m).
    { intros h0 h1 Hh0 Hh1. unfold slice.
      rewrite (bound_neg' _ (2 * NF) (-2 * Z.of_nat NF)%Z) by lia. rewrite (bound_neg' _ NF (- Z.of_nat NF)%Z) by lia.
      rewrite !app_length, Hh0, Hh1, Hm.
      replace (NF + (ne * NF + NF) - 2 * NF) with (List.length h0 + (ne - 1) * NF) by nia.
      rewrite skipn_app. rewrite (skipn_all2 h0) by lia.
      replace (List.length h0 + (ne - 1) * NF - List.length h0) with ((ne - 1) * NF) by lia. simpl.
      rewrite skipn_app. replace ((ne - 1) * NF - List.length m) with 0 by nia. simpl.
      replace (NF + (ne * NF + NF) - NF - (List.length h0 + (ne - 1) * NF)) with NF by nia.
      apply firstn_app_exact. rewrite skipn_length. nia. }
    assert (Lf : List.length (firstn NF m) = NF) by (rewrite firstn_length; lia).
    assert (Ll : List.length (skipn ((ne - 1) * NF) m) = NF) by (rewrite skipn_length; nia).
    assert (Hhead : forall h0 h1 : list A, List.length h0 = NF -> List.length h1 = NF ->
              slice (h0 ++ m ++ h1) 0 (Z.of_nat NF) = h0).
    { intros h0 h1 Hh0 Hh1. unfold slice.
      rewrite (bound_pos' _ 0 0%Z), (bound_pos' _ NF (Z.of_nat NF)%Z) by lia.
      rewrite !app_length, Hh0, Hh1, Hm. rewrite !Nat.min_r by lia. rewrite Nat.sub_0_r. simpl.
      apply firstn_app_exact. exact Hh0. }
    assert (Hset : forall h0 h1 v : list A, List.length h0 = NF -> List.length h1 = NF -> List.length v = NF ->
              slice_set (h0 ++ m ++ h1) 0 (Z.of_nat NF) v = v ++ m ++ h1).
    { intros h0 h1 v Hh0 Hh1 Hv. unfold slice_set.
      rewrite (bound_pos' _ 0 0%Z), (bound_pos' _ NF (Z.of_nat NF)%Z) by lia.
      rewrite !app_length, Hh0, Hh1, Hm. rewrite !Nat.min_r by lia. rewrite Nat.max_r by lia. simpl.
      f_equal. apply skipn_app_exact. exact Hh0. }
    assert (Htail : forall h0 h1 : list A, List.length h0 = NF -> List.length h1 = NF ->
              slice_from (h0 ++ m ++ h1) (- Z.of_nat NF) = h1 /\ slice_to (h0 ++ m ++ h1) (- Z.of_nat NF) = h0 ++ m).
    { intros h0 h1 Hh0 Hh1. unfold slice_from, slice_to. rewrite (bound_neg' _ NF (- Z.of_nat NF)%Z) by lia.
      rewrite !app_length, Hh0, Hh1, Hm. rewrite app_assoc.
      assert (List.length (h0 ++ m) = NF + (ne * NF + NF) - NF) by (rewrite app_length; lia).
      split; [apply skipn_app_exact | apply firstn_app_exact]; assumption. }
    unfold apply_bc_row.
    assert (HL : bc_left bl (Z.of_nat NF) (g0 ++ m ++ g1)
                 = Ok (ghost_left bl g0 (firstn NF m) (skipn ((ne - 1) * NF) m) ++ m ++ g1)).
    { unfold bc_left, ghost_left. destruct (is_literal bl "periodic").
      - unfold assign_slice. rewrite Hlast, Hhead by assumption. rewrite Ll, H0, Nat.eqb_refl. f_equal.
        apply Hset; assumption.
      - destruct (is_literal bl "zerograd"); [|reflexivity].
        unfold assign_slice. rewrite Hfirst, Hhead by assumption. rewrite Lf, H0, Nat.eqb_refl. f_equal.
        apply Hset; assumption. }
    rewrite HL. cbn [rbind].
    set (h := ghost_left bl g0 (firstn NF m) (skipn ((ne - 1) * NF) m)).
    assert (Hh : List.length h = NF).
    { unfold h, ghost_left. destruct (is_literal bl "periodic"); [exact Ll|]. destruct (is_literal bl "zerograd"); assumption. }
    unfold bc_right, ghost_right. destruct (is_literal br "periodic").
    - unfold assign_tail. destruct (Htail h g1 Hh H1) as [-> ->]. rewrite Hfirst by assumption.
      rewrite Lf, H1, Nat.eqb_refl. rewrite <- app_assoc. reflexivity.
    - destruct (is_literal br "zerograd"); [|reflexivity].
      unfold assign_tail. destruct (Htail h g1 Hh H1) as [-> ->]. rewrite Hlast by assumption.
      rewrite Ll, H1, Nat.eqb_refl. rewrite <- app_assoc. reflexivity.
  Qed.

  (** pointwise: [ghost_src] is the column a ghost column is copied from *)
  Definition bc_src (bl br : pystr) (NF ne j : nat) : nat :=
    if j <? NF then
      if is_literal bl "periodic" then ne * NF + j else if is_literal bl "zerograd" then NF + j else j
    else if j <? (ne + 1) * NF then j
    else
      if is_literal br "periodic" then j - ne * NF else if is_literal br "zerograd" then j - NF else j.

  Lemma apply_bc_row_nth bl br NF ne (r : list A) :
    1 <= NF -> 1 <= ne -> List.length r = (ne + 2) * NF ->
    apply_bc_row bl br NF r = Ok (tab ((ne + 2) * NF) (fun j => at1 r (bc_src bl br NF ne j))).
  Proof.
    intros HNF Hne Hr.
    set (g0 := firstn NF r). set (m := firstn (ne * NF) (skipn NF r)). set (g1 := skipn ((ne + 1) * NF) r).
    assert (Hge : NF <= ne * NF) by nia.
    assert (Er : r = g0 ++ m ++ g1).
    { unfold g0, m, g1. rewrite <- (firstn_skipn NF r) at 1. f_equal.
      rewrite <- (firstn_skipn (ne * NF) (skipn NF r)) at 1. f_equal. rewrite skipn_skipn. f_equal. nia. }
    assert (H0 : List.length g0 = NF) by (unfold g0; rewrite firstn_length; nia).
    assert (Hm : List.length m = ne * NF) by (unfold m; rewrite firstn_length, skipn_length; nia).
    assert (H1 : List.length g1 = NF) by (unfold g1; rewrite skipn_length; nia).
    rewrite Er at 1. rewrite (apply_bc_row_char bl br NF ne) by assumption. f_equal.
    assert (Lf : List.length (firstn NF m) = NF) by (rewrite firstn_length; lia).
    assert (Ll : List.length (skipn ((ne - 1) * NF) m) = NF) by (rewrite skipn_length; nia).
    assert (LL : List.length (ghost_left bl g0 (firstn NF m) (skipn ((ne - 1) * NF) m)) = NF).
    { unfold ghost_left. destruct (is_literal bl "periodic"); [exact Ll|]. destruct (is_literal bl "zerograd"); assumption. }
    assert (LR : List.length (ghost_right br g1 (firstn NF m) (skipn ((ne - 1) * NF) m)) = NF).
    { unfold ghost_right. destruct (is_literal br "periodic"); [exact Lf|]. destruct (is_literal br "zerograd"); assumption. }
    assert (Pm : forall i, i < ne * NF -> nth i m n0 = nth (NF + i) r n0).
    { intros i Hi. unfold m. rewrite nth_firstn' by exact Hi. rewrite nth_skipn'. reflexivity. }
    assert (Pf : forall i, i < NF -> nth i (firstn NF m) n0 = nth (NF + i) r n0).
    { intros i Hi. rewrite nth_firstn' by exact Hi. apply Pm. lia. }
    assert (Pl : forall i, i < NF -> nth i (skipn ((ne - 1) * NF) m) n0 = nth (ne * NF + i) r n0).
    { intros i Hi. rewrite nth_skipn'. rewrite Pm by nia. f_equal. nia. }
    apply (list_ext n0).
    - rewrite length_tab, !app_length, LL, LR, Hm. lia.
    - intros j Hj. rewrite !app_length, LL, LR, Hm in Hj.
      rewrite nth_tab by lia. unfold at1, bc_src.
      destruct (Nat.ltb_spec j NF) as [Hj0|Hj0].
      + rewrite app_nth1 by lia. unfold ghost_left. destruct (is_literal bl "periodic"); [apply Pl; exact Hj0|].
        destruct (is_literal bl "zerograd"); [apply Pf; exact Hj0|]. unfold g0. apply nth_firstn'. exact Hj0.
      + rewrite app_nth2 by lia. rewrite LL.
        destruct (Nat.ltb_spec j ((ne + 1) * NF)) as [Hj1|Hj1].
        * rewrite app_nth1 by (rewrite Hm; lia). rewrite Pm by lia. f_equal. lia.
        * rewrite app_nth2 by (rewrite Hm; lia). rewrite Hm. unfold ghost_right.
          destruct (is_literal br "periodic"); [rewrite Pf by lia; f_equal; lia|].
          destruct (is_literal br "zerograd"); [rewrite Pl by lia; f_equal; lia|].
          unfold g1. rewrite nth_skipn'. f_equal. lia.
  Qed.

  Lemma bc_src_lt bl br NF ne j : 1 <= NF -> 1 <= ne -> j < (ne + 2) * NF -> bc_src bl br NF ne j < (ne + 2) * NF.
  Proof.
    intros H1 H2. replace ((ne + 2) * NF) with (ne * NF + 2 * NF) by lia. intro H.
    assert (NF <= ne * NF) by nia. unfold bc_src. replace ((ne + 1) * NF) with (ne * NF + NF) by lia. destruct (Nat.ltb_spec j NF).
    - destruct (is_literal bl "periodic"); [lia|]. destruct (is_literal bl "zerograd"); lia.
    - destruct (Nat.ltb_spec j (ne * NF + NF)); [lia|].
      destruct (is_literal br "periodic"); [lia|]. destruct (is_literal br "zerograd"); lia.
  Qed.
End BC.

Section Residual.
  Context {A : Type} {N : Num A} {L : Libm A}.
  Variable gamma : A.

  Implicit Types s : solution A.
  Lemma NF_pos (s : solution A) : 1 <= s_NF s. Proof. unfold s_NF. destruct (s_euler s); lia. Qed.
  Lemma Ns_pos (s : solution A) : 1 <= s_Ns s. Proof. unfold s_Ns, b_Ns. lia. Qed.

  (** apply_bc, whole solution *)
  Definition bc_u (ne : nat) (s : solution A) : mat A :=
    tab2 (s_Ns s) ((ne + 2) * s_NF s) (fun n j => at2 (s_u s) n (bc_src (s_bcl s) (s_bcr s) (s_NF s) ne j)).
  Lemma apply_bc_eq ne s : wf ne s -> apply_bc s = Ok (with_u s (bc_u ne s)).
  Proof.
    intros W. unfold apply_bc. destruct (wf_u _ _ W) as [Hl Hr].
    rewrite mapM_total with (g := fun r => tab ((ne + 2) * s_NF s) (fun j => at1 r (bc_src (s_bcl s) (s_bcr s) (s_NF s) ne j))).
    - cbn [rbind]. f_equal. f_equal. unfold bc_u, tab2. apply (list_ext []).
      + rewrite map_length, length_tab. exact Hl.
      + intros i Hi. rewrite map_length in Hi. rewrite nth_tab by (rewrite <- Hl; exact Hi).
        rewrite nth_indep with (d' := (fun r => tab ((ne + 2) * s_NF s) (fun j => at1 r (bc_src (s_bcl s) (s_bcr s) (s_NF s) ne j))) [])
          by (rewrite map_length; exact Hi).
        rewrite (map_nth (fun r => tab ((ne + 2) * s_NF s) (fun j => at1 r (bc_src (s_bcl s) (s_bcr s) (s_NF s) ne j)))). reflexivity.
    - intros r Hin. apply apply_bc_row_nth; [apply NF_pos | apply (wf_ne _ _ W) | apply Hr; exact Hin].
  Qed.

  Lemma wf_with_u ne s u : wf ne s -> shape (s_Ns s) ((ne + 2) * s_NF s) u -> wf ne (with_u s u).
  Proof. intros [] H. constructor; try assumption. Qed.
  Lemma bc_u_shape ne s : shape (s_Ns s) ((ne + 2) * s_NF s) (bc_u ne s).
  Proof. apply shape_tab2. Qed.
  Lemma wf_apply_bc ne s : wf ne s -> wf ne (with_u s (bc_u ne s)).
  Proof. intro W. apply wf_with_u; [exact W|apply bc_u_shape]. Qed.

  (** collocation *)
  Lemma collocate_shape ne s : wf ne s -> shape (b_NG (s_basis s)) ((ne + 2) * s_NF s) (collocate s).
  Proof.
    intro W. unfold collocate. eapply shape_dot; [apply (wf_phi _ _ W) | apply (wf_u _ _ W) |].
    eapply shape_ncols; [apply (wf_u _ _ W)|apply Ns_pos].
  Qed.
  Lemma collocate_at ne s g j : wf ne s -> g < b_NG (s_basis s) -> j < (ne + 2) * s_NF s ->
    at2 (collocate s) g j = vdot (row (b_phi (s_basis s)) g) (col (s_u s) j).
  Proof.
    intros W Hg Hj. unfold collocate. apply at2_dot with (c := (ne + 2) * s_NF s).
    - apply (wf_u _ _ W).
    - eapply shape_ncols; [apply (wf_u _ _ W)|apply Ns_pos].
    - destruct (wf_phi _ _ W) as [-> _]. exact Hg.
    - exact Hj.
  Qed.

  (** flux at the nodes *)
  Lemma comp3_flux1 s (rho m E : A) f :
    s_euler s = true -> f < 3 -> comp3 (flux1 gamma (rho, m, E)) f = at1 (phys_flux gamma s [rho; m; E]) f.
  Proof.
    intros He Hf. unfold phys_flux. rewrite He. unfold at1. cbn [nth].
    destruct (flux1 gamma (rho, m, E)) as [[a b] c]. reflexivity.
  Qed.
  Lemma interior_flux_shape ne s ug G : shape G ((ne + 2) * s_NF s) ug -> shape G ((ne + 2) * s_NF s) (interior_flux gamma s ug).
  Proof.
    intros [H1 H2]. unfold interior_flux. destruct (s_euler s) eqn:He; [|split; assumption].
    unfold euler_interior_flux. split; [rewrite map_length; exact H1|].
    intros x Hx. apply in_map_iff in Hx. destruct Hx as [r [<- Hr]]. apply H2 in Hr.
    unfold s_NF in *. rewrite He in *.
    rewrite length_join3, map_length, (split3_tab (ne + 2)) by lia. rewrite length_tab. lia.
  Qed.
  Lemma interior_flux_at ne s ug G g e f : shape G ((ne + 2) * s_NF s) ug -> g < G -> e < ne + 2 -> f < s_NF s ->
    at2 (interior_flux gamma s ug) g (e * s_NF s + f)
    = at1 (phys_flux gamma s (tab (s_NF s) (fun f' => at2 ug g (e * s_NF s + f')))) f.
  Proof.
    intros Hs Hg He Hf. unfold interior_flux. destruct (s_euler s) eqn:Eu.
    - assert (HN : s_NF s = 3) by (unfold s_NF; rewrite Eu; reflexivity). rewrite HN in *.
      unfold euler_interior_flux, at2. unfold row at 1.
      rewrite nth_indep with (d' := (fun r => join3 (map (flux1 gamma) (split3 r))) []) by (rewrite map_length; destruct Hs as [Hs1 _]; exact (eq_ind_r (fun k => g < k) Hg Hs1)).
      rewrite (map_nth (fun r => join3 (map (flux1 gamma) (split3 r)))).
      pose proof (shape_row _ _ _ _ Hs Hg) as Hlr. unfold row in Hlr.
      rewrite (split3_tab (ne + 2)) by (etransitivity; [exact Hlr|lia]). rewrite map_tab.
      rewrite at1_join3 with (d := (n0, n0, n0)) by (rewrite ?length_tab; assumption).
      rewrite nth_tab by exact He. rewrite (comp3_flux1 s) by assumption.
      unfold tab. simpl (map _ (seq 0 3)). unfold row. do 3 f_equal; [f_equal; lia|].
      f_equal; [f_equal; lia|]. f_equal. f_equal. lia.
    - unfold phys_flux. rewrite Eu. rewrite at1_tab by exact Hf. reflexivity.
  Qed.

  (** faces *)
  Lemma evaluate_faces_Ok ne s : wf ne s -> exists uf, evaluate_faces s = Ok uf /\
    List.length (row uf 0) = (ne + 2) * s_NF s /\ List.length (row uf 1) = (ne + 2) * s_NF s /\
    forall e f, e <= ne -> f < s_NF s ->
      at1 (row uf 1) (e * s_NF s + f) = face_minus s (modes s) e f /\
      at1 (row uf 0) ((e + 1) * s_NF s + f) = face_plus s (modes s) e f.
  Proof.
    intro W. unfold evaluate_faces. pose proof (wf_u _ _ W) as Wu.
    assert (Hc : ncols (s_u s) = (ne + 2) * s_NF s) by (eapply shape_ncols; [apply Wu|apply Ns_pos]).
    pose proof (NF_pos s) as HNF. pose proof (Ns_pos s) as HNs. pose proof (wf_ne _ _ W) as Hne.
    unfold face_minus, face_plus. destruct (s_enh s) as [en|] eqn:Ee.
    - pose proof (wf_enh _ _ W) as We. rewrite Ee in We. destruct We as [W1 [W2 [W3 W4]]].
      unfold face_value, nrows. rewrite W1, W2, W3, W4. destruct Wu as [Wl Wr]. rewrite Wl, Nat.eqb_refl. cbn [andb].
      eexists. split; [reflexivity|].
      set (uL := map (fun r => slice_to r (- Z.of_nat (s_NF s))) (s_u s)).
      set (uR := map (fun r => slice_from r (Z.of_nat (s_NF s))) (s_u s)).
      assert (LL : forall x, In x uL -> List.length x = (ne + 1) * s_NF s).
      { intros x Hx. apply in_map_iff in Hx. destruct Hx as [r [<- Hr]]. rewrite slice_to_neg by lia.
        rewrite firstn_length. rewrite Wr by exact Hr. lia. }
      assert (LR : forall x, In x uR -> List.length x = (ne + 1) * s_NF s).
      { intros x Hx. apply in_map_iff in Hx. destruct Hx as [r [<- Hr]]. rewrite slice_from_nat.
        rewrite skipn_length. rewrite Wr by exact Hr. lia. }
      assert (SL : ncols uL = (ne + 1) * s_NF s).
      { eapply shape_ncols with (r := s_Ns s); [split; [unfold uL; rewrite map_length; exact Wl|exact LL]|exact HNs]. }
      assert (SR : ncols uR = (ne + 1) * s_NF s).
      { eapply shape_ncols with (r := s_Ns s); [split; [unfold uR; rewrite map_length; exact Wl|exact LR]|exact HNs]. }
      assert (CL : forall j, j < (ne + 1) * s_NF s -> col uL j = col (s_u s) j).
      { intros j Hj. unfold col, uL. rewrite map_map. apply map_ext_in. intros r Hr. rewrite slice_to_neg by lia.
        unfold at1. apply nth_firstn'. rewrite Wr by exact Hr. lia. }
      assert (CR : forall j, col uR j = col (s_u s) (s_NF s + j)).
      { intros j. unfold col, uR. rewrite map_map. apply map_ext_in. intros r Hr. rewrite slice_from_nat.
        unfold at1. apply nth_skipn'. }
      unfold row. cbn [nth].
      assert (Hv : forall a b, List.length (vadd (rowdot a uL) (rowdot b uR)) = (ne + 1) * s_NF s).
      { intros a b. rewrite length_vadd. unfold rowdot. rewrite SL, SR, !length_rowcomb by assumption. apply Nat.min_id. }
      assert (Hat : forall a b j, j < (ne + 1) * s_NF s -> at1 (vadd (rowdot a uL) (rowdot b uR)) j
                = nadd (vdot a (col (s_u s) j)) (vdot b (col (s_u s) (s_NF s + j)))).
      { intros a b j Hj. unfold rowdot. rewrite SL, SR. rewrite at1_vadd by (rewrite length_rowcomb; assumption).
        rewrite !at1_rowcomb by assumption. rewrite CL, CR by assumption. reflexivity. }
      split; [rewrite app_length, length_zeros, Hv; lia|].
      split; [rewrite app_length, length_zeros, Hv; lia|].
      intros e f He Hf. unfold modes.
      assert (Hj : e * s_NF s + f < (ne + 1) * s_NF s) by nia.
      split.
      + unfold at1. rewrite app_nth1 by (rewrite Hv; exact Hj). fold (at1 (vadd (rowdot (e_alphaL en) uL) (rowdot (e_alphaR en) uR)) (e * s_NF s + f)).
        rewrite Hat by exact Hj. do 3 f_equal. lia.
      + unfold at1. rewrite app_nth2 by (rewrite length_zeros; nia). rewrite length_zeros.
        replace ((e + 1) * s_NF s + f - s_NF s) with (e * s_NF s + f) by nia.
        fold (at1 (vadd (rowdot (e_betaL en) uL) (rowdot (e_betaR en) uR)) (e * s_NF s + f)).
        rewrite Hat by exact Hj. do 3 f_equal. lia.
    - eexists. split; [reflexivity|].
      assert (Sd : shape 2 ((ne + 2) * s_NF s) (dot (b_psi (s_basis s)) (s_u s))).
      { eapply shape_dot; [apply (wf_psi _ _ W) | apply Wu | exact Hc]. }
      split; [eapply shape_row; [exact Sd|lia]|]. split; [eapply shape_row; [exact Sd|lia]|].
      intros e f He Hf. unfold modes. split.
      + fold (at2 (dot (b_psi (s_basis s)) (s_u s)) 1 (e * s_NF s + f)).
        apply at2_dot with (c := (ne + 2) * s_NF s); [apply Wu|exact Hc| |nia].
        destruct (wf_psi _ _ W) as [-> _]. lia.
      + fold (at2 (dot (b_psi (s_basis s)) (s_u s)) 0 ((e + 1) * s_NF s + f)).
        apply at2_dot with (c := (ne + 2) * s_NF s); [apply Wu|exact Hc| |nia].
        destruct (wf_psi _ _ W) as [-> _]. lia.
  Qed.

  (** Riemann solvers, interface by interface *)
  Lemma length_combine_tab {P Q} k (f : nat -> P) (g : nat -> Q) : combine (tab k f) (tab k g) = tab k (fun i => (f i, g i)).
  Proof. revert f g. induction k; intros f g; [reflexivity|]. rewrite !tab_S. simpl. rewrite IHk. reflexivity. Qed.

  Definition cellv (NF : nat) (v : vec A) (e : nat) : list A := tab NF (fun f => at1 v (e * NF + f)).
  Definition triple (c : list A) : A * A * A := (at1 c 0, at1 c 1, at1 c 2).
  Definition untriple (t : A * A * A) : list A := let '(a, b, c) := t in [a; b; c].
  Lemma cell3_split k (v : vec A) : List.length v = k * 3 -> split3 v = tab k (fun e => triple (cellv 3 v e)).
  Proof.
    intro H. rewrite (split3_tab k) by lia. apply tab_ext. intros e _. unfold triple, cellv, tab. cbn [map seq at1 nth].
    replace (3 * e) with (e * 3) by lia. rewrite Nat.add_0_r. reflexivity.
  Qed.
  Lemma join3_char k (g : nat -> A * A * A) q :
    join3 (tab k g) = q <-> (List.length q = k * 3 /\ forall e, e < k -> untriple (g e) = cellv 3 q e).
  Proof.
    assert (P : forall e f, e < k -> f < 3 -> at1 (join3 (tab k g)) (e * 3 + f) = at1 (untriple (g e)) f).
    { intros e f He Hf. rewrite at1_join3 with (d := (n0, n0, n0)) by (rewrite ?length_tab; assumption).
      rewrite nth_tab by exact He. unfold comp3, untriple, at1. destruct (g e) as [[a b] c]. reflexivity. }
    split.
    - intros <-. split; [rewrite length_join3, length_tab; lia|]. intros e He. unfold cellv, tab at 1. cbn [map seq].
      rewrite !P by lia. destruct (g e) as [[a b] c]. reflexivity.
    - intros [H1 H2]. apply (vec_ext (k * 3)); [rewrite length_join3, length_tab; lia|exact H1|].
      intros j Hj. rewrite (Nat.div_mod j 3) by lia. rewrite (Nat.mul_comm 3).
      assert (He' : j / 3 < k) by (apply Nat.div_lt_upper_bound; lia).
      assert (Hf : j mod 3 < 3) by (apply Nat.mod_upper_bound; lia).
      rewrite P, H2 by assumption. unfold cellv. rewrite at1_tab by exact Hf. reflexivity.
  Qed.

  Lemma mapM_tab_char {Y Z'} (h : Y -> res Z') k (g : nat -> Y) (l : list Z') (d : Z') :
    mapM h (tab k g) = Ok l <-> (List.length l = k /\ forall e, e < k -> h (g e) = Ok (nth e l d)).
  Proof.
    revert g l. induction k as [|k IH]; intros g l.
    - cbn. split; [intro H; injection H as <-; split; [reflexivity|intros; lia]|]. intros [H _]. destruct l; [reflexivity|discriminate].
    - rewrite tab_S. cbn [mapM]. split.
      + intro H. inv_bind H. inv_bind H. injection H as <-. apply IH in Hx0. destruct Hx0 as [H1 H2].
        split; [simpl; lia|]. intros [|e] He; [exact Hx|]. apply H2. lia.
      + intros [H1 H2]. destruct l as [|y l]; [discriminate|]. rewrite (H2 0) by lia. cbn [rbind nth].
        assert (E : mapM h (tab k (fun i => g (S i))) = Ok l).
        { apply IH. split; [simpl in H1; lia|]. intros e He. apply (H2 (S e)). lia. }
        rewrite E. reflexivity.
  Qed.

  Lemma Ok_inj {Y} (a b : Y) : Ok a = Ok b -> a = b. Proof. congruence. Qed.
  Lemma riemann_char s k ul ur q :
    (s_riemann s = RUpwind <-> s_euler s = false) ->
    List.length ul = k * s_NF s -> List.length ur = k * s_NF s ->
    riemann gamma s ul ur = Ok q <->
    (List.length q = k * s_NF s /\
     forall e, e < k -> num_flux gamma s (cellv (s_NF s) ul e) (cellv (s_NF s) ur e) = Ok (cellv (s_NF s) q e)).
  Proof.
    intros Hk Hl Hr.
    assert (HE : s_riemann s <> RUpwind -> s_NF s = 3).
    { intro H. unfold s_NF. destruct (s_euler s); [reflexivity|]. exfalso. apply H. apply Hk. reflexivity. }
    assert (J : forall h : A * A * A -> A * A * A -> A * A * A, s_NF s = 3 ->
      (Ok (join3 (map2 h (split3 ul) (split3 ur))) = Ok q <->
       (List.length q = k * s_NF s /\ forall e, e < k ->
          (let '(a, b, c) := h (triple (cellv 3 ul e)) (triple (cellv 3 ur e)) in Ok [a; b; c]) = Ok (cellv 3 q e)))).
    { intros h HN. rewrite HN in *. rewrite (cell3_split k ul), (cell3_split k ur) by assumption. rewrite map2_tab.
      pose proof (join3_char k (fun i => h (triple (cellv 3 ul i)) (triple (cellv 3 ur i))) q) as C.
      split.
      - intro H. injection H as H. apply C in H. destruct H as [H1 H2]. split; [exact H1|]. intros e He.
        specialize (H2 e He). destruct (h _ _) as [[a b] c]. f_equal. exact H2.
      - intros [H1 H2]. f_equal. apply C. split; [exact H1|]. intros e He. specialize (H2 e He).
        destruct (h _ _) as [[a b] c]. apply Ok_inj in H2. exact H2. }
    unfold riemann, num_flux. fold (triple).
    destruct (s_riemann s) eqn:Er.
    - (* upwind *)
      assert (He : s_euler s = false) by (apply Hk; reflexivity).
      unfold riemann_upwinding. split.
      + intro H. injection H as <-. split; [exact Hl|]. intros e He'. reflexivity.
      + intros [H1 H2]. f_equal. unfold s_NF in *. rewrite He in *. rewrite Nat.mul_1_r in *.
        apply (vec_ext k); try assumption. intros j Hj. specialize (H2 j Hj). injection H2 as H2.
        rewrite Nat.mul_1_r, Nat.add_0_r in H2. exact H2.
    - assert (HN : s_NF s = 3) by (apply HE; discriminate). unfold riemann_rusanov.
      rewrite (J (rusanov1 gamma) HN). rewrite HN. reflexivity.
    - assert (HN : s_NF s = 3) by (apply HE; discriminate). unfold riemann_godunov. rewrite HN in *.
      rewrite (cell3_split k ul), (cell3_split k ur) by assumption. rewrite length_combine_tab.
      split.
      + intro H. inv_bind H. injection H as H.
        apply (mapM_tab_char _ k _ x (n0, n0, n0)) in Hx. destruct Hx as [H1 H2].
        replace x with (tab k (fun i => nth i x (n0, n0, n0))) in H
          by (rewrite <- H1; apply (@tab_nth (A * A * A) (n0, n0, n0) x)).
        apply join3_char in H. destruct H as [H3 H4]. split; [exact H3|]. intros e He.
        specialize (H2 e He). cbn [fst snd] in H2. unfold triple in H2. rewrite H2. cbn [rbind].
        specialize (H4 e He). destruct (nth e x (n0, n0, n0)) as [[a b] c]. f_equal. exact H4.
      + intros [H1 H2].
        assert (E : mapM (fun p => godunov1 gamma (fst p) (snd p)) (tab k (fun i => (triple (cellv 3 ul i), triple (cellv 3 ur i))))
                = Ok (tab k (fun e => triple (cellv 3 q e)))).
        { apply (mapM_tab_char _ k _ _ (n0, n0, n0)). split; [apply length_tab|]. intros e He. cbn [fst snd].
          rewrite nth_tab by exact He. specialize (H2 e He). inv_bind H2. destruct x as [[a b] c].
          unfold triple at 1 2. rewrite Hx. apply Ok_inj in H2. rewrite <- H2. reflexivity. }
        refine (eq_trans (f_equal (fun r => rbind r (fun l => Ok (join3 l))) E) _).
        cbn [rbind]. f_equal. apply join3_char. split; [exact H1|]. intros e He. reflexivity.
    - assert (HN : s_NF s = 3) by (apply HE; discriminate). unfold riemann_roe.
      rewrite (J (roe1 gamma) HN). rewrite HN. reflexivity.
  Qed.
End Residual.
