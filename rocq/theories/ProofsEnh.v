(** enhance.py: the face values are those of the polynomial matching both cells. *)
From Coq Require Import ZArith List Bool Arith String Reals Lra Lia Sorting.Sorted Sorting.Permutation.
From Verif Require Import Num Py PyStr Lib LegNumpy Ext Basis Sensor Enhance Solution Solver RealLib SpecDG SpecPoly SpecEnh ProofsPoly ProofsLeg
  ProofsGauss ProofsDG ProofsBasis ProofsLim.
Import ListNotations.
Open Scope list_scope.

(** ** sorting *)
Lemma insert_perm x l : Permutation (insert_nat x l) (x :: l).
Proof.
  induction l as [|y l IH]; [reflexivity|]. cbn [insert_nat]. destruct (x <? y)%nat; [reflexivity|]. rewrite IH. apply perm_swap.
Qed.
Lemma sort_perm_acc l : forall acc, Permutation (fold_left (fun a x => insert_nat x a) l acc) (l ++ acc).
Proof.
  induction l as [|x l IH]; intro acc; [reflexivity|]. cbn [fold_left]. rewrite IH, insert_perm. cbn [app]. symmetry. apply Permutation_middle.
Qed.
Lemma sort_perm l : Permutation (sort_nat l) l.
Proof. unfold sort_nat. rewrite sort_perm_acc, app_nil_r. reflexivity. Qed.
Lemma insert_In x y l : In y (insert_nat x l) <-> y = x \/ In y l.
Proof.
  split; intro H.
  - apply (Permutation_in _ (insert_perm x l)) in H. destruct H as [->|H]; auto.
  - apply (Permutation_in _ (Permutation_sym (insert_perm x l))). destruct H as [->|H]; [left|right]; auto.
Qed.
Lemma insert_sorted x l : StronglySorted lt l -> ~ In x l -> StronglySorted lt (insert_nat x l).
Proof.
  intros HS. induction HS as [|y l HS IH HF]; intro Hx; cbn [insert_nat].
  - constructor; constructor.
  - destruct (Nat.ltb_spec x y) as [H|H].
    + constructor; [constructor; assumption|]. constructor; [exact H|]. rewrite Forall_forall in *. intros z Hz. specialize (HF z Hz). lia.
    + constructor; [apply IH; intro; apply Hx; right; assumption|]. rewrite Forall_forall in *. intros z Hz. apply insert_In in Hz.
      destruct Hz as [->|Hz]; [|apply HF; exact Hz]. assert (x <> y) by (intros ->; apply Hx; left; reflexivity). lia.
Qed.
Lemma sort_sorted_acc l : forall acc, StronglySorted lt acc -> NoDup (l ++ acc) -> StronglySorted lt (fold_left (fun a x => insert_nat x a) l acc).
Proof.
  induction l as [|x l IH]; intros acc HS ND; [exact HS|]. cbn [fold_left]. inversion ND as [|? ? N1 N2]. subst. apply IH.
  - apply insert_sorted; [exact HS|]. intro H. apply N1. apply in_or_app. right. exact H.
  - apply (Permutation_NoDup (l := x :: l ++ acc)); [|exact ND]. transitivity (l ++ x :: acc); [apply Permutation_middle|]. apply Permutation_app_head. symmetry. apply insert_perm.
Qed.
Lemma sort_sorted l : NoDup l -> StronglySorted lt (sort_nat l).
Proof. intro H. apply sort_sorted_acc; [constructor|rewrite app_nil_r; exact H]. Qed.

(** ** the inserted zeros *)
Section Spread.
  Context {A : Type} {N : Num A}.
  (** modes i, i+1, .. (cnt of them): the entries of v at the listed modes, zero elsewhere *)
  Fixpoint spread (modes : list nat) (v : vec A) (i cnt : nat) : vec A :=
    match cnt with
    | O => v
    | S cnt => match modes, v with
               | m :: ms, x :: v' => if (m =? i)%nat then x :: spread ms v' (i + 1) cnt else n0 :: spread modes v (i + 1) cnt
               | _, _ => n0 :: spread modes v (i + 1) cnt
               end
    end.
  Lemma np_insert0_end (a b : vec A) : np_insert0 (a ++ b) (List.length a) = Ok (a ++ n0 :: b).
  Proof.
    unfold np_insert0. rewrite app_length. destruct (Nat.leb_spec (List.length a) (List.length a + List.length b)); [|lia].
    rewrite firstn_app, Nat.sub_diag, firstn_all. cbn [firstn]. rewrite app_nil_r. rewrite skipn_app, Nat.sub_diag, skipn_all. reflexivity.
  Qed.
  Lemma insert_loop all cnt : forall ms v pre i, List.length v = List.length ms -> List.length pre = i -> StronglySorted lt ms ->
    (forall m, In m ms -> i <= m < i + cnt)%nat -> (forall m, (i <= m)%nat -> In m all <-> In m ms) ->
    fold_left (fun acc i => let! w := acc in if existsb (Nat.eqb i) all then Ok w else np_insert0 w i) (seq i cnt) (Ok (pre ++ v)) = Ok (pre ++ spread ms v i cnt).
  Proof.
    induction cnt as [|cnt IH]; intros ms v pre i Lv Lp HS HB HA; [reflexivity|]. cbn [seq fold_left rbind].
    assert (EX : existsb (Nat.eqb i) all = true <-> In i ms).
    { rewrite <- HA by lia. rewrite existsb_exists. split; [intros [x [Hx Hi]]; apply Nat.eqb_eq in Hi; subst x; exact Hx|]. intro H. exists i. split; [exact H|apply Nat.eqb_refl]. }
    destruct ms as [|m ms].
    - destruct v; [|discriminate]. assert (E : existsb (Nat.eqb i) all = false). { destruct (existsb (Nat.eqb i) all); [|reflexivity]. exfalso. apply (proj1 EX eq_refl). }
      rewrite E. rewrite <- Lp at 2. rewrite np_insert0_end. change (n0 :: []) with ([n0] ++ [] : list A). rewrite app_assoc. replace (S i) with (i + 1)%nat by lia. rewrite IH with (ms := []).
      + cbn [spread]. rewrite <- app_assoc. reflexivity.
      + reflexivity.
      + rewrite app_length. cbn. lia.
      + exact HS.
      + intros m [].
      + intros m Hm. apply HA. lia.
    - destruct v as [|x v]; [discriminate|]. inversion HS as [|? ? HS' HF]. subst a l. cbn [spread]. destruct (Nat.eqb_spec m i) as [->|Hne].
      + rewrite (proj2 EX) by (left; reflexivity). change (x :: v) with ([x] ++ v). rewrite app_assoc. replace (S i) with (i + 1)%nat by lia. rewrite IH with (ms := ms).
        * rewrite <- app_assoc. reflexivity.
        * cbn in Lv. lia.
        * rewrite app_length. cbn. lia.
        * exact HS'.
        * intros m Hm. rewrite Forall_forall in HF. specialize (HF m Hm). specialize (HB m (or_intror Hm)). lia.
        * intros m Hm. rewrite HA by lia. cbn [In]. split; [intros [->|H]; [lia|exact H]|auto].
      + assert (E : existsb (Nat.eqb i) all = false).
        { destruct (existsb (Nat.eqb i) all); [|reflexivity]. exfalso. destruct (proj1 EX eq_refl) as [H|H]; [congruence|].
          rewrite Forall_forall in HF. specialize (HF i H). specialize (HB m (or_introl eq_refl)). lia. }
        rewrite E. rewrite <- Lp at 2. rewrite np_insert0_end. change (n0 :: x :: v) with ([n0] ++ x :: v). rewrite app_assoc. replace (S i) with (i + 1)%nat by lia. rewrite IH with (ms := m :: ms).
        * rewrite <- app_assoc. reflexivity.
        * exact Lv.
        * rewrite app_length. cbn. lia.
        * exact HS.
        * intros m' Hm. assert (m' <> i); [|specialize (HB m' Hm); lia]. intros ->. destruct Hm as [H|H]; [congruence|].
          rewrite Forall_forall in HF. specialize (HF i H). specialize (HB m (or_introl eq_refl)). lia.
        * intros m' Hm. apply HA. lia.
  Qed.
  Lemma insert_missing_spread p modes v : List.length v = List.length modes -> StronglySorted lt modes -> (forall m, In m modes -> m <= p)%nat ->
    insert_missing p modes v = Ok (spread modes v 0 (p + 1)).
  Proof.
    intros L HS HB. unfold insert_missing. apply (insert_loop modes (p + 1) modes v [] 0); try assumption; try reflexivity.
    intros m Hm. specialize (HB m Hm). lia.
  Qed.
  Lemma length_spread cnt : forall ms (v : vec A) i, List.length v = List.length ms -> StronglySorted lt ms -> (forall m, In m ms -> i <= m < i + cnt)%nat ->
    List.length (spread ms v i cnt) = cnt.
  Proof.
    induction cnt as [|cnt IH]; intros ms v i L HS HB.
    - destruct ms as [|m ms]; [destruct v; [reflexivity|discriminate]|]. specialize (HB m (or_introl eq_refl)). lia.
    - cbn [spread]. destruct ms as [|m ms]; [destruct v; [|discriminate]; cbn [List.length]; rewrite IH; [reflexivity|reflexivity|exact HS|intros m []]|].
      destruct v as [|x v]; [discriminate|]. inversion HS as [|? ? HS' HF]. subst. rewrite Forall_forall in HF. destruct (Nat.eqb_spec m i) as [->|Hne]; cbn [List.length]; rewrite IH; try reflexivity; try assumption.
      + cbn in L. lia.
      + intros m Hm. specialize (HF m Hm). specialize (HB m (or_intror Hm)). lia.
      + intros m' Hm. assert (m' <> i); [|specialize (HB m' Hm); lia]. intros ->. destruct Hm as [H|H]; [congruence|].
        specialize (HF i H). specialize (HB m (or_introl eq_refl)). lia.
  Qed.
End Spread.
Open Scope R_scope.
Lemma spread_sum (u : nat -> R) cnt : forall ms (v : list R) i, List.length v = List.length ms -> StronglySorted lt ms -> (forall m, In m ms -> i <= m < i + cnt)%nat ->
  Rsum cnt (fun j => at1 (spread ms v i cnt) j * u (i + j)%nat) = Rsum (List.length ms) (fun t => at1 v t * u (nth t ms 0%nat)).
Proof.
  induction cnt as [|cnt IH]; intros ms v i L HS HB.
  - destruct ms as [|m ms]; [reflexivity|]. specialize (HB m (or_introl eq_refl)). lia.
  - assert (SH : forall w, Rsum cnt (fun j => at1 w j * u (i + S j)%nat) = Rsum cnt (fun j => at1 w j * u (i + 1 + j)%nat)).
    { intro w. apply Rsum_ext. intros j _. f_equal. f_equal. lia. }
    assert (HD : forall (a : R) w, Rsum (S cnt) (fun j => at1 (a :: w) j * u (i + j)%nat) = a * u i + Rsum cnt (fun j => at1 w j * u (i + 1 + j)%nat)).
    { intros a w. rewrite Rsum_S_l. rewrite <- SH. rewrite Nat.add_0_r. reflexivity. }
    cbn [spread]. destruct ms as [|m ms].
    + destruct v; [|discriminate]. rewrite HD, (IH [] [] (i + 1)%nat); [cbn; numR; ring|reflexivity|exact HS|intros m []].
    + destruct v as [|x v]; [discriminate|]. inversion HS as [|? ? HS' HF]. subst. rewrite Forall_forall in HF. destruct (Nat.eqb_spec m i) as [->|Hne]; rewrite HD.
      * rewrite (IH ms v (i + 1)%nat).
        -- cbn [List.length]. rewrite Rsum_S_l. reflexivity.
        -- cbn in L. lia.
        -- exact HS'.
        -- intros m Hm. specialize (HF m Hm). specialize (HB m (or_intror Hm)). lia.
      * rewrite (IH (m :: ms) (x :: v) (i + 1)%nat); [numR; ring|exact L|exact HS|].
        intros m' Hm. assert (m' <> i); [|specialize (HB m' Hm); lia]. intros ->. destruct Hm as [H|H]; [congruence|].
        specialize (HF i H). specialize (HB m (or_introl eq_refl)). lia.
Qed.

(** ** moments *)
Lemma moment_nint m c : nint (fun x => LegP m x * legseries c x) (-1) 1 (nth m c 0 * (2 / (2 * INR m + 1))).
Proof. apply (nint_ext (fun x => legseries c x * LegP m x)); [intro; ring|apply nint_series_P]. Qed.
Lemma moment_integral m c v : integral (fun x => LegP m x * legseries c x) (-1) 1 v <-> v = nth m c 0 * (2 / (2 * INR m + 1)).
Proof.
  rewrite (poly_integral (m + (List.length c - 1))); [|apply is_poly_mult; [apply LegP_poly|apply legseries_poly]|lra]. split.
  - intro H. apply (nint_unique _ _ _ _ _ H (moment_nint m c)).
  - intros ->. apply moment_nint.
Qed.
Lemma norm_neq m : 2 / (2 * INR m + 1) <> 0.
Proof. pose proof (pos_INR m). apply Rgt_not_eq. apply Rdiv_lt_0_compat; lra. Qed.
Lemma same_moment_coef m a b : same_moment m (legseries a) (legseries b) <-> nth m a 0 = nth m b 0.
Proof.
  unfold same_moment. split.
  - intro H. specialize (H (nth m a 0 * (2 / (2 * INR m + 1)))). rewrite !moment_integral in H.
    apply (Rmult_eq_reg_r (2 / (2 * INR m + 1))); [|apply norm_neq]. apply H. reflexivity.
  - intros E v. rewrite !moment_integral, E. reflexivity.
Qed.
Lemma moment_shift m q d v : integral (fun x => LegP m x * legseries q (x + d)) (-1) 1 v <-> integral (fun x => LegP m x * legseries (shift_legendre q d) x) (-1) 1 v.
Proof.
  assert (P : is_poly (m + (List.length q - 1)) (fun x => LegP m x * legseries q (x + d))).
  { apply is_poly_mult; [apply LegP_poly|]. apply (is_poly_ext _ (fun x => legseries q (1 * x + d))); [intro; f_equal; ring|]. apply (is_poly_affine _ (legseries q) 1 d). apply legseries_poly. }
  rewrite (poly_integral _ _ _ _ _ P) by lra. rewrite moment_integral. split.
  - intro H. apply (nint_unique _ _ _ _ _ H). apply (nint_ext (fun x => LegP m x * legseries (shift_legendre q d) x)); [intro; rewrite shift_legendre_ok; reflexivity|apply moment_nint].
  - intros ->. apply (nint_ext (fun x => LegP m x * legseries (shift_legendre q d) x)); [intro; rewrite shift_legendre_ok; reflexivity|apply moment_nint].
Qed.
Lemma same_moment_shift m q d b : same_moment m (fun x => legseries q (x + d)) (legseries b) <-> nth m (shift_legendre q d) 0 = nth m b 0.
Proof.
  rewrite <- same_moment_coef. unfold same_moment. split; intros H v; specialize (H v).
  - rewrite <- H. symmetry. apply moment_shift.
  - rewrite <- H. apply moment_shift.
Qed.

(** ** the enhancement matrix *)
Section Mat.
  Context {X : Ext R}.
  Lemma product_coef m c : integrate_legendre_product (leg_basis m) c / integrate_legendre_product (leg_basis m) (leg_basis m) = nth m c 0.
  Proof.
    assert (E : forall c, integrate_legendre_product (leg_basis m) c = nth m c 0 * (2 / (2 * INR m + 1))).
    { intro c0. apply (nint_unique (fun x => LegP m x * legseries c0 x) (-1) 1); [|apply moment_nint].
      apply (nint_ext (fun x => legseries (leg_basis m) x * legseries c0 x)); [intro; rewrite legseries_basis; reflexivity|apply product_nint]. }
    rewrite !E. assert (B : nth m (leg_basis m : list R) 0 = 1).
    { assert (M1 : nint (fun x => LegP m x * legseries (leg_basis m) x) (-1) 1 (2 / (2 * INR m + 1))).
      { apply (nint_ext (fun x => LegP m x * LegP m x)); [intro; rewrite legseries_basis; reflexivity|apply Leg_norm]. }
      pose proof (nint_unique _ _ _ _ _ M1 (moment_nint m (leg_basis m))) as E1. apply (Rmult_eq_reg_r (2 / (2 * INR m + 1))); [|apply norm_neq]. rewrite <- E1. ring. }
    rewrite B. pose proof (pos_INR m). field. lra.
  Qed.
  (** shifting is linear in the coefficients *)
  Lemma shift_coef m q d : nth m (shift_legendre q d) 0 = Rsum (List.length q) (fun j => nth m (shift_legendre (leg_basis j) d) 0 * nth j q 0).
  Proof.
    apply (Rmult_eq_reg_r (2 / (2 * INR m + 1))); [|apply norm_neq].
    apply (nint_unique (fun x => LegP m x * legseries q (x + d)) (-1) 1).
    - apply (nint_ext (fun x => LegP m x * legseries (shift_legendre q d) x)); [intro; rewrite shift_legendre_ok; reflexivity|apply moment_nint].
    - rewrite <- Rsum_scale_r. apply (nint_ext (fun x => Rsum (List.length q) (fun j => nth j q 0 * (LegP m x * legseries (shift_legendre (leg_basis j) d) x)))).
      + intro x. unfold legseries at 2. rewrite <- Rsum_scale. apply Rsum_ext. intros j _. rewrite shift_legendre_ok, legseries_basis. ring.
      + apply (nint_val _ _ _ (Rsum (List.length q) (fun j => nth j q 0 * (nth m (shift_legendre (leg_basis j) d) 0 * (2 / (2 * INR m + 1)))))).
        * apply Rsum_ext. intros. ring.
        * apply nint_Rsum. intros j _. apply nint_scal. apply moment_nint.
  Qed.
  Variables (p : nat) (modes : list nat) (d : R).
  Let k := List.length modes.
  Let n := (p + k + 1)%nat.
  Lemma enh_shape : shape n n (enhancement_A p modes d).
  Proof.
    unfold enhancement_A, enh_top. fold k. split.
    - rewrite app_length, length_tab2, map_length. fold k. unfold n. lia.
    - intros r Hr. apply in_app_or in Hr. destruct Hr as [Hr|Hr].
      + rewrite (proj2 (shape_tab2 (p + 1) (p + k + 1) _) r Hr). reflexivity.
      + apply in_map_iff in Hr. destruct Hr as [m [<- _]]. unfold enh_row. apply length_tab.
  Qed.
  Lemma enh_entry_top i j : (i <= p)%nat -> (j < n)%nat -> at2 (enhancement_A p modes d) i j = if (i =? j)%nat then 1 else 0.
  Proof.
    intros Hi Hj. unfold enhancement_A, at2, row. fold k. rewrite app_nth1 by (unfold enh_top; rewrite length_tab2; lia).
    change (at2 (enh_top p (p + k)) i j = if (i =? j)%nat then 1 else 0). unfold enh_top. rewrite at2_tab2 by (unfold n in Hj; lia). reflexivity.
  Qed.
  Lemma enh_entry_low t j : (t < k)%nat -> (j < n)%nat -> at2 (enhancement_A p modes d) (p + 1 + t) j = nth (nth t modes 0%nat) (shift_legendre (leg_basis j) d) 0.
  Proof.
    intros Ht Hj. unfold enhancement_A, at2, row. fold k. rewrite app_nth2 by (unfold enh_top; rewrite length_tab2; lia).
    unfold enh_top. rewrite length_tab2. replace (p + 1 + t - (p + 1))%nat with t by lia.
    rewrite (nth_indep _ [] (enh_row (p + k) 0 d)) by (rewrite map_length; exact Ht). rewrite (map_nth (fun m => enh_row (p + k) m d)).
    unfold enh_row. rewrite at1_tab by (unfold n in Hj; lia). numR. apply product_coef.
  Qed.
  (** right-hand side: the cell's coefficients and the neighbour's selected ones *)
  Definition rhs (cell nb : list R) (i : nat) : R := if (i <=? p)%nat then nth i cell 0 else nth (nth (i - (p + 1)) modes 0%nat) nb 0.
  Lemma reconstructs_iff cell nb q : List.length q = n ->
    (reconstructs p modes d cell nb q <-> forall i, (i < n)%nat -> Rsum n (fun j => at2 (enhancement_A p modes d) i j * nth j q 0) = rhs cell nb i).
  Proof.
    intro Lq.
    assert (T : forall i, (i <= p)%nat -> Rsum n (fun j => at2 (enhancement_A p modes d) i j * nth j q 0) = nth i q 0).
    { intros i Hi. rewrite (Rsum_single n i).
      - rewrite enh_entry_top by (unfold n; lia). rewrite Nat.eqb_refl. ring.
      - unfold n; lia.
      - intros j Hj Hne. rewrite enh_entry_top by assumption. destruct (Nat.eqb_spec i j); [congruence|ring]. }
    assert (B : forall t, (t < k)%nat -> Rsum n (fun j => at2 (enhancement_A p modes d) (p + 1 + t) j * nth j q 0) = nth (nth t modes 0%nat) (shift_legendre q d) 0).
    { intros t Ht. rewrite shift_coef, Lq. apply Rsum_ext. intros j Hj. rewrite enh_entry_low by assumption. reflexivity. }
    unfold reconstructs. fold k. split.
    - intros [_ [H1 H2]] i Hi. unfold rhs. destruct (Nat.leb_spec i p) as [H|H].
      + rewrite T by exact H. apply same_moment_coef. apply H1. exact H.
      + assert (K : exists t, (t < k)%nat /\ i = (p + 1 + t)%nat) by (exists (i - (p + 1))%nat; unfold n in Hi; lia). destruct K as [t [Ht ->]].
        rewrite B by exact Ht. replace (p + 1 + t - (p + 1))%nat with t by lia. apply same_moment_shift. apply H2. apply nth_In. exact Ht.
    - intro H. split; [exact Lq|]. split.
      + intros m Hm. apply same_moment_coef. specialize (H m ltac:(unfold n; lia)). rewrite T in H by exact Hm. rewrite H. unfold rhs.
        destruct (Nat.leb_spec m p); [reflexivity|lia].
      + intros m Hm. apply same_moment_shift. apply In_nth with (d := 0%nat) in Hm. destruct Hm as [t [Ht <-]]. fold k in Ht.
        specialize (H (p + 1 + t)%nat ltac:(unfold n; lia)). rewrite B in H by exact Ht. rewrite H. unfold rhs.
        destruct (Nat.leb_spec (p + 1 + t) p); [lia|]. f_equal. f_equal. lia.
  Qed.
  Lemma solve_reconstruct Ai cell nb x v : is_inverse n (enhancement_A p modes d) Ai ->
    v = Rsum n (fun i => Rsum n (fun j => LegP j x * at2 Ai j i) * rhs cell nb i) -> reconstructed_value p modes d cell nb x v.
  Proof.
    intros [_ [SA [I1 I2]]] ->. set (q := tab n (fun j => Rsum n (fun i => at2 Ai j i * rhs cell nb i))). assert (Lq : List.length q = n) by apply length_tab.
    exists q. split; [|split].
    - apply reconstructs_iff; [exact Lq|]. intros i Hi.
      rewrite (Rsum_ext n _ (fun j => Rsum n (fun i' => at2 (enhancement_A p modes d) i j * at2 Ai j i' * rhs cell nb i'))).
      2:{ intros j Hj. unfold q. rewrite nth_tab by exact Hj. rewrite <- Rsum_scale. apply Rsum_ext. intros. ring. }
      rewrite Rsum_swap. rewrite (Rsum_single n i); [|exact Hi|].
      + rewrite Rsum_scale_r, I1 by assumption. rewrite Nat.eqb_refl. ring.
      + intros j Hj Hne. rewrite Rsum_scale_r, I1 by assumption. destruct (Nat.eqb_spec i j); [congruence|ring].
    - intros q' H. assert (Lq' : List.length q' = n) by (rewrite (proj1 H); unfold n, k; lia). pose proof (proj1 (reconstructs_iff cell nb q' Lq') H) as H'. clear H. rename H' into H.
      apply nth_ext with (d := 0) (d' := 0); [rewrite Lq, Lq'; reflexivity|]. intros j Hj. rewrite Lq' in Hj. unfold q. rewrite nth_tab by exact Hj.
      rewrite (Rsum_ext n (fun i => at2 Ai j i * rhs cell nb i) (fun i => Rsum n (fun j' => at2 Ai j i * at2 (enhancement_A p modes d) i j' * nth j' q' 0))).
      2:{ intros i Hi. rewrite <- (H i Hi), <- Rsum_scale. apply Rsum_ext. intros. ring. }
      rewrite Rsum_swap. rewrite (Rsum_single n j); [|exact Hj|].
      + rewrite Rsum_scale_r, I2 by assumption. rewrite Nat.eqb_refl. ring.
      + intros i Hi Hne. rewrite Rsum_scale_r, I2 by assumption. destruct (Nat.eqb_spec j i); [congruence|ring].
    - unfold legseries. rewrite Lq. rewrite (Rsum_ext n _ (fun j => Rsum n (fun i => LegP j x * at2 Ai j i * rhs cell nb i))).
      2:{ intros j Hj. unfold q. rewrite nth_tab by exact Hj. rewrite <- Rsum_scale_r. apply Rsum_ext. intros. ring. }
      rewrite Rsum_swap. apply Rsum_ext. intros i Hi. rewrite Rsum_scale_r. reflexivity.
  Qed.
  (** splitting the sum over the right-hand side *)
  Lemma rhs_sum (w : nat -> R) cell nb : Rsum n (fun i => w i * rhs cell nb i) =
    Rsum (p + 1) (fun i => w i * nth i cell 0) + Rsum k (fun t => w (p + 1 + t)%nat * nth (nth t modes 0%nat) nb 0).
  Proof.
    replace n with (p + 1 + k)%nat by (unfold n; lia). rewrite Rsum_app. f_equal; apply Rsum_ext; intros i Hi; unfold rhs.
    - destruct (Nat.leb_spec i p); [reflexivity|lia].
    - destruct (Nat.leb_spec (p + 1 + i) p); [lia|]. do 3 f_equal. lia.
  Qed.
End Mat.

(** ** the constructor *)
Section Init.
  Context {X : Ext R}.
  Hypothesis IV : inv_ok.
  Variables (p : nat) (modes : list nat).
  Hypothesis HS : StronglySorted lt modes.
  Hypothesis HB : forall m, In m modes -> (m <= p)%nat.
  Let k := List.length modes.
  Let n := (p + k + 1)%nat.
  (** what an enhancement vector pair does to the coefficients of a cell and its neighbour *)
  Lemma pair_value d Ai psi0 x cell nb w : is_inverse n (enhancement_A p modes d) Ai -> List.length psi0 = n -> (forall j, (j < n)%nat -> at1 psi0 j = LegP j x) ->
    List.length cell = (p + 1)%nat -> List.length nb = (p + 1)%nat -> insert_missing p modes (skipn (p + 1) (rowdot psi0 Ai)) = Ok w ->
    List.length (firstn (p + 1) (rowdot psi0 Ai)) = (p + 1)%nat /\ List.length w = (p + 1)%nat /\
    reconstructed_value p modes d cell nb x (vdot (firstn (p + 1) (rowdot psi0 Ai)) cell + vdot w nb).
  Proof.
    intros HI Lp Hp Lc Ln Hw. pose proof HI as [_ [SA _]].
    assert (Hn : (1 <= n)%nat) by (unfold n; lia). pose proof (shape_ncols n n Ai SA Hn) as NC.
    assert (Lr : List.length (rowdot psi0 Ai) = n) by (unfold rowdot; rewrite NC; apply length_rowcomb; exact (proj2 SA)).
    assert (Er : forall i, (i < n)%nat -> at1 (rowdot psi0 Ai) i = Rsum n (fun j => LegP j x * at2 Ai j i)).
    { intros i Hi. unfold rowdot. rewrite NC, at1_rowcomb by (try exact (proj2 SA); exact Hi).
      rewrite (vdot_R _ _ n) by (first [exact Lp|rewrite length_col; exact (proj1 SA)]). apply Rsum_ext. intros j Hj. rewrite Hp by exact Hj.
      rewrite at1_col by (eapply Nat.lt_le_trans; [exact Hj|apply Nat.eq_le_incl; symmetry; exact (proj1 SA)]). reflexivity. }
    assert (Lf : List.length (firstn (p + 1) (rowdot psi0 Ai)) = (p + 1)%nat) by (rewrite firstn_length, Lr; unfold n; lia).
    assert (Ls : List.length (skipn (p + 1) (rowdot psi0 Ai)) = k) by (rewrite skipn_length, Lr; unfold n; lia).
    rewrite insert_missing_spread in Hw by (try exact Ls; assumption). injection Hw as <-.
    assert (HB' : forall m, In m modes -> (0 <= m < 0 + (p + 1))%nat) by (intros m Hm; specialize (HB m Hm); lia).
    assert (Lw : List.length (spread modes (skipn (p + 1) (rowdot psi0 Ai)) 0 (p + 1)) = (p + 1)%nat) by (apply length_spread; [exact Ls|exact HS|exact HB']).
    split; [exact Lf|]. split; [exact Lw|].
    apply (solve_reconstruct p modes d Ai); [exact HI|]. rewrite rhs_sum. fold k. rewrite !(vdot_R _ _ (p + 1)) by assumption. f_equal.
    - apply Rsum_ext. intros i Hi. rewrite <- Er by (unfold n; lia). unfold at1 at 1. rewrite nth_firstn' by lia. reflexivity.
    - transitivity (Rsum (p + 1) (fun j => at1 (spread modes (skipn (p + 1) (rowdot psi0 Ai)) 0 (p + 1)) j * nth (0 + j) nb 0)); [reflexivity|].
      rewrite (spread_sum (fun j => nth j nb 0)) by (try exact Ls; try exact HS; exact HB'). fold k. apply Rsum_ext. intros t Ht. f_equal.
      unfold at1 at 1. rewrite nth_skipn'. change (at1 (rowdot psi0 Ai) (p + 1 + t) = Rsum n (fun j => LegP j x * at2 Ai j (p + 1 + t))). apply Er. unfold n. lia.
  Qed.
End Init.
Section Enh.
  Context {X : Ext R}.
  Hypothesis IV : inv_ok.
  (** what the constructor returns *)
  Lemma Enhance_inv p mthd e : Enhance p mthd = Ok e -> exists kind ms modes0, split_ws mthd = kind :: ms /\ mapM parse_mode ms = Ok modes0 /\ e_modes e = sort_nat modes0 /\
    let n := (p + List.length (e_modes e) + 1)%nat in
    let psi := basis_psi n in
    exists Ai Bi, linv (enhancement_A p (e_modes e) 2) = Ok Ai /\ linv (enhancement_A p (e_modes e) (-2)) = Ok Bi /\
      e_betaR e = firstn (p + 1) (rowdot (row psi 0) Bi) /\ insert_missing p (e_modes e) (skipn (p + 1) (rowdot (row psi 0) Bi)) = Ok (e_betaL e) /\
      e_alphaL e = firstn (p + 1) (rowdot (row psi 1) Ai) /\ insert_missing p (e_modes e) (skipn (p + 1) (rowdot (row psi 1) Ai)) = Ok (e_alphaR e).
  Proof.
    unfold Enhance. destruct (split_ws mthd) as [|kind ms]; [discriminate|]. intro H. inv_bind H. rename x into modes0, Hx into E0. exists kind, ms, modes0.
    split; [reflexivity|]. split; [exact E0|].
    unfold enhancement_matrices in H. inv_bind H. destruct x as [[[Am Ai] Bm] Bi]. inv_bind Hx. rename x into Ai'. inv_bind Hx. rename x into Bi'.
    apply Ok_inj in Hx. injection Hx as _ <- _ <-. unfold left_enhancement_vectors in H. inv_bind H. destruct x as [[[aL aR] bL] bR]. inv_bind Hx. inv_bind Hx. apply Ok_inj in Hx. injection Hx as <- <- <- <-.
    apply Ok_inj in H. subst e. cbn [e_modes e_alphaL e_alphaR e_betaL e_betaR]. split; [reflexivity|]. exists Ai', Bi'. repeat split; assumption.
  Qed.
  Lemma enhanced_faces ne (s : solution R) mthd e uf : made ne s -> s_enh s = Some e -> Enhance (b_p (s_basis s)) mthd = Ok e ->
    NoDup (e_modes e) -> (forall m, In m (e_modes e) -> m <= b_p (s_basis s))%nat -> evaluate_faces s = Ok uf ->
    forall c f, (c <= ne)%nat -> (f < s_NF s)%nat ->
    reconstructed_value (b_p (s_basis s)) (e_modes e) 2 (modes s c f) (modes s (c + 1) f) 1 (at1 (row uf 1) (c * s_NF s + f)) /\
    reconstructed_value (b_p (s_basis s)) (e_modes e) (-2) (modes s (c + 1) f) (modes s c f) (-1) (at1 (row uf 0) ((c + 1) * s_NF s + f)).
  Proof.
    intros M Ee HE ND HB HF c f Hc Hf. set (p := b_p (s_basis s)) in *. pose proof (md_wf _ _ M) as W.
    destruct (evaluate_faces_Ok ne s W) as [uf' [E [_ [_ V]]]]. rewrite HF in E. apply Ok_inj in E. subst uf'.
    destruct (V c f Hc Hf) as [-> ->]. unfold face_minus, face_plus. rewrite Ee. clear V.
    destruct (Enhance_inv _ _ _ HE) as [kind [ms [modes0 [_ [_ [Em [Ai [Bi [EA [EB [e1 [e2 [e3 e4]]]]]]]]]]]]].
    assert (HSo : StronglySorted lt (e_modes e)). { rewrite Em. apply sort_sorted. apply (Permutation_NoDup (l := e_modes e)); [rewrite Em; apply sort_perm|exact ND]. }
    assert (LM : forall c0, List.length (modes s c0 f) = (p + 1)%nat).
    { intro c0. unfold modes. rewrite length_col. rewrite (proj1 (wf_u _ _ W)). unfold s_Ns. rewrite (md_basis _ _ M). unfold b_Ns. rewrite Basis_eq. reflexivity. }
    pose proof (IV _ _ (enh_shape p (e_modes e) 2)) as IA. rewrite EA in IA.
    pose proof (IV _ _ (enh_shape p (e_modes e) (-2))) as IB. rewrite EB in IB.
    set (n := (p + List.length (e_modes e) + 1)%nat) in *.
    assert (PS : forall r, (r < 2)%nat -> List.length (row (basis_psi n : mat R) r) = n) by (intros r Hr; destruct r as [|[|r]]; [apply length_tab|apply length_tab|lia]).
    assert (PV : forall j, (j < n)%nat -> at1 (row (basis_psi n) 0) j = LegP j (-1) /\ at1 (row (basis_psi n) 1) j = LegP j 1).
    { intros j Hj. unfold basis_psi, row. cbn [nth]. rewrite !at1_tab by exact Hj. rewrite LegP_atm1, LegP_at1. numR. split; [destruct (Nat.odd j); reflexivity|reflexivity]. }
    numR. split.
    - rewrite e3. apply (pair_value p (e_modes e) HSo HB 2 Ai (row (basis_psi n) 1) 1); try exact IA; try exact e4; try apply LM.
      + apply PS. lia.
      + intros j Hj. apply PV. exact Hj.
    - rewrite Rplus_comm, e1. apply (pair_value p (e_modes e) HSo HB (-2) Bi (row (basis_psi n) 0) (-1)); try exact IB; try exact e2; try apply LM.
      + apply PS. lia.
      + intros j Hj. apply PV. exact Hj.
  Qed.
End Enh.
