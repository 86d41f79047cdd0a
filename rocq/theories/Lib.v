(** General lemmas about the vocabulary of Py.v (lists, slices, exceptions). *)
From Coq Require Import ZArith List Bool Arith Lia Reals Lra.
From Verif Require Import Num Py.
Import ListNotations.

(** ** tab, nth *)
Lemma length_tab {X} n (f : nat -> X) : length (tab n f) = n.
Proof. unfold tab. rewrite map_length, seq_length. reflexivity. Qed.

Lemma nth_tab {X} n (f : nat -> X) i d : i < n -> nth i (tab n f) d = f i.
Proof.
  intro H. unfold tab. rewrite nth_indep with (d' := f 0) by (rewrite map_length, seq_length; exact H).
  rewrite map_nth, seq_nth by exact H. reflexivity.
Qed.

Lemma nth_error_tab {X} n (f : nat -> X) i : i < n -> nth_error (tab n f) i = Some (f i).
Proof.
  intro H. unfold tab. rewrite nth_error_map.
  rewrite nth_error_nth' with (d := 0) by (rewrite seq_length; exact H).
  rewrite seq_nth by exact H. reflexivity.
Qed.

Lemma tab_ext {X} n (f g : nat -> X) : (forall i, i < n -> f i = g i) -> tab n f = tab n g.
Proof. intro H. unfold tab. apply map_ext_in. intros a Ha. apply in_seq in Ha. apply H. lia. Qed.

Lemma map_tab {X Y} n (f : nat -> X) (g : X -> Y) : map g (tab n f) = tab n (fun i => g (f i)).
Proof. unfold tab. rewrite map_map. reflexivity. Qed.

Lemma tab_S {X} n (f : nat -> X) : tab (S n) f = f 0 :: tab n (fun i => f (S i)).
Proof. unfold tab. simpl. rewrite <- seq_shift, map_map. reflexivity. Qed.

Lemma tab_snoc {X} n (f : nat -> X) : tab (S n) f = tab n f ++ [f n].
Proof. unfold tab. rewrite seq_S, map_app. reflexivity. Qed.

(** a list is determined by its length and entries *)
Lemma list_ext {X} (d : X) (l k : list X) :
  length l = length k -> (forall i, i < length l -> nth i l d = nth i k d) -> l = k.
Proof. intros. apply (nth_ext l k d d); assumption. Qed.

Lemma tab_nth {X} (d : X) (l : list X) : tab (length l) (fun i => nth i l d) = l.
Proof.
  apply (list_ext d); rewrite length_tab; [reflexivity|]. intros i H. rewrite nth_tab by exact H. reflexivity.
Qed.

Lemma tab_app {X} n m (f : nat -> X) : tab (n + m) f = tab n f ++ tab m (fun i => f (n + i)).
Proof.
  unfold tab. rewrite seq_app, map_app. f_equal. simpl.
  rewrite <- (Nat.add_0_r n) at 1. generalize 0. induction m; intros k; [reflexivity|].
  simpl. rewrite <- IHm, Nat.add_succ_r. reflexivity.
Qed.

Lemma firstn_tab {X} k n (f : nat -> X) : firstn k (tab n f) = tab (Nat.min k n) f.
Proof.
  destruct (le_lt_dec k n) as [H|H].
  - replace n with (k + (n - k)) at 1 by lia. rewrite tab_app, firstn_app, length_tab.
    rewrite Nat.sub_diag. simpl. rewrite app_nil_r, firstn_all2 by (rewrite length_tab; lia).
    f_equal. lia.
  - rewrite firstn_all2 by (rewrite length_tab; lia). f_equal. lia.
Qed.

Lemma skipn_tab {X} k n (f : nat -> X) : skipn k (tab n f) = tab (n - k) (fun i => f (k + i)).
Proof.
  destruct (le_lt_dec k n) as [H|H].
  - replace n with (k + (n - k)) at 1 by lia. rewrite tab_app, skipn_app, length_tab.
    rewrite Nat.sub_diag. simpl. rewrite skipn_all2 by (rewrite length_tab; lia). reflexivity.
  - rewrite skipn_all2 by (rewrite length_tab; lia). replace (n - k) with 0 by lia. reflexivity.
Qed.

(** ** map2 *)
Lemma length_map2 {X Y Z} (f : X -> Y -> Z) l k : length (map2 f l k) = Nat.min (length l) (length k).
Proof. revert k. induction l; destruct k; simpl; auto. Qed.

Lemma nth_map2 {X Y Z} (f : X -> Y -> Z) l k i dx dy dz :
  i < length l -> i < length k -> nth i (map2 f l k) dz = f (nth i l dx) (nth i k dy).
Proof.
  revert k i. induction l; destruct k; simpl; intros i H1 H2; try lia.
  destruct i; [reflexivity|]. apply IHl; lia.
Qed.

Lemma map2_map_l {X X' Y Z} (f : X -> Y -> Z) (g : X' -> X) l k :
  map2 f (map g l) k = map2 (fun x y => f (g x) y) l k.
Proof. revert k. induction l; destruct k; simpl; congruence. Qed.

Lemma map2_map_r {X Y Y' Z} (f : X -> Y -> Z) (g : Y' -> Y) l k :
  map2 f l (map g k) = map2 (fun x y => f x (g y)) l k.
Proof. revert k. induction l; destruct k; simpl; congruence. Qed.

Lemma map_map2 {X Y Z W} (g : Z -> W) (f : X -> Y -> Z) l k :
  map g (map2 f l k) = map2 (fun x y => g (f x y)) l k.
Proof. revert k. induction l; destruct k; simpl; congruence. Qed.

Lemma map2_tab {X Y Z} (f : X -> Y -> Z) n g h :
  map2 f (tab n g) (tab n h) = tab n (fun i => f (g i) (h i)).
Proof.
  revert g h. induction n; intros g h; [reflexivity|].
  rewrite !tab_S. simpl. rewrite IHn. reflexivity.
Qed.

Lemma map2_ext {X Y Z} (f g : X -> Y -> Z) l k :
  (forall x y, f x y = g x y) -> map2 f l k = map2 g l k.
Proof. intro H. revert k. induction l; destruct k; simpl; congruence. Qed.

Lemma map2_combine {X Y Z} (f : X -> Y -> Z) l k :
  map2 f l k = map (fun p => f (fst p) (snd p)) (combine l k).
Proof. revert k. induction l; destruct k; simpl; congruence. Qed.

Lemma map2_app {X Y Z} (f : X -> Y -> Z) l1 l2 k1 k2 : length l1 = length k1 ->
  map2 f (l1 ++ l2) (k1 ++ k2) = map2 f l1 k1 ++ map2 f l2 k2.
Proof. revert k1. induction l1; destruct k1; simpl; intros; try lia; [reflexivity|]. f_equal. apply IHl1. lia. Qed.

(** ** mapM *)
Lemma mapM_Ok_length {X Y} (f : X -> res Y) l k : mapM f l = Ok k -> length k = length l.
Proof.
  revert k. induction l; simpl; intros k H; [injection H as <-; reflexivity|].
  destruct (f a); [|discriminate]. simpl in H. destruct (mapM f l) eqn:E; [|discriminate].
  simpl in H. injection H as <-. simpl. f_equal. apply IHl. reflexivity.
Qed.

Lemma mapM_Ok_nth {X Y} (f : X -> res Y) l k i dx dy :
  mapM f l = Ok k -> i < length l -> f (nth i l dx) = Ok (nth i k dy).
Proof.
  revert k i. induction l; simpl; intros k i H Hi; [lia|].
  destruct (f a) eqn:Ea; [|discriminate]. simpl in H. destruct (mapM f l) eqn:E; [|discriminate].
  simpl in H. injection H as <-. destruct i; simpl; [exact Ea|]. apply IHl; [reflexivity|lia].
Qed.

Lemma mapM_total {X Y} (f : X -> res Y) (g : X -> Y) l :
  (forall x, In x l -> f x = Ok (g x)) -> mapM f l = Ok (map g l).
Proof.
  induction l as [|a l IH]; simpl; intro H; [reflexivity|].
  rewrite H by (left; reflexivity). simpl. rewrite IH by (intros; apply H; right; assumption). reflexivity.
Qed.

Lemma mapM_ext {X Y} (f g : X -> res Y) l : (forall x, In x l -> f x = g x) -> mapM f l = mapM g l.
Proof.
  induction l as [|a l IH]; simpl; intro H; [reflexivity|].
  rewrite H by (left; reflexivity). rewrite IH by (intros; apply H; right; assumption). reflexivity.
Qed.

Lemma mapM_Raise_In {X Y} (f : X -> res Y) l e : mapM f l = Raise e -> exists x, In x l /\ f x = Raise e.
Proof.
  induction l as [|a l IH]; simpl; intro H; [discriminate|].
  destruct (f a) eqn:Ea; simpl in H.
  - destruct (mapM f l); simpl in H; [discriminate|]. injection H as <-.
    destruct IH as [z [Hz Hf]]; [reflexivity|]. exists z; auto.
  - injection H as <-. exists a; auto.
Qed.

(** inversion of binds *)
Lemma rbind_Ok {X Y} (r : res X) (f : X -> res Y) y :
  rbind r f = Ok y -> exists x, r = Ok x /\ f x = Ok y.
Proof. destruct r; simpl; intro H; [eauto|discriminate]. Qed.

Ltac inv_bind H :=
  let x := fresh "x" in let Hx := fresh "Hx" in
  apply rbind_Ok in H; destruct H as [x [Hx H]].

(** ** slice bounds *)
Lemma bound_nonneg len n : bound len (Z.of_nat n) = Nat.min len n.
Proof. unfold bound. destruct (Z.ltb_spec (Z.of_nat n) 0); [lia|]. rewrite Nat2Z.id. reflexivity. Qed.

Lemma bound_neg len n : 0 < n -> bound len (- Z.of_nat n) = len - n.
Proof. unfold bound. intro. destruct (Z.ltb_spec (- Z.of_nat n) 0); lia. Qed.

Lemma slice_from_nat {X} (l : list X) n : slice_from l (Z.of_nat n) = skipn n l.
Proof.
  unfold slice_from. rewrite bound_nonneg.
  destruct (le_lt_dec n (length l)); [rewrite Nat.min_r by lia; reflexivity|].
  rewrite Nat.min_l by lia. rewrite !skipn_all2 by lia. reflexivity.
Qed.

Lemma slice_to_neg {X} (l : list X) n : 0 < n -> slice_to l (- Z.of_nat n) = firstn (length l - n) l.
Proof. intro. unfold slice_to. rewrite bound_neg by assumption. reflexivity. Qed.

Lemma slice_nat_neg {X} (l : list X) a b : 0 < b ->
  slice l (Z.of_nat a) (- Z.of_nat b) = firstn (length l - b - Nat.min (length l) a) (skipn a l).
Proof.
  intro. unfold slice. rewrite bound_nonneg, bound_neg by assumption.
  destruct (le_lt_dec a (length l)); [rewrite Nat.min_r by lia; reflexivity|].
  rewrite Nat.min_l by lia. rewrite !skipn_all2 by lia. rewrite !firstn_nil. reflexivity.
Qed.

Lemma slice_nat_nat {X} (l : list X) a b :
  slice l (Z.of_nat a) (Z.of_nat b) = firstn (b - a) (skipn a l).
Proof.
  unfold slice. rewrite !bound_nonneg.
  destruct (le_lt_dec a (length l)).
  - rewrite (Nat.min_r (length l) a) by lia.
    destruct (le_lt_dec b (length l)); [rewrite Nat.min_r by lia; reflexivity|].
    rewrite Nat.min_l by lia. rewrite !firstn_all2 by (rewrite skipn_length; lia). reflexivity.
  - rewrite (Nat.min_l (length l) a) by lia. rewrite !skipn_all2 by lia. rewrite !firstn_nil. reflexivity.
Qed.

Lemma nth_skipn' {X} (l : list X) n i d : nth i (skipn n l) d = nth (n + i) l d.
Proof. revert l. induction n; intros l; [reflexivity|]. destruct l; [destruct i; reflexivity|]. simpl. apply IHn. Qed.

Lemma nth_firstn' {X} (l : list X) n i d : i < n -> nth i (firstn n l) d = nth i l d.
Proof. revert l i. induction n; intros l i H; [lia|]. destruct l; [reflexivity|]. destruct i; [reflexivity|]. simpl. apply IHn. lia. Qed.

(** ** matrices *)
Section Mat.
  Context {A : Type} {N : Num A}.
  Lemma length_tab2 r c (f : nat -> nat -> A) : length (tab2 r c f) = r.
  Proof. apply length_tab. Qed.
  Lemma row_tab2 r c (f : nat -> nat -> A) i : i < r -> row (tab2 r c f) i = tab c (f i).
  Proof. intro. unfold row, tab2. rewrite nth_tab by assumption. reflexivity. Qed.
  Lemma at2_tab2 r c (f : nat -> nat -> A) i j : i < r -> j < c -> at2 (tab2 r c f) i j = f i j.
  Proof. intros. unfold at2, at1. rewrite row_tab2 by assumption. apply nth_tab. assumption. Qed.
  Lemma at1_tab n (f : nat -> A) i : i < n -> at1 (tab n f) i = f i.
  Proof. intro. unfold at1. apply nth_tab. assumption. Qed.
  Lemma length_zeros n : length (zeros n : vec A) = n.
  Proof. apply length_tab. Qed.
  Lemma at1_zeros n i : at1 (zeros n : vec A) i = n0.
  Proof.
    unfold at1, zeros. destruct (le_lt_dec n i).
    - rewrite nth_overflow by (rewrite length_tab; lia). reflexivity.
    - rewrite nth_tab by lia. reflexivity.
  Qed.
  Lemma length_vadd (x y : vec A) : length (vadd x y) = Nat.min (length x) (length y).
  Proof. apply length_map2. Qed.
  Lemma length_vscale a (x : vec A) : length (vscale a x) = length x.
  Proof. apply map_length. Qed.
  Lemma at1_vadd (x y : vec A) i : i < length x -> i < length y -> at1 (vadd x y) i = nadd (at1 x i) (at1 y i).
  Proof. intros. unfold at1, vadd. apply nth_map2; assumption. Qed.
  Lemma at1_vscale a (x : vec A) i : i < length x -> at1 (vscale a x) i = nmul a (at1 x i).
  Proof.
    intros. unfold at1, vscale. rewrite nth_indep with (d' := nmul a n0) by (rewrite map_length; assumption).
    apply (map_nth (fun v => nmul a v)).
  Qed.
End Mat.

(** ** real instance *)
Ltac numR := unfold n0, n1, n2, nhalf, lit in *;
  cbn [nofZ nadd nsub nmul ndiv nopp nabs nsqrt nltb nleb nisnan NumR] in *.

Lemma Rltb_true x y : Rltb x y = true <-> (x < y)%R.
Proof. unfold Rltb. destruct (Rlt_dec x y); split; intros; first [discriminate | reflexivity | lra]. Qed.
Lemma Rltb_false x y : Rltb x y = false <-> (y <= x)%R.
Proof. unfold Rltb. destruct (Rlt_dec x y); split; intros; first [discriminate | reflexivity | lra]. Qed.
Lemma Rleb_true x y : Rleb x y = true <-> (x <= y)%R.
Proof. unfold Rleb. destruct (Rle_dec x y); split; intros; first [discriminate | reflexivity | lra]. Qed.
Lemma Rleb_false x y : Rleb x y = false <-> (y < x)%R.
Proof. unfold Rleb. destruct (Rle_dec x y); split; intros; first [discriminate | reflexivity | lra]. Qed.
Ltac Rcase x y := let E := fresh "E" in destruct (Rltb x y) eqn:E;
  [apply Rltb_true in E | apply Rltb_false in E].
Ltac Rcase_le x y := let E := fresh "E" in destruct (Rleb x y) eqn:E;
  [apply Rleb_true in E | apply Rleb_false in E].

Lemma skipn_skipn {X} (l : list X) a b : skipn a (skipn b l) = skipn (a + b) l.
Proof.
  revert l. induction b; intros l; [rewrite Nat.add_0_r; reflexivity|].
  destruct l; [rewrite !skipn_nil; reflexivity|]. rewrite Nat.add_succ_r. simpl. apply IHb.
Qed.
