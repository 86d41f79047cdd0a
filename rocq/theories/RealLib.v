(** Finite sums of reals. *)
From Coq Require Import ZArith List Bool Arith Lia Reals Lra.
From Verif Require Import Num Py Lib.
Import ListNotations.
Open Scope R_scope.

(** f 0 + ... + f (n-1) *)
Fixpoint Rsum (n : nat) (f : nat -> R) : R :=
  match n with O => 0 | S k => Rsum k f + f k end.

Lemma Rsum_ext n f g : (forall i, (i < n)%nat -> f i = g i) -> Rsum n f = Rsum n g.
Proof. induction n; intro H; [reflexivity|]. simpl. rewrite IHn, H by (intros; try apply H; lia). reflexivity. Qed.
Lemma Rsum_0 n f : (forall i, (i < n)%nat -> f i = 0) -> Rsum n f = 0.
Proof. induction n; intro H; [reflexivity|]. simpl. rewrite IHn, H by (intros; try apply H; lia). lra. Qed.
Lemma Rsum_plus n f g : Rsum n (fun i => f i + g i) = Rsum n f + Rsum n g.
Proof. induction n; simpl; [lra|rewrite IHn; lra]. Qed.
Lemma Rsum_minus n f g : Rsum n (fun i => f i - g i) = Rsum n f - Rsum n g.
Proof. induction n; simpl; [lra|rewrite IHn; lra]. Qed.
Lemma Rsum_scale n c f : Rsum n (fun i => c * f i) = c * Rsum n f.
Proof. induction n; simpl; [lra|rewrite IHn; lra]. Qed.
Lemma Rsum_scale_r n c f : Rsum n (fun i => f i * c) = Rsum n f * c.
Proof. induction n; simpl; [lra|rewrite IHn; lra]. Qed.
Lemma Rsum_opp n f : Rsum n (fun i => - f i) = - Rsum n f.
Proof. induction n; simpl; [lra|rewrite IHn; lra]. Qed.
Lemma Rsum_const n c : Rsum n (fun _ => c) = INR n * c.
Proof. induction n; [simpl; lra|]. rewrite S_INR. simpl. rewrite IHn. lra. Qed.
Lemma Rsum_telescope n f : Rsum n (fun i => f (S i) - f i) = f n - f O.
Proof. induction n; simpl; [lra|rewrite IHn; lra]. Qed.
Lemma Rsum_S_l n f : Rsum (S n) f = f O + Rsum n (fun i => f (S i)).
Proof. induction n; [simpl; lra|]. change (Rsum (S (S n)) f) with (Rsum (S n) f + f (S n)). rewrite IHn. simpl. lra. Qed.
Lemma Rsum_app n m f : Rsum (n + m) f = Rsum n f + Rsum m (fun i => f (n + i)%nat).
Proof. induction m; [rewrite Nat.add_0_r; simpl; lra|]. rewrite Nat.add_succ_r. simpl. rewrite IHm. lra. Qed.
Lemma Rsum_swap n m (f : nat -> nat -> R) :
  Rsum n (fun i => Rsum m (fun j => f i j)) = Rsum m (fun j => Rsum n (fun i => f i j)).
Proof.
  induction n; simpl.
  - symmetry. apply Rsum_0. reflexivity.
  - rewrite IHn. rewrite <- Rsum_plus. reflexivity.
Qed.
Lemma Rsum_nonneg n f : (forall i, (i < n)%nat -> 0 <= f i) -> 0 <= Rsum n f.
Proof. induction n; intro H; simpl; [lra|]. assert (0 <= f n) by (apply H; lia). assert (0 <= Rsum n f) by (apply IHn; intros; apply H; lia). lra. Qed.
Lemma Rsum_le n f g : (forall i, (i < n)%nat -> f i <= g i) -> Rsum n f <= Rsum n g.
Proof. intro H. induction n; simpl; [lra|]. assert (f n <= g n) by (apply H; lia). assert (Rsum n f <= Rsum n g) by (apply IHn; intros; apply H; lia). lra. Qed.
Lemma Rsum_nonneg_0 n f : (forall i, (i < n)%nat -> 0 <= f i) -> Rsum n f = 0 -> forall i, (i < n)%nat -> f i = 0.
Proof.
  induction n; intros H H0 i Hi; [lia|]. simpl in H0.
  assert (0 <= f n) by (apply H; lia). assert (0 <= Rsum n f) by (apply Rsum_nonneg; intros; apply H; lia).
  destruct (Nat.eq_dec i n) as [->|]; [lra|]. apply IHn; [intros; apply H; lia|lra|lia].
Qed.
Lemma Rsum_single n k f : (k < n)%nat -> (forall i, (i < n)%nat -> i <> k -> f i = 0) -> Rsum n f = f k.
Proof.
  induction n; intros Hk H; [lia|]. simpl. destruct (Nat.eq_dec k n) as [->|].
  - rewrite Rsum_0 by (intros; apply H; lia). lra.
  - rewrite IHn by (try lia; intros; apply H; lia). rewrite (H n) by lia. lra.
Qed.
Lemma Rsum_rev n f : Rsum n f = Rsum n (fun i => f (n - 1 - i)%nat).
Proof.
  induction n; [reflexivity|]. rewrite (Rsum_S_l n (fun i => f (S n - 1 - i)%nat)).
  replace (S n - 1 - 0)%nat with n by lia. simpl Rsum at 1. rewrite IHn.
  rewrite (Rsum_ext n (fun i => f (n - 1 - i)%nat) (fun i => f (S n - 1 - S i)%nat)); [lra|].
  intros i Hi. f_equal. lia.
Qed.
(** a cyclic shift does not change a sum *)
Lemma Rsum_shift1 n f : (1 <= n)%nat -> Rsum n (fun i => f ((i + 1) mod n)%nat) = Rsum n f.
Proof.
  intro H. destruct n; [lia|]. rewrite (Rsum_S_l n f).
  change (Rsum n (fun i => f ((i + 1) mod S n)%nat) + f ((n + 1) mod S n)%nat = f O + Rsum n (fun i => f (S i))).
  rewrite (Rsum_ext n _ (fun i => f (S i))) by (intros; rewrite Nat.mod_small by lia; f_equal; lia).
  replace ((n + 1) mod S n)%nat with 0%nat; [lra|]. replace (n + 1)%nat with (S n) by lia. symmetry. apply Nat.mod_same. lia.
Qed.
Lemma Rsum_shift n k f : (1 <= n)%nat -> Rsum n (fun i => f ((i + k) mod n)%nat) = Rsum n f.
Proof.
  intro H. induction k.
  - apply Rsum_ext. intros. f_equal. rewrite Nat.add_0_r. apply Nat.mod_small. lia.
  - rewrite <- IHk. rewrite <- (Rsum_shift1 n (fun i => f ((i + k) mod n)%nat)) by exact H.
    apply Rsum_ext. intros. f_equal. rewrite Nat.add_mod_idemp_l by lia. f_equal. lia.
Qed.

(** nsum, vdot at R *)
Lemma nsum_R (l : list R) : nsum l = Rsum (length l) (fun i => nth i l 0).
Proof. induction l as [|x l IH]; [reflexivity|]. simpl length. rewrite Rsum_S_l. simpl. numR. rewrite IH. reflexivity. Qed.
Lemma vdot_R (x y : list R) n : length x = n -> length y = n -> vdot x y = Rsum n (fun i => at1 x i * at1 y i).
Proof.
  intros Hx Hy. unfold vdot. rewrite nsum_R, length_map2, Hx, Hy, Nat.min_id.
  apply Rsum_ext. intros i Hi. rewrite nth_map2 with (dx := n0) (dy := n0) by lia. reflexivity.
Qed.
Lemma vdot_R_min (x y : list R) : vdot x y = Rsum (Nat.min (length x) (length y)) (fun i => at1 x i * at1 y i).
Proof.
  unfold vdot. rewrite nsum_R, length_map2.
  apply Rsum_ext. intros i Hi. rewrite nth_map2 with (dx := n0) (dy := n0) by lia. reflexivity.
Qed.
Lemma nsum_tab (n : nat) (f : nat -> R) : nsum (tab n f) = Rsum n f.
Proof. rewrite nsum_R, length_tab. apply Rsum_ext. intros. apply nth_tab. assumption. Qed.

(** entries of small tables *)
Lemma nth_0R (l : list R) i : nth i l (IZR 0) = nth i l 0. Proof. reflexivity. Qed.
