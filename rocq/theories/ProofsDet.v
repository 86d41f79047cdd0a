(** Determinants over a commutative ring: the determinant of a unit lower triangular matrix plus a matrix
    of rank one, and the existence of determinants (expansion along the first column). *)
From Coq Require Import List Arith Lia Ring Ring_theory.
From Verif Require Import SpecAnalysis.
Import ListNotations.

Section Ring.
  Variables (K : Type) (k0 k1 : K) (kadd kmul ksub : K -> K -> K) (kopp : K -> K).
  Hypothesis Rth : ring_theory k0 k1 kadd kmul ksub kopp eq.
  Add Ring Kr : Rth.
  Infix "+" := kadd. Infix "*" := kmul. Infix "-" := ksub. Notation "- x" := (kopp x).
  Notation upd := (upd K). Notation idm := (idm K k0 k1). Notation ksum := (ksum K k0 kadd). Notation same := (same K).
  Notation is_det := (is_det K k0 k1 kadd kmul).
  Lemma ksum_ext n f g : (forall i, (i < n)%nat -> f i = g i) -> ksum n f = ksum n g.
  Proof. induction n as [|n IH]; intro H; [reflexivity|]. cbn [ksum]. rewrite IH by (intros; apply H; lia). rewrite H by lia. reflexivity. Qed.
  Lemma ksum_add n f g : ksum n (fun i => f i + g i) = ksum n f + ksum n g.
  Proof. induction n as [|n IH]; cbn [ksum]; [ring|]. rewrite IH. ring. Qed.
  Lemma ksum_scale n a f : ksum n (fun i => a * f i) = a * ksum n f.
  Proof. induction n as [|n IH]; cbn [ksum]; [ring|]. rewrite IH. ring. Qed.
  Lemma ksum_0 n f : (forall i, (i < n)%nat -> f i = k0) -> ksum n f = k0.
  Proof. induction n as [|n IH]; intro H; [reflexivity|]. cbn [ksum]. rewrite IH by (intros; apply H; lia). rewrite H by lia. ring. Qed.
  Lemma ksum_swap n m f : ksum n (fun i => ksum m (fun j => f i j)) = ksum m (fun j => ksum n (fun i => f i j)).
  Proof.
    induction n as [|n IH]; cbn [ksum]; [symmetry; apply ksum_0; reflexivity|]. rewrite IH, <- ksum_add. reflexivity.
  Qed.
  Lemma ksum_single n k f : (k < n)%nat -> (forall i, (i < n)%nat -> i <> k -> f i = k0) -> ksum n f = f k.
  Proof.
    induction n as [|n IH]; intros Hk H; [lia|]. cbn [ksum]. destruct (Nat.eq_dec k n) as [->|Hne].
    - rewrite ksum_0 by (intros; apply H; lia). ring.
    - rewrite IH by (try lia; intros; apply H; lia). rewrite (H n) by lia. ring.
  Qed.
  Lemma ksum_S_l n f : ksum (S n) f = f O + ksum n (fun i => f (S i)).
  Proof. induction n as [|n IH]; [cbn; ring|]. cbn [ksum] in *. rewrite IH. ring. Qed.
  Lemma upd_same n M i v r c : (r < n)%nat -> upd M i v r c = if Nat.eqb r i then v c else M r c.
  Proof. reflexivity. Qed.
  Lemma same_sym n M M' : same n M M' -> same n M' M.
  Proof. intros H i j Hi Hj. symmetry. apply H; assumption. Qed.

  Section Use.
    Variables (n : nat) (D : (nat -> nat -> K) -> K).
    Hypothesis HD : is_det n D.
    Let ext := det_ext HD.
    Let lin := det_lin HD.
    Let alt := det_alt HD.

    Lemma upd_self M i : same n (upd M i (M i)) M.
    Proof. intros r c _ _. unfold upd. destruct (Nat.eqb_spec r i) as [->|]; reflexivity. Qed.
    (** a row that is a sum of multiples *)
    Lemma lin_sum M i m (a : nat -> K) (x : nat -> nat -> K) : (i < n)%nat ->
      D (upd M i (fun c => ksum m (fun j => a j * x j c))) = ksum m (fun j => a j * D (upd M i (x j))).
    Proof.
      intro Hi. induction m as [|m IH].
      - cbn [ksum]. rewrite (ext _ (upd M i (fun c => k0 * k0 + k0 * k0))) by (intros r c Hr Hc; unfold upd; destruct (Nat.eqb r i); [ring|reflexivity]).
        rewrite (lin M i k0 k0 (fun _ => k0) (fun _ => k0) Hi). ring.
      - cbn [ksum]. rewrite (ext _ (upd M i (fun c => k1 * ksum m (fun j => a j * x j c) + a m * x m c))) by (intros r c Hr Hc; unfold upd; destruct (Nat.eqb r i); [ring|reflexivity]).
        rewrite (lin M i k1 (a m) (fun c => ksum m (fun j => a j * x j c)) (x m) Hi), IH. ring.
    Qed.
    Lemma upd_other_row M i j : (i < n)%nat -> (j < n)%nat -> i <> j -> D (upd M i (M j)) = k0.
    Proof.
      intros Hi Hj Hne. apply (alt _ i j Hi Hj Hne). intros c Hc. unfold upd. rewrite Nat.eqb_refl. destruct (Nat.eqb_spec j i); [congruence|reflexivity].
    Qed.
    (** adding to row i a multiple of row j *)
    Lemma add_row M i j a : (i < n)%nat -> (j < n)%nat -> i <> j -> D (upd M i (fun c => M i c + a * M j c)) = D M.
    Proof.
      intros Hi Hj Hne. rewrite (ext _ (upd M i (fun c => k1 * M i c + a * M j c))) by (intros r c Hr Hc; unfold upd; destruct (Nat.eqb r i); [ring|reflexivity]).
      rewrite (lin M i k1 a (M i) (M j) Hi). rewrite (upd_other_row M i j) by assumption. rewrite (ext _ _ (upd_self M i)). ring.
    Qed.

    (** unit lower triangular matrices *)
    Definition unit_lower (L : nat -> nat -> K) : Prop := (forall i, (i < n)%nat -> L i i = k1) /\ (forall i j, (i < j)%nat -> (j < n)%nat -> L i j = k0).
    Lemma det_unit_lower L : unit_lower L -> D L = k1.
    Proof.
      intros [L1 L0].
      assert (H : forall k, (k <= n)%nat -> D (fun i j => if Nat.ltb i k then idm i j else L i j) = D L).
      { induction k as [|k IH]; intro Hk; [reflexivity|]. rewrite <- IH by lia. set (M := fun i j => if Nat.ltb i k then idm i j else L i j).
        assert (E : same n M (upd M k (fun c => ksum (S k) (fun j => L k j * idm j c)))).
        { intros r c Hr Hc. unfold upd. destruct (Nat.eqb_spec r k) as [->|]; [|reflexivity]. unfold M. rewrite Nat.ltb_irrefl.
          destruct (Nat.ltb_spec c (S k)) as [Hc'|Hc'].
          - rewrite (ksum_single (S k) c); [unfold idm; rewrite Nat.eqb_refl; ring|exact Hc'|]. intros i Hi Hne. unfold idm. destruct (Nat.eqb_spec i c); [congruence|ring].
          - rewrite L0 by lia. symmetry. apply ksum_0. intros i Hi. unfold idm. destruct (Nat.eqb_spec i c); [lia|ring]. }
        rewrite (ext _ _ E), lin_sum by lia. cbn [ksum]. rewrite ksum_0.
        - rewrite L1 by lia. rewrite (ext _ (upd M k (idm k))); [ring|]. intros r c Hr Hc. unfold upd, M.
          destruct (Nat.eqb_spec r k) as [->|Hne].
          + destruct (Nat.ltb_spec k (S k)); [reflexivity|lia].
          + destruct (Nat.ltb_spec r (S k)), (Nat.ltb_spec r k); try lia; reflexivity.
        - intros i Hi. rewrite (ext _ (upd M k (M i))).
          + rewrite (upd_other_row M k i) by lia. ring.
          + intros r c Hr Hc. unfold upd. destruct (Nat.eqb r k); [|reflexivity]. unfold M. destruct (Nat.ltb_spec i k); [reflexivity|lia]. }
      etransitivity; [symmetry; apply (H n (le_n n))|]. etransitivity; [|apply (det_one HD)]. apply ext. intros i j Hi Hj. destruct (Nat.ltb_spec i n); [reflexivity|lia].
    Qed.
    (** every row vector is a combination of the rows of such a matrix *)
    Lemma row_combination L : unit_lower L -> forall c, exists a, forall j, (j < n)%nat -> c j = ksum n (fun i => a i * L i j).
    Proof.
      intros [L1 L0].
      assert (H : forall m, (m <= n)%nat -> forall c : nat -> K, exists a : nat -> K, forall j, (j < m)%nat -> c j = ksum m (fun i => a i * L i j)).
      { induction m as [|m IH]; intros Hm c; [exists (fun _ => k0); intros; lia|].
        destruct (IH ltac:(lia) (fun j => c j - c m * L m j)) as [a Ha]. exists (fun i => if Nat.eqb i m then c m else a i). intros j Hj.
        cbn [ksum]. rewrite Nat.eqb_refl. rewrite (ksum_ext m _ (fun i => a i * L i j)) by (intros i Hi; destruct (Nat.eqb_spec i m); [lia|reflexivity]).
        destruct (Nat.eq_dec j m) as [->|Hne].
        - rewrite L1 by lia. rewrite ksum_0; [ring|]. intros i Hi. rewrite L0 by lia. ring.
        - rewrite <- Ha by lia. ring. }
      exact (H n (le_n n)).
    Qed.

    (** ** rank one perturbation *)
    Theorem det_rank_one L (w c y : nat -> K) : unit_lower L -> (forall i, (i < n)%nat -> ksum n (fun j => L i j * y j) = w i) ->
      D (fun i j => L i j + w i * c j) = k1 + ksum n (fun j => c j * y j).
    Proof.
      intros UL Hy.
      (* replacing row i by c, and adding multiples of c to other rows *)
      assert (Hrow : forall i m, (i < n)%nat -> (m <= i)%nat -> D (upd (fun r j => if Nat.ltb r m then L r j + w r * c j else L r j) i c) = D (upd L i c)).
      { intros i m Hi. induction m as [|m IH]; intro Hm.
        - apply ext. intros r j Hr Hj. unfold upd. destruct (Nat.eqb r i); reflexivity.
        - rewrite <- IH by lia. set (M := upd (fun r j => if Nat.ltb r m then L r j + w r * c j else L r j) i c).
          rewrite (ext _ (upd M m (fun j => M m j + w m * M i j))); [apply add_row; lia|].
          intros r j Hr Hj. unfold upd, M. unfold upd. destruct (Nat.eqb_spec r m) as [->|Hne].
          + destruct (Nat.eqb_spec m i); [lia|]. rewrite Nat.eqb_refl. destruct (Nat.ltb_spec m (S m)); [|lia]. rewrite Nat.ltb_irrefl. reflexivity.
          + destruct (Nat.eqb_spec r i); [reflexivity|]. destruct (Nat.ltb_spec r (S m)), (Nat.ltb_spec r m); try lia; reflexivity. }
      assert (Hsum : forall m, (m <= n)%nat -> D (fun r j => if Nat.ltb r m then L r j + w r * c j else L r j) = k1 + ksum m (fun i => w i * D (upd L i c))).
      { induction m as [|m IH]; intro Hm.
        - cbn [ksum]. rewrite (ext _ L) by (intros r j Hr Hj; reflexivity). rewrite det_unit_lower by exact UL. ring.
        - cbn [ksum]. set (M := fun r j => if Nat.ltb r m then L r j + w r * c j else L r j).
          rewrite (ext _ (upd M m (fun j => k1 * L m j + w m * c j))).
          + rewrite (lin M m k1 (w m) (L m) c ltac:(lia)). unfold M at 2. rewrite Hrow by lia.
            rewrite (ext (upd M m (L m)) M).
            * unfold M. rewrite IH by lia. ring.
            * intros r j Hr Hj. unfold upd, M. destruct (Nat.eqb_spec r m) as [->|]; [rewrite Nat.ltb_irrefl|]; reflexivity.
          + intros r j Hr Hj. unfold upd, M. destruct (Nat.eqb_spec r m) as [->|Hne].
            * destruct (Nat.ltb_spec m (S m)); [ring|lia].
            * destruct (Nat.ltb_spec r (S m)), (Nat.ltb_spec r m); try lia; reflexivity. }
      destruct (row_combination L UL c) as [a Ha].
      assert (Hcof : forall i, (i < n)%nat -> D (upd L i c) = a i).
      { intros i Hi. rewrite (ext _ (upd L i (fun j => ksum n (fun k => a k * L k j)))) by (intros r j Hr Hj; unfold upd; destruct (Nat.eqb r i); [apply Ha; exact Hj|reflexivity]).
        rewrite lin_sum by exact Hi. rewrite (ksum_single n i); [|exact Hi|].
        - rewrite (ext _ _ (upd_self L i)), det_unit_lower by exact UL. ring.
        - intros k Hk Hne. rewrite (upd_other_row L i k) by (try assumption; congruence). ring. }
      rewrite (ext _ (fun r j => if Nat.ltb r n then L r j + w r * c j else L r j)) by (intros r j Hr Hj; destruct (Nat.ltb_spec r n); [reflexivity|lia]).
      rewrite Hsum by lia. rewrite (ksum_ext n _ (fun i => ksum n (fun j => a i * L i j * y j))).
      - rewrite ksum_swap. rewrite (ksum_ext n (fun j => c j * y j) (fun j => ksum n (fun i => a i * L i j * y j))); [reflexivity|].
        intros j Hj. rewrite (Ha j Hj). transitivity (y j * ksum n (fun i => a i * L i j)); [ring|]. rewrite <- ksum_scale. apply ksum_ext. intros i Hi. ring.
      - intros i Hi. rewrite Hcof by exact Hi. rewrite <- (Hy i Hi). rewrite (ksum_ext n (fun j => a i * L i j * y j) (fun j => a i * (L i j * y j))) by (intros; ring).
        rewrite ksum_scale. ring.
    Qed.
  End Use.

  (** ** existence: expansion along the first column *)
  Definition skip (i r : nat) : nat := if Nat.ltb r i then r else S r.
  Definition minor (M : nat -> nat -> K) (i : nat) : nat -> nat -> K := fun r c => M (skip i r) (S c).
  Fixpoint sgn (i : nat) : K := match i with O => k1 | S i' => - sgn i' end.
  Fixpoint laplace (n : nat) (M : nat -> nat -> K) : K :=
    match n with O => k1 | S n' => ksum (S n') (fun i => sgn i * M i O * laplace n' (minor M i)) end.
  Lemma laplace_ext n : forall M M', same n M M' -> laplace n M = laplace n M'.
  Proof.
    induction n as [|n IH]; intros M M' H; [reflexivity|]. cbn [laplace]. apply ksum_ext. intros i Hi. rewrite (H i O) by lia. f_equal.
    apply IH. intros r c Hr Hc. unfold minor, skip. apply H; [destruct (Nat.ltb_spec r i); lia|lia].
  Qed.
  Lemma minor_upd_same n M i v : same n (minor (upd M i v) i) (minor M i).
  Proof.
    intros r c _ _. unfold minor, upd, skip. destruct (Nat.ltb_spec r i); [destruct (Nat.eqb_spec r i)|destruct (Nat.eqb_spec (S r) i)]; try lia; reflexivity.
  Qed.
  Lemma minor_upd_other n M i k v : i <> k -> same n (minor (upd M k v) i) (upd (minor M i) (if Nat.ltb k i then k else k - 1)%nat (fun c => v (S c))).
  Proof.
    intros Hne r c _ _. unfold minor, upd, skip. destruct (Nat.ltb_spec k i), (Nat.ltb_spec r i);
      repeat match goal with |- context [Nat.eqb ?a ?b] => destruct (Nat.eqb_spec a b) end; try lia; reflexivity.
  Qed.
  Lemma laplace_lin n : forall M i a b x y, (i < n)%nat -> laplace n (upd M i (fun c => a * x c + b * y c)) = a * laplace n (upd M i x) + b * laplace n (upd M i y).
  Proof.
    induction n as [|n IH]; intros M k a b x y Hk; [lia|]. cbn [laplace]. rewrite <- !ksum_scale, <- ksum_add. apply ksum_ext. intros i Hi.
    destruct (Nat.eq_dec i k) as [->|Hne].
    - rewrite !(laplace_ext n _ _ (minor_upd_same n M k _)). unfold upd. rewrite Nat.eqb_refl. ring.
    - rewrite !(laplace_ext n _ _ (minor_upd_other n M i k _ Hne)).
      rewrite (IH (minor M i) _ a b (fun c => x (S c)) (fun c => y (S c))) by (destruct (Nat.ltb_spec k i); lia).
      assert (E : forall v, upd M k v i O = M i O) by (intro v; unfold upd; destruct (Nat.eqb_spec i k); [congruence|reflexivity]). rewrite !E. ring.
  Qed.
  Lemma laplace_adj n : forall M i, (S i < n)%nat -> (forall c, (c < n)%nat -> M i c = M (S i) c) -> laplace n M = k0.
  Proof.
    induction n as [|n IH]; intros M k Hk H; [lia|]. cbn [laplace].
    set (f := fun i => sgn i * M i O * laplace n (minor M i)).
    assert (Z : forall i, (i < S n)%nat -> i <> k -> i <> S k -> f i = k0).
    { intros i Hi N1 N2. unfold f. rewrite (IH (minor M i) (if Nat.ltb k i then k else k - 1)%nat).
      - ring.
      - destruct (Nat.ltb_spec k i); lia.
      - intros c Hc. unfold minor, skip. destruct (Nat.ltb_spec k i).
        + destruct (Nat.ltb_spec k i), (Nat.ltb_spec (S k) i); try lia. apply H. lia.
        + destruct (Nat.ltb_spec (k - 1) i), (Nat.ltb_spec (S (k - 1)) i); try lia. replace (S (k - 1)) with k by lia. apply H. lia. }
    assert (E : f k + f (S k) = k0).
    { unfold f. rewrite (laplace_ext n (minor M (S k)) (minor M k)).
      - rewrite <- (H O) by lia. cbn [sgn]. ring.
      - intros r c Hr Hc. unfold minor, skip. destruct (Nat.ltb_spec r (S k)), (Nat.ltb_spec r k); try lia; [reflexivity| |reflexivity].
        assert (r = k) by lia. subst r. apply H. lia. }
    change (ksum (S n) f = k0). rewrite (ksum_ext (S n) f (fun i => (if Nat.eqb i k then f k else k0) + (if Nat.eqb i (S k) then f (S k) else k0))).
    - rewrite ksum_add. rewrite (ksum_single (S n) k), (ksum_single (S n) (S k)); rewrite ?Nat.eqb_refl; try exact E; try lia; intros i Hi Hne.
      + destruct (Nat.eqb_spec i (S k)); [congruence|reflexivity].
      + destruct (Nat.eqb_spec i k); [congruence|reflexivity].
    - intros i Hi. destruct (Nat.eqb_spec i k) as [->|N1].
      + destruct (Nat.eqb_spec k (S k)); [lia|]. ring.
      + destruct (Nat.eqb_spec i (S k)) as [->|N2]; [ring|]. rewrite Z by assumption. ring.
  Qed.
  (** exchanging adjacent rows *)
  Lemma laplace_swap n M k : (S k < n)%nat -> laplace n (upd (upd M k (M (S k))) (S k) (M k)) = - laplace n M.
  Proof.
    intro Hk. set (P := fun x y => laplace n (upd (upd M k x) (S k) y)).
    assert (A0 : forall x, P x x = k0).
    { intro x. unfold P. apply (laplace_adj n _ k Hk). intros c Hc. unfold upd. rewrite Nat.eqb_refl. destruct (Nat.eqb_spec k (S k)); [lia|]. rewrite Nat.eqb_refl. reflexivity. }
    assert (Lr : forall x y z, P x (fun c => k1 * y c + k1 * z c) = P x y + P x z) by (intros x y z; unfold P; rewrite laplace_lin by lia; ring).
    assert (Ll : forall x y z, P (fun c => k1 * y c + k1 * z c) x = P y x + P z x).
    { intros x y z. unfold P.
      assert (C : forall v, same n (upd (upd M k v) (S k) x) (upd (upd M (S k) x) k v)).
      { intros v r c _ _. unfold upd. destruct (Nat.eqb_spec r (S k)), (Nat.eqb_spec r k); try lia; reflexivity. }
      rewrite !(laplace_ext n _ _ (C _)). rewrite laplace_lin by lia. ring. }
    pose proof (A0 (fun c => k1 * M k c + k1 * M (S k) c)) as H. rewrite Lr, !Ll, !A0 in H.
    assert (E : laplace n M = P (M k) (M (S k))).
    { unfold P. apply laplace_ext. intros r c _ _. unfold upd. destruct (Nat.eqb_spec r (S k)) as [->|]; [reflexivity|]. destruct (Nat.eqb_spec r k) as [->|]; reflexivity. }
    rewrite E. change (P (M (S k)) (M k) = - P (M k) (M (S k))).
    transitivity (k0 + P (M (S k)) (M k) + (P (M k) (M (S k)) + k0) - P (M k) (M (S k))); [ring|]. rewrite H. ring.
  Qed.
  Lemma laplace_alt_lt n d : forall M i, (i + S d < n)%nat -> (forall c, (c < n)%nat -> M i c = M (i + S d)%nat c) -> laplace n M = k0.
  Proof.
    induction d as [|d IH]; intros M i Hi H.
    - apply (laplace_adj n M i); [lia|]. intros c Hc. rewrite H by exact Hc. f_equal. lia.
    - pose proof (laplace_swap n M (i + S d) ltac:(lia)) as E.
      rewrite (IH _ i) in E.
      + transitivity (- - laplace n M); [ring|]. rewrite <- E. ring.
      + lia.
      + intros c Hc. unfold upd. destruct (Nat.eqb_spec i (S (i + S d))); [lia|]. destruct (Nat.eqb_spec i (i + S d)); [lia|].
        destruct (Nat.eqb_spec (i + S d) (S (i + S d))); [lia|]. rewrite Nat.eqb_refl. rewrite H by exact Hc. f_equal. lia.
  Qed.
  Theorem laplace_det n : is_det n (laplace n).
  Proof.
    constructor.
    - apply laplace_ext.
    - intros. apply laplace_lin. assumption.
    - intros M i j Hi Hj Hne H. destruct (Nat.lt_total i j) as [Hlt|[->|Hlt]]; [|congruence|].
      + apply (laplace_alt_lt n (j - i - 1) M i); [lia|]. intros c Hc. rewrite H by exact Hc. f_equal. lia.
      + apply (laplace_alt_lt n (i - j - 1) M j); [lia|]. intros c Hc. rewrite <- H by exact Hc. f_equal. lia.
    - induction n as [|n IH]; [reflexivity|]. cbn [laplace]. rewrite (ksum_single (S n) O); [|lia|].
      + cbn [sgn]. rewrite (laplace_ext n (minor idm O) idm).
        * rewrite IH. unfold idm. cbn [Nat.eqb]. ring.
        * intros r c _ _. reflexivity.
      + intros i Hi Hne. unfold idm at 1. destruct (Nat.eqb_spec i O); [congruence|]. ring.
  Qed.
End Ring.
