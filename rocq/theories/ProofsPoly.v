(** Polynomials, antiderivatives, integrals, roots. *)
From Coq Require Import ZArith List Bool Arith Reals Lra Lia FunctionalExtensionality.
From Verif Require Import Num Py Lib Ext RealLib SpecDG SpecPoly.
Import ListNotations.
Open Scope R_scope.

Lemma two_step_ind (P : nat -> Prop) : P 0%nat -> P 1%nat -> (forall n, P n -> P (S n) -> P (S (S n))) -> forall n, P n.
Proof. intros H0 H1 H n. assert (P n /\ P (S n)) as [H2 _]; [|exact H2]. induction n as [|n [I1 I2]]; auto. Qed.

(** ** derivatives *)
Lemma dlim_ext f g x l : (forall y, f y = g y) -> derivable_pt_lim f x l -> derivable_pt_lim g x l.
Proof. intros H. replace g with f; [auto|]. apply functional_extensionality. exact H. Qed.
Lemma dlim_eq f x l l' : l = l' -> derivable_pt_lim f x l -> derivable_pt_lim f x l'.
Proof. intros ->. auto. Qed.
Lemma dlim_plus f g x a b : derivable_pt_lim f x a -> derivable_pt_lim g x b -> derivable_pt_lim (fun y => f y + g y) x (a + b).
Proof. intros. apply (dlim_ext (f + g)%F); [reflexivity|]. apply derivable_pt_lim_plus; assumption. Qed.
Lemma dlim_minus f g x a b : derivable_pt_lim f x a -> derivable_pt_lim g x b -> derivable_pt_lim (fun y => f y - g y) x (a - b).
Proof. intros. apply (dlim_ext (f - g)%F); [reflexivity|]. apply derivable_pt_lim_minus; assumption. Qed.
Lemma dlim_mult f g x a b : derivable_pt_lim f x a -> derivable_pt_lim g x b -> derivable_pt_lim (fun y => f y * g y) x (a * g x + f x * b).
Proof. intros. apply (dlim_ext (f * g)%F); [reflexivity|]. apply derivable_pt_lim_mult; assumption. Qed.
Lemma dlim_scal c f x a : derivable_pt_lim f x a -> derivable_pt_lim (fun y => c * f y) x (c * a).
Proof. intros. apply (dlim_ext (mult_real_fct c f)); [reflexivity|]. apply derivable_pt_lim_scal. assumption. Qed.
Lemma dlim_const c x : derivable_pt_lim (fun _ => c) x 0.
Proof. apply (dlim_ext (fct_cte c)); [reflexivity|]. apply derivable_pt_lim_const. Qed.
Lemma dlim_id x : derivable_pt_lim (fun y => y) x 1.
Proof. apply (dlim_ext id); [reflexivity|]. apply derivable_pt_lim_id. Qed.
Lemma dlim_Rsum n (f : nat -> R -> R) (f' : nat -> R) x : (forall i, (i < n)%nat -> derivable_pt_lim (f i) x (f' i)) ->
  derivable_pt_lim (fun y => Rsum n (fun i => f i y)) x (Rsum n f').
Proof.
  induction n as [|n IH]; intro H; [cbn [Rsum]; apply dlim_const|].
  cbn [Rsum]. apply (dlim_plus (fun y => Rsum n (fun i => f i y)) (f n)); [apply IH; intros; apply H; lia|apply H; lia].
Qed.
(** composition with an affine map *)
Lemma dlim_affine f a b x l : derivable_pt_lim f (a * x + b) l -> derivable_pt_lim (fun y => f (a * y + b)) x (a * l).
Proof.
  intro H. apply (dlim_ext (comp f (fun y => a * y + b))); [reflexivity|].
  apply (dlim_eq _ _ (l * a)); [ring|]. apply derivable_pt_lim_comp; [|exact H].
  apply (dlim_eq _ _ (a * 1 + 0)); [ring|]. apply dlim_plus; [apply dlim_scal; apply dlim_id|apply dlim_const].
Qed.
Lemma dlim_const_eq F : (forall x, derivable_pt_lim F x 0) -> forall a b, F a = F b.
Proof.
  intros H a b.
  pose (pr := fun x => exist (fun l => derivable_pt_abs F x l) 0 (H x) : derivable_pt F x).
  assert (C : constant F) by (apply (null_derivative_1 F pr); intro x; reflexivity).
  apply C.
Qed.

(** ** integrals by antiderivatives *)
Definition nint (f : R -> R) (a b v : R) : Prop :=
  exists F, (forall x, derivable_pt_lim F x (f x)) /\ v = F b - F a.
Lemma nint_unique f a b v v' : nint f a b v -> nint f a b v' -> v = v'.
Proof.
  intros [F [HF ->]] [G [HG ->]].
  assert (H : forall x, derivable_pt_lim (fun y => F y - G y) x 0).
  { intro x. apply (dlim_eq _ _ (f x - f x)); [ring|]. apply dlim_minus; auto. }
  pose proof (dlim_const_eq _ H a b) as E. cbn in E. lra.
Qed.
Lemma nint_ext f g a b v : (forall x, f x = g x) -> nint f a b v -> nint g a b v.
Proof. intros H. replace g with f; [auto|]. apply functional_extensionality. exact H. Qed.
Lemma nint_val f a b v v' : v = v' -> nint f a b v -> nint f a b v'. Proof. intros ->. auto. Qed.
Lemma nint_plus f g a b v w : nint f a b v -> nint g a b w -> nint (fun x => f x + g x) a b (v + w).
Proof. intros [F [HF ->]] [G [HG ->]]. exists (fun x => F x + G x). split; [intro; apply dlim_plus; auto|ring]. Qed.
Lemma nint_minus f g a b v w : nint f a b v -> nint g a b w -> nint (fun x => f x - g x) a b (v - w).
Proof. intros [F [HF ->]] [G [HG ->]]. exists (fun x => F x - G x). split; [intro; apply dlim_minus; auto|ring]. Qed.
Lemma nint_scal c f a b v : nint f a b v -> nint (fun x => c * f x) a b (c * v).
Proof. intros [F [HF ->]]. exists (fun x => c * F x). split; [intro; apply dlim_scal; auto|ring]. Qed.
Lemma nint_0 a b : nint (fun _ => 0) a b 0.
Proof. exists (fun _ => 0). split; [intro; apply dlim_const|ring]. Qed.
Lemma nint_Rsum n (f : nat -> R -> R) (v : nat -> R) a b : (forall i, (i < n)%nat -> nint (f i) a b (v i)) ->
  nint (fun x => Rsum n (fun i => f i x)) a b (Rsum n v).
Proof.
  induction n as [|n IH]; intro H; [cbn [Rsum]; apply nint_0|].
  cbn [Rsum]. apply (nint_plus (fun x => Rsum n (fun i => f i x)) (f n)); [apply IH; intros; apply H; lia|apply H; lia].
Qed.
Lemma nint_deriv f f' a b : (forall x, derivable_pt_lim f x (f' x)) -> nint f' a b (f b - f a).
Proof. intro H. exists f. auto. Qed.

(** link with the Riemann integral *)
Lemma nint_integral f a b v : continuity f -> a <= b -> nint f a b v -> integral f a b v.
Proof.
  intros C Hab [F [HF ->]].
  pose (d0 := (fun x => exist (fun l => derivable_pt_abs F x l) (f x) (HF x)) : derivable F).
  assert (E : derive F d0 = f) by (apply functional_extensionality; intro x; reflexivity).
  assert (C1 : continuity (derive F d0)) by (rewrite E; exact C).
  pose (C1F := mkC1 C1).
  assert (pr : Riemann_integrable (derive C1F (diff0 C1F)) a b).
  { apply continuity_implies_RiemannInt; [exact Hab|]. intros x _. apply C1. }
  pose proof (FTC_Riemann C1F pr) as Q. cbn in Q.
  change (derive C1F (diff0 C1F)) with (derive F d0) in pr. 
  unfold integral. rewrite <- E. exists pr. exact Q.
Qed.
Lemma integral_unique f a b v v' : integral f a b v -> integral f a b v' -> v = v'.
Proof. intros [p <-] [q <-]. apply RiemannInt_P5. Qed.
Lemma integral_nint f a b v : continuity f -> a <= b -> (exists v', nint f a b v') -> integral f a b v -> nint f a b v.
Proof.
  intros C Hab [v' H] Hv. pose proof (nint_integral f a b v' C Hab H) as Hv'.
  rewrite (integral_unique _ _ _ _ _ Hv Hv'). exact H.
Qed.

(** ** polynomials of bounded degree *)
Lemma is_poly_ext d f g : (forall x, f x = g x) -> is_poly d f -> is_poly d g.
Proof. intros H [a Ha]. exists a. intro x. rewrite <- H. apply Ha. Qed.
Lemma is_poly_const d c : is_poly d (fun _ => c).
Proof.
  exists [c]. intro x. rewrite Rsum_S_l. rewrite Rsum_0; [cbn; ring|]. intros [|i] _; cbn; ring.
Qed.
Lemma is_poly_0 f : is_poly 0 f <-> exists c, forall x, f x = c.
Proof.
  split.
  - intros [a Ha]. exists (nth 0 a 0). intro x. rewrite Ha. cbn. ring.
  - intros [c H]. apply (is_poly_ext 0 (fun _ => c)); [intro; rewrite H; reflexivity|apply is_poly_const].
Qed.
Lemma is_poly_S d f : is_poly (S d) f <-> exists c g, is_poly d g /\ forall x, f x = c + x * g x.
Proof.
  split.
  - intros [a Ha]. exists (nth 0 a 0), (fun x => Rsum (S d) (fun i => nth i (tl a) 0 * x ^ i)). split.
    + exists (tl a). reflexivity.
    + intro x. rewrite Ha. rewrite Rsum_S_l. cbn [pow]. rewrite Rmult_1_r. f_equal. rewrite <- Rsum_scale. apply Rsum_ext.
      intros i _. destruct a as [|a0 a]; [cbn [tl nth]; destruct i; cbn; ring|]. cbn. ring.
  - intros [c [g [[a Ha] H]]]. exists (c :: a). intro x. rewrite H, Ha. rewrite (Rsum_S_l (S d)). cbn [pow nth]. rewrite Rmult_1_r. f_equal.
    rewrite <- Rsum_scale. apply Rsum_ext. intros. ring.
Qed.
Lemma is_poly_weak d f : is_poly d f -> is_poly (S d) f.
Proof.
  revert f. induction d as [|d IH]; intros f H.
  - apply is_poly_0 in H. destruct H as [c H]. apply is_poly_S. exists c, (fun _ => 0). split; [apply is_poly_const|]. intro. rewrite H. ring.
  - apply is_poly_S in H. destruct H as [c [g [Hg H]]]. apply is_poly_S. exists c, g. split; [apply IH; exact Hg|exact H].
Qed.
Lemma is_poly_le d d' f : (d <= d')%nat -> is_poly d f -> is_poly d' f.
Proof. intro H. induction H; auto. intro. apply is_poly_weak. auto. Qed.
Lemma is_poly_plus d f g : is_poly d f -> is_poly d g -> is_poly d (fun x => f x + g x).
Proof.
  revert f g. induction d as [|d IH]; intros f g Hf Hg.
  - apply is_poly_0 in Hf. apply is_poly_0 in Hg. destruct Hf as [a Ha], Hg as [b Hb]. apply is_poly_0. exists (a + b). intro. rewrite Ha, Hb. reflexivity.
  - apply is_poly_S in Hf. apply is_poly_S in Hg. destruct Hf as [a [f' [H1 H2]]], Hg as [b [g' [H3 H4]]]. apply is_poly_S.
    exists (a + b), (fun x => f' x + g' x). split; [apply IH; assumption|]. intro. rewrite H2, H4. ring.
Qed.
Lemma is_poly_scal d c f : is_poly d f -> is_poly d (fun x => c * f x).
Proof.
  intros [a Ha]. exists (map (Rmult c) a). intro x. rewrite Ha, <- Rsum_scale. apply Rsum_ext. intros i _.
  replace 0 with (c * 0) at 2 by ring. rewrite (map_nth (Rmult c)). ring.
Qed.
Lemma is_poly_minus d f g : is_poly d f -> is_poly d g -> is_poly d (fun x => f x - g x).
Proof.
  intros. apply (is_poly_ext d (fun x => f x + (-1) * g x)); [intro; ring|]. apply is_poly_plus; [assumption|]. apply is_poly_scal. assumption.
Qed.
Lemma is_poly_mulx d f : is_poly d f -> is_poly (S d) (fun x => x * f x).
Proof. intro. apply is_poly_S. exists 0, f. split; [assumption|]. intro. ring. Qed.
Lemma is_poly_id : is_poly 1 (fun x => x).
Proof. apply (is_poly_ext 1 (fun x => x * 1)); [intro; ring|]. apply is_poly_mulx. apply is_poly_const. Qed.
Lemma is_poly_mult d e f g : is_poly d f -> is_poly e g -> is_poly (d + e) (fun x => f x * g x).
Proof.
  revert f. induction d as [|d IH]; intros f Hf Hg.
  - apply is_poly_0 in Hf. destruct Hf as [c Hc]. apply (is_poly_ext e (fun x => c * g x)); [intro; rewrite Hc; reflexivity|]. apply is_poly_scal. exact Hg.
  - apply is_poly_S in Hf. destruct Hf as [c [f' [H1 H2]]]. cbn [plus].
    apply (is_poly_ext _ (fun x => c * g x + x * (f' x * g x))); [intro; rewrite H2; ring|].
    apply is_poly_plus; [apply (is_poly_le e); [lia|]; apply is_poly_scal; exact Hg|]. apply is_poly_mulx. apply IH; assumption.
Qed.
Lemma is_poly_Rsum d n (f : nat -> R -> R) : (forall i, (i < n)%nat -> is_poly d (f i)) -> is_poly d (fun x => Rsum n (fun i => f i x)).
Proof.
  induction n as [|n IH]; intro H; [cbn [Rsum]; apply is_poly_const|]. cbn [Rsum].
  apply (is_poly_plus d (fun x => Rsum n (fun i => f i x)) (f n)); [apply IH; intros; apply H; lia|apply H; lia].
Qed.
Lemma is_poly_affine d f a b : is_poly d f -> is_poly d (fun x => f (a * x + b)).
Proof.
  revert f. induction d as [|d IH]; intros f H.
  - apply is_poly_0 in H. destruct H as [c H]. apply is_poly_0. exists c. intro. apply H.
  - apply is_poly_S in H. destruct H as [c [g [Hg H]]].
    apply (is_poly_ext _ (fun x => (c + b * g (a * x + b)) + x * (a * g (a * x + b)))); [intro; rewrite H; ring|].
    apply is_poly_plus; [|apply is_poly_mulx; apply is_poly_scal; apply IH; exact Hg].
    apply is_poly_plus; [apply is_poly_const|]. apply is_poly_weak. apply is_poly_scal. apply IH. exact Hg.
Qed.
(** derivative and antiderivative *)
Lemma is_poly_deriv d f : is_poly d f -> exists f', is_poly (d - 1) f' /\ forall x, derivable_pt_lim f x (f' x).
Proof.
  revert f. induction d as [|d IH]; intros f H.
  - apply is_poly_0 in H. destruct H as [c H]. exists (fun _ => 0). split; [apply is_poly_const|].
    intro x. apply (dlim_ext (fun _ => c)); [intro; symmetry; apply H|]. apply dlim_const.
  - apply is_poly_S in H. destruct H as [c [g [Hg H]]]. destruct (IH g Hg) as [g' [Hg' Dg]].
    exists (fun x => g x + x * g' x). split.
    + replace (S d - 1)%nat with d by lia. apply is_poly_plus; [exact Hg|]. destruct d as [|d].
      * apply is_poly_0 in Hg. destruct Hg as [k Hk]. apply is_poly_0. exists 0. intro x.
        assert (E : g' x = 0). { apply (uniqueness_limite g x); [apply Dg|]. apply (dlim_ext (fun _ => k)); [intro; symmetry; apply Hk|]. apply dlim_const. }
        rewrite E. ring.
      * replace (S d - 1)%nat with d in Hg' by lia. apply is_poly_mulx. exact Hg'.
    + intro x. apply (dlim_ext (fun y => c + y * g y)); [intro; symmetry; apply H|].
      apply (dlim_eq _ _ (0 + (1 * g x + x * g' x))); [ring|]. apply dlim_plus; [apply dlim_const|]. apply (dlim_mult (fun y => y) g); [apply dlim_id|apply Dg].
Qed.
Lemma is_poly_continuous d f : is_poly d f -> continuity f.
Proof.
  intros H x. destruct (is_poly_deriv d f H) as [f' [_ D]]. apply derivable_continuous_pt. exists (f' x). apply D.
Qed.
Lemma dlim_pow n x : derivable_pt_lim (fun y => y ^ S n) x (INR (S n) * x ^ n).
Proof.
  apply (dlim_eq _ _ (INR (S n) * x ^ pred (S n))); [reflexivity|]. apply derivable_pt_lim_pow.
Qed.
Lemma is_poly_anti d f : is_poly d f -> exists F, is_poly (S d) F /\ forall x, derivable_pt_lim F x (f x).
Proof.
  intros [a Ha]. exists (fun x => Rsum (S d) (fun i => (nth i a 0 / INR (S i)) * x ^ S i)). split.
  - apply is_poly_Rsum. intros i Hi. apply is_poly_scal. apply (is_poly_le (S i)); [lia|].
    clear. assert (H : forall k, is_poly k (fun x => x ^ k)).
    { induction k as [|k IH]; [cbn [pow]; apply is_poly_const|]. cbn [pow]. apply is_poly_mulx. exact IH. }
    apply H.
  - intro x. rewrite Ha. apply (dlim_Rsum (S d) (fun i y => nth i a 0 / INR (S i) * y ^ S i)). intros i _.
    apply (dlim_eq _ _ (nth i a 0 / INR (S i) * (INR (S i) * x ^ i))); [field; apply not_0_INR; lia|].
    apply dlim_scal. apply dlim_pow.
Qed.
Lemma is_poly_nint d f a b : is_poly d f -> exists v, nint f a b v.
Proof. intro H. destruct (is_poly_anti d f H) as [F [_ D]]. exists (F b - F a), F. auto. Qed.
Lemma poly_integral d f a b v : is_poly d f -> a <= b -> (integral f a b v <-> nint f a b v).
Proof.
  intros H Hab. pose proof (is_poly_continuous d f H) as C. split.
  - apply integral_nint; [exact C|exact Hab|eapply is_poly_nint; exact H].
  - apply nint_integral; assumption.
Qed.
(** ** roots *)
Lemma is_poly_factor d f r : is_poly (S d) f -> exists g, is_poly d g /\ forall x, f x = f r + (x - r) * g x.
Proof.
  revert f. induction d as [|d IH]; intros f H.
  - apply is_poly_S in H. destruct H as [c [g [Hg H]]]. exists g. split; [exact Hg|]. apply is_poly_0 in Hg. destruct Hg as [k Hk].
    intro x. rewrite !H, !Hk. ring.
  - apply is_poly_S in H. destruct H as [c [g [Hg H]]]. destruct (IH g Hg) as [h [Hh E]].
    exists (fun x => g r + x * h x). split.
    + apply is_poly_plus; [apply is_poly_const|]. apply is_poly_mulx. exact Hh.
    + intro x. rewrite !H. rewrite (E x) at 1. ring.
Qed.
Lemma poly_roots_zero d f xs : is_poly d f -> NoDup xs -> (d < length xs)%nat -> (forall x, In x xs -> f x = 0) -> forall x, f x = 0.
Proof.
  revert f xs. induction d as [|d IH]; intros f xs Hf Hn Hl H0 x.
  - apply is_poly_0 in Hf. destruct Hf as [c Hc]. rewrite Hc. destruct xs as [|y xs]; [cbn in Hl; lia|]. rewrite <- (Hc y). apply H0. left. reflexivity.
  - destruct xs as [|y xs]; [cbn in Hl; lia|]. destruct (is_poly_factor d f y Hf) as [g [Hg E]].
    inversion Hn as [|? ? Hny Hn']; subst. rewrite (H0 y (or_introl eq_refl)) in E.
    rewrite E. rewrite (IH g xs Hg Hn'); [ring|cbn in Hl; lia|].
    intros z Hz. pose proof (H0 z (or_intror Hz)) as Ez. rewrite E in Ez.
    assert (z - y <> 0). { intro Q. apply Hny. replace y with z by lra. exact Hz. }
    apply (Rmult_eq_reg_l (z - y)); [lra|assumption].
Qed.
Lemma poly_eq_nodes d f g xs : is_poly d f -> is_poly d g -> NoDup xs -> (d < length xs)%nat -> (forall x, In x xs -> f x = g x) -> forall x, f x = g x.
Proof.
  intros Hf Hg Hn Hl H x. apply Rminus_diag_uniq. apply (poly_roots_zero d (fun x => f x - g x) xs); try assumption.
  - apply is_poly_minus; assumption.
  - intros y Hy. rewrite H by exact Hy. ring.
Qed.
