(** Gauss rules are symmetric. *)
From Coq Require Import ZArith List Bool Arith Reals Lra Lia.
From Verif Require Import Num Py Lib LegNumpy Ext RealLib SpecDG SpecPoly ProofsPoly ProofsLeg ProofsGauss.
Import ListNotations.
Open Scope R_scope.

Lemma nint_mirror f v : nint f (-1) 1 v -> nint (fun x => f (- x)) (-1) 1 v.
Proof.
  intros [F [HF ->]]. exists (fun x => - F (- x)). split; [|replace (- -1) with 1 by ring; change (- (1)) with (Ropp 1); replace (Ropp 1) with (-1) by ring; ring]. intro x.
  pose proof (dlim_affine F (-1) 0 x (f (- x))) as D. replace (-1 * x + 0) with (- x) in D by ring. specialize (D (HF (- x))).
  apply (dlim_ext (fun y => -1 * F (-1 * y + 0))); [intro y; replace (-1 * y + 0) with (- y) by ring; ring|].
  apply (dlim_eq _ _ (-1 * (-1 * f (- x)))); [ring|]. apply dlim_scal. exact D.
Qed.
Lemma square_pos c : nint (fun x => legseries c x * legseries c x) (-1) 1 (Rsum (length c) (fun n => nth n c 0 * (nth n c 0 * (2 / (2 * INR n + 1))))).
Proof.
  apply (nint_ext (fun x => Rsum (length c) (fun n => nth n c 0 * (legseries c x * LegP n x)))).
  { intro x. unfold legseries at 3. rewrite <- Rsum_scale. apply Rsum_ext. intros. ring. }
  apply (nint_Rsum (length c) (fun n x => nth n c 0 * (legseries c x * LegP n x))). intros n _. apply nint_scal, nint_series_P.
Qed.

Section Rule.
  Variables (n : nat) (x w : list R).
  Hypothesis Hn : (1 <= n)%nat.
  Hypothesis G : gauss_rule n x w.
  Let r i := nth i x 0.
  Lemma r_inj : forall i j, (i < n)%nat -> (j < n)%nat -> r i = r j -> i = j.
  Proof. intros i j Hi Hj E. rewrite <- (gr_lx _ _ _ G) in Hi, Hj. exact (proj1 (NoDup_nth x 0) (gr_nodup _ _ _ G) i j Hi Hj E). Qed.
  Lemma rule_nint d f v : is_poly d f -> (d <= 2 * n - 1)%nat -> nint f (-1) 1 v -> Rsum n (fun i => nth i w 0 * f (r i)) = v.
  Proof. intros Hf Hd Hv. apply (gr_exact _ _ _ G); [exact (is_poly_le _ _ _ Hd Hf)|]. apply (poly_integral d f); [exact Hf|lra|exact Hv]. Qed.
  Lemma weight_neq k : (k < n)%nat -> nth k w 0 <> 0.
  Proof.
    intros Hk E. destruct (lagrange_basis n r k r_inj Hk) as [l [Hl L]]. destruct (poly_legseries (n - 1) l Hl) as [c [Lc Ec]].
    pose proof (square_pos c) as Sq. assert (P2 : is_poly (n - 1 + (n - 1)) (fun y => legseries c y * legseries c y)) by (apply is_poly_mult; apply legseries_poly'; lia).
    pose proof (rule_nint _ _ _ P2 ltac:(lia) Sq) as V. rewrite (Rsum_single n k) in V by (first [exact Hk|intros i Hi Hik; rewrite <- Ec, L by exact Hi; apply Nat.eqb_neq in Hik; rewrite Hik; ring]).
    rewrite E, Rmult_0_l in V. symmetry in V.
    assert (Z : forall i, (i < length c)%nat -> nth i c 0 * (nth i c 0 * (2 / (2 * INR i + 1))) = 0).
    { apply Rsum_nonneg_0; [|exact V]. intros i _. pose proof (pos_INR i). assert (0 < 2 / (2 * INR i + 1)) by (apply Rdiv_lt_0_compat; lra). nra. }
    assert (C0 : forall i, nth i c 0 = 0).
    { intro i. destruct (Nat.lt_ge_cases i (length c)) as [Hi|Hi]; [|apply nth_overflow; exact Hi]. specialize (Z i Hi). pose proof (pos_INR i). assert (0 < 2 / (2 * INR i + 1)) by (apply Rdiv_lt_0_compat; lra).
      set (q := 2 / (2 * INR i + 1)) in *. assert (nth i c 0 * nth i c 0 = 0) by (apply Rmult_eq_reg_r with q; [transitivity (nth i c 0 * (nth i c 0 * q)); [ring|rewrite Z; ring]|lra]). nra. }
    pose proof (L k Hk) as One. rewrite Nat.eqb_refl, Ec, legseries_0 in One by exact C0. lra.
  Qed.
  Lemma node_zero k : (k < n)%nat -> LegP n (r k) = 0.
  Proof.
    intro Hk. destruct (lagrange_basis n r k r_inj Hk) as [l [Hl L]].
    assert (P2 : is_poly (n - 1 + n) (fun y => l y * LegP n y)) by (apply is_poly_mult; [exact Hl|apply LegP_poly]).
    pose proof (rule_nint _ _ _ P2 ltac:(lia) (nint_low_orth (n - 1) l n Hl ltac:(lia))) as V.
    rewrite (Rsum_single n k) in V by (first [exact Hk|intros i Hi Hik; rewrite L by exact Hi; apply Nat.eqb_neq in Hik; rewrite Hik; ring]).
    rewrite L, Nat.eqb_refl, Rmult_1_l in V by exact Hk. apply Rmult_integral in V. destruct V as [V|V]; [exfalso; exact (weight_neq k Hk V)|exact V].
  Qed.
  Lemma zero_node y : LegP n y = 0 -> exists k, (k < n)%nat /\ r k = y.
  Proof.
    intro Hy. destruct (poly_linprod n (LegP n) r (LegP_poly n) r_inj node_zero) as [c E].
    assert (Hc : c <> 0) by (intros ->; pose proof (LegP_at1 n) as X; rewrite E in X; lra).
    rewrite E in Hy. apply Rmult_integral in Hy. destruct Hy as [|Hy]; [contradiction|].
    apply Classical_Prop.NNPP. intro N. apply (linprod_neq n r y); [|exact Hy]. intros i Hi Q. apply N. exists i. split; [exact Hi|symmetry; exact Q].
  Qed.
  Lemma node_mirror k : (k < n)%nat -> exists j, (j < n)%nat /\ r j = - r k.
  Proof. intro Hk. apply zero_node. rewrite LegP_neg, (node_zero k Hk). ring. Qed.
  (** reading the nodes from right to left does not change the value of the rule, for any integrand *)
  Lemma rule_mirror h : Rsum n (fun i => nth i w 0 * h (r i)) = Rsum n (fun i => nth i w 0 * h (- r i)).
  Proof.
    destruct (interpolate n r (fun i => h (r i)) Hn r_inj) as [f [Hf E]]. destruct (is_poly_nint (n - 1) f (-1) 1 Hf) as [v V].
    transitivity v.
    - rewrite <- (rule_nint _ _ _ Hf ltac:(lia) V). apply Rsum_ext. intros i Hi. rewrite E by exact Hi. reflexivity.
    - symmetry. pose proof (nint_mirror f v V) as V'. assert (Hf' : is_poly (n - 1) (fun y => f (- y))).
      { apply (is_poly_ext _ (fun y => f (-1 * y + 0))); [intro y; f_equal; ring|]. apply is_poly_affine. exact Hf. }
      rewrite <- (rule_nint _ _ _ Hf' ltac:(lia) V'). apply Rsum_ext. intros i Hi. destruct (node_mirror i Hi) as [j [Hj Ej]]. rewrite <- Ej, E by exact Hj. reflexivity.
  Qed.
End Rule.
