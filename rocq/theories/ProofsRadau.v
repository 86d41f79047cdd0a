(** One cell: the L2 projection and the Gauss-Radau projection onto polynomials of degree p, with error bounds. *)
From Coq Require Import List Bool Arith Lia Reals Lra Psatz FunctionalExtensionality.
From Verif Require Import Num RealLib SpecPoly ProofsPoly ProofsLeg ProofsGauss ProofsBasis ProofsMonotone ProofsL2 ProofsL2Run.
Import ListNotations.
Open Scope R_scope.

Lemma Rabs_le_inv x y : Rabs x <= y -> - y <= x <= y.
Proof. intro H. pose proof (Rle_abs x). pose proof (Rle_abs (- x)) as Q. rewrite Rabs_Ropp in Q. lra. Qed.
(** * functions increasing where the derivative is non-negative *)
Lemma deriv_incr f f' a b : (forall x, derivable_pt_lim f x (f' x)) -> a <= b -> (forall x, a < x < b -> 0 <= f' x) -> f a <= f b.
Proof.
  intros D [Hab|<-] P; [|lra]. destruct (MVT_cor2 f f' a b Hab (fun c _ => D c)) as [c [E Hc]]. assert (0 <= f b - f a) by (rewrite E; apply Rmult_le_pos; [apply P; exact Hc|lra]). lra.
Qed.
(** * |P_n| <= 1 *)
Lemma LegP_sq_pos n x : 0 <= x <= 1 -> LegP n x * LegP n x <= 1.
Proof.
  intro Hx. destruct n as [|n]; [rewrite LegP_0; lra|]. set (k := S n). set (c := INR k * (INR k + 1)).
  assert (Hk : 1 <= INR k) by (unfold k; rewrite S_INR; pose proof (pos_INR n); lra).
  assert (Hc : 0 < c) by (unfold c; apply Rmult_lt_0_compat; lra).
  destruct (is_poly_deriv (k - 1) (dLegP k) (dLegP_poly k)) as [D2 [_ HD2]].
  assert (OD : forall y, (1 - y * y) * D2 y = 2 * y * dLegP k y - c * LegP k y).
  { intro y. assert (Q : derivable_pt_lim (fun z => (1 - z * z) * dLegP k z) y ((0 - (1 * y + y * 1)) * dLegP k y + (1 - y * y) * D2 y)).
    { apply (dlim_mult (fun z => 1 - z * z) (dLegP k)); [|apply HD2]. apply (dlim_minus (fun _ => 1) (fun z => z * z)); [apply dlim_const|]. apply (dlim_mult (fun z => z) (fun z => z)); apply dlim_id. }
    pose proof (uniqueness_limite _ _ _ _ Q (Leg_ode k y)) as E. unfold c. lra. }
  set (f := fun y => c * (LegP k y * LegP k y) + (1 - y * y) * (dLegP k y * dLegP k y)).
  set (f' := fun y => 2 * y * (dLegP k y * dLegP k y)).
  assert (Df : forall y, derivable_pt_lim f y (f' y)).
  { intro y. apply (dlim_eq _ _ (c * (dLegP k y * LegP k y + LegP k y * dLegP k y) + ((0 - (1 * y + y * 1)) * (dLegP k y * dLegP k y) + (1 - y * y) * (D2 y * dLegP k y + dLegP k y * D2 y)))).
    - unfold f'. replace ((1 - y * y) * (D2 y * dLegP k y + dLegP k y * D2 y)) with (2 * dLegP k y * ((1 - y * y) * D2 y)) by ring. rewrite OD. ring.
    - apply (dlim_plus (fun y => c * (LegP k y * LegP k y)) (fun y => (1 - y * y) * (dLegP k y * dLegP k y))).
      + apply dlim_scal. apply (dlim_mult (LegP k) (LegP k)); apply LegP_deriv.
      + apply (dlim_mult (fun z => 1 - z * z) (fun y => dLegP k y * dLegP k y)); [|apply (dlim_mult (dLegP k) (dLegP k)); apply HD2].
        apply (dlim_minus (fun _ => 1) (fun z => z * z)); [apply dlim_const|]. apply (dlim_mult (fun z => z) (fun z => z)); apply dlim_id. }
  assert (Q : f x <= f 1).
  { apply (deriv_incr f f'); [exact Df|lra|]. intros y Hy. unfold f'. pose proof (Rle_0_sqr (dLegP k y)) as S0. unfold Rsqr in S0. apply Rmult_le_pos; lra. }
  unfold f in Q. rewrite LegP_at1 in Q. pose proof (Rle_0_sqr (dLegP k x)) as S0. unfold Rsqr in S0.
  assert (0 <= (1 - x * x) * (dLegP k x * dLegP k x)) by (apply Rmult_le_pos; [nra|exact S0]).
  apply Rmult_le_reg_l with c; [exact Hc|]. lra.
Qed.
Lemma LegP_bound n x : -1 <= x <= 1 -> Rabs (LegP n x) <= 1.
Proof.
  intro Hx. assert (Q : LegP n x * LegP n x <= 1).
  { destruct (Rle_dec 0 x) as [H|H]; [apply LegP_sq_pos; lra|]. pose proof (LegP_sq_pos n (- x) ltac:(lra)) as Q. rewrite LegP_neg in Q. destruct (Nat.odd n); lra. }
  apply Rabs_le. split; nra.
Qed.

(** * integrals over [-1,1] of continuous functions *)
Record cfun := { cf :> R -> R; cf_c : continuity cf }.
Definition Int (g : cfun) : R := RiemannInt (continuity_implies_RiemannInt (a := -1) (b := 1) ltac:(lra) (fun x _ => cf_c g x)).
Lemma Int_integral (g : cfun) : integral g (-1) 1 (Int g).
Proof. eexists. reflexivity. Qed.
Lemma Int_eq (g : cfun) v : integral g (-1) 1 v -> Int g = v.
Proof. intro H. eapply integral_unique; [apply Int_integral|exact H]. Qed.
Lemma Int_nint (g : cfun) v : nint g (-1) 1 v -> Int g = v.
Proof. intro H. apply Int_eq. apply nint_integral; [apply cf_c|lra|exact H]. Qed.
Lemma Int_ext (g h : cfun) : (forall x, g x = h x) -> Int g = Int h.
Proof.
  intro H. apply Int_eq. assert (E : cf g = cf h) by (apply functional_extensionality; exact H). rewrite E. apply Int_integral.
Qed.
Lemma Int_lin (f g h : cfun) c : (forall x, h x = f x + c * g x) -> Int h = Int f + c * Int g.
Proof.
  intro H. apply Int_eq. assert (E : cf h = fun x => f x + c * g x) by (apply functional_extensionality; exact H). rewrite E.
  destruct (Int_integral f) as [p1 E1]. destruct (Int_integral g) as [p2 E2].
  assert (p3 : Riemann_integrable (fun x => f x + c * g x) (-1) 1) by (apply RiemannInt_P10; assumption).
  exists p3. rewrite (RiemannInt_P13 p1 p2 p3), E1, E2. reflexivity.
Qed.
Lemma Int_bound (g : cfun) E : (forall x, -1 <= x <= 1 -> Rabs (g x) <= E) -> Rabs (Int g) <= 2 * E.
Proof.
  intro H. destruct (Int_integral g) as [p1 E1]. rewrite <- E1.
  assert (B : forall x, -1 < x < 1 -> - E <= g x <= E) by (intros x Hx; apply Rabs_le_inv; apply H; lra).
  apply Rabs_le. split.
  - pose proof (RiemannInt_P19 (RiemannInt_P14 (-1) 1 (- E)) p1 ltac:(lra) (fun x Hx => proj1 (B x Hx))) as Q. rewrite RiemannInt_P15 in Q. lra.
  - pose proof (RiemannInt_P19 p1 (RiemannInt_P14 (-1) 1 E) ltac:(lra) (fun x Hx => proj2 (B x Hx))) as Q. rewrite RiemannInt_P15 in Q. lra.
Qed.
Lemma Int_le (g h : cfun) : (forall x, -1 <= x <= 1 -> g x <= h x) -> Int g <= Int h.
Proof.
  intro H. destruct (Int_integral g) as [p1 <-]. destruct (Int_integral h) as [p2 <-]. apply RiemannInt_P19; [lra|]. intros x Hx. apply H. lra.
Qed.
Lemma cont_poly n f : is_poly n f -> continuity f. Proof. apply is_poly_continuous. Qed.
Definition cmul (g : cfun) (q : R -> R) (C : continuity q) : cfun := {| cf := fun x => g x * q x; cf_c := continuity_mult g q (cf_c g) C |}.
Definition cP (g : cfun) (n : nat) : cfun := cmul g (LegP n) (cont_poly n (LegP n) (LegP_poly n)).
Definition cdP (g : cfun) (n : nat) : cfun := cmul g (dLegP n) (cont_poly (n - 1) (dLegP n) (dLegP_poly n)).
Definition mom (g : cfun) (n : nat) : R := Int (cP g n).
Definition clin (f g : cfun) (c : R) : cfun :=
  {| cf := fun x => f x + c * g x; cf_c := continuity_plus f (fun x => c * g x) (cf_c f) (continuity_scal g c (cf_c g)) |}.
Lemma mom_lin (f g h : cfun) c n : (forall x, h x = f x + c * g x) -> mom h n = mom f n + c * mom g n.
Proof. intro H. apply (Int_lin (cP f n) (cP g n) (cP h n)). intro x. cbn [cP cmul cf]. rewrite H. ring. Qed.
Lemma mom_ext (f g : cfun) n : (forall x, f x = g x) -> mom f n = mom g n.
Proof. intro H. apply Int_ext. intro x. cbn [cP cmul cf]. rewrite H. reflexivity. Qed.
Lemma mom_bound (g : cfun) E n : (forall x, -1 <= x <= 1 -> Rabs (g x) <= E) -> Rabs (mom g n) <= 2 * E.
Proof.
  intro H. apply Int_bound. intros x Hx. cbn [cP cmul cf]. rewrite Rabs_mult. rewrite <- (Rmult_1_r E). apply Rmult_le_compat; try apply Rabs_pos; [apply H; exact Hx|apply LegP_bound; exact Hx].
Qed.
Lemma mom_series (g : cfun) cc n : (forall x, g x = legseries cc x) -> mom g n = nth n cc 0 * (2 / (2 * INR n + 1)).
Proof. intro H. apply Int_nint. eapply nint_ext; [|apply nint_series_P]. intro x. cbn [cP cmul cf]. rewrite H. reflexivity. Qed.
(** * coefficients of the L2 projection *)
Definition pc (g : cfun) (n : nat) : R := (2 * INR n + 1) / 2 * mom g n.
Lemma pc_lin (f g h : cfun) c n : (forall x, h x = f x + c * g x) -> pc h n = pc f n + c * pc g n.
Proof. intro H. unfold pc. rewrite (mom_lin f g h c n H). ring. Qed.
Lemma pc_bound (g : cfun) E n : (forall x, -1 <= x <= 1 -> Rabs (g x) <= E) -> Rabs (pc g n) <= (2 * INR n + 1) * E.
Proof.
  intro H. unfold pc. pose proof (mom_bound g E n H) as Q. pose proof (w_pos n) as P. rewrite Rabs_mult, (Rabs_right ((2 * INR n + 1) / 2)) by lra.
  replace ((2 * INR n + 1) * E) with ((2 * INR n + 1) / 2 * (2 * E)) by field. apply Rmult_le_compat_l; lra.
Qed.
Lemma pc_series (g : cfun) cc n : (forall x, g x = legseries cc x) -> pc g n = nth n cc 0.
Proof. intro H. unfold pc. rewrite (mom_series g cc n H). pose proof (w_pos n). field. lra. Qed.
(** moments with P_n' *)
Lemma dLegP_series n x : dLegP n x = Rsum n (fun m => (2 * INR m + 1) / 2 * vmat n m * LegP m x).
Proof.
  destruct n as [|n]; [reflexivity|]. destruct (poly_legseries (S n - 1) (dLegP (S n)) (dLegP_poly (S n))) as [c [Lc Ec]].
  rewrite Ec. unfold legseries. rewrite Lc. replace (S (S n - 1)) with (S n) by lia. apply Rsum_ext. intros m Hm. f_equal.
  assert (Q : nint (fun x => legseries c x * LegP m x) (-1) 1 (vmat (S n) m)) by (eapply nint_ext; [|apply vmat_int]; intro y; cbv beta; rewrite Ec; reflexivity).
  pose proof (nint_unique _ _ _ _ _ Q (nint_series_P c m)) as E. rewrite E. pose proof (w_pos m). field. lra.
Qed.
Lemma Int_sum (g : cfun) (a : nat -> R) : forall n (h : cfun), (forall x, h x = Rsum n (fun m => a m * (g x * LegP m x))) -> Int h = Rsum n (fun m => a m * mom g m).
Proof.
  induction n as [|n IH]; intros h H.
  - apply Int_nint. cbn [Rsum] in *. eapply nint_ext; [|apply nint_0]. intro x. rewrite H. reflexivity.
  - cbn [Rsum]. set (h1 := clin h (cP g n) (- a n)).
    assert (E1 : forall x, h1 x = Rsum n (fun m => a m * (g x * LegP m x))) by (intro x; unfold h1; cbn [clin cf cP cmul]; rewrite H; cbn [Rsum]; ring).
    rewrite <- (IH h1 E1). apply (Int_lin h1 (cP g n) h (a n)). intro x. rewrite H, E1. cbn [Rsum cP cmul cf]. reflexivity.
Qed.
Lemma dmom (g : cfun) n : Int (cdP g n) = Rsum n (fun m => vmat n m * pc g m).
Proof.
  rewrite (Int_sum g (fun m => (2 * INR m + 1) / 2 * vmat n m) n); [apply Rsum_ext; intros; unfold pc; ring|].
  intro x. cbn [cdP cmul cf]. rewrite dLegP_series, <- Rsum_scale. apply Rsum_ext. intros. ring.
Qed.
(** integration by parts *)
Lemma by_parts (g g' : cfun) n : (forall x, derivable_pt_lim g x (g' x)) -> Int (cdP g n) + mom g' n = g 1 - sgn n * g (-1).
Proof.
  intro D. set (h := clin (cdP g n) (cP g' n) 1).
  pose proof (Int_lin (cdP g n) (cP g' n) h 1 ltac:(reflexivity)) as E. unfold mom. replace (Int (cdP g n) + Int (cP g' n)) with (Int h) by (rewrite E; ring).
  apply Int_nint. eapply nint_val; [|eapply nint_ext; [|apply (nint_deriv (fun x => LegP n x * g x) (fun x => dLegP n x * g x + LegP n x * g' x))]].
  - cbv beta. rewrite LegP_at1, sgn_leg. ring.
  - intro x. unfold h. cbn [clin cdP cP cmul cf]. ring.
  - intro x. apply (dlim_mult (LegP n) g); [apply LegP_deriv|apply D].
Qed.
(** * the Gauss-Radau projection: same moments up to p-1, same value at the right end *)
Section Radau.
  Variable p : nat.
  Definition rc (g : cfun) (n : nat) : R := if (n <? p)%nat then pc g n else g 1 - Rsum p (pc g).
  (** the jump of the L2 projection at the right end *)
  Definition defect (g : cfun) : R := Rsum (S p) (pc g) - g 1.
  Lemma rc_low g n : (n < p)%nat -> rc g n = pc g n. Proof. intro H. unfold rc. destruct (Nat.ltb_spec n p); [reflexivity|lia]. Qed.
  Lemma rc_top g : rc g p = g 1 - Rsum p (pc g). Proof. unfold rc. rewrite Nat.ltb_irrefl. reflexivity. Qed.
  Lemma pc_rc g n : (n <= p)%nat -> pc g n - rc g n = if (n =? p)%nat then defect g else 0.
  Proof.
    intro H. destruct (Nat.eqb_spec n p) as [->|]; [rewrite rc_top; unfold defect; cbn [Rsum]; ring|rewrite rc_low by lia; ring].
  Qed.
  Lemma rc_right g : Rsum (S p) (rc g) = g 1.
  Proof. cbn [Rsum]. rewrite rc_top, (Rsum_ext p (rc g) (pc g)) by (intros; apply rc_low; assumption). ring. Qed.
  Lemma rc_vol g n : (n <= p)%nat -> Rsum (S p) (fun m => vmat n m * rc g m) = Int (cdP g n).
  Proof.
    intro H. rewrite dmom. replace (S p) with (n + (S p - n))%nat by lia. rewrite Rsum_app, (Rsum_0 (S p - n)).
    - rewrite Rplus_0_r. apply Rsum_ext. intros m Hm. rewrite rc_low by lia. reflexivity.
    - intros m Hm. unfold vmat. destruct (Nat.ltb_spec (n + m) n); [lia|ring].
  Qed.
  Lemma rc_lin (f g h : cfun) c n : (forall x, h x = f x + c * g x) -> rc h n = rc f n + c * rc g n.
  Proof.
    intro H. unfold rc. destruct (n <? p)%nat; [apply pc_lin; exact H|]. rewrite H, (Rsum_ext p (pc h) (fun m => pc f m + c * pc g m)) by (intros; apply pc_lin; exact H).
    rewrite Rsum_plus, Rsum_scale. ring.
  Qed.
  Lemma defect_lin (f g h : cfun) c : (forall x, h x = f x + c * g x) -> defect h = defect f + c * defect g.
  Proof.
    intro H. unfold defect. rewrite H, (Rsum_ext (S p) (pc h) (fun m => pc f m + c * pc g m)) by (intros; apply pc_lin; exact H). rewrite Rsum_plus, Rsum_scale. ring.
  Qed.
  Definition cpoly (q : R -> R) (H : is_poly p q) : cfun := {| cf := q; cf_c := cont_poly p q H |}.
  Lemma series_p (g : cfun) : is_poly p g -> (forall x, g x = Rsum (S p) (fun n => pc g n * LegP n x)) /\ (forall n, (n <= p)%nat -> rc g n = pc g n) /\ defect g = 0.
  Proof.
    intro H. destruct (poly_legseries p g H) as [cc [Lc Ec]].
    assert (E : forall x, g x = Rsum (S p) (fun n => pc g n * LegP n x)).
    { intro x. rewrite Ec. unfold legseries. rewrite Lc. apply Rsum_ext. intros n Hn. rewrite (pc_series g cc n Ec). reflexivity. }
    assert (D : defect g = 0). { unfold defect. rewrite (E 1), (Rsum_ext (S p) (fun n => pc g n * LegP n 1) (pc g)) by (intros; rewrite LegP_at1; ring). ring. }
    split; [exact E|]. split; [|exact D]. intros n Hn. pose proof (pc_rc g n Hn) as Q. rewrite D in Q. destruct (n =? p)%nat; lra.
  Qed.
  Lemma rc_bound (g : cfun) E n : (n <= p)%nat -> (forall x, -1 <= x <= 1 -> Rabs (g x) <= E) -> Rabs (rc g n) <= (1 + INR (S p) * INR (S p)) * E.
  Proof.
    intros Hn H. assert (HE : 0 <= E) by (eapply Rle_trans; [apply Rabs_pos|apply (H 0); lra]). unfold rc. destruct (Nat.ltb_spec n p) as [L|L].
    - eapply Rle_trans; [apply (pc_bound g E n H)|]. apply Rmult_le_compat_r; [exact HE|]. rewrite <- odd_sum. cbn [Rsum].
      pose proof (Rsum_nonneg p (fun i => 2 * INR i + 1) ltac:(intros; pose proof (w_pos i); lra)) as Q. pose proof (le_INR n p ltac:(lia)). lra.
    - eapply Rle_trans; [apply Rabs_triang|]. rewrite Rabs_Ropp. pose proof (H 1 ltac:(lra)) as Q1. pose proof (ProofsMonotone.Rsum_abs p (pc g)) as Q2.
      assert (Q3 : Rsum p (fun i => Rabs (pc g i)) <= Rsum p (fun i => (2 * INR i + 1) * E)) by (apply Rsum_le; intros; apply pc_bound; exact H).
      rewrite Rsum_scale_r, odd_sum in Q3. assert (INR p * INR p * E <= INR (S p) * INR (S p) * E) by (apply Rmult_le_compat_r; [exact HE|]; rewrite S_INR; pose proof (pos_INR p); nra). lra.
  Qed.
  Lemma defect_bound (g : cfun) E : (forall x, -1 <= x <= 1 -> Rabs (g x) <= E) -> Rabs (defect g) <= (1 + INR (S p) * INR (S p)) * E.
  Proof.
    intro H. unfold defect. eapply Rle_trans; [apply Rabs_triang|]. rewrite Rabs_Ropp. pose proof (H 1 ltac:(lra)) as Q1. pose proof (ProofsMonotone.Rsum_abs (S p) (pc g)) as Q2.
    assert (Q3 : Rsum (S p) (fun i => Rabs (pc g i)) <= Rsum (S p) (fun i => (2 * INR i + 1) * E)) by (apply Rsum_le; intros; apply pc_bound; exact H).
    rewrite Rsum_scale_r, odd_sum in Q3. lra.
  Qed.
  (** subtracting a polynomial *)
  Lemma defect_near (g q r : cfun) E : is_poly p q -> (forall x, r x = g x + -1 * q x) -> (forall x, -1 <= x <= 1 -> Rabs (r x) <= E) -> Rabs (defect g) <= (1 + INR (S p) * INR (S p)) * E.
  Proof.
    intros Hq Hr HE. pose proof (defect_lin g q r (-1) Hr) as L. destruct (series_p q Hq) as [_ [_ D]]. rewrite D in L. replace (defect g) with (defect r) by lra. apply defect_bound. exact HE.
  Qed.
  Lemma rc_near (g q r : cfun) E : is_poly p q -> (forall x, r x = g x + -1 * q x) -> (forall x, -1 <= x <= 1 -> Rabs (r x) <= E) ->
    forall x, -1 <= x <= 1 -> Rabs (Rsum (S p) (fun n => rc g n * LegP n x) - g x) <= (1 + INR (S p) * (1 + INR (S p) * INR (S p))) * E.
  Proof.
    intros Hq Hr HE x Hx. destruct (series_p q Hq) as [S1 [S2 _]].
    assert (Eq : Rsum (S p) (fun n => rc g n * LegP n x) - g x = Rsum (S p) (fun n => rc r n * LegP n x) - r x).
    { rewrite (Rsum_ext (S p) (fun n => rc r n * LegP n x) (fun n => rc g n * LegP n x - pc q n * LegP n x)) by (intros n Hn; rewrite (rc_lin g q r (-1) n Hr), S2 by lia; ring).
      rewrite Rsum_minus, <- S1, Hr. ring. }
    rewrite Eq. eapply Rle_trans; [apply Rabs_triang|]. rewrite Rabs_Ropp. pose proof (HE x Hx) as Q1.
    assert (Q2 : Rabs (Rsum (S p) (fun n => rc r n * LegP n x)) <= Rsum (S p) (fun _ => (1 + INR (S p) * INR (S p)) * E)).
    { eapply Rle_trans; [apply ProofsMonotone.Rsum_abs|]. apply Rsum_le. intros n Hn. rewrite Rabs_mult. rewrite <- (Rmult_1_r ((1 + INR (S p) * INR (S p)) * E)).
      apply Rmult_le_compat; try apply Rabs_pos; [apply rc_bound; [lia|exact HE]|apply LegP_bound; exact Hx]. }
    rewrite Rsum_const in Q2. lra.
  Qed.
End Radau.
(** * Taylor's formula *)
Section Taylor.
  Variable F : nat -> R -> R.
  Hypothesis HF : forall k x, derivable_pt_lim (F k) x (F (S k) x).
  Definition tpoly (m : nat) (k : nat) (c y : R) : R := Rsum m (fun i => F (k + i) c * (y ^ i / INR (fact i))).
  Lemma tpoly_poly m k c : is_poly m (tpoly (S m) k c).
  Proof.
    apply (is_poly_Rsum m (S m) (fun i y => F (k + i) c * (y ^ i / INR (fact i)))). intros i Hi. apply is_poly_scal.
    apply (is_poly_ext _ (fun y => / INR (fact i) * y ^ i)); [intro; unfold Rdiv; ring|]. apply is_poly_scal. clear - Hi. apply (is_poly_le i); [lia|]. clear Hi m.
    induction i as [|i IH]; [exact (is_poly_const 0 1)|]. cbn [pow]. apply is_poly_mulx. exact IH.
  Qed.
  Lemma pow_over_fact i y : derivable_pt_lim (fun y => y ^ S i / INR (fact (S i))) y (y ^ i / INR (fact i)).
  Proof.
    pose proof (INR_fact_neq_0 i). apply (dlim_ext (fun y => / INR (fact (S i)) * y ^ S i)); [intro; unfold Rdiv; ring|].
    apply (dlim_eq _ _ (/ INR (fact (S i)) * (INR (S i) * y ^ i))); [|apply dlim_scal, dlim_pow].
    change (fact (S i)) with (S i * fact i)%nat. rewrite mult_INR. assert (INR (S i) <> 0) by (apply not_0_INR; lia). field. split; assumption.
  Qed.
  Lemma tpoly_deriv m k c y : derivable_pt_lim (tpoly (S m) k c) y (tpoly m (S k) c y).
  Proof.
    apply (dlim_ext (fun y => F k c + Rsum m (fun i => F (S k + i) c * (y ^ S i / INR (fact (S i)))))).
    { intro z. unfold tpoly. rewrite Rsum_S_l, Nat.add_0_r. cbn [pow fact INR]. f_equal; [field|]. apply Rsum_ext. intros i Hi. replace (k + S i)%nat with (S k + i)%nat by lia. reflexivity. }
    apply (dlim_eq _ _ (0 + tpoly m (S k) c y)); [ring|]. apply (dlim_plus (fun _ => F k c)); [apply dlim_const|].
    apply (dlim_Rsum m (fun i y => F (S k + i) c * (y ^ S i / INR (fact (S i))))). intros i Hi. apply dlim_scal. apply pow_over_fact.
  Qed.
  Lemma taylor_pos m : forall k c B, (forall x, Rabs (F (k + m) x) <= B) -> forall y, 0 <= y -> Rabs (F k (c + y) - tpoly m k c y) <= B * (y ^ m / INR (fact m)).
  Proof.
    induction m as [|m IH]; intros k c B HB y Hy.
    - unfold tpoly. cbn [Rsum pow fact INR]. rewrite Rminus_0_r. specialize (HB (c + y)). rewrite Nat.add_0_r in HB. lra.
    - assert (IH' : forall z, 0 <= z -> Rabs (F (S k) (c + z) - tpoly m (S k) c z) <= B * (z ^ m / INR (fact m))).
      { intros z Hz. apply IH; [|exact Hz]. intro x. replace (S k + m)%nat with (k + S m)%nat by lia. apply HB. }
      assert (Dg : forall z, derivable_pt_lim (fun z => F k (c + z) - tpoly (S m) k c z) z (F (S k) (c + z) - tpoly m (S k) c z)).
      { intro z. apply (dlim_minus (fun z => F k (c + z))); [|apply tpoly_deriv]. apply (dlim_eq _ _ (1 * F (S k) (1 * z + c))); [rewrite Rmult_1_l; f_equal; ring|].
        apply (dlim_ext (fun z => F k (1 * z + c))); [intro; f_equal; ring|]. apply dlim_affine. apply HF. }
      assert (Z0 : F k (c + 0) - tpoly (S m) k c 0 = 0).
      { unfold tpoly. rewrite Rsum_S_l, Rsum_0 by (intros i Hi; cbn [pow]; unfold Rdiv; ring). rewrite Nat.add_0_r, Rplus_0_r. cbn [pow fact INR]. field. }
      assert (Q : forall s, s = 1 \/ s = -1 -> s * (F k (c + y) - tpoly (S m) k c y) <= B * (y ^ S m / INR (fact (S m)))).
      { intros s Hs. set (f := fun z => B * (z ^ S m / INR (fact (S m))) - s * (F k (c + z) - tpoly (S m) k c z)).
        pose proof (deriv_incr f (fun z => B * (z ^ m / INR (fact m)) - s * (F (S k) (c + z) - tpoly m (S k) c z)) 0 y) as I.
        assert (f 0 <= f y).
        { apply I; [|exact Hy|].
          - intro z. apply (dlim_minus (fun z => B * (z ^ S m / INR (fact (S m))))); [apply dlim_scal, pow_over_fact|apply dlim_scal, Dg].
          - intros z Hz. pose proof (IH' z ltac:(lra)) as A. apply Rabs_le_inv in A. destruct Hs as [-> | ->]; lra. }
        unfold f in H. cbv beta in H. rewrite Z0 in H. assert (P0 : 0 ^ S m = 0) by (cbn [pow]; ring). rewrite P0 in H. clear - H. unfold Rdiv in *. rewrite Rmult_0_l, !Rmult_0_r in H. lra. }
      apply Rabs_le. pose proof (Q 1 (or_introl eq_refl)). pose proof (Q (-1) (or_intror eq_refl)). lra.
  Qed.
End Taylor.
Lemma taylor_bound F : (forall k x, derivable_pt_lim (F k) x (F (S k) x)) -> forall m k c B, (forall x, Rabs (F (k + m)%nat x) <= B) ->
  forall y, Rabs (F k (c + y) - tpoly F m k c y) <= B * (Rabs y ^ m / INR (fact m)).
Proof.
  intros HF m k c B HB y. destruct (Rle_dec 0 y) as [H|H]; [rewrite (Rabs_right y) by lra; apply taylor_pos; assumption|].
  rewrite (Rabs_left y) by lra. set (G := fun i x => (-1) ^ i * F i (- x)).
  assert (HG : forall i x, derivable_pt_lim (G i) x (G (S i) x)).
  { intros i x. unfold G. apply (dlim_eq _ _ ((-1) ^ i * (-1 * F (S i) (-1 * x + 0)))); [cbn [pow]; replace (-1 * x + 0) with (- x) by ring; ring|].
    apply dlim_scal. apply (dlim_ext (fun x => F i (-1 * x + 0))); [intro; f_equal; ring|]. apply dlim_affine. apply HF. }
  assert (P1 : forall i, Rabs ((-1) ^ i) = 1) by (intro i; rewrite <- RPow_abs, Rabs_left by lra; replace (- (-1)) with 1 by ring; apply pow1).
  pose proof (taylor_pos G HG m k (- c) B) as T. specialize (T ltac:(intro x; unfold G; rewrite Rabs_mult, P1, Rmult_1_l; apply HB) (- y) ltac:(lra)).
  assert (E : G k (- c + - y) - tpoly G m k (- c) (- y) = (-1) ^ k * (F k (c + y) - tpoly F m k c y)).
  { unfold G at 1. replace (- (- c + - y)) with (c + y) by ring. rewrite Rmult_minus_distr_l. f_equal. unfold tpoly. rewrite <- Rsum_scale. apply Rsum_ext. intros i Hi. unfold G.
    rewrite Ropp_involutive, pow_add. replace ((- y) ^ i) with ((-1) ^ i * y ^ i) by (rewrite <- Rpow_mult_distr; f_equal; ring).
    assert (S1 : (-1) ^ i * (-1) ^ i = 1) by (rewrite <- Rpow_mult_distr; replace (-1 * -1) with 1 by ring; apply pow1). unfold Rdiv.
    replace ((-1) ^ k * (-1) ^ i * F (k + i)%nat c * ((-1) ^ i * y ^ i * / INR (fact i))) with ((-1) ^ k * (F (k + i)%nat c * (y ^ i * / INR (fact i))) * ((-1) ^ i * (-1) ^ i)) by ring. rewrite S1. ring. }
  rewrite E, Rabs_mult, P1, Rmult_1_l in T. exact T.
Qed.
