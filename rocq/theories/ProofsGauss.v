(** Consequences of orthogonality, Lagrange interpolation, and the existence of Gauss rules. *)
From Coq Require Import ZArith List Bool Arith Reals Lra Lia FunctionalExtensionality.
From Verif Require Import Num Py Lib LegNumpy Ext RealLib SpecDG SpecPoly ProofsPoly ProofsLeg.
Import ListNotations.
Open Scope R_scope.

Lemma length_leg_basis n : length (leg_basis n : list R) = S n.
Proof. unfold leg_basis. rewrite app_length, length_tab. cbn. lia. Qed.
Lemma legseries_0 c x : (forall n, nth n c 0 = 0) -> legseries c x = 0.
Proof. intro H. unfold legseries. apply Rsum_0. intros. rewrite H. ring. Qed.
Lemma legseries_basis n x : legseries (leg_basis n) x = LegP n x.
Proof.
  unfold leg_basis. rewrite legseries_snoc, length_tab, legseries_0; [numR; ring|].
  intro i. destruct (le_lt_dec n i); [apply nth_overflow; rewrite length_tab; assumption|]. rewrite nth_tab by assumption. reflexivity.
Qed.
Lemma nint_series_P c n : nint (fun x => legseries c x * LegP n x) (-1) 1 (nth n c 0 * (2 / (2 * INR n + 1))).
Proof.
  apply (nint_ext (fun x => Rsum (length c) (fun i => nth i c 0 * (LegP i x * LegP n x)))).
  { intro x. unfold legseries. rewrite <- Rsum_scale_r. apply Rsum_ext. intros. ring. }
  apply (nint_val _ _ _ (Rsum (length c) (fun i => nth i c 0 * (if (i =? n)%nat then 2 / (2 * INR n + 1) else 0)))).
  - destruct (le_lt_dec (length c) n) as [H|H].
    + rewrite (nth_overflow c) by exact H. rewrite Rsum_0; [ring|]. intros i Hi. replace (i =? n)%nat with false; [ring|]. symmetry. apply Nat.eqb_neq. lia.
    + rewrite (Rsum_single _ n) by (first [exact H | intros i _ Hn; apply Nat.eqb_neq in Hn; rewrite Hn; ring]). rewrite Nat.eqb_refl. reflexivity.
  - apply (nint_Rsum (length c) (fun i x => nth i c 0 * (LegP i x * LegP n x))). intros i _. apply nint_scal.
    destruct (Nat.eqb_spec i n) as [->|H]; [apply Leg_norm|apply Leg_orth0; exact H].
Qed.
Lemma legseries_inj_nth c c' : (forall x, legseries c x = legseries c' x) -> forall n, nth n c 0 = nth n c' 0.
Proof.
  intros H n. pose proof (nint_series_P c n) as H1. pose proof (nint_series_P c' n) as H2.
  apply (nint_ext _ (fun x => legseries c' x * LegP n x)) in H1; [|intro; rewrite H; reflexivity].
  pose proof (nint_unique _ _ _ _ _ H1 H2) as E. pose proof (pos_INR n).
  apply (Rmult_eq_reg_r (2 / (2 * INR n + 1))); [exact E|]. apply Rmult_integral_contrapositive_currified; [lra|]. apply Rinv_neq_0_compat. lra.
Qed.
Lemma legseries_inj c c' : length c = length c' -> (forall x, legseries c x = legseries c' x) -> c = c'.
Proof. intros L H. apply (list_ext 0); [exact L|]. intros i _. apply legseries_inj_nth. exact H. Qed.
Lemma length_legadd (a b : list R) : length (legadd a b) = Nat.max (length a) (length b).
Proof. revert b. induction a as [|u a IH]; intros [|v b]; cbn; auto. Qed.
Lemma poly_legseries d f : is_poly d f -> exists c, length c = S d /\ forall x, f x = legseries c x.
Proof.
  revert f. induction d as [|d IH]; intros f H.
  - apply is_poly_0 in H. destruct H as [c H]. exists [c]. split; [reflexivity|]. intro x. rewrite H. unfold legseries. cbn [length Rsum nth]. rewrite LegP_0. ring.
  - apply is_poly_S in H. destruct H as [c [g [Hg H]]]. destruct (IH g Hg) as [cg [L E]].
    exists (legadd [c] (legmulx cg)). split; [rewrite length_legadd, length_legmulx, L; cbn; lia|].
    intro x. rewrite H, E, legseries_add, legmulx_ok. unfold legseries at 2. cbn [length Rsum nth]. rewrite LegP_0. ring.
Qed.
Lemma nint_series c : nint (legseries c) (-1) 1 (2 * nth 0 c 0).
Proof.
  apply (nint_ext (fun x => legseries c x * LegP 0 x)); [intro; rewrite LegP_0; ring|].
  eapply nint_val; [|apply nint_series_P]. cbn [INR]. field.
Qed.
Lemma nint_low_orth d q n : is_poly d q -> (d < n)%nat -> nint (fun x => q x * LegP n x) (-1) 1 0.
Proof.
  intros H Hd. destruct (poly_legseries d q H) as [c [L E]].
  apply (nint_ext (fun x => legseries c x * LegP n x)); [intro; rewrite E; reflexivity|].
  eapply nint_val; [|apply nint_series_P]. rewrite nth_overflow by lia. ring.
Qed.

(** ** products of linear factors *)
Fixpoint linprod (n : nat) (r : nat -> R) (x : R) : R :=
  match n with O => 1 | S k => linprod k r x * (x - r k) end.
Lemma linprod_poly n r : is_poly n (linprod n r).
Proof.
  induction n as [|n IH]; [apply (is_poly_const 0 1)|].
  apply (is_poly_ext _ (fun x => x * linprod n r x - r n * linprod n r x)); [intro; cbn; ring|].
  apply is_poly_minus; [apply is_poly_mulx; exact IH|]. apply is_poly_weak. apply is_poly_scal. exact IH.
Qed.
Lemma linprod_root n r i : (i < n)%nat -> linprod n r (r i) = 0.
Proof.
  induction n as [|n IH]; intro H; [lia|]. cbn. destruct (Nat.eq_dec i n) as [->|]; [ring|]. rewrite IH by lia. ring.
Qed.
Lemma linprod_neq n r x : (forall i, (i < n)%nat -> x <> r i) -> linprod n r x <> 0.
Proof.
  induction n as [|n IH]; intro H; [cbn; lra|]. cbn. apply Rmult_integral_contrapositive_currified.
  - apply IH. intros. apply H. lia.
  - pose proof (H n (Nat.lt_succ_diag_r n)). lra.
Qed.
(** division by linear factors with remainder *)
Lemma poly_div n : forall r d f, is_poly (n + d) f ->
  exists N q, is_poly (n - 1) N /\ is_poly d q /\ forall x, f x = N x + linprod n r x * q x.
Proof.
  induction n as [|n IH]; intros r d f Hf.
  - exists (fun _ => 0), f. repeat split; [apply is_poly_const|exact Hf|]. intro. cbn. ring.
  - replace (S n + d)%nat with (n + S d)%nat in Hf by lia. destruct (IH r (S d) f Hf) as [N [q [HN [Hq E]]]].
    destruct (is_poly_factor d q (r n) Hq) as [g [Hg Eg]].
    exists (fun x => N x + q (r n) * linprod n r x), g. split; [|split; [exact Hg|]].
    + replace (S n - 1)%nat with n by lia. apply is_poly_plus; [apply (is_poly_le (n - 1)); [lia|exact HN]|]. apply is_poly_scal. apply linprod_poly.
    + intro x. rewrite E. rewrite (Eg x) at 1. cbn. ring.
Qed.
Lemma NoDup_tab n (r : nat -> R) : (forall i j, (i < n)%nat -> (j < n)%nat -> r i = r j -> i = j) -> NoDup (tab n r).
Proof.
  intro H. apply (NoDup_nth _ 0). rewrite length_tab. intros i j Hi Hj. rewrite !nth_tab by assumption. apply H; assumption.
Qed.
Lemma In_tab n (r : nat -> R) y : In y (tab n r) -> exists i, (i < n)%nat /\ y = r i.
Proof. unfold tab. intro H. apply in_map_iff in H. destruct H as [i [<- Hi]]. apply in_seq in Hi. exists i. split; [lia|reflexivity]. Qed.
Lemma poly_linprod n f r : is_poly n f -> (forall i j, (i < n)%nat -> (j < n)%nat -> r i = r j -> i = j) ->
  (forall i, (i < n)%nat -> f (r i) = 0) -> exists c, forall x, f x = c * linprod n r x.
Proof.
  intros Hf Hd H0. destruct n as [|n].
  { apply is_poly_0 in Hf. destruct Hf as [c Hc]. exists c. intro. rewrite Hc. cbn. ring. }
  replace (S n) with (S n + 0)%nat in Hf by lia. destruct (poly_div (S n) r 0 f Hf) as [N [q [HN [Hq E]]]].
  apply is_poly_0 in Hq. destruct Hq as [c Hc]. exists c. intro x. rewrite E, Hc.
  replace (N x) with 0; [ring|]. symmetry.
  apply (poly_roots_zero n N (tab (S n) r)).
  - replace (S n - 1)%nat with n in HN by lia. exact HN.
  - apply NoDup_tab. exact Hd.
  - rewrite length_tab. lia.
  - intros y Hy. apply In_tab in Hy. destruct Hy as [i [Hi ->]].
    specialize (H0 i ltac:(lia)). rewrite E, linprod_root in H0 by lia. lra.
Qed.

(** ** Lagrange interpolation *)
Lemma lagrange_basis n r k : (forall i j, (i < n)%nat -> (j < n)%nat -> r i = r j -> i = j) -> (k < n)%nat ->
  exists l, is_poly (n - 1) l /\ forall i, (i < n)%nat -> l (r i) = if (i =? k)%nat then 1 else 0.
Proof.
  intros Hd Hk. pose (r' := fun i => if (i <? k)%nat then r i else r (S i)).
  assert (Hn : linprod (n - 1) r' (r k) <> 0).
  { apply linprod_neq. intros i Hi E. unfold r' in E. destruct (Nat.ltb_spec i k); apply Hd in E; lia. }
  exists (fun x => / linprod (n - 1) r' (r k) * linprod (n - 1) r' x). split; [apply is_poly_scal; apply linprod_poly|].
  intros i Hi. destruct (Nat.eqb_spec i k) as [->|H]; [field; exact Hn|].
  replace (r i) with (r' (if (i <? k)%nat then i else (i - 1)%nat)).
  - rewrite linprod_root; [ring|]. destruct (Nat.ltb_spec i k); lia.
  - unfold r'. destruct (Nat.ltb_spec i k) as [L|L]; [apply Nat.ltb_lt in L; rewrite L; reflexivity|].
    replace (i - 1 <? k)%nat with false by (symmetry; apply Nat.ltb_ge; lia). f_equal. lia.
Qed.
Lemma finite_choice {Y} (y0 : Y) n (P : nat -> Y -> Prop) : (forall i, (i < n)%nat -> exists y, P i y) ->
  exists g, forall i, (i < n)%nat -> P i (g i).
Proof.
  induction n as [|n IH]; intro H; [exists (fun _ => y0); intros; lia|].
  destruct IH as [g Hg]; [intros; apply H; lia|]. destruct (H n) as [y Hy]; [lia|].
  exists (fun i => if (i =? n)%nat then y else g i). intros i Hi. destruct (Nat.eqb_spec i n) as [->|]; [exact Hy|apply Hg; lia].
Qed.
Lemma interpolate n r y : (1 <= n)%nat -> (forall i j, (i < n)%nat -> (j < n)%nat -> r i = r j -> i = j) ->
  exists f, is_poly (n - 1) f /\ forall i, (i < n)%nat -> f (r i) = y i.
Proof.
  intros Hn Hd. destruct (finite_choice (fun _ => 0) n (fun k l => is_poly (n - 1) l /\ forall i, (i < n)%nat -> l (r i) = if (i =? k)%nat then 1 else 0)) as [l Hl].
  { intros k Hk. apply lagrange_basis; assumption. }
  exists (fun x => Rsum n (fun k => y k * l k x)). split.
  - apply (is_poly_Rsum _ _ (fun k x => y k * l k x)). intros k Hk. apply is_poly_scal. apply Hl. exact Hk.
  - intros i Hi. rewrite (Rsum_single n i) by (first [exact Hi | intros k Hk Hne; rewrite (proj2 (Hl k Hk)) by exact Hi; replace (i =? k)%nat with false by (symmetry; apply Nat.eqb_neq; lia); ring]).
    rewrite (proj2 (Hl i Hi)) by exact Hi. rewrite Nat.eqb_refl. ring.
Qed.

(** ** the zeros of Legendre polynomials: real, simple, in (-1,1), interlacing *)
Lemma pow_m1_S k : (-1) ^ S k = - (-1) ^ k. Proof. cbn. ring. Qed.
Lemma linprod_sign n r x i : (i <= n)%nat -> (forall j, (j < i)%nat -> r j < x) -> (forall j, (i <= j < n)%nat -> x < r j) ->
  0 < (-1) ^ (n - i) * linprod n r x.
Proof.
  induction n as [|n IH]; intros Hi H1 H2.
  - replace (0 - i)%nat with 0%nat by lia. cbn. lra.
  - destruct (Nat.eq_dec i (S n)) as [->|Hne].
    + rewrite Nat.sub_diag. cbn. assert (0 < linprod n r x).
      { clear IH H2 Hi. revert H1. induction n as [|n IH]; intro H1; [cbn; lra|]. cbn. apply Rmult_lt_0_compat; [apply IH; intros; apply H1; lia|].
        pose proof (H1 n ltac:(lia)). lra. }
      pose proof (H1 n ltac:(lia)). rewrite Rmult_1_l. apply Rmult_lt_0_compat; lra.
    + replace (S n - i)%nat with (S (n - i)) by lia. rewrite pow_m1_S. cbn [linprod].
      pose proof (IH ltac:(lia) H1 ltac:(intros; apply H2; lia)) as Q. pose proof (H2 n ltac:(lia)).
      replace (- (-1) ^ (n - i) * (linprod n r x * (x - r n))) with ((-1) ^ (n - i) * linprod n r x * (r n - x)) by ring.
      apply Rmult_lt_0_compat; lra.
Qed.
Definition increasing (n : nat) (r : nat -> R) : Prop := forall i, (S i < n)%nat -> r i < r (S i).
Lemma increasing_lt n r i j : increasing n r -> (i < j)%nat -> (j < n)%nat -> r i < r j.
Proof.
  intros H Hij. induction Hij as [|j Hij IH]; intro Hj; [apply H; exact Hj|].
  apply Rlt_trans with (r j); [apply IH; lia|apply H; exact Hj].
Qed.
Lemma increasing_inj n r : increasing n r -> forall i j, (i < n)%nat -> (j < n)%nat -> r i = r j -> i = j.
Proof.
  intros H i j Hi Hj E. destruct (Nat.lt_trichotomy i j) as [L|[L|L]]; [|exact L|].
  - pose proof (increasing_lt n r i j H L Hj). lra.
  - pose proof (increasing_lt n r j i H L Hi). lra.
Qed.
Lemma sign_root f a b k : continuity f -> a < b -> 0 < (-1) ^ (S k) * f a -> 0 < (-1) ^ k * f b -> exists z, a < z < b /\ f z = 0.
Proof.
  intros C Hab Ha Hb. rewrite pow_m1_S in Ha.
  assert (K : (-1) ^ k * (-1) ^ k = 1) by (rewrite <- Rpow_mult_distr; replace (-1 * -1) with 1 by ring; apply pow1).
  assert (Hp : 0 < - (f a * f b)).
  { replace (- (f a * f b)) with ((- (-1) ^ k * f a) * ((-1) ^ k * f b) * ((-1) ^ k * (-1) ^ k) * / (((-1) ^ k * (-1) ^ k) * ((-1) ^ k * (-1) ^ k))); [rewrite K|field; intro Q; rewrite Q in K; lra].
    replace (/ (1 * 1)) with 1 by field. rewrite !Rmult_1_r. apply Rmult_lt_0_compat; assumption. }
  destruct (IVT_cor f a b C ltac:(lra) ltac:(lra)) as [z [[Z1 Z2] Z3]].
  exists z. split; [|exact Z3]. split.
  - destruct Z1 as [Z1|Z1]; [exact Z1|]. subst z. rewrite Z3 in Hp. lra.
  - destruct Z2 as [Z2|Z2]; [exact Z2|]. subst z. rewrite Z3 in Hp. lra.
Qed.
Definition zeros_of (n : nat) (r : nat -> R) : Prop :=
  increasing n r /\ (forall i, (i < n)%nat -> -1 < r i < 1) /\ exists c, 0 < c /\ forall x, LegP n x = c * linprod n r x.
Lemma zeros_of_intro n r : increasing n r -> (forall i, (i < n)%nat -> -1 < r i < 1) -> (forall i, (i < n)%nat -> LegP n (r i) = 0) -> zeros_of n r.
Proof.
  intros H1 H2 H3. split; [exact H1|]. split; [exact H2|].
  destruct (poly_linprod n (LegP n) r (LegP_poly n) (increasing_inj n r H1) H3) as [c Hc]. exists c. split; [|exact Hc].
  pose proof (Hc 1) as E. rewrite LegP_at1 in E.
  pose proof (linprod_sign n r 1 n (Nat.le_refl n) ltac:(intros; apply H2; lia) ltac:(intros; lia)) as S1.
  rewrite Nat.sub_diag in S1. cbn [pow] in S1. rewrite Rmult_1_l in S1.
  destruct (Rle_or_lt c 0) as [Hc0|Hc0]; [|exact Hc0].
  assert (c * linprod n r 1 <= 0) by (rewrite <- (Rmult_0_l (linprod n r 1)); apply Rmult_le_compat_r; lra). lra.
Qed.
Lemma legendre_zeros n : exists r s, zeros_of n r /\ zeros_of (S n) s /\ forall i, (i < n)%nat -> s i < r i < s (S i).
Proof.
  induction n as [|n [r [s [Zr [Zs Hrs]]]]].
  - exists (fun _ => 0), (fun _ => 0). split; [|split].
    + apply zeros_of_intro; [intros i Hi; lia|intros; lia|intros; lia].
    + apply zeros_of_intro; [intros i Hi; lia|intros; lra|intros i Hi; apply LegP_1].
    + intros; lia.
  - destruct Zr as [Ir [Br [c [Hc Er]]]]. pose proof Zs as [Is [Bs [c' [Hc' Es]]]].
    (* sign of P_{n+2} at the zeros of P_{n+1} *)
    assert (Sg : forall i, (i <= n)%nat -> 0 < (-1) ^ (S n - i) * LegP (S (S n)) (s i)).
    { intros i Hi. assert (Z : LegP (S n) (s i) = 0) by (rewrite Es, linprod_root by lia; ring).
      rewrite LegP_SS, Z. replace (S n - i)%nat with (S (n - i)) by lia. rewrite pow_m1_S.
      assert (Q : 0 < (-1) ^ (n - i) * linprod n r (s i)).
      { apply linprod_sign; [exact Hi| |].
        - intros j Hj. destruct (Hrs j ltac:(lia)) as [_ A]. destruct (Nat.eq_dec (S j) i) as [<-|]; [exact A|].
          apply Rlt_trans with (s (S j)); [exact A|]. apply (increasing_lt (S n)); [exact Is|lia|lia].
        - intros j Hj. destruct (Hrs j ltac:(lia)) as [A _]. destruct (Nat.eq_dec i j) as [<-|]; [exact A|].
          apply Rlt_trans with (s j); [|exact A]. apply (increasing_lt (S n)); [exact Is|lia|lia]. }
      rewrite Er. pose proof (pos_INR n).
      replace (- (-1) ^ (n - i) * (((2 * INR n + 3) * s i * 0 - (INR n + 1) * (c * linprod n r (s i))) / (INR n + 2)))
        with (((INR n + 1) / (INR n + 2) * c) * ((-1) ^ (n - i) * linprod n r (s i))) by (field; lra).
      apply Rmult_lt_0_compat; [|exact Q]. apply Rmult_lt_0_compat; [|exact Hc]. apply Rdiv_lt_0_compat; lra. }
    pose (t := fun j => match j with O => -1 | S i => if (i <=? n)%nat then s i else 1 end).
    assert (Tg : forall j, (j <= S (S n))%nat -> 0 < (-1) ^ (S (S n) - j) * LegP (S (S n)) (t j)).
    { intros [|i] Hj; unfold t.
      - rewrite LegP_atm1. replace (S (S n) - 0)%nat with (S (S n)) by lia. generalize (S (S n)). intro k. clear.
        assert (E : (-1) ^ k = if Nat.odd k then -1 else 1).
        { induction k as [|k IH]; [reflexivity|]. rewrite pow_m1_S, IH. rewrite Nat.odd_succ, <- Nat.negb_odd. destruct (Nat.odd k); cbn; ring. }
        rewrite E. destruct (Nat.odd k); lra.
      - destruct (Nat.leb_spec i n) as [L|L].
        + replace (S (S n) - S i)%nat with (S n - i)%nat by lia. apply Sg. exact L.
        + replace (S (S n) - S i)%nat with 0%nat by lia. rewrite LegP_at1. cbn. lra. }
    assert (Ti : forall j, (j < S (S n))%nat -> t j < t (S j)).
    { intros [|i] Hj; unfold t.
      - cbn [Nat.leb]. apply Bs. lia.
      - replace (i <=? n)%nat with true by (symmetry; apply Nat.leb_le; lia). destruct (Nat.leb_spec (S i) n); [apply Is; lia|apply Bs; lia]. }
    destruct (finite_choice 0 (S (S n)) (fun j z => t j < z < t (S j) /\ LegP (S (S n)) z = 0)) as [q Hq].
    { intros j Hj. apply (sign_root _ _ _ (S (S n) - S j)).
      - apply (is_poly_continuous (S (S n))). apply LegP_poly.
      - apply Ti. exact Hj.
      - replace (S (S (S n) - S j)) with (S (S n) - j)%nat by lia. apply Tg. lia.
      - apply Tg. lia. }
    assert (Tb : forall j, (j <= S (S n))%nat -> -1 <= t j <= 1).
    { intros [|i] Hj; unfold t; [lra|]. destruct (Nat.leb_spec i n); [|lra]. pose proof (Bs i ltac:(lia)). lra. }
    assert (Ht : forall i, (i <= n)%nat -> t (S i) = s i).
    { intros i Hi. unfold t. replace (i <=? n)%nat with true by (symmetry; apply Nat.leb_le; lia). reflexivity. }
    exists s, q. split; [exact Zs|]. split.
    + apply zeros_of_intro.
      * intros i Hi. destruct (Hq i ltac:(lia)) as [[_ A] _]. destruct (Hq (S i) ltac:(lia)) as [[B _] _]. lra.
      * intros i Hi. destruct (Hq i Hi) as [[A B] _]. pose proof (Tb i ltac:(lia)). pose proof (Tb (S i) ltac:(lia)). lra.
      * intros i Hi. apply Hq. exact Hi.
    + intros i Hi. destruct (Hq i ltac:(lia)) as [[_ A] _]. destruct (Hq (S i) ltac:(lia)) as [[B _] _]. rewrite Ht in A, B by lia. lra.
Qed.

(** ** Gauss rules *)
Lemma gauss_exists n : (1 <= n)%nat -> exists x w, gauss_rule n x w.
Proof.
  intro Hn. destruct (legendre_zeros n) as [r [_ [[Ir [Br [c [Hc Er]]]] _]]].
  pose proof (increasing_inj n r Ir) as Hd.
  destruct (finite_choice (fun _ => 0) n (fun k l => is_poly (n - 1) l /\ forall i, (i < n)%nat -> l (r i) = if (i =? k)%nat then 1 else 0)) as [l Hl].
  { intros k Hk. apply lagrange_basis; assumption. }
  destruct (finite_choice 0 n (fun k v => nint (l k) (-1) 1 v)) as [w Hw].
  { intros k Hk. apply (is_poly_nint (n - 1)). apply Hl. exact Hk. }
  exists (tab n r), (tab n w). split.
  - apply length_tab.
  - apply length_tab.
  - intros i Hi. rewrite nth_tab by exact Hi. apply Br. exact Hi.
  - apply NoDup_tab. exact Hd.
  - intros f v Hf Hv. rewrite (Rsum_ext n _ (fun i => w i * f (r i))) by (intros i Hi; rewrite !nth_tab by exact Hi; reflexivity).
    apply (poly_integral (2 * n - 1)) in Hv; [|exact Hf|lra].
    replace (2 * n - 1)%nat with (n + (n - 1))%nat in Hf by lia. destruct (poly_div n r (n - 1) f Hf) as [N [q [HN [Hq E]]]].
    assert (EN : forall i, (i < n)%nat -> f (r i) = N (r i)).
    { intros i Hi. rewrite E, linprod_root by exact Hi. ring. }
    assert (HNl : forall x, N x = Rsum n (fun k => N (r k) * l k x)).
    { apply (poly_eq_nodes (n - 1) _ _ (tab n r)); [exact HN| |apply NoDup_tab; exact Hd|rewrite length_tab; lia|].
      - apply (is_poly_Rsum _ _ (fun k x => N (r k) * l k x)). intros k Hk. apply is_poly_scal. apply Hl. exact Hk.
      - intros y Hy. apply In_tab in Hy. destruct Hy as [i [Hi ->]].
        rewrite (Rsum_single n i) by (first [exact Hi | intros k Hk Hne; rewrite (proj2 (Hl k Hk)) by exact Hi; replace (i =? k)%nat with false by (symmetry; apply Nat.eqb_neq; lia); ring]).
        rewrite (proj2 (Hl i Hi)) by exact Hi. rewrite Nat.eqb_refl. ring. }
    assert (HNv : nint N (-1) 1 (Rsum n (fun k => N (r k) * w k))).
    { apply (nint_ext (fun x => Rsum n (fun k => N (r k) * l k x))); [intro; symmetry; apply HNl|].
      apply (nint_Rsum n (fun k x => N (r k) * l k x)). intros k Hk. apply nint_scal. apply Hw. exact Hk. }
    assert (HQ : nint (fun x => / c * (q x * LegP n x)) (-1) 1 (/ c * 0)).
    { apply nint_scal. apply (nint_low_orth (n - 1)); [exact Hq|lia]. }
    pose proof (nint_plus _ _ _ _ _ _ HNv HQ) as HS.
    apply (nint_ext _ f) in HS; [|intro x; rewrite E, Er; field; lra].
    rewrite (nint_unique _ _ _ _ _ Hv HS). rewrite Rmult_0_r, Rplus_0_r. apply Rsum_ext. intros i Hi. rewrite EN by exact Hi. ring.
Qed.
