(** A rule of signs for Legendre series, and square systems: every choice of enhancement modes gives
    an invertible enhancement matrix. *)
From Coq Require Import ZArith List Bool Arith Reals Lra Lia Classical Sorting.Sorted.
From Verif Require Import Num Py Lib LegNumpy Ext Basis Enhance RealLib SpecDG SpecPoly SpecEnh ProofsPoly ProofsLeg ProofsGauss ProofsDG ProofsBasis ProofsEnh.
Import ListNotations.
Open Scope list_scope.
Open Scope R_scope.

(** ** sign changes of a list *)
Fixpoint first_nz (l : list R) : R := match l with [] => 0 | x :: r => if Req_EM_T x 0 then first_nz r else x end.
Fixpoint changes (l : list R) : nat := match l with [] => 0%nat | x :: r => if Rlt_dec (x * first_nz r) 0 then S (changes r) else changes r end.
Fixpoint nonzeros (l : list R) : nat := match l with [] => 0%nat | x :: r => if Req_EM_T x 0 then nonzeros r else S (nonzeros r) end.
Fixpoint tails (l : list R) : list R := match l with [] => [] | x :: r => (x + hd 0 (tails r)) :: tails r end.

Lemma changes_nonzeros l : (changes l <= nonzeros l - 1)%nat.
Proof.
  induction l as [|x l IH]; [cbn; lia|]. cbn [changes nonzeros]. destruct (Req_EM_T x 0) as [->|Hx].
  - destruct (Rlt_dec (0 * first_nz l) 0) as [H|H]; [lra|exact IH].
  - destruct (Rlt_dec (x * first_nz l) 0) as [H|H]; [|lia].
    assert (nonzeros l <> 0%nat); [|lia]. clear IH. intro Z0. assert (F : first_nz l = 0); [|rewrite F in H; lra]. clear H.
    induction l as [|y l IH]; [reflexivity|]. cbn [first_nz nonzeros] in *. destruct (Req_EM_T y 0); [apply IH; exact Z0|discriminate].
Qed.
Lemma first_nz_hd l : hd 0 l <> 0 -> first_nz l = hd 0 l.
Proof. destruct l as [|x l]; cbn [hd first_nz]; [reflexivity|]. destruct (Req_EM_T x 0); [contradiction|reflexivity]. Qed.
Lemma tails_zero l : first_nz l = 0 -> hd 0 (tails l) = 0 /\ first_nz (tails l) = 0 /\ changes (tails l) = 0%nat.
Proof.
  induction l as [|x l IH]; [cbn; auto|]. cbn [first_nz]. destruct (Req_EM_T x 0) as [->|Hx]; [|intro; contradiction].
  intro H. destruct (IH H) as [H1 [H2 H3]]. cbn [tails hd first_nz changes]. rewrite H1. split; [ring|]. split.
  - destruct (Req_EM_T (0 + 0) 0) as [_|Q]; [exact H2|]. exfalso. apply Q. ring.
  - rewrite H2. destruct (Rlt_dec ((0 + 0) * 0) 0) as [Q|_]; [lra|exact H3].
Qed.
(** tail sums have no more sign changes, and fewer when the total is zero or of the other sign *)
Lemma tails_changes l : first_nz l <> 0 -> (changes (tails l) + (if Rlt_dec 0 (hd 0 (tails l) * first_nz l)%R then 0 else 1) <= changes l)%nat.
Proof.
  induction l as [|a l IH]; [cbn; congruence|]. intro Hf. cbn [tails hd changes]. cbn [first_nz] in Hf |- *.
  set (t := hd 0 (tails l)) in *. destruct (Req_EM_T a 0) as [->|Ha].
  - specialize (IH Hf). rewrite Rplus_0_l. destruct (Rlt_dec (0 * first_nz l) 0) as [Q|_]; [lra|].
    destruct (Rlt_dec (t * first_nz (tails l)) 0) as [Q|_]; [|exact IH].
    exfalso. destruct (Req_EM_T t 0) as [Z0|Z0]; [rewrite Z0 in Q; lra|]. rewrite (first_nz_hd (tails l)) in Q by exact Z0. fold t in Q. nra.
  - destruct (Req_EM_T (first_nz l) 0) as [Z0|Z0].
    + destruct (tails_zero l Z0) as [H1 [H2 H3]]. fold t in H1. rewrite H1, H2, H3, Z0. destruct (Rlt_dec ((a + 0) * 0) 0) as [Q|_]; [lra|].
      destruct (Rlt_dec (a * 0) 0) as [Q|_]; [lra|]. destruct (Rlt_dec 0 ((a + 0) * a)) as [_|Q]; [lia|]. exfalso. apply Q. nra.
    + specialize (IH Z0). set (f := first_nz l) in *. set (g := first_nz (tails l)) in *.
      assert (Hg : t <> 0 -> g = t) by (apply first_nz_hd). clearbody t f g.
      destruct (Req_EM_T t 0) as [T0|T0].
      * subst t. clear Hg. rewrite Rplus_0_r in *. destruct (Rlt_dec 0 (0 * f)) as [Q|_]; [lra|].
        destruct (Rlt_dec 0 (a * a)) as [_|Q]; [|exfalso; apply Q; nra]. destruct (Rlt_dec (a * g) 0), (Rlt_dec (a * f) 0); lia.
      * rewrite (Hg T0) in *. clear Hg.
        destruct (Rtotal_order a 0) as [A|[A|A]]; [|contradiction|]; destruct (Rtotal_order t 0) as [B|[B|B]]; try contradiction;
        destruct (Rtotal_order f 0) as [C|[C|C]]; try contradiction;
        destruct (Rlt_dec 0 (t * f)) as [Q1|Q1]; try (exfalso; nra);
        destruct (Rlt_dec (a * f) 0) as [Q2|Q2]; try (exfalso; nra);
        destruct (Rlt_dec 0 ((a + t) * a)) as [Q3|Q3], (Rlt_dec ((a + t) * t) 0) as [Q4|Q4]; try lia; exfalso; nra.
Qed.
(** positive factors *)
Lemma changes_scale {Y} (f w : Y -> R) l : (forall x, In x l -> 0 < w x) ->
  changes (map (fun x => w x * f x) l) = changes (map f l) /\ exists k, 0 < k /\ first_nz (map (fun x => w x * f x) l) = k * first_nz (map f l).
Proof.
  induction l as [|x l IH]; intro H; [split; [reflexivity|]; exists 1; cbn; split; lra|].
  destruct IH as [E [k [Hk F]]]; [intros; apply H; right; assumption|]. assert (Hx : 0 < w x) by (apply H; left; reflexivity).
  cbn [map changes first_nz]. rewrite E, F. split.
  - destruct (Rlt_dec (w x * f x * (k * first_nz (map f l))) 0) as [Q|Q], (Rlt_dec (f x * first_nz (map f l)) 0) as [Q'|Q']; try reflexivity; exfalso.
    + apply Q'. apply Rnot_le_lt. intro Q2. assert (0 < w x * k) by nra. nra.
    + apply Q. assert (0 < w x * k) by nra. nra.
  - destruct (Req_EM_T (f x) 0) as [Z0|Z0].
    + destruct (Req_EM_T (w x * f x) 0) as [_|Q]; [exists k; auto|]. exfalso. apply Q. rewrite Z0. ring.
    + destruct (Req_EM_T (w x * f x) 0) as [Q|_]; [|exists (w x); auto]. exfalso. apply Rmult_integral in Q. lra.
Qed.
Lemma tails_seq (y beta : nat -> R) N : forall a, (forall m, (a <= m < a + N)%nat -> y m = beta m - beta (S m)) -> beta (a + N)%nat = 0 ->
  tails (map y (seq a N)) = map beta (seq a N) /\ hd 0 (tails (map y (seq a N))) = beta a.
Proof.
  induction N as [|N IH]; intros a H H0.
  - rewrite Nat.add_0_r in H0. cbn. split; [reflexivity|symmetry; exact H0].
  - destruct (IH (S a)) as [E1 E2]; [intros m Hm; apply H; lia|rewrite <- H0; f_equal; lia|].
    cbn [seq map tails hd]. rewrite E2, E1, H by lia. replace (beta a - beta (S a) + beta (S a)) with (beta a) by ring. split; reflexivity.
Qed.

(** ** dividing out a root to the right of the interval *)
Lemma LegP_right n x : 1 < x -> 1 <= LegP n x <= LegP (S n) x.
Proof.
  intro Hx. induction n as [|n IH]; [rewrite LegP_0, LegP_1; lra|]. split; [lra|]. pose proof (Bonnet n x) as B. pose proof (pos_INR n) as P.
  apply (Rmult_le_reg_l (INR n + 2)); [lra|]. rewrite B.
  assert (0 <= (2 * INR n + 3) * ((x - 1) * LegP (S n) x)) by (apply Rmult_le_pos; [lra|apply Rmult_le_pos; lra]).
  assert (0 <= (INR n + 1) * (LegP (S n) x - LegP n x)) by (apply Rmult_le_pos; lra). lra.
Qed.
Definition coef_of (b : nat -> R) (r : R) (n : nat) : R :=
  match n with O => - r * b 0%nat | S k => INR n / (2 * INR n - 1) * b k - r * b n end + (INR n + 1) / (2 * INR n + 3) * b (S n).
Lemma coef_shift c b r : (forall x, legseries c x = (x - r) * legseries b x) -> forall n, nth n c 0 = coef_of (fun i => nth i b 0) r n.
Proof.
  intros H n. pose proof (pos_INR n) as P. apply (Rmult_eq_reg_r (2 / (2 * INR n + 1))); [|apply norm_neq].
  apply (nint_unique (fun x => LegP n x * legseries c x) (-1) 1); [apply moment_nint|].
  destruct n as [|n].
  - apply (nint_ext (fun x => LegP 1 x * legseries b x - r * (LegP 0 x * legseries b x))); [intro x; rewrite H, LegP_0, LegP_1; ring|].
    eapply nint_val; [|apply nint_minus; [apply moment_nint|apply nint_scal; apply moment_nint]]. unfold coef_of. cbn [INR]. field.
  - apply (nint_ext (fun x => (INR n + 2) / (2 * INR n + 3) * (LegP (S (S n)) x * legseries b x) + (INR n + 1) / (2 * INR n + 3) * (LegP n x * legseries b x) - r * (LegP (S n) x * legseries b x))).
    + intro x. rewrite H. replace (LegP (S n) x * ((x - r) * legseries b x)) with (x * LegP (S n) x * legseries b x - r * (LegP (S n) x * legseries b x)) by ring. rewrite LegP_mulx. ring.
    + eapply nint_val; [|apply nint_minus; [apply nint_plus; apply nint_scal; apply moment_nint|apply nint_scal; apply moment_nint]].
      unfold coef_of. rewrite !S_INR. rewrite S_INR in P. pose proof (pos_INR n). field. repeat split; lra.
Qed.
Lemma divide_changes c b r N : (forall x, legseries c x = (x - r) * legseries b x) -> 1 < r -> length b = N -> length c = S N -> first_nz c <> 0 ->
  (changes b + 1 <= changes c)%nat.
Proof.
  intros H Hr Lb Lc Hc. pose proof (coef_shift c b r H) as HC. set (B := fun i => nth i b 0) in *.
  set (pi := fun n => LegP n r). assert (Pp : forall n, 0 < pi n) by (intro n; pose proof (LegP_right n r Hr); unfold pi; lra).
  set (D := fun n => INR n * (B n * pi (n - 1)%nat / (2 * INR n + 1) - B (n - 1)%nat * pi n / (2 * INR n - 1))).
  assert (STEP : forall n, nth n c 0 * pi n = D (S n) - D n).
  { intro n. rewrite HC. unfold D. destruct n as [|n].
    - unfold coef_of. cbn [INR Nat.sub]. unfold pi. rewrite LegP_0, LegP_1. field.
    - cbn [Nat.sub]. rewrite Nat.sub_0_r. unfold coef_of. unfold pi. rewrite (LegP_SS n r). rewrite !S_INR. pose proof (pos_INR n). field. repeat split; lra. }
  assert (D0 : D 0%nat = 0) by (unfold D; cbn [INR]; ring).
  assert (BN : forall n, (N <= n)%nat -> B n = 0) by (intros n Hn; unfold B; apply nth_overflow; lia).
  assert (DN : D (S N) = 0) by (unfold D; cbn [Nat.sub]; rewrite Nat.sub_0_r, !BN by lia; unfold Rdiv; ring).
  (* scaled coefficients and their tail sums *)
  assert (Ec : map (fun n => nth n c 0) (seq 0 (S N)) = c).
  { apply nth_ext with (d := 0) (d' := 0); [rewrite map_length, seq_length; symmetry; exact Lc|]. intros i Hi. rewrite map_length, seq_length in Hi.
    rewrite (nth_indep _ 0 (nth 0 c 0)) by (rewrite map_length, seq_length; exact Hi). rewrite (map_nth (fun n => nth n c 0)). rewrite seq_nth by exact Hi. reflexivity. }
  assert (Eb : map B (seq 0 N) = b).
  { apply nth_ext with (d := 0) (d' := 0); [rewrite map_length, seq_length; symmetry; exact Lb|]. intros i Hi. rewrite map_length, seq_length in Hi.
    rewrite (nth_indep _ 0 (B 0%nat)) by (rewrite map_length, seq_length; exact Hi). rewrite (map_nth B). rewrite seq_nth by exact Hi. reflexivity. }
  destruct (changes_scale (fun n => nth n c 0) pi (seq 0 (S N))) as [S1 [k1 [K1 F1]]]; [intros; apply Pp|].
  rewrite Ec in S1, F1. set (X := map (fun n => pi n * nth n c 0) (seq 0 (S N))) in *.
  destruct (tails_seq (fun n => pi n * nth n c 0) (fun n => - D n) (S N) 0) as [T1 T2].
  { intros m _. cbv beta. rewrite Rmult_comm, STEP. ring. }
  { cbn [Nat.add]. rewrite DN. ring. }
  fold X in T1, T2.
  assert (FX : first_nz X <> 0) by (rewrite F1; apply Rmult_integral_contrapositive_currified; [lra|exact Hc]).
  pose proof (tails_changes X FX) as C1. rewrite T2, D0, S1 in C1.
  destruct (Rlt_dec 0 (- 0 * first_nz X)) as [Q|_]; [lra|].
  (* differences of beta *)
  set (beta := fun n => B n / ((2 * INR n + 1) * pi n)).
  set (y := fun n => beta n - beta (S n)).
  assert (TY : changes (tails X) = changes (map y (seq 0 N))).
  { rewrite T1. change (seq 0 (S N)) with (0%nat :: seq 1 N). cbn [map changes]. rewrite D0. rewrite Ropp_0, Rmult_0_l. destruct (Rlt_dec 0 0) as [Q|_]; [lra|].
    rewrite <- seq_shift, map_map.
    destruct (changes_scale y (fun n => INR (S n) * pi n * pi (S n)) (seq 0 N)) as [S2 _].
    { intros n _. pose proof (Pp n). pose proof (Pp (S n)). assert (0 < INR (S n)) by (apply lt_0_INR; lia). repeat apply Rmult_lt_0_compat; assumption. }
    rewrite <- S2. f_equal. apply map_ext. intro n. unfold D, y, beta. cbn [Nat.sub]. rewrite Nat.sub_0_r. rewrite !S_INR. pose proof (pos_INR n). pose proof (Pp n). pose proof (Pp (S n)).
    field. repeat split; try lra. }
  destruct (tails_seq y beta N 0) as [T3 T4].
  { intros; reflexivity. }
  { cbn [Nat.add]. unfold beta. rewrite BN by lia. unfold Rdiv. ring. }
  assert (SB : changes (map beta (seq 0 N)) = changes b).
  { destruct (changes_scale B (fun n => / ((2 * INR n + 1) * pi n)) (seq 0 N)) as [S3 _].
    { intros n _. apply Rinv_0_lt_compat. pose proof (pos_INR n). apply Rmult_lt_0_compat; [lra|apply Pp]. }
    rewrite Eb in S3. rewrite <- S3. f_equal. apply map_ext. intro n. unfold beta, Rdiv. ring. }
  rewrite T3 in *. 
  destruct (Req_EM_T (first_nz (map y (seq 0 N))) 0) as [Z0|Z0].
  - destruct (tails_zero _ Z0) as [_ [_ Z1]]. rewrite T3, SB in Z1. lia.
  - pose proof (tails_changes _ Z0) as C2. rewrite T3, SB in C2. lia.
Qed.

(** ** a zero list *)
Lemma first_nz_0 l : first_nz l = 0 <-> forall n, nth n l 0 = 0.
Proof.
  induction l as [|x l IH]; cbn [first_nz].
  - split; [|reflexivity]. intros _ [|n]; reflexivity.
  - destruct (Req_EM_T x 0) as [->|Hx].
    + rewrite IH. split; [intros H [|n]; [reflexivity|apply H]|intros H n; apply (H (S n))].
    + split; [contradiction|intro H; destruct (Hx (H 0%nat))].
Qed.
Lemma first_nz_series l : first_nz l = 0 <-> forall x, legseries l x = 0.
Proof.
  rewrite first_nz_0. split; [intros H x; apply legseries_0; exact H|]. intros H n. rewrite (legseries_inj_nth l []).
  - destruct n; reflexivity.
  - intro x. rewrite H. reflexivity.
Qed.
(** Legendre series with M roots to the right of 1 have at least M sign changes *)
Lemma roots_changes M : forall c r g e, length c = S (M + e) -> is_poly e g -> (forall x, legseries c x = linprod M r x * g x) ->
  (forall i, (i < M)%nat -> 1 < r i) -> first_nz c <> 0 -> (M <= changes c)%nat.
Proof.
  induction M as [|M IH]; intros c r g e Lc Hg E Hr Hc; [lia|].
  assert (Hk : is_poly (M + e) (fun x => linprod M r x * g x)) by (apply is_poly_mult; [apply linprod_poly|exact Hg]).
  destruct (poly_legseries _ _ Hk) as [b [Lb Eb]].
  assert (Ec : forall x, legseries c x = (x - r M) * legseries b x) by (intro x; rewrite E, <- Eb; cbn [linprod]; ring).
  assert (Hb : first_nz b <> 0).
  { intro Z0. apply Hc. apply first_nz_series. intro x. rewrite Ec. rewrite (proj1 (first_nz_series b) Z0). ring. }
  assert (C1 : (M <= changes b)%nat).
  { apply (IH b r g e); [exact Lb|exact Hg|intro x; symmetry; apply Eb|intros; apply Hr; lia|exact Hb]. }
  pose proof (divide_changes c b (r M) (S (M + e)) Ec (Hr M (Nat.lt_succ_diag_r M)) Lb) as C2. rewrite Lc in C2. specialize (C2 eq_refl Hc). lia.
Qed.

(** ** roots inside the interval *)
Lemma linprod_ext n r r' x : (forall i, (i < n)%nat -> r i = r' i) -> linprod n r x = linprod n r' x.
Proof. induction n as [|n IH]; intro H; [reflexivity|]. cbn [linprod]. rewrite (H n) by lia. rewrite IH; [reflexivity|]. intros; apply H; lia. Qed.
Lemma factor_roots d : forall f, is_poly d f -> (exists x, f x <> 0) -> exists M r g, (M <= d)%nat /\ is_poly (d - M) g /\
  (forall x, f x = linprod M r x * g x) /\ (forall i, (i < M)%nat -> -1 < r i < 1) /\ (forall x, -1 < x < 1 -> g x <> 0).
Proof.
  induction d as [|d IH]; intros f Hf [x0 Hx0].
  - exists 0%nat, (fun _ => 0), f. split; [lia|]. split; [exact Hf|]. split; [intro; cbn; ring|]. split; [intros; lia|].
    apply is_poly_0 in Hf. destruct Hf as [k Hk]. intros x _. rewrite Hk. rewrite Hk in Hx0. exact Hx0.
  - destruct (classic (exists x, -1 < x < 1 /\ f x = 0)) as [[r0 [Hr Z0]]|Hn].
    + destruct (is_poly_factor d f r0 Hf) as [g [Hg E]]. rewrite Z0 in E.
      destruct (IH g Hg) as [M [r [g' [HM [Hg' [E' [Hr' Hnz]]]]]]].
      { exists x0. intro Q. apply Hx0. rewrite E, Q. ring. }
      exists (S M), (fun i => if (i <? M)%nat then r i else r0), g'. split; [lia|]. split; [exact Hg'|]. split; [|split; [|exact Hnz]].
      * intro x. rewrite E, E'. cbn [linprod]. rewrite Nat.ltb_irrefl. rewrite (linprod_ext M (fun i => if (i <? M)%nat then r i else r0) r); [ring|].
        intros i Hi. destruct (Nat.ltb_spec i M); [reflexivity|lia].
      * intros i Hi. destruct (Nat.ltb_spec i M); [apply Hr'; assumption|exact Hr].
    + exists 0%nat, (fun _ => 0), f. split; [lia|]. split; [exact Hf|]. split; [intro; cbn; ring|]. split; [intros; lia|].
      intros x Hx Q. apply Hn. exists x. split; assumption.
Qed.
Lemma same_sign g d x y : is_poly d g -> (forall x, -1 < x < 1 -> g x <> 0) -> -1 < x < 1 -> -1 < y < 1 -> 0 < g x * g y.
Proof.
  intros Hg Hn. assert (G : forall a b, -1 < a < 1 -> -1 < b < 1 -> a < b -> 0 < g a * g b).
  { intros a b Ha Hb Hab. pose proof (is_poly_continuous d g Hg) as C. pose proof (Hn a Ha) as Na. pose proof (Hn b Hb) as Nb.
    destruct (Rtotal_order (g a) 0) as [A|[A|A]]; [|contradiction|]; (destruct (Rtotal_order (g b) 0) as [B|[B|B]]; [|contradiction|]); try nra.
    - exfalso. destruct (sign_root g a b 0 C Hab) as [z [Hz E]]; [cbn; lra|cbn; lra|]. apply (Hn z); [lra|exact E].
    - exfalso. destruct (sign_root g a b 1 C Hab) as [z [Hz E]]; [cbn; lra|cbn; lra|]. apply (Hn z); [lra|exact E]. }
  intros Hx Hy. destruct (Rtotal_order x y) as [L|[->|L]].
  - apply G; assumption.
  - pose proof (Hn y Hy). nra.
  - rewrite Rmult_comm. apply G; assumption.
Qed.
Lemma nodes_exist d : exists xs, NoDup xs /\ length xs = S d /\ forall x, In x xs -> 0 <= x < 1.
Proof.
  exists (tab (S d) (fun i => INR i / INR (S d))). assert (Hp : 0 < INR (S d)) by (apply lt_0_INR; lia). split; [|split; [apply length_tab|]].
  - apply NoDup_tab. intros i j _ _ H. apply INR_eq. apply (Rmult_eq_reg_r (/ INR (S d))); [exact H|]. apply Rinv_neq_0_compat. lra.
  - intros x Hx. apply In_tab in Hx. destruct Hx as [i [Hi ->]]. apply lt_INR in Hi. pose proof (pos_INR i). split.
    + apply Rmult_le_pos; [assumption|]. left. apply Rinv_0_lt_compat. exact Hp.
    + apply (Rmult_lt_reg_r (INR (S d))); [exact Hp|]. unfold Rdiv. rewrite Rmult_assoc, Rinv_l by lra. lra.
Qed.
Lemma poly_zero_on d f : is_poly d f -> (forall x, -1 < x < 1 -> f x = 0) -> forall x, f x = 0.
Proof.
  intros Hf H. destruct (nodes_exist d) as [xs [N [L B]]]. apply (poly_roots_zero d f xs Hf N); [lia|].
  intros x Hx. apply H. specialize (B x Hx). lra.
Qed.
Lemma pos_poly_zero d f : is_poly d f -> (forall x, -1 < x < 1 -> 0 <= f x) -> nint f (-1) 1 0 -> forall x, f x = 0.
Proof.
  intros Hf Hp H0. destruct (is_poly_anti d f Hf) as [F [HF D]].
  assert (E : F 1 - F (-1) = 0) by (apply (nint_unique f (-1) 1); [exists F; split; [exact D|reflexivity]|exact H0]).
  assert (Mo : forall a b, -1 <= a -> a < b -> b <= 1 -> F a <= F b).
  { intros a b Ha Hab Hb. destruct (MVT_cor2 F f a b Hab) as [c [Hc Bc]]; [intros; apply D|]. assert (0 <= f c) by (apply Hp; lra). nra. }
  assert (K : forall x, F x - F (-1) = 0).
  { apply (poly_zero_on (S d)); [apply is_poly_minus; [exact HF|apply is_poly_const]|]. intros x Hx.
    pose proof (Mo (-1) x ltac:(lra) ltac:(lra) ltac:(lra)). pose proof (Mo x 1 ltac:(lra) ltac:(lra) ltac:(lra)). lra. }
  intro x. apply (uniqueness_limite F x); [apply D|]. apply (dlim_ext (fun _ => F (-1))); [intro y; specialize (K y); lra|apply dlim_const].
Qed.
(** a series without the first p+1 coefficients has more than p roots inside *)
Lemma orth_roots p q : (forall m, (m <= p)%nat -> nth m q 0 = 0) -> first_nz q <> 0 -> exists M r g,
  (p < M)%nat /\ (M <= length q - 1)%nat /\ is_poly (length q - 1 - M) g /\ (forall x, legseries q x = linprod M r x * g x) /\ (forall i, (i < M)%nat -> -1 < r i < 1).
Proof.
  intros Hq Hn. assert (HP : is_poly (length q - 1) (legseries q)) by apply legseries_poly.
  destruct (factor_roots _ _ HP) as [M [r [g [HM [Hg [E [Hr Hz]]]]]]].
  { apply not_all_not_ex. intro A. apply Hn. apply first_nz_series. intro x. apply NNPP. apply A. }
  exists M, r, g. split; [|repeat split; try assumption; apply Hr; assumption].
  destruct (Nat.lt_ge_cases p M) as [|Hle]; [assumption|exfalso].
  assert (Z : nint (fun x => linprod M r x * legseries q x) (-1) 1 0).
  { apply (nint_ext (fun x => Rsum (length q) (fun i => nth i q 0 * (linprod M r x * LegP i x)))).
    { intro x. unfold legseries. rewrite <- Rsum_scale. apply Rsum_ext. intros. ring. }
    apply (nint_val _ _ _ (Rsum (length q) (fun _ => 0))); [apply Rsum_0; reflexivity|]. apply nint_Rsum. intros i _.
    destruct (Nat.le_gt_cases i p) as [Hi|Hi].
    - rewrite Hq by exact Hi. apply (nint_ext (fun _ => 0)); [intro; ring|apply nint_0].
    - eapply nint_val; [|apply nint_scal; apply (nint_low_orth M); [apply linprod_poly|lia]]. ring. }
  assert (Z' : forall x, g 0 * (linprod M r x * legseries q x) = 0).
  { apply (pos_poly_zero (M + (length q - 1))).
    - apply is_poly_scal. apply is_poly_mult; [apply linprod_poly|exact HP].
    - intros x Hx. rewrite E. pose proof (same_sign g _ 0 x Hg Hz ltac:(lra) Hx).
      replace (g 0 * (linprod M r x * (linprod M r x * g x))) with (g 0 * g x * (linprod M r x * linprod M r x)) by ring. apply Rmult_le_pos; nra.
    - eapply nint_val; [|apply nint_scal; exact Z]. ring. }
  assert (Z2 : forall x, linprod M r x = 0).
  { apply (poly_zero_on M); [apply linprod_poly|]. intros x Hx. specialize (Z' x). rewrite E in Z'.
    pose proof (Hz 0 ltac:(lra)). pose proof (Hz x Hx). apply NNPP. intro Q.
    apply Rmult_integral in Z'. destruct Z' as [Z'|Z']; [contradiction|]. apply Rmult_integral in Z'. destruct Z' as [Z'|Z']; [contradiction|].
    apply Rmult_integral in Z'. destruct Z'; contradiction. }
  apply (linprod_neq M r 2); [intros i Hi Q; specialize (Hr i Hi); lra|apply Z2].
Qed.

(** ** counting *)
Lemma filter_map_len {Y Z} (f : Z -> bool) (h : Y -> Z) l : length (filter f (map h l)) = length (filter (fun x => f (h x)) l).
Proof. induction l as [|x l IH]; [reflexivity|]. cbn [map filter]. destruct (f (h x)); cbn [length]; rewrite IH; reflexivity. Qed.
Definition is_zero (l : list R) (i : nat) : bool := if Req_EM_T (nth i l 0) 0 then true else false.
Lemma nonzeros_count l : (nonzeros l + length (filter (is_zero l) (seq 0 (length l))) = length l)%nat.
Proof.
  induction l as [|x l IH]; [reflexivity|]. cbn [length nonzeros seq filter]. rewrite <- seq_shift.
  assert (F : length (filter (is_zero (x :: l)) (map S (seq 0 (length l)))) = length (filter (is_zero l) (seq 0 (length l)))) by (rewrite filter_map_len; reflexivity).
  unfold is_zero at 1. cbn [nth]. destruct (Req_EM_T x 0); cbn [length]; rewrite F; lia.
Qed.
Lemma nonzeros_bound l modes : NoDup modes -> (forall m, In m modes -> (m < length l)%nat /\ nth m l 0 = 0) -> (nonzeros l + length modes <= length l)%nat.
Proof.
  intros N H. pose proof (nonzeros_count l). assert (length modes <= length (filter (is_zero l) (seq 0 (length l))))%nat; [|lia].
  apply NoDup_incl_length; [exact N|]. intros m Hm. destruct (H m Hm) as [H1 H2]. apply filter_In. split; [apply in_seq; lia|]. unfold is_zero. rewrite H2.
  destruct (Req_EM_T 0 0); [reflexivity|contradiction].
Qed.

(** ** no non-zero polynomial has all those moments zero *)
Lemma no_kernel p modes q c : NoDup modes -> (forall m, In m modes -> (m <= p)%nat) -> length q = (p + length modes + 1)%nat -> length c = length q ->
  (forall m, (m <= p)%nat -> nth m q 0 = 0) -> (forall m, In m modes -> nth m c 0 = 0) -> (forall x, legseries c x = legseries q (x - 2)) -> first_nz q = 0.
Proof.
  intros ND HB Lq Lc Hq Hc E. apply NNPP. intro Hn. destruct (orth_roots p q Hq Hn) as [M [r [g [HM [HM' [Hg [F Hr]]]]]]].
  assert (Hcn : first_nz c <> 0).
  { intro Z0. apply Hn. apply first_nz_series. intro x. replace x with (x + 2 - 2) by ring. rewrite <- E. apply (proj1 (first_nz_series c) Z0). }
  assert (C : (M <= changes c)%nat).
  { apply (roots_changes M c (fun i => r i + 2) (fun x => g (1 * x + -2)) (length q - 1 - M)).
    - rewrite Lc. lia.
    - apply is_poly_affine. exact Hg.
    - intro x. rewrite E, F. replace (1 * x + -2) with (x - 2) by ring. f_equal. clear.
      induction M as [|M IH]; [reflexivity|]. cbn [linprod]. rewrite IH. ring.
    - intros i Hi. specialize (Hr i Hi). lra.
    - exact Hcn. }
  pose proof (changes_nonzeros c). assert (nonzeros c + length modes <= length c)%nat; [|lia].
  apply nonzeros_bound; [exact ND|]. intros m Hm. split; [specialize (HB m Hm); lia|apply Hc; exact Hm].
Qed.
(** reflection *)
Definition mirror (c : list R) : list R := tab (length c) (fun i => (-1) ^ i * nth i c 0).
Lemma mirror_nth c n : nth n (mirror c) 0 = (-1) ^ n * nth n c 0.
Proof.
  unfold mirror. destruct (Nat.lt_ge_cases n (length c)) as [H|H]; [rewrite nth_tab by exact H; reflexivity|].
  rewrite !nth_overflow by (try rewrite length_tab; exact H). ring.
Qed.
Lemma mirror_series c x : legseries (mirror c) x = legseries c (- x).
Proof.
  unfold legseries. replace (length (mirror c)) with (length c) by (unfold mirror; rewrite length_tab; reflexivity).
  apply Rsum_ext. intros i Hi. rewrite mirror_nth, LegP_neg. replace (if Nat.odd i then -1 else 1) with ((-1) ^ i); [ring|]. clear.
  induction i as [|i IH]; [reflexivity|]. rewrite Nat.odd_succ, <- Nat.negb_odd, pow_m1_S, IH. destruct (Nat.odd i); cbn [negb]; ring.
Qed.
Lemma no_kernel_2 p modes q d : d = 2 \/ d = -2 -> NoDup modes -> (forall m, In m modes -> (m <= p)%nat) -> length q = (p + length modes + 1)%nat ->
  (forall m, (m <= p)%nat -> nth m q 0 = 0) -> (forall m, In m modes -> nth m (shift_legendre q d) 0 = 0) -> forall n, nth n q 0 = 0.
Proof.
  intros Hd ND HB Lq Hq Hs.
  assert (Lr : exists c, length c = length q /\ forall x, legseries c x = legseries (shift_legendre q d) x).
  { assert (HP : is_poly (length q - 1) (fun x => legseries q (1 * x + d))) by (apply (is_poly_affine _ (legseries q) 1 d); apply legseries_poly).
    destruct (poly_legseries _ _ HP) as [c [L E]]. exists c. split; [lia|]. intro x. rewrite <- E, shift_legendre_ok. f_equal. ring. }
  destruct Lr as [c [Lc Ec]]. assert (Nc : forall m, nth m c 0 = nth m (shift_legendre q d) 0) by (apply legseries_inj_nth; exact Ec).
  destruct Hd as [->| ->].
  - assert (Z : first_nz (mirror q) = 0).
    { apply (no_kernel p modes (mirror q) (mirror c) ND HB).
      - unfold mirror. rewrite length_tab. exact Lq.
      - unfold mirror. rewrite !length_tab. exact Lc.
      - intros m Hm. rewrite mirror_nth, Hq by exact Hm. ring.
      - intros m Hm. rewrite mirror_nth, Nc, Hs by exact Hm. ring.
      - intro x. rewrite !mirror_series, Ec, shift_legendre_ok. apply f_equal. ring. }
    intro n. apply (Rmult_eq_reg_l ((-1) ^ n)); [|apply pow_nonzero; lra]. rewrite <- mirror_nth, Rmult_0_r. apply (proj1 (first_nz_0 (mirror q)) Z).
  - apply first_nz_0. apply (no_kernel p modes q c ND HB Lq Lc Hq).
    + intros m Hm. rewrite Nc. apply Hs. exact Hm.
    + intro x. rewrite Ec, shift_legendre_ok. apply f_equal. ring.
Qed.

(** ** injective square systems are invertible *)
Definition injective_rows (n : nat) (a : nat -> nat -> R) : Prop := forall v, (forall i, (i < n)%nat -> Rsum n (fun j => a i j * v j) = 0) -> forall j, (j < n)%nat -> v j = 0.
Lemma inj_surj n : forall a, injective_rows n a -> forall b, exists v, forall i, (i < n)%nat -> Rsum n (fun j => a i j * v j) = b i.
Proof.
  induction n as [|n IH]; intros a Ha b; [exists (fun _ => 0); intros; lia|].
  assert (Piv : exists r, (r <= n)%nat /\ a r n <> 0).
  { apply NNPP. intro N. assert (Z : (fun j => if (j =? n)%nat then 1 else 0) n = 0); [|cbv beta in Z; rewrite Nat.eqb_refl in Z; lra].
    apply (Ha (fun j => if (j =? n)%nat then 1 else 0)); [|lia]. intros i Hi. cbn [Rsum]. rewrite Nat.eqb_refl, Rsum_0.
    - rewrite Rplus_0_l, Rmult_1_r. apply NNPP. intro Q. apply N. exists i. split; [lia|exact Q].
    - intros j Hj. destruct (Nat.eqb_spec j n); [lia|ring]. }
  destruct Piv as [r [Hr Hp]]. set (sg := fun i => if (i =? r)%nat then n else i).
  assert (Sg : forall i, (i <= n)%nat -> i <> r -> exists i', (i' < n)%nat /\ sg i' = i).
  { intros i Hi Hne. unfold sg. destruct (Nat.eq_dec i n) as [->|Hn].
    - exists r. rewrite Nat.eqb_refl. split; [lia|reflexivity].
    - exists i. destruct (Nat.eqb_spec i r); [contradiction|]. split; [lia|reflexivity]. }
  assert (Sg2 : forall i, (i < n)%nat -> (sg i <= n)%nat) by (intros i Hi; unfold sg; destruct (i =? r)%nat; lia).
  set (a' := fun i j => a (sg i) j - a (sg i) n / a r n * a r j).
  assert (Ext : forall v bb, (forall i, (i < n)%nat -> Rsum n (fun j => a' i j * v j) = bb (sg i) - a (sg i) n / a r n * bb r) ->
    forall i, (i < S n)%nat -> Rsum (S n) (fun j => a i j * (if (j =? n)%nat then (bb r - Rsum n (fun j => a r j * v j)) / a r n else v j)) = bb i).
  { intros v bb H. assert (R0 : forall i, Rsum (S n) (fun j => a i j * (if (j =? n)%nat then (bb r - Rsum n (fun j => a r j * v j)) / a r n else v j)) =
      Rsum n (fun j => a i j * v j) + a i n * ((bb r - Rsum n (fun j => a r j * v j)) / a r n)).
    { intro i. cbn [Rsum]. rewrite Nat.eqb_refl. f_equal. apply Rsum_ext. intros j Hj. destruct (Nat.eqb_spec j n); [lia|reflexivity]. }
    intros i Hi. rewrite R0. destruct (Nat.eq_dec i r) as [->|Hne]; [field; exact Hp|].
    destruct (Sg i ltac:(lia) Hne) as [i' [Hi' <-]]. specialize (H i' Hi'). unfold a' in H.
    rewrite (Rsum_ext n _ (fun j => a (sg i') j * v j - a (sg i') n / a r n * (a r j * v j))) in H by (intros; ring).
    rewrite Rsum_minus, Rsum_scale in H. apply Rminus_diag_uniq.
    transitivity (Rsum n (fun j => a (sg i') j * v j) - a (sg i') n / a r n * Rsum n (fun j => a r j * v j) - (bb (sg i') - a (sg i') n / a r n * bb r)); [field; exact Hp|].
    rewrite H. ring. }
  assert (Inj : injective_rows n a').
  { intros v Hv. specialize (Ext v (fun _ => 0)). cbv beta in Ext.
    assert (H : forall i, (i < S n)%nat -> Rsum (S n) (fun j => a i j * (if (j =? n)%nat then (0 - Rsum n (fun j => a r j * v j)) / a r n else v j)) = 0).
    { apply Ext. intros i Hi. rewrite Hv by exact Hi. ring. }
    intros j Hj. pose proof (Ha _ H j ltac:(lia)) as Q. cbv beta in Q. destruct (Nat.eqb_spec j n); [lia|exact Q]. }
  destruct (IH a' Inj (fun i => b (sg i) - a (sg i) n / a r n * b r)) as [v Hv].
  eexists. exact (Ext v b Hv).
Qed.
Lemma inj_inverse n (M : mat R) : shape n n M -> injective_rows n (at2 M) -> exists Mi, is_inverse n M Mi.
Proof.
  intros SM Inj.
  destruct (finite_choice (fun _ : nat => 0) n (fun k v => forall i, (i < n)%nat -> Rsum n (fun j => at2 M i j * v j) = if (i =? k)%nat then 1 else 0)) as [g Hg].
  { intros k _. apply (inj_surj n (at2 M) Inj). }
  exists (tab2 n n (fun i j => g j i)).
  assert (R1 : forall i j, (i < n)%nat -> (j < n)%nat -> Rsum n (fun k => at2 M i k * at2 (tab2 n n (fun i j => g j i)) k j) = if (i =? j)%nat then 1 else 0).
  { intros i j Hi Hj. rewrite <- (Hg j Hj i Hi). apply Rsum_ext. intros k Hk. rewrite at2_tab2 by assumption. reflexivity. }
  split; [exact SM|]. split; [apply shape_tab2|]. split; [exact R1|].
  set (Mi := tab2 n n (fun i j => g j i)) in *. intros i j Hi Hj.
  assert (Z : forall k, (k < n)%nat -> Rsum n (fun l => at2 Mi k l * at2 M l j) - (if (k =? j)%nat then 1 else 0) = 0).
  { apply (Inj (fun k => Rsum n (fun l => at2 Mi k l * at2 M l j) - (if (k =? j)%nat then 1 else 0))). intros k Hk.
    rewrite (Rsum_ext n _ (fun k' => Rsum n (fun l => at2 M k k' * at2 Mi k' l * at2 M l j) - at2 M k k' * (if (k' =? j)%nat then 1 else 0))).
    2:{ intros k' Hk'. rewrite Rmult_minus_distr_l. f_equal. rewrite <- Rsum_scale. apply Rsum_ext. intros. ring. }
    rewrite Rsum_minus, Rsum_swap. transitivity (at2 M k j - at2 M k j); [f_equal|ring].
    - rewrite (Rsum_single n k); [|exact Hk|].
      + rewrite Rsum_scale_r, R1 by assumption. rewrite Nat.eqb_refl. ring.
      + intros l Hl Hne. rewrite Rsum_scale_r, R1 by assumption. destruct (Nat.eqb_spec k l); [congruence|ring].
    - rewrite (Rsum_single n j); [|exact Hj|].
      + rewrite Nat.eqb_refl. ring.
      + intros l Hl Hne. destruct (Nat.eqb_spec l j); [congruence|ring]. }
  specialize (Z i Hi). lra.
Qed.

(** ** the enhancement matrix is invertible *)
Lemma enh_invertible p modes d : d = 2 \/ d = -2 -> NoDup modes -> (forall m, In m modes -> (m <= p)%nat) ->
  exists Mi, is_inverse (p + length modes + 1) (enhancement_A p modes d) Mi.
Proof.
  intros Hd ND HB. apply inj_inverse; [apply enh_shape|]. intros v Hv. set (n := (p + length modes + 1)%nat) in *.
  set (q := tab n v). assert (Lq : length q = n) by apply length_tab.
  assert (Hq : forall m, (m <= p)%nat -> nth m q 0 = 0).
  { intros m Hm. specialize (Hv m ltac:(unfold n; lia)). rewrite (Rsum_single n m) in Hv.
    - rewrite enh_entry_top in Hv by (try fold n; unfold n in *; lia). rewrite Nat.eqb_refl, Rmult_1_l in Hv. unfold q. rewrite nth_tab by (unfold n; lia). exact Hv.
    - unfold n; lia.
    - intros j Hj Hne. rewrite enh_entry_top by (try exact Hj; lia). destruct (Nat.eqb_spec m j); [congruence|ring]. }
  assert (Hs : forall m, In m modes -> nth m (shift_legendre q d) 0 = 0).
  { intros m Hm. apply In_nth with (d := 0%nat) in Hm. destruct Hm as [t [Ht <-]]. specialize (Hv (p + 1 + t)%nat ltac:(unfold n; lia)). eapply eq_trans; [|exact Hv]. rewrite shift_coef, Lq.
    apply Rsum_ext. intros j Hj. rewrite enh_entry_low by assumption. unfold q. rewrite nth_tab by exact Hj. reflexivity. }
  intros j Hj. pose proof (no_kernel_2 p modes q d Hd ND HB Lq Hq Hs j) as Z. unfold q in Z. rewrite nth_tab in Z by exact Hj. exact Z.
Qed.
