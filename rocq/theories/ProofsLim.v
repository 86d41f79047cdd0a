(** Hierarchical reconstruction (C36-C39, C41). *)
From Coq Require Import ZArith List Bool Arith Reals Lra Lia.
From Verif Require Import Num Py Lib LegNumpy Ext Basis Limiting RealLib SpecDG SpecPoly SpecLimit
  ProofsPoly ProofsLeg ProofsGauss ProofsDG ProofsBasis.
Import ListNotations.
Open Scope R_scope.

(** ** minmod *)
Lemma scalar_minmod_ok a b : scalar_minmod a b = minmod a b.
Proof.
  unfold scalar_minmod, pysorted, minmod, n0. cbn [fold_left insert_sorted forallb]. numR.
  unfold Rltb. destruct (Rlt_dec b a); cbn [insert_sorted forallb andb]; numR; unfold Rltb;
  repeat match goal with |- context [Rlt_dec ?x ?y] => destruct (Rlt_dec x y); cbn [nth insert_sorted forallb andb] end; cbn [nth];
  destruct (Rle_dec (a * b) 0); try (destruct (Rle_dec (Rabs a) (Rabs b)) as [K|K]); unfold Rabs in *;
  repeat match goal with |- context [Rcase_abs ?x] => destruct (Rcase_abs x) | H : context [Rcase_abs ?x] |- _ => destruct (Rcase_abs x) end;
  try lra; try nra.
Qed.
Lemma minmod_same a : minmod a a = a.
Proof. unfold minmod. destruct (Rle_dec (a * a) 0); [nra|]. destruct (Rle_dec (Rabs a) (Rabs a)); lra. Qed.
Lemma minmod_sym a b : minmod a b = minmod b a.
Proof.
  unfold minmod. rewrite (Rmult_comm b a). destruct (Rle_dec (a * b) 0); [reflexivity|].
  destruct (Rle_dec (Rabs a) (Rabs b)), (Rle_dec (Rabs b) (Rabs a)); try reflexivity; try lra.
  unfold Rabs in *. repeat match goal with |- context [Rcase_abs ?x] => destruct (Rcase_abs x) | H : context [Rcase_abs ?x] |- _ => destruct (Rcase_abs x) end; nra.
Qed.
Lemma minmod_scale k a b : minmod (k * a) (k * b) = k * minmod a b.
Proof.
  unfold minmod. rewrite !Rabs_mult.
  destruct (Req_dec k 0) as [->|Hk].
  { destruct (Rle_dec (0 * a * (0 * b)) 0); [|nra]. ring. }
  assert (Hk2 : 0 < k * k) by nra. pose proof (Rabs_pos_lt k Hk).
  destruct (Rle_dec (k * a * (k * b)) 0), (Rle_dec (a * b) 0); try ring; try nra.
  destruct (Rle_dec (Rabs k * Rabs a) (Rabs k * Rabs b)), (Rle_dec (Rabs a) (Rabs b)); try reflexivity; try nra.
Qed.
Lemma minmod_bound a b : Rabs (minmod a b) <= Rabs a /\ Rabs (minmod a b) <= Rabs b /\ 0 <= minmod a b * a /\ 0 <= minmod a b * b.
Proof.
  unfold minmod. pose proof (Rabs_pos a). pose proof (Rabs_pos b).
  destruct (Rle_dec (a * b) 0); [rewrite Rabs_R0; repeat split; lra|].
  destruct (Rle_dec (Rabs a) (Rabs b)); repeat split; try lra; nra.
Qed.

(** ** the loop, over any arithmetic *)
Section Loop.
  Context {A : Type} {N : Num A}.
  Lemma length_vset (v : vec A) i x : length (vset v i x) = length v.
  Proof.
    unfold vset. destruct (Nat.ltb_spec i (length v)); [|reflexivity].
    rewrite app_length, app_length, firstn_length, skipn_length. cbn [length]. lia.
  Qed.
  Lemma at1_vset (v : vec A) i x j : (i < length v)%nat -> at1 (vset v i x) j = if (j =? i)%nat then x else at1 v j.
  Proof.
    intro H. unfold vset. destruct (Nat.ltb_spec i (length v)); [|lia]. unfold at1.
    destruct (Nat.eqb_spec j i) as [->|Hne].
    - rewrite app_nth2; rewrite firstn_length, Nat.min_l by lia; [|lia]. rewrite Nat.sub_diag. reflexivity.
    - destruct (Nat.ltb_spec j i).
      + rewrite app_nth1 by (rewrite firstn_length; lia). apply nth_firstn'. lia.
      + rewrite app_nth2 by (rewrite firstn_length; lia). rewrite firstn_length, Nat.min_l by lia.
        rewrite app_nth2 by (cbn [length]; lia). rewrite nth_skipn'. f_equal. cbn [length]. lia.
  Qed.
  (** a candidate only looks at the coefficients above its own *)
  Lemma candidates_ext (ac al ar v w : vec A) m : (forall n, (m < n)%nat -> at1 v n = at1 w n) ->
    hr_candidates ac al ar v m = hr_candidates ac al ar w m.
  Proof.
    intro H. unfold hr_candidates.
    assert (E : forall g, map (fun n => nmul (at1 v n) (g n)) (seq (m + 1) (length ac - 1 - m))
                        = map (fun n => nmul (at1 w n) (g n)) (seq (m + 1) (length ac - 1 - m))).
    { intro g. apply map_ext_in. intros n Hn. apply in_seq in Hn. rewrite H by lia. reflexivity. }
    rewrite (E (fun n => integrate_monomial_derivative_bounds (m - 1) n (-3) (-1))),
            (E (fun n => integrate_monomial_derivative (m - 1) n)),
            (E (fun n => integrate_monomial_derivative_bounds (m - 1) n 1 3)). reflexivity.
  Qed.
  Lemma hr_loop_spec (ac al ar : vec A) m : forall v a v' a', (m < length v)%nat -> hr_loop ac al ar m v a = (v', a') ->
    length v' = length v /\
    (forall n, (m < n)%nat \/ n = 0%nat -> at1 v' n = at1 v n) /\
    (forall n, (1 <= n <= m)%nat -> at1 v' n = fst (hr_candidates ac al ar v' n)) /\
    (m = 0%nat -> a' = a) /\ ((1 <= m)%nat -> a' = Some (snd (hr_candidates ac al ar v' 1))).
  Proof.
    induction m as [|m IH]; intros v a v' a' Hm H; cbn [hr_loop] in H.
    - injection H as <- <-. repeat split; intros; try reflexivity; lia.
    - destruct (hr_candidates ac al ar v (S m)) as [c avg] eqn:E.
      apply IH in H; [|rewrite length_vset; lia]. destruct H as [H1 [H2 [H3 [H4 H5]]]].
      rewrite length_vset in H1.
      assert (E2 : forall n, (S m < n)%nat -> at1 v' n = at1 v n).
      { intros n Hn. rewrite H2 by lia. rewrite at1_vset by lia. destruct (Nat.eqb_spec n (S m)); [lia|reflexivity]. }
      assert (E3 : hr_candidates ac al ar v' (S m) = (c, avg)) by (rewrite <- E; apply candidates_ext; exact E2).
      split; [exact H1|]. split; [|split; [|split]].
      + intros n Hn. rewrite H2 by lia. rewrite at1_vset by lia. destruct (Nat.eqb_spec n (S m)); [lia|reflexivity].
      + intros n Hn. destruct (Nat.eq_dec n (S m)) as [->|].
        * rewrite E3. cbn [fst]. rewrite H2 by lia. rewrite at1_vset by lia. rewrite Nat.eqb_refl. reflexivity.
        * apply H3. lia.
      + lia.
      + intros _. destruct m; [rewrite H4 by reflexivity; rewrite E3; reflexivity|apply H5; lia].
  Qed.
  (** limit_monomial: what the returned coefficients satisfy *)
  Lemma limit_monomial_spec (ac al ar v : vec A) : limit_monomial ac al ar = Ok v <->
    (2 <= length ac)%nat /\ length v = length ac /\
    (forall n, (1 <= n < length ac)%nat -> at1 v n = fst (hr_candidates ac al ar v n)) /\
    at1 v 0 = snd (hr_candidates ac al ar v 1).
  Proof.
    unfold limit_monomial.
    destruct (hr_loop ac al ar (length ac - 1) (zeros (length ac)) None) as [w a] eqn:E.
    destruct (Nat.ltb_spec (length ac) 2) as [Hs|Hl].
    - assert (length ac - 1 = 0)%nat as Em by lia. rewrite Em in E. cbn [hr_loop] in E. injection E as <- <-.
      split; [discriminate|lia].
    - apply hr_loop_spec in E; [|rewrite length_zeros; lia]. rewrite length_zeros in E.
      destruct E as [H1 [H2 [H3 [_ H5]]]]. rewrite H5 by lia.
      set (a0 := snd (hr_candidates ac al ar w 1)).
      assert (P : length (vset w 0 a0) = length ac /\
        (forall n, (1 <= n < length ac)%nat -> at1 (vset w 0 a0) n = fst (hr_candidates ac al ar (vset w 0 a0) n)) /\
        at1 (vset w 0 a0) 0 = snd (hr_candidates ac al ar (vset w 0 a0) 1)).
      { assert (Ev : forall n, (1 <= n)%nat -> at1 (vset w 0 a0) n = at1 w n).
        { intros n Hn. rewrite at1_vset by lia. destruct (Nat.eqb_spec n 0); [lia|reflexivity]. }
        split; [rewrite length_vset; exact H1|]. split.
        - intros n Hn. rewrite Ev by lia. rewrite H3 by lia. f_equal. apply candidates_ext. intros k Hk. symmetry. apply Ev. lia.
        - rewrite at1_vset by lia. cbn [Nat.eqb]. unfold a0. f_equal. apply candidates_ext. intros k Hk. symmetry. apply Ev. lia. }
      split.
      + intro H. assert (v = vset w 0 a0) as -> by congruence. tauto.
      + intros [_ [Q1 [Q2 Q3]]]. f_equal. destruct P as [P1 [P2 P3]].
        assert (K : forall k n, (1 <= n)%nat -> (length ac <= n + k)%nat -> at1 (vset w 0 a0) n = at1 v n).
        { induction k as [|k IHk]; intros n Hn Hk.
          - unfold at1. rewrite !nth_overflow by lia. reflexivity.
          - destruct (Nat.ltb_spec n (length ac)); [|unfold at1; rewrite !nth_overflow by lia; reflexivity].
            rewrite P2, Q2 by lia. f_equal. apply candidates_ext. intros j Hj. apply IHk; lia. }
        apply (list_ext (n0 : A)); [lia|]. intros n Hn.
        destruct n; [|apply (K (length ac)); lia].
        change (at1 (vset w 0 a0) 0 = at1 v 0). rewrite P3, Q3. f_equal. apply candidates_ext. intros j Hj. apply (K (length ac)); lia.
  Qed.
  Lemma limit_monomial_total (ac al ar : vec A) : (2 <= length ac)%nat -> exists v, limit_monomial ac al ar = Ok v.
  Proof.
    intro H. unfold limit_monomial.
    destruct (hr_loop ac al ar (length ac - 1) (zeros (length ac)) None) as [w a] eqn:E.
    apply hr_loop_spec in E; [|rewrite length_zeros; lia]. destruct E as [_ [_ [_ [_ H5]]]]. rewrite H5 by lia. eauto.
  Qed.
  Lemma limit_monomial_0 (ac al ar : vec A) : (length ac <= 1)%nat -> limit_monomial ac al ar = Raise UnboundLocalError.
  Proof. intro H. unfold limit_monomial. replace (length ac - 1)%nat with 0%nat by lia. reflexivity. Qed.
End Loop.

(** ** Taylor series *)
Definition mono (n : nat) (x : R) : R := x ^ n / INR (fact n).
Lemma INR_fact_S n : INR (fact (S n)) = (INR n + 1) * INR (fact n).
Proof. rewrite fact_simpl, mult_INR, S_INR. reflexivity. Qed.
Lemma mono_deriv n x : derivable_pt_lim (mono (S n)) x (mono n x).
Proof.
  unfold mono. eapply dlim_ext; [|eapply dlim_eq; [|apply (dlim_scal (/ INR (fact (S n)))), (dlim_pow n x)]].
  - intro y. cbv beta. unfold Rdiv. ring.
  - rewrite INR_fact_S, S_INR. pose proof (pos_INR n). pose proof (INR_fact_neq_0 n). field. split; [assumption|lra].
Qed.
Lemma mono_0 x : mono 0 x = 1. Proof. unfold mono. cbn. field. Qed.
Lemma taylor_nil x : taylor [] x = 0. Proof. reflexivity. Qed.
Lemma taylor_to m a x : (length a <= m)%nat -> taylor a x = Rsum m (fun n => nth n a 0 * mono n x).
Proof.
  intro H. unfold taylor. replace m with (length a + (m - length a))%nat by lia. rewrite Rsum_app.
  rewrite (Rsum_0 (m - length a)); [unfold mono; ring|]. intros i Hi. rewrite nth_overflow by lia. ring.
Qed.
Lemma taylor_mono a x : taylor a x = Rsum (length a) (fun n => nth n a 0 * mono n x).
Proof. apply taylor_to. lia. Qed.
Lemma taylor_cons v a x : taylor (v :: a) x = v + Rsum (length a) (fun n => nth n a 0 * mono (S n) x).
Proof. rewrite taylor_mono. cbn [length]. rewrite Rsum_S_l. cbn [nth]. rewrite mono_0. ring. Qed.
Lemma taylor_deriv v a x : derivable_pt_lim (taylor (v :: a)) x (taylor a x).
Proof.
  eapply dlim_ext; [intro y; symmetry; apply taylor_cons|].
  eapply dlim_eq; [|apply dlim_plus; [apply dlim_const|apply (dlim_Rsum (length a) (fun n y => nth n a 0 * mono (S n) y) (fun n => nth n a 0 * mono n x))]].
  - cbv beta. rewrite taylor_mono. ring.
  - intros i _. apply dlim_scal, mono_deriv.
Qed.
Lemma taylor_poly a d : (length a <= S d)%nat -> is_poly d (taylor a).
Proof.
  intro H. exists (tab (S d) (fun n => nth n a 0 / INR (fact n))). intro x. rewrite (taylor_to (S d)) by exact H.
  apply Rsum_ext. intros i Hi. rewrite nth_tab by exact Hi. unfold mono, Rdiv. ring.
Qed.
Lemma pow0_S n : 0 ^ S n = 0. Proof. cbn. ring. Qed.
Lemma taylor_at0 v a : taylor (v :: a) 0 = v.
Proof. rewrite taylor_cons. rewrite Rsum_0; [ring|]. intros i _. unfold mono. rewrite pow0_S. unfold Rdiv. ring. Qed.
Lemma taylor_inj a : forall b, length a = length b -> (forall x, taylor a x = taylor b x) -> a = b.
Proof.
  induction a as [|v a IH]; intros [|w b] L H; try discriminate; [reflexivity|].
  assert (v = w) as -> by (rewrite <- (taylor_at0 v a), <- (taylor_at0 w b); apply H). f_equal. apply IH; [cbn in L; lia|].
  intro x. apply (uniqueness_limite (taylor (w :: a)) x); [apply taylor_deriv|].
  eapply dlim_ext; [|apply taylor_deriv]. intro y. symmetry. apply H.
Qed.
(** coefficients of a polynomial *)
Lemma poly_taylor d f : is_poly d f -> exists a, length a = S d /\ forall x, f x = taylor a x.
Proof.
  intros [a H]. exists (tab (S d) (fun n => nth n a 0 * INR (fact n))). split; [apply length_tab|]. intro x. rewrite H.
  rewrite (taylor_to (S d)) by (rewrite length_tab; lia). apply Rsum_ext. intros i Hi. rewrite nth_tab by exact Hi.
  unfold mono. field. apply INR_fact_neq_0.
Qed.
(** derivatives: dropping coefficients *)
Lemma taylor_shift_skip c a k : forall b, length a = length b -> (forall x, taylor a x = taylor b (x + c)) ->
  forall x, taylor (skipn k a) x = taylor (skipn k b) (x + c).
Proof.
  revert a. induction k as [|k IH]; intros a b L H x; [apply H|]. destruct a as [|v a], b as [|w b]; try discriminate; [reflexivity|].
  cbn [skipn]. apply IH; [cbn in L; lia|]. intro y. apply (uniqueness_limite (taylor (v :: a)) y); [apply taylor_deriv|].
  eapply dlim_ext; [intro z; symmetry; apply H|].
  pose proof (dlim_affine (taylor (w :: b)) 1 c y (taylor b (y + c))) as D. rewrite !Rmult_1_l in D.
  eapply dlim_ext; [|apply D, taylor_deriv]. intro z. cbv beta. f_equal. ring.
Qed.
(** integrals *)
Definition mono_int (n : nat) (a b : R) : R := (b ^ S n - a ^ S n) / INR (fact (S n)).
Lemma mono_nint n a b : nint (mono n) a b (mono_int n a b).
Proof. eapply nint_val; [|apply (nint_deriv (mono (S n))); intro; apply mono_deriv]. unfold mono_int, mono, Rdiv. ring. Qed.
Lemma taylor_nint v a b m : (length v <= m)%nat -> nint (taylor v) a b (Rsum m (fun n => nth n v 0 * mono_int n a b)).
Proof.
  intro H. eapply nint_ext; [intro x; symmetry; apply (taylor_to m v x H)|].
  apply (nint_Rsum m (fun n x => nth n v 0 * mono n x) (fun n => nth n v 0 * mono_int n a b)). intros i _. apply nint_scal, mono_nint.
Qed.
Lemma nint_shift f g a b c v : (forall x, f x = g (x + c)) -> nint f a b v -> nint g (a + c) (b + c) v.
Proof.
  intros E [F [HF Hv]]. exists (fun x => F (x - c)). split.
  - intro x. pose proof (dlim_affine F 1 (- c) x (f (x - c))) as D. rewrite !Rmult_1_l in D.
    assert (E2 : g x = f (x - c)) by (rewrite E; f_equal; ring). rewrite E2.
    eapply dlim_ext; [|apply D; replace (x + - c) with (x - c) by ring; apply HF]. intro y. cbv beta. f_equal. ring.
  - rewrite Hv. f_equal; f_equal; ring.
Qed.

(** the integral tables *)
Lemma monomial_integral k n : (k <= n)%nat -> integrate_monomial_derivative k n = mono_int (n - k) (-1) 1.
Proof.
  intro H. unfold integrate_monomial_derivative, mono_int, nfact, n0. numR.
  replace (n - k + 1)%nat with (S (n - k)) by lia. rewrite <- INR_IZR_INZ, pow1.
  assert (E : (-1) ^ S (n - k) = if Nat.odd (S (n - k)) then -1 else 1).
  { pose proof (LegP_atm1 (S (n - k))) as H1. pose proof (proj1 (LegP_ends (S (n - k)))) as H2. rewrite H2 in H1. exact H1. }
  rewrite E. destruct (Nat.odd (S (n - k))); unfold Rdiv; ring.
Qed.
Lemma monomial_integral_bounds k n a b : (k <= n)%nat -> integrate_monomial_derivative_bounds k n a b = mono_int (n - k) (IZR a) (IZR b).
Proof.
  intro H. unfold integrate_monomial_derivative_bounds, mono_int, nfact. numR.
  replace (n - k + 1)%nat with (S (n - k)) by lia. rewrite <- INR_IZR_INZ, minus_IZR, !pow_IZR. reflexivity.
Qed.
Lemma nsum_seq (f : nat -> R) a n : nsum (map f (seq a n)) = Rsum n (fun i => f (a + i)%nat).
Proof.
  rewrite <- nsum_tab. f_equal. unfold tab. revert a. induction n as [|n IH]; intro a; [reflexivity|].
  cbn [seq map]. f_equal; [f_equal; lia|]. rewrite IH, <- seq_shift, map_map. apply map_ext. intro i. f_equal. lia.
Qed.

(** the averages of hr_candidates as integrals: derivative number m-1 of the cell polynomials and of
    the remainder made of the limited coefficients above m *)
Definition rem (m : nat) (v : list R) : list R := 0 :: 0 :: skipn (m + 1) v.
Lemma nth_rem m v i : (2 <= i)%nat -> nth i (rem m v) 0 = nth (m - 1 + i) v 0 \/ m = 0%nat.
Proof.
  intro H. destruct m; [right; reflexivity|left]. unfold rem. destruct i as [|[|i]]; try lia. cbn [nth]. rewrite nth_skipn'. f_equal. lia.
Qed.
Definition dint (k : nat) (v : list R) (a b : R) : R := Rsum (length v - k) (fun i => nth (k + i) v 0 * mono_int i a b).
Lemma dint_nint k v a b : nint (taylor (skipn k v)) a b (dint k v a b).
Proof.
  eapply nint_val; [|apply (taylor_nint _ _ _ (length v - k)); rewrite skipn_length; lia].
  unfold dint. apply Rsum_ext. intros i _. rewrite nth_skipn'. reflexivity.
Qed.
Lemma candidates_R (ac al ar v : list R) m : (1 <= m < length ac)%nat -> length al = length ac -> length ar = length ac -> length v = length ac ->
  hr_candidates ac al ar v m =
   (let R0 a b := dint (m - 1) v a b - (nth (m - 1) v 0 * mono_int 0 a b + nth m v 0 * mono_int 1 a b) in
    let avgL := / 2 * (dint (m - 1) al (-1) 1 - R0 (-3) (-1)) in
    let avgC := / 2 * (dint (m - 1) ac (-1) 1 - R0 (-1) 1) in
    let avgR := / 2 * (dint (m - 1) ar (-1) 1 - R0 1 3) in
    (minmod (/ 2 * (avgC - avgL)) (/ 2 * (avgR - avgC)), avgC)).
Proof.
  intros Hm Hl Hr Hv. unfold hr_candidates.
  assert (E1 : forall a : list R, length a = length ac ->
     nsum (map (fun n => nmul (at1 a n) (integrate_monomial_derivative (m - 1) n)) (seq (m - 1) (length ac - 1 + 2 - m))) = dint (m - 1) a (-1) 1).
  { intros a La. rewrite nsum_seq. unfold dint. rewrite La. replace (length ac - 1 + 2 - m)%nat with (length ac - (m - 1))%nat by lia.
    apply Rsum_ext. intros i Hi. rewrite monomial_integral by lia. numR. unfold at1. f_equal. f_equal. lia. }
  assert (E2 : forall (g : nat -> R) a b, (forall n, (m - 1 <= n)%nat -> g n = mono_int (n - (m - 1)) a b) ->
     nsum (map (fun n => nmul (at1 v n) (g n)) (seq (m + 1) (length ac - 1 - m))) =
     dint (m - 1) v a b - (nth (m - 1) v 0 * mono_int 0 a b + nth m v 0 * mono_int 1 a b)).
  { intros g a b Hg. rewrite nsum_seq. unfold dint. rewrite Hv. replace (length ac - (m - 1))%nat with (2 + (length ac - 1 - m))%nat by lia.
    rewrite Rsum_app. cbn [Rsum]. replace (m - 1 + 0)%nat with (m - 1)%nat by lia. replace (m - 1 + 1)%nat with m by lia.
    rewrite (Rsum_ext _ _ (fun i => nth (m - 1 + (2 + i)) v 0 * mono_int (2 + i) a b)); [ring|].
    intros i Hi. rewrite Hg by lia. numR. unfold at1. f_equal; [f_equal; lia|f_equal; lia]. }
  rewrite (E1 al Hl), (E1 ac eq_refl), (E1 ar Hr).
  rewrite (E2 (fun n => integrate_monomial_derivative_bounds (m - 1) n (-3) (-1)) (-3) (-1)) by (intros; apply (monomial_integral_bounds (m - 1) n (-3) (-1)); lia).
  rewrite (E2 (fun n => integrate_monomial_derivative (m - 1) n) (-1) 1) by (intros; apply monomial_integral; lia).
  rewrite (E2 (fun n => integrate_monomial_derivative_bounds (m - 1) n 1 3) 1 3) by (intros; apply (monomial_integral_bounds (m - 1) n 1 3); lia).
  rewrite scalar_minmod_ok. cbv zeta. unfold nhalf, lit. numR. replace (1 / 2) with (/ 2) by field. reflexivity.
Qed.
Lemma mono_int_0 a b : mono_int 0 a b = b - a. Proof. unfold mono_int. cbn. field. Qed.
Lemma mono_int_1 a b : mono_int 1 a b = (b * b - a * a) / 2. Proof. unfold mono_int. cbn [fact Nat.mul Nat.add INR pow]. field. Qed.

(** C36, monomial form *)
Lemma monomial_mean (ac al ar v : list R) : length al = length ac -> length ar = length ac -> limit_monomial ac al ar = Ok v ->
  length v = length ac /\ forall t, nint (taylor ac) (-1) 1 t -> nint (taylor v) (-1) 1 t.
Proof.
  intros Hl Hr H. apply limit_monomial_spec in H. destruct H as [L2 [Lv [_ H0]]]. split; [exact Lv|]. intros t Ht.
  rewrite candidates_R in H0 by (assumption || lia). cbn [snd] in H0. cbv zeta in H0. replace (1 - 1)%nat with 0%nat in H0 by lia.
  rewrite mono_int_0, mono_int_1 in H0. pose proof (nint_unique _ _ _ _ _ Ht (dint_nint 0 ac (-1) 1)) as ->.
  eapply nint_val; [|apply (dint_nint 0 v (-1) 1)]. unfold at1 in H0. numR. lra.
Qed.
(** C38, monomial form *)
Lemma monomial_identity (ac al ar : list R) : (2 <= length ac)%nat -> length al = length ac -> length ar = length ac ->
  (forall x, taylor al x = taylor ac (x + -2)) -> (forall x, taylor ar x = taylor ac (x + 2)) ->
  limit_monomial ac al ar = Ok ac.
Proof.
  intros L2 Hl Hr El Er. apply limit_monomial_spec. split; [exact L2|]. split; [reflexivity|].
  assert (K : forall m, (1 <= m < length ac)%nat -> hr_candidates ac al ar ac m = (nth m ac 0, nth (m - 1) ac 0)).
  { intros m Hm. rewrite candidates_R by (assumption || reflexivity). cbv zeta.
    assert (D1 : dint (m - 1) al (-1) 1 = dint (m - 1) ac (-3) (-1)).
    { apply (nint_unique (taylor (skipn (m - 1) ac)) (-3) (-1)); [|apply dint_nint].
      replace (-3) with (-1 + -2) by ring. replace (-1) with (1 + -2) at 2 by ring.
      apply (nint_shift (taylor (skipn (m - 1) al))); [apply taylor_shift_skip; assumption|apply dint_nint]. }
    assert (D2 : dint (m - 1) ar (-1) 1 = dint (m - 1) ac 1 3).
    { apply (nint_unique (taylor (skipn (m - 1) ac)) 1 3); [|apply dint_nint].
      replace 3 with (1 + 2) by ring. replace 1 with (-1 + 2) at 1 by ring.
      apply (nint_shift (taylor (skipn (m - 1) ar))); [apply taylor_shift_skip; assumption|apply dint_nint]. }
    rewrite D1, D2, !mono_int_0, !mono_int_1.
    match goal with |- (minmod ?x ?y, ?z) = _ => replace x with (nth m ac 0) by field; replace y with (nth m ac 0) by field; replace z with (nth (m - 1) ac 0) by field end.
    rewrite minmod_same. reflexivity. }
  split; [intros n Hn; rewrite K by exact Hn; reflexivity|rewrite K by lia; reflexivity].
Qed.

(** ** the transforms between Legendre and Taylor coefficients *)
Section Maps.
  Context {X : Ext R}.
  Hypothesis G : gauss_ok.
  Hypothesis I : inv_ok.
  Variable p : nat.
  Let n := (p + 1)%nat.
  Let b := Basis (A:=R) p.
  Lemma length_dotv (M : mat R) v : length (dotv M v) = length M. Proof. apply map_length. Qed.
  Lemma at1_dotv r c (M : mat R) v i : shape r c M -> (i < r)%nat -> length v = c -> at1 (dotv M v) i = Rsum c (fun j => at2 M i j * at1 v j).
  Proof.
    intros S Hi Lv. change (nth i (map (fun r => vdot r v) M) 0 = Rsum c (fun j => at2 M i j * at1 v j)).
    rewrite (nth_indep _ 0 (vdot [] v)) by (rewrite map_length; eapply Nat.lt_le_trans; [exact Hi|apply Nat.eq_le_incl; symmetry; exact (proj1 S)]).
    rewrite (map_nth (fun r => vdot r v)). change (nth i M []) with (row M i).
    rewrite (vdot_R _ _ c); [reflexivity|apply (shape_row r); assumption|exact Lv].
  Qed.
  Lemma Ns_b : b_Ns b = n. Proof. unfold b_Ns, b. rewrite Basis_eq. reflexivity. Qed.
  Lemma len_x : length (b_x b) = n. Proof. apply (G_len G). Qed.
  Lemma V_shape : shape n n (hr_V b).
  Proof. unfold hr_V. rewrite Ns_b. split; [apply length_tab2|]. intros r Hr. apply In_nth with (d := []) in Hr. destruct Hr as [i [Hi <-]]. rewrite length_tab2 in Hi. change (length (row (tab2 n n (fun i j => ndiv (npown (at1 (b_x b) i) j) (nfact j))) i) = n). rewrite row_tab2 by exact Hi. apply length_tab. Qed.
  Lemma npown_R (x : R) k : npown x k = x ^ k.
  Proof. induction k as [|k IH]; [reflexivity|]. cbn [npown pow]. rewrite IH. reflexivity. Qed.
  Lemma V_entry i j : (i < n)%nat -> (j < n)%nat -> at2 (hr_V b) i j = mono j (nth i (b_x b) 0).
  Proof.
    intros Hi Hj. unfold hr_V. rewrite Ns_b, at2_tab2 by assumption. rewrite npown_R. unfold mono, nfact, at1. numR. rewrite <- INR_IZR_INZ. reflexivity.
  Qed.
  Lemma phi_shape : shape n n (b_phi b).
  Proof.
    unfold b. rewrite Basis_eq. cbn [b_phi]. pose proof len_x as Lx. unfold b in Lx. rewrite Basis_eq in Lx. cbn [b_x] in Lx.
    split; [unfold basis_phi; rewrite length_tab; exact Lx|]. intros r Hr. unfold basis_phi in Hr. apply In_nth with (d := []) in Hr.
    destruct Hr as [i [Hi <-]]. rewrite length_tab in Hi. rewrite nth_tab by exact Hi. apply length_tab.
  Qed.
  Lemma nodes_eq f g : is_poly p f -> is_poly p g -> (forall i, (i < n)%nat -> f (nth i (b_x b) 0) = g (nth i (b_x b) 0)) -> forall x, f x = g x.
  Proof.
    intros Hf Hg H. apply (poly_eq_nodes p f g (b_x b)); [assumption|assumption|apply (gr_nodup _ _ _ (G_rule G p))|rewrite len_x; unfold n; lia|].
    intros x Hx. apply In_nth with (d := 0) in Hx. destruct Hx as [i [Hi <-]]. apply H. rewrite len_x in Hi. exact Hi.
  Qed.
  (** V has an inverse *)
  Lemma V_invertible : exists Vi, is_inverse n (hr_V b) Vi.
  Proof.
    pose proof (gr_nodup _ _ _ (G_rule G p)) as ND. fold b in ND.
    assert (ND' : forall i j, (i < n)%nat -> (j < n)%nat -> nth i (b_x b) 0 = nth j (b_x b) 0 -> i = j).
    { intros i j Hi Hj E. apply (proj1 (NoDup_nth (b_x b) 0) ND); rewrite ?len_x; assumption. }
    assert (C : forall k, (k < n)%nat -> exists a, length a = n /\ forall i, (i < n)%nat -> taylor a (nth i (b_x b) 0) = if (i =? k)%nat then 1 else 0).
    { intros k Hk. destruct (interpolate n (fun i => nth i (b_x b) 0) (fun i => if (i =? k)%nat then 1 else 0)) as [f [Pf Hf]]; [unfold n; lia|exact ND'|].
      destruct (poly_taylor _ f Pf) as [a [La Ha]]. exists a. split; [rewrite La; unfold n; lia|]. intros i Hi. rewrite <- Ha. apply Hf. exact Hi. }
    destruct (finite_choice [] n _ C) as [A HA].
    set (Vi := tab2 n n (fun j k => nth j (A k) 0)).
    assert (SVi : shape n n Vi).
    { unfold Vi. split; [apply length_tab2|]. intros r Hr. apply In_nth with (d := []) in Hr. destruct Hr as [i [Hi <-]]. rewrite length_tab2 in Hi.
      match goal with |- length (nth i ?M []) = _ => change (length (row M i) = n) end. rewrite row_tab2 by exact Hi. apply length_tab. }
    exists Vi. split; [apply V_shape|]. split; [exact SVi|]. split; intros i j Hi Hj.
    - destruct (HA j Hj) as [La H]. rewrite <- (H i Hi). rewrite taylor_mono, La. apply Rsum_ext. intros k Hk.
      rewrite V_entry by assumption. unfold Vi. rewrite at2_tab2 by assumption. ring.
    - (* coefficients of sum_k l_k(x) mono_j(x_k), which is mono_j *)
      set (a := tab n (fun q => Rsum n (fun k => at2 Vi q k * at2 (hr_V b) k j))).
      set (e := tab n (fun q => if (q =? j)%nat then 1 else 0)).
      assert (E : a = e).
      { apply taylor_inj; [unfold a, e; rewrite !length_tab; reflexivity|].
        apply nodes_eq; [apply taylor_poly; unfold a; rewrite length_tab; unfold n; lia|apply taylor_poly; unfold e; rewrite length_tab; unfold n; lia|].
        intros q Hq. rewrite (taylor_to n a), (taylor_to n e) by (unfold a, e; rewrite length_tab; lia).
        rewrite (Rsum_ext n _ (fun r => Rsum n (fun k => at2 Vi r k * at2 (hr_V b) k j * mono r (nth q (b_x b) 0)))).
        2:{ intros r Hr. unfold a. rewrite nth_tab by exact Hr. rewrite <- Rsum_scale_r. reflexivity. }
        rewrite Rsum_swap.
        transitivity (Rsum n (fun r => at2 Vi r q * at2 (hr_V b) q j * mono r (nth q (b_x b) 0))).
        1: apply (Rsum_single n q (fun k => Rsum n (fun r => at2 Vi r k * at2 (hr_V b) k j * mono r (nth q (b_x b) 0)))).
        3: symmetry; rewrite (Rsum_single n j).
        3: { symmetry. destruct (HA q Hq) as [La H]. specialize (H q Hq). rewrite Nat.eqb_refl in H. rewrite taylor_mono, La in H.
            unfold e. rewrite nth_tab by exact Hj. rewrite Nat.eqb_refl. rewrite V_entry by assumption. rewrite <- H, <- Rsum_scale_r.
            apply Rsum_ext. intros r Hr. unfold Vi. rewrite at2_tab2 by assumption. ring. }
        3: exact Hj.
        3: { intros r Hr Hne. unfold e. rewrite nth_tab by exact Hr. destruct (Nat.eqb_spec r j); [congruence|ring]. }
        - exact Hq.
        - intros k Hk Hne. destruct (HA k Hk) as [La H]. specialize (H q Hq). rewrite taylor_mono, La in H.
          destruct (Nat.eqb_spec q k); [congruence|].
          rewrite (Rsum_ext n _ (fun r => at2 (hr_V b) k j * (nth r (A k) 0 * mono r (nth q (b_x b) 0)))).
          + rewrite Rsum_scale, H. ring.
          + intros r Hr. unfold Vi. rewrite at2_tab2 by assumption. ring. }
      assert (E2 : nth i a 0 = nth i e 0) by (rewrite E; reflexivity). unfold a, e in E2. rewrite !nth_tab in E2 by exact Hi. exact E2.
  Qed.

  (** Legendre coefficients to Taylor coefficients of the same polynomial *)
  Definition is_l2m (M : mat R) : Prop := shape n n M /\ forall c, length c = n -> forall x, taylor (dotv M c) x = legseries c x.
  Lemma L2M_ok Vi : is_inverse n (hr_V b) Vi -> is_l2m (dot Vi (b_phi b)).
  Proof.
    intros [_ [SV [HV _]]]. assert (Hn : (1 <= n)%nat) by (unfold n; lia).
    pose proof (shape_ncols n n _ phi_shape Hn) as Nc.
    assert (S : shape n n (dot Vi (b_phi b))) by (apply (shape_dot n n n); [exact SV|apply phi_shape|exact Nc]).
    split; [exact S|]. intros c Lc.
    assert (Ld : length (dotv (dot Vi (b_phi b)) c) = n) by (rewrite length_dotv; exact (proj1 S)).
    apply nodes_eq; [apply taylor_poly; rewrite Ld; unfold n; lia|apply legseries_poly'; rewrite Lc; unfold n; lia|].
    intros i Hi. rewrite taylor_mono, Ld.
    assert (Pi : forall k, (k < n)%nat -> vdot (row (b_phi b) k) c = legseries c (at1 (b_x b) k)).
    { intros k Hk. apply (phi_row p); [fold b; rewrite len_x; exact Hk|exact Lc]. }
    change (nth i (b_x b) 0) with (at1 (b_x b) i). rewrite <- (Pi i Hi).
    (* sum_j V_ij sum_k (sum_l Vi_jl phi_lk) c_k *)
    rewrite (Rsum_ext n _ (fun j => Rsum n (fun l => at2 (hr_V b) i j * at2 Vi j l * vdot (row (b_phi b) l) c))).
    - rewrite Rsum_swap. rewrite (Rsum_single n i).
      + rewrite Rsum_scale_r, HV by assumption. rewrite Nat.eqb_refl. ring.
      + exact Hi.
      + intros l Hl Hne. rewrite Rsum_scale_r, HV by assumption. destruct (Nat.eqb_spec i l); [congruence|ring].
    - intros j Hj. change (nth j (dotv (dot Vi (b_phi b)) c) 0) with (at1 (dotv (dot Vi (b_phi b)) c) j).
      rewrite (at1_dotv n n) by assumption. rewrite V_entry by assumption. change (nth i (b_x b) 0) with (at1 (b_x b) i).
      rewrite (Rsum_ext n _ (fun k => Rsum n (fun l => at2 Vi j l * at2 (b_phi b) l k * at1 c k))).
      2:{ intros k Hk. rewrite (at2_dot n _ _ j k (proj2 phi_shape) Nc); [|eapply Nat.lt_le_trans; [exact Hj|apply Nat.eq_le_incl; symmetry; exact (proj1 SV)]|exact Hk].
          rewrite (vdot_R _ _ n) by (first [apply (shape_row n); assumption | rewrite length_col; exact (proj1 phi_shape)]).
          rewrite <- Rsum_scale_r. apply Rsum_ext. intros l Hl. rewrite at1_col by (eapply Nat.lt_le_trans; [exact Hl|apply Nat.eq_le_incl; symmetry; exact (proj1 phi_shape)]). reflexivity. }
      rewrite Rsum_swap. rewrite <- Rsum_scale_r. apply Rsum_ext. intros l Hl.
      rewrite (vdot_R _ _ n) by (first [apply (shape_row n n); [apply phi_shape|exact Hl] | exact Lc]).
      rewrite (Rsum_ext n _ (fun k => at2 Vi j l * (at1 (row (b_phi b) l) k * at1 c k))) by (intros; unfold at2; ring).
      rewrite Rsum_scale. ring.
  Qed.
  Lemma l2m_invertible M : is_l2m M -> exists Mi, is_inverse n M Mi.
  Proof.
    intros [S H].
    assert (C : forall k, (k < n)%nat -> exists c, length c = n /\ forall x, legseries c x = mono k x).
    { intros k Hk. destruct (poly_legseries p (mono k)) as [c [Lc Hc]].
      - apply (is_poly_ext p (taylor (tab n (fun j => if (j =? k)%nat then 1 else 0)))).
        + intro x. rewrite (taylor_to n) by (rewrite length_tab; lia). rewrite (Rsum_single n k).
          * rewrite nth_tab, Nat.eqb_refl by exact Hk. ring.
          * exact Hk.
          * intros j Hj Hne. rewrite nth_tab by exact Hj. destruct (Nat.eqb_spec j k); [congruence|ring].
        + apply taylor_poly. rewrite length_tab. unfold n. lia.
      - exists c. split; [rewrite Lc; unfold n; lia|]. intro x. symmetry. apply Hc. }
    destruct (finite_choice [] n _ C) as [A HA].
    set (Mi := tab2 n n (fun j k => nth j (A k) 0)).
    assert (SMi : shape n n Mi).
    { unfold Mi. split; [apply length_tab2|]. intros r Hr. apply In_nth with (d := []) in Hr. destruct Hr as [i [Hi <-]]. rewrite length_tab2 in Hi.
      match goal with |- length (nth i ?Q []) = _ => change (length (row Q i) = n) end. rewrite row_tab2 by exact Hi. apply length_tab. }
    exists Mi. split; [exact S|]. split; [exact SMi|]. split; intros i j Hi Hj.
    - (* Taylor coefficients of mono j *)
      destruct (HA j Hj) as [La Ha].
      assert (E : dotv M (A j) = tab n (fun q => if (q =? j)%nat then 1 else 0)).
      { apply taylor_inj; [rewrite length_dotv, length_tab; exact (proj1 S)|]. intro x. rewrite H by exact La. rewrite Ha.
        rewrite (taylor_to n) by (rewrite length_tab; lia). rewrite (Rsum_single n j).
        - rewrite nth_tab, Nat.eqb_refl by exact Hj. ring.
        - exact Hj.
        - intros k Hk Hne. rewrite nth_tab by exact Hk. destruct (Nat.eqb_spec k j); [congruence|ring]. }
      assert (E2 : at1 (dotv M (A j)) i = if (i =? j)%nat then 1 else 0) by (rewrite E, at1_tab by exact Hi; reflexivity).
      rewrite (at1_dotv n n) in E2 by assumption. rewrite <- E2. apply Rsum_ext. intros k Hk. unfold Mi. rewrite at2_tab2 by assumption. reflexivity.
    - (* Legendre coefficients of P_j *)
      set (ej := tab n (fun q => if (q =? j)%nat then 1 else 0)).
      assert (Lej : length ej = n) by apply length_tab.
      assert (Ser : forall x, legseries ej x = LegP j x).
      { intro x. unfold legseries. rewrite Lej. rewrite (Rsum_single n j).
        - unfold ej. rewrite nth_tab, Nat.eqb_refl by exact Hj. ring.
        - exact Hj.
        - intros k Hk Hne. unfold ej. rewrite nth_tab by exact Hk. destruct (Nat.eqb_spec k j); [congruence|ring]. }
      assert (Dj : forall k, (k < n)%nat -> at1 (dotv M ej) k = at2 M k j).
      { intros k Hk. rewrite (at1_dotv n n) by assumption. rewrite (Rsum_single n j).
        - unfold ej. rewrite at1_tab, Nat.eqb_refl by exact Hj. ring.
        - exact Hj.
        - intros q Hq Hne. unfold ej. rewrite at1_tab by exact Hq. destruct (Nat.eqb_spec q j); [congruence|ring]. }
      assert (E : tab n (fun q => Rsum n (fun k => at2 Mi q k * at2 M k j)) = ej).
      { apply legseries_inj; [rewrite length_tab; symmetry; exact Lej|]. intro x. rewrite Ser. unfold legseries. rewrite length_tab.
        rewrite (Rsum_ext n _ (fun q => Rsum n (fun k => at2 M k j * (nth q (A k) 0 * LegP q x)))).
        2:{ intros q Hq. rewrite nth_tab by exact Hq. rewrite <- Rsum_scale_r. apply Rsum_ext. intros k Hk. unfold Mi. rewrite at2_tab2 by assumption. ring. }
        rewrite Rsum_swap. rewrite <- Ser, <- (H ej Lej). rewrite (taylor_to n) by (rewrite length_dotv; apply Nat.eq_le_incl; exact (proj1 S)).
        apply Rsum_ext. intros k Hk. rewrite Rsum_scale. destruct (HA k Hk) as [La Ha]. rewrite <- Ha. unfold legseries. rewrite La.
        change (nth k (dotv M ej) 0) with (at1 (dotv M ej) k). rewrite Dj by exact Hk. reflexivity. }
      assert (E2 : nth i (tab n (fun q => Rsum n (fun k => at2 Mi q k * at2 M k j))) 0 = nth i ej 0) by (rewrite E; reflexivity).
      unfold ej in E2. rewrite !nth_tab in E2 by exact Hi. exact E2.
  Qed.
  Definition maps_ok (h : hr_maps R) : Prop := is_l2m (h_L2M h) /\ is_inverse n (h_L2M h) (h_M2L h).
  Lemma hr_init_ok : exists h, hr_init b = Ok h /\ maps_ok h.
  Proof.
    unfold hr_init. pose proof (I n (hr_V b) V_shape) as HV. destruct (linv (hr_V b)) as [Vi|e]; [|destruct HV; apply V_invertible].
    cbn [rbind]. pose proof (L2M_ok Vi HV) as HL. pose proof (I n _ (proj1 HL)) as HM.
    destruct (linv (dot Vi (b_phi b))) as [Mi|e]; [|destruct HM; apply l2m_invertible; exact HL].
    cbn [rbind]. eexists. split; [reflexivity|]. split; assumption.
  Qed.
  Lemma m2l_ok h v : maps_ok h -> length v = n -> length (dotv (h_M2L h) v) = n /\ forall x, legseries (dotv (h_M2L h) v) x = taylor v x.
  Proof.
    intros [[S H] [_ [SM [HI _]]]] Lv. assert (L : length (dotv (h_M2L h) v) = n) by (rewrite length_dotv; exact (proj1 SM)).
    split; [exact L|]. intro x. rewrite <- (H _ L). f_equal.
    apply (list_ext 0); [rewrite length_dotv, Lv; exact (proj1 S)|]. intros i Hi.
    assert (Hi' : (i < n)%nat) by (rewrite length_dotv in Hi; eapply Nat.lt_le_trans; [exact Hi|apply Nat.eq_le_incl; exact (proj1 S)]).
    change (at1 (dotv (h_L2M h) (dotv (h_M2L h) v)) i = at1 v i). rewrite (at1_dotv n n) by assumption.
    rewrite (Rsum_ext n _ (fun j => Rsum n (fun k => at2 (h_L2M h) i j * at2 (h_M2L h) j k * at1 v k))).
    2:{ intros j Hj. rewrite (at1_dotv n n) by assumption. rewrite <- Rsum_scale. apply Rsum_ext. intros; ring. }
    rewrite Rsum_swap. rewrite (Rsum_single n i).
    - rewrite Rsum_scale_r, HI by assumption. rewrite Nat.eqb_refl. ring.
    - exact Hi'.
    - intros k Hk Hne. rewrite Rsum_scale_r, HI by assumption. destruct (Nat.eqb_spec i k); [congruence|ring].
  Qed.
  (** hr in terms of Taylor coefficients *)
  Lemma hr_taylor h uc ul ur : maps_ok h -> length uc = n -> length ul = n -> length ur = n ->
    exists ac al ar, length ac = n /\ length al = n /\ length ar = n /\
      (forall x, taylor ac x = legseries uc x) /\ (forall x, taylor al x = legseries ul x) /\ (forall x, taylor ar x = legseries ur x) /\
      forall v, hr h uc ul ur = Ok v <-> exists w, limit_monomial ac al ar = Ok w /\ v = dotv (h_M2L h) w.
  Proof.
    intros [[S H] HI] Lc Ll Lr. exists (dotv (h_L2M h) uc), (dotv (h_L2M h) ul), (dotv (h_L2M h) ur).
    rewrite !length_dotv. repeat (split; [exact (proj1 S)|]). repeat (split; [apply H; assumption|]).
    intro v. unfold hr. destruct (limit_monomial _ _ _) as [w|e]; cbn [rbind].
    - split; [intro E; exists w; split; [reflexivity|congruence]|intros [w' [E ->]]; congruence].
    - split; [discriminate|intros [w [E _]]; discriminate].
  Qed.
  (** C36 *)
  Lemma hr_mean h uc ul ur v : maps_ok h -> length uc = n -> length ul = n -> length ur = n -> hr h uc ul ur = Ok v ->
    length v = n /\ nth 0 v 0 = nth 0 uc 0.
  Proof.
    intros M Lc Ll Lr H. destruct (hr_taylor h uc ul ur M Lc Ll Lr) as [ac [al [ar [Kc [Kl [Kr [Ec [_ [_ HH]]]]]]]]].
    apply HH in H. destruct H as [w [Hw ->]]. apply monomial_mean in Hw; [|congruence|congruence]. destruct Hw as [Lw Hw].
    destruct (m2l_ok h w M) as [L E]; [congruence|]. split; [exact L|].
    assert (nint (taylor ac) (-1) 1 (2 * nth 0 uc 0)) as K1 by (eapply nint_ext; [intro; symmetry; apply Ec|apply nint_series]).
    apply Hw in K1. pose proof (nint_series (dotv (h_M2L h) w)) as K2.
    assert (nint (taylor w) (-1) 1 (2 * nth 0 (dotv (h_M2L h) w) 0)) as K3 by (eapply nint_ext; [intro; apply E|exact K2]).
    pose proof (nint_unique _ _ _ _ _ K1 K3). lra.
  Qed.
  (** C41, cell form *)
  Lemma hr_total h uc ul ur : maps_ok h -> length uc = n -> (1 <= p)%nat -> exists v, hr h uc ul ur = Ok v.
  Proof.
    intros [[S _] _] Lc Hp. unfold hr. destruct (limit_monomial_total (dotv (h_L2M h) uc) (dotv (h_L2M h) ul) (dotv (h_L2M h) ur)) as [v E].
    - rewrite length_dotv. pose proof (proj1 S) as L. unfold n in L. eapply Nat.le_trans; [|apply Nat.eq_le_incl; symmetry; exact L]. lia.
    - rewrite E. cbn [rbind]. eauto.
  Qed.
  (** C38 *)
  Lemma hr_identity h uc ul ur : maps_ok h -> (1 <= p)%nat -> length uc = n -> length ul = n -> length ur = n ->
    one_polynomial ul uc ur -> hr h uc ul ur = Ok uc.
  Proof.
    intros M Hp Lc Ll Lr O. destruct (hr_taylor h uc ul ur M Lc Ll Lr) as [ac [al [ar [Kc [Kl [Kr [Ec [El [Er HH]]]]]]]]].
    apply HH. exists ac. split.
    - apply monomial_identity; [unfold n in Kc; lia|congruence|congruence| |].
      + intro x. rewrite El, Ec. rewrite <- (proj1 (O (x + -2))). f_equal. ring.
      + intro x. rewrite Er, Ec. rewrite <- (proj2 (O (x + 2))). f_equal. ring.
    - destruct (m2l_ok h ac M Kc) as [L E]. apply legseries_inj; [congruence|]. intro x. rewrite E. symmetry. apply Ec.
  Qed.
  (** hr is affine-invariant: adding a constant or scaling all three cells commutes with limiting *)
End Maps.
