(** '%.18e' and float(): nineteen digits identify a binary64 number; float() rounds correctly. *)
From Coq Require Import ZArith List Bool Arith String Ascii SpecFloat Reals Lra Lia Psatz.
From Verif Require Import Num Py PyStr ProofsStr ProofsText FloatText SpecText SpecFloatText.
Import ListNotations.
Open Scope string_scope.
Open Scope Z_scope.

Lemma Rabs_le_inv x a : (Rabs x <= a)%R -> (- a <= x <= a)%R.
Proof. unfold Rabs. destruct (Rcase_abs x); lra. Qed.
(** ** powers *)
Lemma IZR_pow b k : 0 <= k -> IZR (b ^ k) = powerRZ (IZR b) k.
Proof. intro H. rewrite <- (Z2Nat.id k) at 1 by exact H. rewrite <- pow_IZR. rewrite <- (Z2Nat.id k) at 2 by exact H. rewrite <- pow_powerRZ. reflexivity. Qed.
Lemma pw_pos b k : (0 < b)%R -> (0 < powerRZ b k)%R. Proof. apply powerRZ_lt. Qed.
Lemma pw_inv b k : (0 < b)%R -> powerRZ b (- k) = (/ powerRZ b k)%R.
Proof. intros _. apply powerRZ_neg'. Qed.
Lemma pw_add b j k : (0 < b)%R -> powerRZ b (j + k) = (powerRZ b j * powerRZ b k)%R.
Proof. intro H. apply powerRZ_add. lra. Qed.
Lemma pw_succ b k : (0 < b)%R -> powerRZ b (k + 1) = (powerRZ b k * b)%R.
Proof. intro H. rewrite pw_add by exact H. f_equal. apply powerRZ_1. Qed.
Lemma pw_le b j k : (1 < b)%R -> j <= k -> (powerRZ b j <= powerRZ b k)%R.
Proof.
  intros Hb H. replace k with (j + (k - j)) by lia. rewrite pw_add by lra. rewrite <- (Rmult_1_r (powerRZ b j)) at 1.
  apply Rmult_le_compat_l; [left; apply pw_pos; lra|]. rewrite <- (Z2Nat.id (k - j)) by lia. rewrite <- pow_powerRZ. apply pow_R1_Rle. lra.
Qed.
Lemma pw_lt_inv b j k : (1 < b)%R -> (powerRZ b j < powerRZ b k)%R -> j < k.
Proof. intros Hb H. destruct (Z_lt_le_dec j k) as [|G]; [assumption|]. pose proof (pw_le b k j Hb G). lra. Qed.

(** ** rounding to an integer *)
Lemma rne_eucl a b : 0 < b -> a = b * (a / b) + a mod b /\ 0 <= a mod b < b.
Proof. intro H. split; [apply Z.div_mod; lia|apply Z.mod_pos_bound; lia]. Qed.
Lemma rne_near a b k : 0 < b -> 2 * Z.abs (a - k * b) < b -> rne a b = k.
Proof.
  intros Hb H. destruct (rne_eucl a b Hb) as [E R]. unfold rne. set (q := a / b) in *. set (r := a mod b) in *.
  assert (Q : q = k \/ q = k - 1) by nia. destruct Q as [Q|Q].
  - assert (2 * r < b) by nia. rewrite (proj2 (Z.compare_lt_iff _ _)) by assumption. exact Q.
  - assert (b < 2 * r) by nia. rewrite (proj2 (Z.compare_gt_iff _ _)) by assumption. lia.
Qed.
Lemma rne_half a b : 0 < b -> 2 * Z.abs (b * rne a b - a) <= b.
Proof.
  intro Hb. destruct (rne_eucl a b Hb) as [E R]. unfold rne. set (q := a / b) in *. set (r := a mod b) in *.
  destruct (Z.compare_spec (2 * r) b) as [C|C|C]; [destruct (Z.even q)|..]; nia.
Qed.
Lemma abs_rat a b k : 0 < b -> (Rabs (rat a b - IZR k) * IZR b = Rabs (IZR (a - k * b)))%R.
Proof.
  intro H. assert (Hb : (0 < IZR b)%R) by (apply IZR_lt; exact H). rewrite <- (Rabs_pos_eq (IZR b)) at 1 by lra. rewrite <- Rabs_mult. f_equal.
  rewrite minus_IZR, mult_IZR. unfold rat. field. lra.
Qed.
Lemma rne_near_R a b k : 0 < b -> (Rabs (rat a b - IZR k) < 1 / 2)%R -> rne a b = k.
Proof.
  intros Hb H. apply rne_near; [exact Hb|]. apply lt_IZR. rewrite mult_IZR, abs_IZR, <- abs_rat by exact Hb.
  assert (0 < IZR b)%R by (apply IZR_lt; exact Hb). nra.
Qed.
Lemma rne_half_R a b : 0 < b -> (Rabs (rat a b - IZR (rne a b)) <= 1 / 2)%R.
Proof.
  intro Hb. assert (P : (0 < IZR b)%R) by (apply IZR_lt; exact Hb). apply (Rmult_le_reg_r (IZR b)); [exact P|]. rewrite abs_rat by exact Hb.
  rewrite <- abs_IZR. pose proof (rne_half a b Hb) as H. replace (Z.abs (a - rne a b * b)) with (Z.abs (b * rne a b - a)) by lia.
  apply IZR_le in H. rewrite mult_IZR in H. lra.
Qed.
(** rne is the nearest integer *)
Lemma rne_nearest a b k : 0 < b -> (Rabs (rat a b - IZR (rne a b)) <= Rabs (rat a b - IZR k))%R.
Proof.
  intro Hb. destruct (Rlt_le_dec (Rabs (rat a b - IZR k)) (1 / 2)) as [H|H].
  - rewrite (rne_near_R a b k Hb H). lra.
  - pose proof (rne_half_R a b Hb). lra.
Qed.
Section Scaled.
  Variables (base k a b : Z).
  Hypothesis Hbase : 1 < base.
  Hypothesis Hb : 0 < b.
  Lemma scaled_rat : exists a' b', 0 < b' /\ rne_scaled base k a b = rne a' b' /\ rat a' b' = (rat a b * powerRZ (IZR base) k)%R.
  Proof.
    assert (P : (0 < IZR b)%R) by (apply IZR_lt; exact Hb). assert (B : (0 < IZR base)%R) by (apply IZR_lt; lia). unfold rne_scaled. destruct (Z.leb_spec 0 k) as [H|H].
    - exists (a * base ^ k), b. split; [exact Hb|]. split; [reflexivity|]. unfold rat. rewrite mult_IZR, IZR_pow by exact H. field. lra.
    - exists a, (b * base ^ (- k)). split; [apply Z.mul_pos_pos; [exact Hb|apply Z.pow_pos_nonneg; lia]|]. split; [reflexivity|].
      unfold rat. rewrite mult_IZR, IZR_pow by lia. rewrite pw_inv by exact B. pose proof (pw_pos (IZR base) k B). field. lra.
  Qed.
  Lemma scaled_near z : (Rabs (rat a b * powerRZ (IZR base) k - IZR z) < 1 / 2)%R -> rne_scaled base k a b = z.
  Proof. destruct scaled_rat as [a' [b' [H1 [-> <-]]]]. apply rne_near_R. exact H1. Qed.
  Lemma scaled_half : (Rabs (rat a b * powerRZ (IZR base) k - IZR (rne_scaled base k a b)) <= 1 / 2)%R.
  Proof. destruct scaled_rat as [a' [b' [H1 [-> <-]]]]. apply rne_half_R. exact H1. Qed.
  Lemma scaled_nearest z : (Rabs (rat a b * powerRZ (IZR base) k - IZR (rne_scaled base k a b)) <= Rabs (rat a b * powerRZ (IZR base) k - IZR z))%R.
  Proof. destruct scaled_rat as [a' [b' [H1 [-> <-]]]]. apply rne_nearest. exact H1. Qed.
End Scaled.

(** ** logarithms *)
Lemma ilog10_spec fuel : forall q, 0 < q -> q < 2 ^ Z.of_nat fuel -> 0 <= ilog10 fuel q /\ 10 ^ ilog10 fuel q <= q < 10 ^ (ilog10 fuel q + 1).
Proof.
  induction fuel as [|fuel IH]; intros q Hq Hf; [cbn in Hf; lia|]. cbn [ilog10]. destruct (Z.ltb_spec q 10) as [H|H]; [cbn; lia|].
  rewrite Nat2Z.inj_succ, Z.pow_succ_r in Hf by lia.
  pose proof (Z.div_mod q 10 ltac:(lia)) as DM. pose proof (Z.mod_pos_bound q 10 ltac:(lia)) as MB.
  destruct (IH (q / 10)) as [H1 H2]; [lia|lia|]. set (k := ilog10 fuel (q / 10)) in *. split; [lia|].
  replace (1 + k) with (Z.succ k) by lia. replace (Z.succ k + 1) with (Z.succ (k + 1)) by lia. rewrite !Z.pow_succ_r by lia. lia.
Qed.
Lemma log10_spec q : 0 < q -> 0 <= log10 q /\ 10 ^ log10 q <= q < 10 ^ (log10 q + 1).
Proof.
  intro H. unfold log10. apply ilog10_spec; [exact H|]. pose proof (Z.log2_nonneg q). rewrite Z2Nat.id by lia. apply Z.log2_spec. exact H.
Qed.
Lemma rat_le a b c d : 0 < b -> 0 < d -> a * d <= c * b -> (rat a b <= rat c d)%R.
Proof.
  intros Hb Hd H. assert (0 < IZR b)%R by (apply IZR_lt; exact Hb). assert (0 < IZR d)%R by (apply IZR_lt; exact Hd).
  apply IZR_le in H. rewrite !mult_IZR in H. unfold rat. apply (Rmult_le_reg_r (IZR b * IZR d)); [nra|]. field_simplify; lra.
Qed.
Lemma rat_lt a b c d : 0 < b -> 0 < d -> a * d < c * b -> (rat a b < rat c d)%R.
Proof.
  intros Hb Hd H. assert (0 < IZR b)%R by (apply IZR_lt; exact Hb). assert (0 < IZR d)%R by (apply IZR_lt; exact Hd).
  apply IZR_lt in H. rewrite !mult_IZR in H. unfold rat. apply (Rmult_lt_reg_r (IZR b * IZR d)); [nra|]. field_simplify; lra.
Qed.
(** powers as ratios *)
Lemma pw_rat b k : 1 < b -> powerRZ (IZR b) k = rat (if 0 <=? k then b ^ k else 1) (if 0 <=? k then 1 else b ^ (- k)).
Proof.
  intro H. assert (0 < IZR b)%R by (apply IZR_lt; lia). unfold rat. destruct (Z.leb_spec 0 k).
  - rewrite IZR_pow by assumption. field.
  - rewrite IZR_pow by lia. rewrite pw_inv by assumption. pose proof (pw_pos (IZR b) k ltac:(assumption)). field. lra.
Qed.
Lemma dec_exp_spec a b : 0 < a -> 0 < b -> (powerRZ 10 (dec_exp a b) <= rat a b < powerRZ 10 (dec_exp a b + 1))%R.
Proof.
  intros Ha Hb. change 10%R with (IZR 10). unfold dec_exp. destruct (Z.leb_spec b a) as [H|H].
  - assert (Q : 0 < a / b) by (apply Z.div_str_pos; lia). destruct (log10_spec _ Q) as [L [L1 L2]]. set (k := log10 (a / b)) in *.
    pose proof (Z.div_mod a b ltac:(lia)) as DM. pose proof (Z.mod_pos_bound a b Hb) as MB.
    rewrite !pw_rat by lia. rewrite (proj2 (Z.leb_le 0 k)), (proj2 (Z.leb_le 0 (k + 1))) by lia. split; [apply rat_le|apply rat_lt]; nia.
  - assert (Q : 0 < (b - 1) / a) by (apply Z.div_str_pos; lia). destruct (log10_spec _ Q) as [L [L1 L2]]. set (k := log10 ((b - 1) / a)) in *.
    pose proof (Z.div_mod (b - 1) a ltac:(lia)) as DM. pose proof (Z.mod_pos_bound (b - 1) a Ha) as MB.
    rewrite !pw_rat by lia. rewrite (proj2 (Z.leb_gt 0 (- (k + 1)))) by lia. rewrite Z.opp_involutive.
    split; [apply rat_le; [apply Z.pow_pos_nonneg; lia|exact Hb|nia]|].
    replace (- (k + 1) + 1) with (- k) by lia. destruct (Z.leb_spec 0 (- k)) as [K|K].
    + assert (k = 0) by lia. subst k. replace (log10 ((b - 1) / a)) with 0 in * by lia. apply rat_lt; lia.
    + rewrite Z.opp_involutive. apply rat_lt; [exact Hb|apply Z.pow_pos_nonneg; lia|nia].
Qed.
Lemma ratio_log2_spec a b : 0 < a -> 0 < b -> (powerRZ 2 (ratio_log2 a b) <= rat a b < powerRZ 2 (ratio_log2 a b + 1))%R.
Proof.
  intros Ha Hb. change 2%R with (IZR 2). destruct (Z.log2_spec a Ha) as [A1 A2]. destruct (Z.log2_spec b Hb) as [B1 B2].
  pose proof (Z.log2_nonneg a) as A0. pose proof (Z.log2_nonneg b) as B0. rewrite Z.pow_succ_r in A2, B2 by assumption.
  set (la := Z.log2 a) in *. set (lb := Z.log2 b) in *. unfold ratio_log2. fold la lb. set (k := la - lb).
  assert (U : (rat a b < powerRZ (IZR 2) (k + 1))%R).
  { rewrite pw_rat by lia. destruct (Z.leb_spec 0 (k + 1)) as [K|K].
    - apply rat_lt; [lia|lia|]. assert (E : 2 ^ (k + 1) * 2 ^ lb = 2 * 2 ^ la) by (rewrite <- Z.pow_add_r, <- Z.pow_succ_r by lia; f_equal; lia).
      assert (0 < 2 ^ (k + 1)) by (apply Z.pow_pos_nonneg; lia). nia.
    - apply rat_lt; [lia|apply Z.pow_pos_nonneg; lia|]. assert (E : 2 ^ (- (k + 1)) * (2 * 2 ^ la) = 2 ^ lb) by (rewrite <- Z.pow_succ_r, <- Z.pow_add_r by lia; f_equal; lia).
      assert (0 < 2 ^ (- (k + 1))) by (apply Z.pow_pos_nonneg; lia). nia. }
  assert (Lw : (powerRZ (IZR 2) (k - 1) <= rat a b)%R).
  { rewrite pw_rat by lia. destruct (Z.leb_spec 0 (k - 1)) as [K|K].
    - apply rat_le; [lia|lia|]. assert (E : 2 ^ (k - 1) * (2 * 2 ^ lb) = 2 ^ la) by (rewrite <- Z.pow_succ_r, <- Z.pow_add_r by lia; f_equal; lia).
      assert (0 < 2 ^ (k - 1)) by (apply Z.pow_pos_nonneg; lia). nia.
    - apply rat_le; [apply Z.pow_pos_nonneg; lia|lia|]. assert (E : 2 ^ (- (k - 1)) * 2 ^ la = 2 * 2 ^ lb) by (rewrite <- Z.pow_succ_r, <- Z.pow_add_r by lia; f_equal; lia).
      assert (0 < 2 ^ (- (k - 1))) by (apply Z.pow_pos_nonneg; lia). nia. }
  assert (C : (if 0 <=? k then b * 2 ^ k <=? a else b <=? a * 2 ^ (- k)) = true <-> (powerRZ (IZR 2) k <= rat a b)%R).
  { rewrite pw_rat by lia. destruct (Z.leb_spec 0 k) as [K|K]; rewrite Z.leb_le; (split; [intro Q; apply rat_le; try lia; apply Z.pow_pos_nonneg; lia|]);
      intro Q; (match goal with |- ?x <= ?y => destruct (Z_le_gt_dec x y) as [|G]; [assumption|exfalso] end).
    - assert (rat a b < rat (2 ^ k) 1)%R by (apply rat_lt; lia). lra.
    - assert (rat a b < rat 1 (2 ^ (- k)))%R by (apply rat_lt; try lia; apply Z.pow_pos_nonneg; lia). lra. }
  destruct (if 0 <=? k then b * 2 ^ k <=? a else b <=? a * 2 ^ (- k)).
  - split; [apply C; reflexivity|exact U].
  - split; [exact Lw|]. replace (k - 1 + 1) with k by lia. destruct (Rle_lt_dec (powerRZ (IZR 2) k) (rat a b)) as [G|G]; [|exact G].
    apply C in G. discriminate.
Qed.

(** ** nineteen digits *)
Lemma p10_18 : powerRZ 10 18 = 1000000000000000000%R.
Proof. change 10%R with (IZR 10). rewrite <- IZR_pow by lia. reflexivity. Qed.
Lemma sig19_spec a b : 0 < a -> 0 < b -> let '(D, E) := sig19 a b in
  10 ^ 18 <= D < 10 ^ 19 /\ (Rabs (IZR D * powerRZ 10 (E - 18) - rat a b) <= rat a b / 2000000000000000000)%R.
Proof.
  intros Ha Hb. unfold sig19. destruct (dec_exp_spec a b Ha Hb) as [L U]. set (E := dec_exp a b) in *.
  pose proof (scaled_half 10 (18 - E) a b ltac:(lia) Hb) as H. set (D := rne_scaled 10 (18 - E) a b) in *. change (IZR 10) with 10%R in H.
  set (P := powerRZ 10 (18 - E)) in *. assert (PP : (0 < P)%R) by (apply pw_pos; lra).
  assert (S1 : (powerRZ 10 E * P = 1000000000000000000)%R).
  { unfold P. rewrite <- pw_add by lra. replace (E + (18 - E)) with 18 by lia. apply p10_18. }
  assert (S2 : (powerRZ 10 (E + 1) * P = 10000000000000000000)%R) by (rewrite pw_succ by lra; lra).
  assert (X1 : (1000000000000000000 <= rat a b * P)%R) by (rewrite <- S1; apply Rmult_le_compat_r; lra).
  assert (X2 : (rat a b * P < 10000000000000000000)%R) by (rewrite <- S2; apply Rmult_lt_compat_r; lra).
  assert (D1 : 10 ^ 18 <= D).
  { apply Z.lt_pred_le. apply lt_IZR. change (IZR (Z.pred (10 ^ 18))) with (999999999999999999)%R. apply Rabs_le_inv in H. lra. }
  assert (D2 : D <= 10 ^ 19).
  { apply Z.lt_succ_r. apply lt_IZR. change (IZR (Z.succ (10 ^ 19))) with (10000000000000000001)%R. apply Rabs_le_inv in H. lra. }
  assert (G : (Rabs (IZR D * powerRZ 10 (E - 18) - rat a b) <= rat a b / 2000000000000000000)%R).
  { replace (E - 18) with (- (18 - E)) by lia. rewrite pw_inv by lra. fold P.
    apply (Rmult_le_reg_r P); [exact PP|]. rewrite <- (Rabs_pos_eq P) at 2 by lra. rewrite <- Rabs_mult.
    replace ((IZR D * / P - rat a b) * P)%R with (- (rat a b * P - IZR D))%R by (field; lra). rewrite Rabs_Ropp.
    apply (Rle_trans _ _ _ H). lra. }
  destruct (Z.eqb_spec D (10 ^ 19)) as [Q|Q].
  - split; [lia|]. replace (E + 1 - 18) with (E - 18 + 1) by lia. rewrite pw_succ by lra. rewrite Q in G.
    replace (IZR (10 ^ 18) * (powerRZ 10 (E - 18) * 10))%R with (IZR (10 ^ 19) * powerRZ 10 (E - 18))%R; [exact G|].
    change (10 ^ 19)%Z with (10 ^ 18 * 10)%Z. rewrite mult_IZR. ring.
  - split; [lia|exact G].
Qed.

(** ** binary64 numbers *)
Lemma digits2_bounds m : 2 ^ (Z.pos (digits2_pos m) - 1) <= Z.pos m < 2 ^ Z.pos (digits2_pos m).
Proof.
  induction m as [m IH|m IH|]; cbn [digits2_pos].
  - rewrite Pos2Z.inj_succ. replace (Z.succ (Z.pos (digits2_pos m)) - 1) with (Z.succ (Z.pos (digits2_pos m) - 1)) by lia. rewrite !Z.pow_succ_r by lia. lia.
  - rewrite Pos2Z.inj_succ. replace (Z.succ (Z.pos (digits2_pos m)) - 1) with (Z.succ (Z.pos (digits2_pos m) - 1)) by lia. rewrite !Z.pow_succ_r by lia. lia.
  - cbn. lia.
Qed.
Lemma bounded_spec m e : SpecFloat.bounded prec64 emax64 m e = true ->
  Z.pos m < 2 ^ 53 /\ -1074 <= e <= 971 /\ (2 ^ 52 <= Z.pos m \/ e = -1074).
Proof.
  unfold SpecFloat.bounded, canonical_mantissa, fexp, emin, prec64, emax64. intro H. apply andb_prop in H. destruct H as [H1 H2].
  apply Zeq_bool_eq in H1. apply Zle_bool_imp_le in H2. pose proof (digits2_bounds m) as [B1 B2]. set (d := Z.pos (digits2_pos m)) in *.
  assert (Hd : 1 <= d) by (unfold d; lia). change (1024 - 53) with 971 in H2. change (3 - 1024 - 53) with (-1074) in H1.
  assert (D : d <= 53) by lia. split; [apply (Z.lt_le_trans _ _ _ B2); apply Z.pow_le_mono_r; lia|]. split; [lia|].
  destruct (Z.eq_dec d 53) as [->|ND]; [left; exact B1|right; lia].
Qed.
Lemma p2_52 : powerRZ 2 52 = 4503599627370496%R.
Proof. change 2%R with (IZR 2). rewrite <- IZR_pow by lia. reflexivity. Qed.
Lemma p2_53 : powerRZ 2 53 = 9007199254740992%R.
Proof. change 2%R with (IZR 2). rewrite <- IZR_pow by lia. reflexivity. Qed.

(** text within a relative 1e-18 of a binary64 number is read as that number *)
Lemma round_ratio_near s a b m e : 0 < a -> 0 < b -> SpecFloat.bounded prec64 emax64 m e = true ->
  (Rabs (rat a b - IZR (Z.pos m) * powerRZ 2 e) <= IZR (Z.pos m) * powerRZ 2 e / 1000000000000000000)%R ->
  round_ratio s a b = S754_finite s m e.
Proof.
  intros Ha Hb HB H. destruct (bounded_spec m e HB) as [M1 [E1 M2]]. unfold round_ratio. destruct (Z.eqb_spec a 0) as [|_]; [lia|].
  destruct (ratio_log2_spec a b Ha Hb) as [L U]. set (k := ratio_log2 a b) in *. set (r := rat a b) in *. set (v := IZR (Z.pos m)) in *.
  assert (V1 : (1 <= v)%R) by (apply IZR_le; lia).
  assert (V2 : (v <= 9007199254740991)%R) by (apply IZR_le; apply Z.lt_succ_r; exact M1).
  assert (PE : (0 < powerRZ 2 e)%R) by (apply pw_pos; lra). apply Rabs_le_inv in H.
  (* r lies below 2^(53+e) *)
  assert (K1 : k - 52 <= e).
  { assert (k < 53 + e); [|lia]. apply (pw_lt_inv 2); [lra|]. rewrite (pw_add 2 53) by lra. rewrite p2_53. apply (Rle_lt_trans _ _ _ L). nra. }
  assert (K2 : e = -1074 \/ e - 1 <= k - 52).
  { destruct M2 as [M2|M2]; [right|left; exact M2]. assert (52 + e - 1 < k + 1); [|lia]. apply (pw_lt_inv 2); [lra|].
    apply (fun q => Rle_lt_trans _ _ _ q U). replace (52 + e - 1) with (52 + e + -1) by lia. rewrite !pw_add by lra. rewrite p2_52. replace (powerRZ 2 (-1)) with (/ 2)%R by (change (-1)%Z with (- (1))%Z; rewrite pw_inv, powerRZ_1 by lra; reflexivity).
    apply IZR_le in M2. fold v in M2. change (IZR (2 ^ 52)) with 4503599627370496%R in M2. nra. }
  set (e' := Z.max (k - 52) (-1074)). assert (E' : e' = e \/ e' = e - 1 /\ -1074 < e /\ k - 52 = e - 1) by (unfold e'; lia).
  destruct E' as [E'|[E' [E2 E3]]].
  - (* same exponent *)
    rewrite E'. assert (N : rne_scaled 2 (- e) a b = Z.pos m).
    { apply scaled_near; [lia|exact Hb|]. change (IZR 2) with 2%R. fold r v. rewrite pw_inv by lra.
      replace (r * / powerRZ 2 e - v)%R with ((r - v * powerRZ 2 e) / powerRZ 2 e)%R by (field; lra). unfold Rdiv. rewrite Rabs_mult, (Rabs_pos_eq (/ powerRZ 2 e)).
      2:{ left. apply Rinv_0_lt_compat. exact PE. }
      apply (Rmult_lt_reg_r (powerRZ 2 e)); [exact PE|]. rewrite Rmult_assoc, Rinv_l, Rmult_1_r by lra. apply Rabs_def1; nra. }
    rewrite N. destruct (Z.eqb_spec (Z.pos m) (2 ^ 53)) as [|_]; [lia|]. destruct (Z.ltb_spec 971 e); [lia|reflexivity].
  - (* one binade below: m = 2^52 *)
    assert (M3 : 2 ^ 52 <= Z.pos m) by (destruct M2; [assumption|lia]).
    assert (U' : (r < powerRZ 2 (52 + e))%R) by (replace (52 + e) with (k + 1) by lia; exact U). rewrite pw_add, p2_52 in U' by lra.
    assert (M4 : Z.pos m = 2 ^ 52).
    { assert (Z.pos m < 2 ^ 52 + 1); [|lia]. apply lt_IZR. fold v. change (IZR (2 ^ 52 + 1)) with 4503599627370497%R.
      assert (v * powerRZ 2 e < 4503599627370497 * powerRZ 2 e)%R; [nra|]. apply (Rmult_lt_reg_r (powerRZ 2 e)); assumption. }
    assert (N : rne_scaled 2 (- e') a b = 2 ^ 53).
    { apply scaled_near; [lia|exact Hb|]. change (IZR 2) with 2%R. fold r. rewrite E'. replace (- (e - 1)) with (- e + 1) by lia. rewrite pw_succ, pw_inv by lra.
      assert (Ev : v = 4503599627370496%R) by (unfold v; rewrite M4; reflexivity). rewrite Ev in H. change (IZR (2 ^ 53)) with 9007199254740992%R.
      replace (r * (/ powerRZ 2 e * 2) - 9007199254740992)%R with (2 * (r - 4503599627370496 * powerRZ 2 e) / powerRZ 2 e)%R by (field; lra).
      unfold Rdiv. rewrite Rabs_mult, (Rabs_pos_eq (/ powerRZ 2 e)).
      2:{ left. apply Rinv_0_lt_compat. exact PE. }
      apply (Rmult_lt_reg_r (powerRZ 2 e)); [exact PE|]. rewrite Rmult_assoc, Rinv_l, Rmult_1_r by lra. apply Rabs_def1; nra. }
    rewrite N, Z.eqb_refl. replace (2 ^ 52) with (Z.pos m) by exact M4. replace (e' + 1) with e by lia. destruct (Z.ltb_spec 971 e); [lia|reflexivity].
Qed.

(** ** reading the text back *)
Lemma digits_of_app k : forall z acc, digits_of k z acc = (digits_of k z "" ++ acc)%string.
Proof.
  induction k as [|k IH]; intros z acc; [reflexivity|]. cbn [digits_of]. rewrite IH, (IH _ (String _ "")), sapp_assoc. reflexivity.
Qed.
Lemma digits_of_spec k : forall z a, digits_val (digits_of k z "") a = Some (a * 10 ^ Z.of_nat k + z mod 10 ^ Z.of_nat k) /\
  all_chars is_digit (digits_of k z "") = true /\ String.length (digits_of k z "") = k.
Proof.
  induction k as [|k IH]; intros z a.
  - cbn [digits_of digits_val all_chars String.length Z.of_nat]. rewrite Z.pow_0_r, Z.mod_1_r. repeat split. f_equal. lia.
  - cbn [digits_of]. rewrite digits_of_app. destruct (IH (z / 10) a) as [H1 [H2 H3]].
    pose proof (Z.mod_pos_bound z 10 ltac:(lia)) as MB. assert (Hd : (Z.to_nat (z mod 10) < 10)%nat) by lia.
    destruct (digit_ok _ Hd) as [D1 _]. split; [|split].
    + rewrite digits_val_app, H1 by exact H2. cbn [digits_val]. rewrite D1, Z2Nat.id by lia. f_equal.
      rewrite Nat2Z.inj_succ, Z.pow_succ_r by lia.
      rewrite (Z.rem_mul_r z 10 (10 ^ Z.of_nat k)); [ring|lia|apply Z.pow_pos_nonneg; lia].
    + rewrite all_app, H2. cbn [all_chars]. unfold is_digit. rewrite D1. reflexivity.
    + rewrite slength_app, H3. cbn. lia.
Qed.
Lemma take_digits_app d c r : all_chars is_digit d = true -> digit_val c = None -> take_digits (d ++ String c r) = (d, String c r).
Proof.
  intros Hd Hc. induction d as [|x d IH]; cbn [append take_digits].
  - rewrite Hc. reflexivity.
  - cbn [all_chars] in Hd. apply andb_prop in Hd. destruct Hd as [H1 H2]. unfold is_digit in H1. destruct (digit_val x); [|discriminate].
    rewrite IH by exact H2. reflexivity.
Qed.
Lemma take_sign_text s t : (forall c r, t = String c r -> is_digit c = true) -> t <> "" -> take_sign (sign_text s ++ t) = (s, t).
Proof.
  intros Ht Hn. destruct s; [reflexivity|]. cbn [sign_text append]. destruct t as [|c r]; [congruence|]. specialize (Ht c r eq_refl).
  destruct (digit_char c Ht) as [_ [_ [H1 [H2 _]]]].
  destruct c as [b0 b1 b2 b3 b4 b5 b6 b7]. destruct b0, b1, b2, b3, b4, b5, b6, b7; try reflexivity; congruence.
Qed.
Lemma exponent_text E : exponent_of ("e" ++ (if E <? 0 then "-" else "+") ++ show_nat_pad 2 (Z.to_nat (Z.abs E))) = Some E.
Proof.
  assert (V : nonempty_digits (show_nat_pad 2 (Z.to_nat (Z.abs E))) = Some (Z.abs E)).
  { pose proof (pad_val 2 (Z.to_nat (Z.abs E))) as H. rewrite Z2Nat.id in H by lia. unfold nonempty_digits.
    destruct (show_nat_pad 2 (Z.to_nat (Z.abs E))) eqn:Q; [|exact H]. exfalso.
    unfold show_nat_pad in Q. apply (f_equal String.length) in Q. rewrite slength_app in Q. pose proof (show_nonempty (Z.to_nat (Z.abs E))).
    destruct (show_nat (Z.to_nat (Z.abs E))); [congruence|]. cbn in Q. lia. }
  cbn [append]. unfold exponent_of. cbn [Ascii.eqb Bool.eqb orb].
  destruct (Z.ltb_spec E 0); cbn [append take_sign]; rewrite V; f_equal; lia.
Qed.
Lemma parse_sci s D E : 0 <= D < 10 ^ 19 -> exists a b, 0 < b /\ rat a b = (IZR D * powerRZ 10 (E - 18))%R /\ (0 < D -> 0 < a) /\ (D = 0 -> a = 0) /\
  parse64 (sign_text s ++ sci_text D E) = Some (round_ratio s a b).
Proof.
  intro HD. set (x := E - 18).
  exists (if 0 <=? x then D * 10 ^ x else D), (if 0 <=? x then 1 else 10 ^ (- x)).
  assert (Px : 0 < 10 ^ Z.abs x) by (apply Z.pow_pos_nonneg; lia).
  split; [destruct (Z.leb_spec 0 x); [lia|apply Z.pow_pos_nonneg; lia]|]. split.
  { unfold rat. destruct (Z.leb_spec 0 x) as [H|H].
    - rewrite mult_IZR, IZR_pow by exact H. change (IZR 10) with 10%R. field.
    - rewrite IZR_pow by lia. change (IZR 10) with 10%R. rewrite pw_inv by lra. pose proof (pw_pos 10 x ltac:(lra)). field. lra. }
  split. { intro Dp. destruct (Z.leb_spec 0 x); [|lia]. apply Z.mul_pos_pos; [lia|apply Z.pow_pos_nonneg; lia]. }
  split. { intros ->. destruct (0 <=? x); [apply Z.mul_0_l|reflexivity]. }
  unfold parse64. set (ip := digits_of 1 (D / 10 ^ 18) ""). set (fp := digits_of 18 (D mod 10 ^ 18) "").
  destruct (digits_of_spec 1 (D / 10 ^ 18) 0) as [I1 [I2 I3]]. destruct (digits_of_spec 18 (D mod 10 ^ 18) (D / 10 ^ 18)) as [F1 [F2 F3]]. fold ip in I1, I2, I3. fold fp in F1, F2, F3.
  set (ex := ("e" ++ (if (E <? 0)%Z then "-" else "+") ++ show_nat_pad 2 (Z.to_nat (Z.abs E)))%string).
  assert (Et : sci_text D E = (ip ++ String "." (fp ++ ex))%string) by reflexivity. rewrite Et.
  assert (Hip : exists c, ip = String c "" /\ is_digit c = true).
  { destruct ip as [|c [|]]; try discriminate. exists c. cbn in I2. rewrite andb_true_r in I2. split; [reflexivity|exact I2]. }
  destruct Hip as [c [Ei Hc]].
  rewrite take_sign_text.
  2:{ intros c' r' Q. rewrite Ei in Q. cbn [append] in Q. injection Q as <- _. exact Hc. }
  2:{ rewrite Ei. discriminate. }
  assert (N1 : String.eqb (ip ++ String "." (fp ++ ex)) "nan" = false).
  { rewrite Ei. cbn [append String.eqb]. destruct (Ascii.eqb_spec c "n"%char) as [->|]; [discriminate|reflexivity]. }
  assert (N2 : String.eqb (ip ++ String "." (fp ++ ex)) "inf" = false).
  { rewrite Ei. cbn [append String.eqb]. destruct (Ascii.eqb_spec c "i"%char) as [->|]; [discriminate|reflexivity]. }
  rewrite N1, N2. rewrite (take_digits_app ip "." (fp ++ ex) I2 eq_refl). cbn match. rewrite Ascii.eqb_refl.
  assert (Te : take_digits (fp ++ ex) = (fp, ex)) by (unfold ex; apply (take_digits_app fp "e"); [exact F2|reflexivity]). rewrite Te.
  unfold ex at 1. rewrite exponent_text.
  assert (Nd : nonempty_digits (ip ++ fp) = Some D).
  { unfold nonempty_digits. rewrite Ei at 1. cbn [append]. rewrite digits_val_app, I1 by exact I2. rewrite Z.mul_0_l, Z.add_0_l. change (10 ^ Z.of_nat 1) with 10.
    rewrite Z.mod_small by (split; [apply Z.div_pos; lia|apply Z.div_lt_upper_bound; lia]). rewrite F1. f_equal.
    change (Z.of_nat 18) with 18. rewrite Z.mod_mod by lia. pose proof (Z.div_mod D (10 ^ 18) ltac:(lia)). lia. }
  rewrite Nd, F3. change (Z.of_nat 18) with 18. fold x. destruct (0 <=? x); reflexivity.
Qed.

(** C49 *)
Lemma fmt_parse x : valid_binary prec64 emax64 x = true -> parse64 (fmt18 x) = Some x.
Proof.
  destruct x as [s|s| |s m e]; intro HV.
  - destruct s; vm_compute; reflexivity.
  - destruct s; reflexivity.
  - reflexivity.
  - cbn [valid_binary] in HV. unfold fmt18. set (a := if 0 <=? e then Z.pos m * 2 ^ e else Z.pos m). set (b := if 0 <=? e then 1 else 2 ^ (- e)).
    assert (Ha : 0 < a) by (unfold a; destruct (Z.leb_spec 0 e); [apply Z.mul_pos_pos; [lia|apply Z.pow_pos_nonneg; lia]|lia]).
    assert (Hb : 0 < b) by (unfold b; destruct (Z.leb_spec 0 e); [lia|apply Z.pow_pos_nonneg; lia]).
    assert (Er : rat a b = (IZR (Z.pos m) * powerRZ 2 e)%R).
    { unfold rat, a, b. destruct (Z.leb_spec 0 e) as [H|H].
      - rewrite mult_IZR, IZR_pow by exact H. field.
      - rewrite IZR_pow by lia. rewrite pw_inv by lra. pose proof (pw_pos 2 e ltac:(lra)). change (IZR 2) with 2%R. field. lra. }
    pose proof (sig19_spec a b Ha Hb) as HS. destruct (sig19 a b) as [D E]. destruct HS as [HD HE].
    destruct (parse_sci s D E ltac:(lia)) as [a' [b' [Hb' [Er' [Ha' [_ ->]]]]]]. f_equal. apply round_ratio_near; [apply Ha'; lia|exact Hb'|exact HV|].
    rewrite Er', <- Er. assert (0 < rat a b)%R; [|lra]. unfold rat. apply Rdiv_lt_0_compat; apply IZR_lt; assumption.
Qed.
Lemma fmt_plain x : plain (fmt18 x) = true /\ fmt18 x <> "".
Proof.
  assert (P : forall s D E, plain (sign_text s ++ sci_text D E) = true /\ (sign_text s ++ sci_text D E)%string <> "").
  { intros s D E. unfold sci_text. destruct (digits_of_spec 1 (D / 10 ^ 18) 0) as [_ [I2 I3]]. destruct (digits_of_spec 18 (D mod 10 ^ 18) 0) as [_ [F2 _]].
    assert (Q : forall w, all_chars is_digit w = true -> all_chars plain_char w = true).
    { intro w. apply all_impl. intros c Hc. destruct (digit_char c Hc) as [H1 [_ [_ [_ [H5 [H6 H7]]]]]]. unfold plain_char. rewrite H1. apply Ascii.eqb_neq in H5, H6, H7. rewrite H5, H6, H7. reflexivity. }
    split.
    - unfold plain. rewrite !all_app. rewrite (Q _ I2), (Q _ F2), (Q _ (pad_digits 2 _)). destruct s, (E <? 0); reflexivity.
    - intro K. apply (f_equal String.length) in K. rewrite !slength_app, I3 in K. cbn [String.length] in K. lia. }
  destruct x as [s|s| |s m e]; cbn [fmt18]; [apply P|destruct s; split; (reflexivity || discriminate)|split; (reflexivity || discriminate)|].
  destruct (sig19 _ _) as [D E]. apply P.
Qed.

(** ** float() rounds correctly *)
Lemma bounded_intro m e : Z.pos m < 2 ^ 53 -> -1074 <= e <= 971 -> 2 ^ 52 <= Z.pos m \/ e = -1074 -> SpecFloat.bounded prec64 emax64 m e = true.
Proof.
  intros M1 E1 M2. unfold SpecFloat.bounded, canonical_mantissa, fexp, emin, prec64, emax64. pose proof (digits2_bounds m) as [B1 B2]. set (d := Z.pos (digits2_pos m)) in *.
  assert (Hd : 1 <= d) by (unfold d; lia). apply andb_true_intro. change (1024 - 53) with 971. change (3 - 1024 - 53) with (-1074).
  assert (D : d <= 53). { destruct (Z_le_gt_dec d 53) as [|G]; [assumption|exfalso]. pose proof (Z.pow_le_mono_r 2 53 (d - 1) ltac:(lia) ltac:(lia)). lia. }
  assert (D' : 2 ^ 52 <= Z.pos m -> d = 53). { intro G. destruct (Z.eq_dec d 53) as [|Q]; [assumption|exfalso]. pose proof (Z.pow_le_mono_r 2 d 52 ltac:(lia) ltac:(lia)). lia. }
  split; [|apply Zle_imp_le_bool; lia]. apply Zeq_is_eq_bool. destruct M2 as [M2|M2]; [rewrite (D' M2)|]; lia.
Qed.

Lemma round_nearest s a b : 0 <= a -> 0 < b -> (forall t, round_ratio s a b <> S754_infinity t) ->
  is_finite64 (round_ratio s a b) = true /\
  forall y, is_finite64 y = true ->
    (Rabs ((if s then -1 else 1) * rat a b - value (round_ratio s a b)) <= Rabs ((if s then -1 else 1) * rat a b - value y))%R.
Proof.
  intros Ha Hb Hi. set (sg := (if s then -1 else 1)%R). assert (Hsg : (sg = 1 \/ sg = -1)%R) by (unfold sg; destruct s; [right|left]; reflexivity).
  destruct (Z.eq_dec a 0) as [->|Na].
  { unfold round_ratio. cbn. split; [reflexivity|]. intros y _. unfold rat. rewrite Rdiv_0_l || (unfold Rdiv; rewrite Rmult_0_l). rewrite Rmult_0_r, Rminus_0_r, Rabs_R0. apply Rabs_pos. }
  assert (Pa : 0 < a) by lia. unfold round_ratio in *. destruct (Z.eqb_spec a 0) as [|_]; [lia|].
  destruct (ratio_log2_spec a b Pa Hb) as [L U]. set (k := ratio_log2 a b) in *. set (e := Z.max (k - 52) (-1074)) in *.
  set (r := rat a b) in *. assert (PE : (0 < powerRZ 2 e)%R) by (apply pw_pos; lra).
  assert (Pr : (0 < r)%R) by (pose proof (pw_pos 2 k ltac:(lra)); lra).
  pose proof (scaled_nearest 2 (- e) a b ltac:(lia) Hb) as NR. set (z := rne_scaled 2 (- e) a b) in *. fold r in NR. change (IZR 2) with 2%R in NR. rewrite pw_inv in NR by lra.
  assert (NR' : forall w, (Rabs (r - IZR z * powerRZ 2 e) <= Rabs (r - IZR w * powerRZ 2 e))%R).
  { intro w. assert (G : forall u, (Rabs (r - IZR u * powerRZ 2 e) = Rabs (r * / powerRZ 2 e - IZR u) * powerRZ 2 e)%R).
    { intro u. rewrite <- (Rabs_pos_eq (powerRZ 2 e)) at 3 by lra. rewrite <- Rabs_mult. f_equal. field. lra. }
    rewrite !G. apply Rmult_le_compat_r; [lra|apply NR]. }
  clear NR.
  assert (Ur : (r < 9007199254740992 * powerRZ 2 e)%R).
  { apply (Rlt_le_trans _ _ _ U). rewrite <- p2_53, <- pw_add by lra. apply pw_le; [lra|unfold e; lia]. }
  assert (Z0 : 0 <= z).
  { destruct (Z_lt_le_dec z 0) as [G|]; [exfalso|assumption]. specialize (NR' 0). assert (IZR z <= -1)%R by (apply IZR_le; lia).
    rewrite (Rabs_pos_eq (r - IZR z * _)), (Rabs_pos_eq (r - 0 * _)) in NR' by nra. nra. }
  assert (Z1 : z <= 2 ^ 53).
  { destruct (Z_le_gt_dec z (2 ^ 53)) as [|G]; [assumption|exfalso]. specialize (NR' (2 ^ 53)). assert (9007199254740993 <= IZR z)%R by (apply IZR_le; lia).
    change (IZR (2 ^ 53)) with 9007199254740992%R in NR'. rewrite !Rabs_left in NR' by nra. nra. }
  assert (Z2 : e = k - 52 -> 2 ^ 52 <= z).
  { intro Ee. assert (Lr : (4503599627370496 * powerRZ 2 e <= r)%R). { rewrite <- p2_52, <- pw_add by lra. replace (52 + e) with k by lia. exact L. }
    destruct (Z_le_gt_dec (2 ^ 52) z) as [|G]; [assumption|exfalso]. specialize (NR' (2 ^ 52)). assert (IZR z <= 4503599627370495)%R by (apply IZR_le; lia).
    change (IZR (2 ^ 52)) with 4503599627370496%R in NR'. rewrite !Rabs_pos_eq in NR' by nra. nra. }
  (* the value of the result *)
  set (x := let '(m, e0) := if z =? 2 ^ 53 then (2 ^ 52, e + 1) else (z, e) in
            match m with Z.pos p => if 971 <? e0 then S754_infinity s else S754_finite s p e0 | _ => S754_zero s end) in *.
  assert (HX : is_finite64 x = true /\ value x = (sg * (IZR z * powerRZ 2 e))%R).
  { subst x. destruct (Z.eqb_spec z (2 ^ 53)) as [Ez|Ez].
    - change (2 ^ 52) with (Z.pos (2 ^ 52)) in *. cbv beta match zeta in *. destruct (Z.ltb_spec 971 (e + 1)) as [G|G]; [exfalso; exact (Hi s eq_refl)|].
      split; [cbn [is_finite64 valid_binary]; apply bounded_intro; [reflexivity|unfold e in *; lia|left; lia]|].
      unfold value. fold sg. rewrite pw_succ by lra. rewrite Ez. change (IZR (2 ^ 53)) with (IZR (Z.pos (2 ^ 52)) * 2)%R || idtac.
      change (IZR (Z.pos (2 ^ 52))) with 4503599627370496%R. change (IZR (2 ^ 53)) with 9007199254740992%R. lra.
    - cbv beta match zeta in *. destruct z as [|p|p] eqn:Eq; [|..|lia].
      + split; [reflexivity|]. cbn [value]. lra.
      + destruct (Z.ltb_spec 971 e) as [G|G]; [exfalso; exact (Hi s eq_refl)|].
        split; [cbn [is_finite64 valid_binary]; apply bounded_intro; [lia|unfold e in *; lia|]|unfold value; fold sg; lra].
        destruct (Z.max_spec (k - 52) (-1074)) as [[_ Q]|[_ Q]]; fold e in Q; [right; exact Q|left; apply Z2; exact Q]. }
  destruct HX as [HF HV]. split; [exact HF|]. intros y Hy. rewrite HV.
  assert (AB : forall t, (Rabs (sg * r - sg * t) = Rabs (r - t))%R).
  { intro t. rewrite <- Rmult_minus_distr_l, Rabs_mult. replace (Rabs sg) with 1%R; [ring|]. destruct Hsg as [-> | ->]; unfold Rabs; destruct (Rcase_abs _); lra. }
  assert (VY : exists t, value y = (sg * t)%R). { exists (sg * value y)%R. rewrite <- Rmult_assoc. destruct Hsg as [-> | ->]; ring. }
  destruct y as [t|t| |t m' e']; try discriminate.
  - cbn [value]. replace 0%R with (sg * (IZR 0 * powerRZ 2 e))%R by lra. rewrite !AB. apply NR'.
  - cbn [is_finite64 valid_binary] in Hy. destruct (bounded_spec _ _ Hy) as [Y1 [Y2 _]]. set (v := (IZR (Z.pos m') * powerRZ 2 e')%R).
    assert (Pv : (0 < v)%R) by (unfold v; apply Rmult_lt_0_compat; [apply IZR_lt; lia|apply pw_pos; lra]).
    assert (NV : (Rabs (r - IZR z * powerRZ 2 e) <= Rabs (r - v))%R).
    { destruct (Z_le_gt_dec e e') as [G|G].
      - replace v with (IZR (Z.pos m' * 2 ^ (e' - e)) * powerRZ 2 e)%R; [apply NR'|]. rewrite mult_IZR, IZR_pow by lia. change (IZR 2) with 2%R.
        rewrite Rmult_assoc, <- pw_add by lra. unfold v. f_equal. f_equal. lia.
      - assert (Ee : e = k - 52) by (unfold e in *; lia).
        assert (Lr : (4503599627370496 * powerRZ 2 e <= r)%R). { rewrite <- p2_52, <- pw_add by lra. replace (52 + e) with k by lia. exact L. }
        assert (Uv : (v <= 4503599627370496 * powerRZ 2 e)%R).
        { unfold v. replace e with (e - 1 + 1) by lia. rewrite pw_succ by lra. pose proof (pw_le 2 e' (e - 1) ltac:(lra) ltac:(lia)). pose proof (pw_pos 2 e' ltac:(lra)).
          assert (IZR (Z.pos m') <= 9007199254740992)%R by (apply IZR_le; lia). assert (0 < IZR (Z.pos m'))%R by (apply IZR_lt; lia). nra. }
        apply (Rle_trans _ _ _ (NR' (2 ^ 52))). change (IZR (2 ^ 52)) with 4503599627370496%R. rewrite !Rabs_pos_eq by lra. lra. }
    assert (Z' : (Rabs (r - IZR z * powerRZ 2 e) <= r)%R). { apply (Rle_trans _ _ _ (NR' 0)). rewrite Rabs_pos_eq by lra. lra. }
    replace (value (S754_finite t m' e')) with ((if t then -1 else 1) * v)%R by (unfold value, v; ring).
    rewrite AB. assert (HT : ((if t then -1 else 1) = sg \/ (if t then -1 else 1) = - sg)%R) by (unfold sg; destruct s, t; [left|right|right|left]; lra).
    destruct HT as [-> | ->]; [rewrite AB; exact NV|]. replace (sg * r - - sg * v)%R with (sg * r - sg * (- v))%R by ring. rewrite AB.
    apply (Rle_trans _ _ _ Z'). rewrite Rabs_pos_eq by lra. lra.
Qed.

(** ** statements about the two routines in the reals *)
Lemma fmt_digits s m e : SpecFloat.bounded prec64 emax64 m e = true -> exists D E,
  fmt18 (S754_finite s m e) = sign_text s ++ sci_text D E /\ 10 ^ 18 <= D < 10 ^ 19 /\
  (Rabs (IZR D * powerRZ 10 (E - 18) - Rabs (value (S754_finite s m e))) <= Rabs (value (S754_finite s m e)) / 2000000000000000000)%R.
Proof.
  intro HB. cbn [fmt18]. set (a := if 0 <=? e then Z.pos m * 2 ^ e else Z.pos m). set (b := if 0 <=? e then 1 else 2 ^ (- e)).
  assert (Hb : 0 < b) by (unfold b; destruct (Z.leb_spec 0 e); [lia|apply Z.pow_pos_nonneg; lia]).
  assert (Ha : 0 < a). { unfold a. destruct (Z.leb_spec 0 e); [|lia]. apply Z.mul_pos_pos; [lia|]. apply Z.pow_pos_nonneg; lia. }
  pose proof (sig19_spec a b Ha Hb) as H. destruct (sig19 a b) as [D E]. exists D, E. destruct H as [H1 H2]. split; [reflexivity|]. split; [exact H1|].
  assert (EV : Rabs (value (S754_finite s m e)) = rat a b).
  { unfold value. assert (P : (0 < powerRZ 2 e)%R) by (apply pw_pos; lra). assert (Q : (0 < IZR (Z.pos m))%R) by (apply IZR_lt; lia).
    rewrite !Rabs_mult, (Rabs_pos_eq (IZR _)), (Rabs_pos_eq (powerRZ _ _)) by lra.
    replace (Rabs (if s then -1 else 1)) with 1%R by (destruct s; [rewrite Rabs_left by lra|rewrite Rabs_pos_eq by lra]; lra).
    rewrite Rmult_1_l. change 2%R with (IZR 2). rewrite pw_rat by lia.
    assert (NB : IZR b <> 0%R) by (apply IZR_neq; lia). unfold rat, a. fold b in NB |- *. unfold b in *. destruct (0 <=? e); rewrite ?mult_IZR; field; assumption. }
  rewrite EV. exact H2.
Qed.
Lemma read_nearest s D E x : 0 <= D < 10 ^ 19 -> parse64 (sign_text s ++ sci_text D E) = Some x -> (forall t, x <> S754_infinity t) ->
  is_finite64 x = true /\ forall y, is_finite64 y = true ->
    (Rabs ((if s then -1 else 1) * (IZR D * powerRZ 10 (E - 18)) - value x) <= Rabs ((if s then -1 else 1) * (IZR D * powerRZ 10 (E - 18)) - value y))%R.
Proof.
  intros HD H Hi. destruct (parse_sci s D E HD) as [a [b [Hb [Er [P1 [P0 Ep]]]]]]. rewrite H in Ep. injection Ep as ->. rewrite <- Er.
  apply round_nearest; [|exact Hb|exact Hi]. destruct (Z.eq_dec D 0) as [Z0|Z0]; [rewrite (P0 Z0); lia|]. specialize (P1 ltac:(lia)). lia.
Qed.
