(** Sums of doubles: the standard library's SFadd/SFsub return the double nearest to the exact sum. *)
From Coq Require Import ZArith Reals SpecFloat Bool Lia Lra.
From Verif Require Import Num FloatText SpecFloatText ProofsFloatText.
Open Scope Z_scope.

(** ** shifting right keeps the position of the remainder *)
Definition shifted (m0 k : Z) (x : shr_record) : Prop :=
  exists r, m0 = shr_m x * 2 ^ k + r /\ 0 <= shr_m x /\
    match shr_r x, shr_s x with
    | false, false => r = 0
    | false, true => 0 < r /\ 2 * r < 2 ^ k
    | true, false => 2 * r = 2 ^ k
    | true, true => 2 ^ k < 2 * r /\ r < 2 ^ k
    end.
Lemma shifted_1 m0 k x : 0 <= k -> shifted m0 k x -> shifted m0 (k + 1) (shr_1 x).
Proof.
  intros Hk [r [E [P H]]]. pose proof (Z.pow_pos_nonneg 2 k ltac:(lia) Hk) as Q. assert (E2 : 2 ^ (k + 1) = 2 * 2 ^ k) by (rewrite Z.pow_add_r; lia).
  destruct x as [m rb sb]. cbn [shr_m shr_r shr_s] in *. unfold shifted. rewrite E2. set (w := 2 ^ k) in *. clearbody w.
  destruct m as [|[p|p|]|p]; cbn [shr_1 shr_m shr_r shr_s]; [| | | |lia].
  - exists r. split; [lia|]. split; [lia|]. destruct rb, sb; cbn [orb]; lia.
  - exists (w + r). split; [rewrite Pos2Z.inj_xI in E; lia|]. split; [lia|]. destruct rb, sb; cbn [orb]; lia.
  - exists r. split; [rewrite Pos2Z.inj_xO in E; lia|]. split; [lia|]. destruct rb, sb; cbn [orb]; lia.
  - exists (w + r). split; [lia|]. split; [lia|]. destruct rb, sb; cbn [orb]; lia.
Qed.
Lemma shifted_iter p : forall m0 k x, 0 <= k -> shifted m0 k x -> shifted m0 (k + Z.pos p) (iter_pos shr_1 p x).
Proof.
  induction p as [p IH|p IH|]; intros m0 k x Hk H; cbn [iter_pos].
  - replace (k + Z.pos p~1) with (k + 1 + Z.pos p + Z.pos p) by lia. apply IH; [lia|]. apply IH; [lia|]. apply shifted_1; assumption.
  - replace (k + Z.pos p~0) with (k + Z.pos p + Z.pos p) by lia. apply IH; [lia|]. apply IH; [lia|]. assumption.
  - apply shifted_1; assumption.
Qed.
Lemma shifted_rne m0 k x : 0 < k -> shifted m0 k x -> round_nearest_even (shr_m x) (loc_of_shr_record x) = rne m0 (2 ^ k).
Proof.
  intros Hk [r [E [P H]]]. destruct x as [m rb sb]. cbn [shr_m shr_r shr_s] in *.
  assert (W : 2 ^ k = 2 * 2 ^ (k - 1)) by (rewrite <- Z.pow_succ_r by lia; f_equal; lia). pose proof (Z.pow_pos_nonneg 2 (k - 1) ltac:(lia) ltac:(lia)) as Q.
  assert (R : 0 <= r < 2 ^ k) by (destruct rb, sb; lia).
  assert (Dv : m0 / 2 ^ k = m) by (symmetry; apply (Z.div_unique m0 (2 ^ k) m r); lia).
  assert (Md : m0 mod 2 ^ k = r) by (symmetry; apply (Z.mod_unique m0 (2 ^ k) m r); lia).
  unfold rne. rewrite Dv, Md. destruct rb, sb; cbn [loc_of_shr_record round_nearest_even].
  - destruct (Z.compare_spec (2 * r) (2 ^ k)); lia.
  - destruct (Z.compare_spec (2 * r) (2 ^ k)); [reflexivity|lia|lia].
  - destruct (Z.compare_spec (2 * r) (2 ^ k)); lia.
  - destruct (Z.compare_spec (2 * r) (2 ^ k)); lia.
Qed.

(** ** digits *)
Lemma digits_unique m d : 0 < m -> 2 ^ (d - 1) <= m < 2 ^ d -> 1 <= d -> Zdigits2 m = d.
Proof.
  intros Hm H Hd. destruct m as [|m|m]; [lia| |lia]. cbn [Zdigits2]. pose proof (digits2_bounds m) as B. set (c := Z.pos (digits2_pos m)) in *. assert (1 <= c) by (unfold c; lia).
  destruct (Z.lt_trichotomy c d) as [L|[E|G]]; [|exact E|].
  - exfalso. pose proof (Z.pow_le_mono_r 2 c (d - 1) ltac:(lia) ltac:(lia)). lia.
  - exfalso. pose proof (Z.pow_le_mono_r 2 d (c - 1) ltac:(lia) ltac:(lia)). lia.
Qed.
Lemma shift_pos_val d m : Z.pos (shift_pos d m) = Z.pos m * 2 ^ Z.pos d.
Proof. rewrite Zpower.shift_pos_correct. rewrite <- Z.pow_pos_fold. lia. Qed.

(** ** rounding a rational does not depend on its representation *)
Lemma rne_scale a b c : 0 < b -> 0 < c -> rne (a * c) (b * c) = rne a b.
Proof.
  intros Hb Hc. unfold rne. rewrite Z.div_mul_cancel_r by lia. rewrite Z.mul_mod_distr_r by lia. set (r := a mod b). set (q := a / b). clearbody r q.
  destruct (Z.compare_spec (2 * r) b) as [E|E|E]; destruct (Z.compare_spec (2 * (r * c)) (b * c)) as [F|F|F]; try reflexivity; exfalso; nia.
Qed.
Lemma rne_eq a b a' b' : 0 < b -> 0 < b' -> a * b' = a' * b -> rne a b = rne a' b'.
Proof. intros Hb Hb' E. rewrite <- (rne_scale a b b') by assumption. rewrite <- (rne_scale a' b' b) by assumption. rewrite E. f_equal. lia. Qed.
Lemma rne_1 q : rne q 1 = q.
Proof. unfold rne. rewrite Z.div_1_r, Z.mod_1_r. reflexivity. Qed.
Definition p2 (x : Z) : Z := if 0 <=? x then 2 ^ x else 1.
Lemma p2_pos x : 0 < p2 x.
Proof. unfold p2. destruct (Z.leb_spec 0 x); [apply Z.pow_pos_nonneg; lia|lia]. Qed.
Lemma p2_add a b : p2 (a + b) * p2 (- a) * p2 (- b) = p2 (- (a + b)) * p2 a * p2 b.
Proof.
  unfold p2. destruct (Z.leb_spec 0 (a + b)), (Z.leb_spec 0 (- a)), (Z.leb_spec 0 (- b)), (Z.leb_spec 0 (- (a + b))), (Z.leb_spec 0 a), (Z.leb_spec 0 b); try lia;
  rewrite <- ?Z.pow_add_r, ?Z.mul_1_r, ?Z.mul_1_l by lia; rewrite <- ?Z.pow_add_r by lia; try (f_equal; lia);
  try (replace a with 0 by lia); try (replace b with 0 by lia); cbn; reflexivity.
Qed.
Lemma p2_real x : IZR (p2 x) = (powerRZ 2 x * IZR (p2 (- x)))%R.
Proof.
  unfold p2. destruct (Z.leb_spec 0 x) as [H|H], (Z.leb_spec 0 (- x)) as [G|G]; try lia.
  - replace x with 0 by lia. cbn. lra.
  - rewrite (IZR_pow 2 x H). lra.
  - rewrite (IZR_pow 2 (- x) G). rewrite <- pw_add by lra. replace (x + - x) with 0 by lia. cbn. lra.
Qed.
Definition num2 (m : positive) (e : Z) : Z := Z.pos m * p2 e.
Definition den2 (e : Z) : Z := p2 (- e).
Lemma rat_num2 m e : rat (num2 m e) (den2 e) = (IZR (Z.pos m) * powerRZ 2 e)%R.
Proof. unfold rat, num2, den2. rewrite mult_IZR, (p2_real e). pose proof (IZR_lt _ _ (p2_pos (- e))). field. lra. Qed.
Lemma num2_pos m e : 0 < num2 m e. Proof. unfold num2. pose proof (p2_pos e). nia. Qed.
Lemma log2_num2 m e : ratio_log2 (num2 m e) (den2 e) = Z.pos (digits2_pos m) + e - 1.
Proof.
  pose proof (ratio_log2_spec (num2 m e) (den2 e) (num2_pos m e) (p2_pos (- e))) as [H1 H2]. rewrite rat_num2 in H1, H2.
  pose proof (digits2_bounds m) as [B1 B2]. set (d := Z.pos (digits2_pos m)) in *. assert (1 <= d) by (unfold d; lia). apply IZR_le in B1. apply IZR_lt in B2. rewrite IZR_pow in B1, B2 by lia.
  set (k := ratio_log2 _ _) in *. pose proof (pw_pos 2 e ltac:(lra)) as Pe. set (x := IZR (Z.pos m)) in *.
  assert (L1 : (powerRZ 2 k < powerRZ 2 (d + e))%R). { rewrite (pw_add 2 d e) by lra. eapply Rle_lt_trans; [exact H1|]. apply Rmult_lt_compat_r; assumption. }
  assert (L2 : (powerRZ 2 (d - 1 + e) < powerRZ 2 (k + 1))%R). { rewrite (pw_add 2 (d - 1) e) by lra. eapply Rle_lt_trans; [|exact H2]. apply Rmult_le_compat_r; [lra|exact B1]. }
  apply pw_lt_inv in L1; [|lra]. apply pw_lt_inv in L2; [|lra]. lia.
Qed.
Lemma scaled_num2 m e f : rne_scaled 2 (- f) (num2 m e) (den2 e) = rne (Z.pos m * p2 (e - f)) (p2 (f - e)).
Proof.
  transitivity (rne (num2 m e * p2 (- f)) (den2 e * p2 f)).
  - unfold rne_scaled. destruct (Z.leb_spec 0 (- f)) as [H|H].
    + replace (p2 f) with 1; [rewrite Z.mul_1_r; unfold p2 at 1; destruct (Z.leb_spec 0 (- f)); [reflexivity|lia]|].
      unfold p2. destruct (Z.leb_spec 0 f); [replace f with 0 by lia; reflexivity|reflexivity].
    + replace (p2 (- f)) with 1 by (unfold p2; destruct (Z.leb_spec 0 (- f)); [lia|reflexivity]). rewrite Z.mul_1_r. f_equal. f_equal.
      unfold p2. destruct (Z.leb_spec 0 f); [f_equal; lia|lia].
  - pose proof (p2_pos (- e)). pose proof (p2_pos f). pose proof (p2_pos (f - e)). apply rne_eq; [unfold den2; nia|assumption|].
    unfold num2, den2. pose proof (p2_add e (- f)) as E. rewrite Z.opp_involutive in E. replace (e + - f) with (e - f) in E by lia. replace (- (e - f)) with (f - e) in E by lia.
    replace (Z.pos m * p2 e * p2 (- f) * p2 (f - e)) with (Z.pos m * (p2 (f - e) * p2 e * p2 (- f))) by ring. rewrite <- E. ring.
Qed.

(** ** the standard library's rounding is rounding to nearest, ties to even *)
Lemma fexp_64 e : fexp prec64 emax64 e = Z.max (e - 53) (-1074).
Proof. reflexivity. Qed.
Lemma shr_fexp_none m e : fexp prec64 emax64 (Zdigits2 m + e) <= e -> shr_fexp prec64 emax64 m e loc_Exact = (Build_shr_record m false false, e).
Proof. intro H. unfold shr_fexp. cbn [shr_record_of_loc]. destruct (fexp prec64 emax64 (Zdigits2 m + e) - e) eqn:E; [reflexivity|lia|reflexivity]. Qed.
Lemma round_tail s q f : 0 <= q <= 2 ^ 53 -> -1074 <= f ->
  (let '(x, e) := shr_fexp prec64 emax64 q f loc_Exact in
   match shr_m x with Z0 => S754_zero s | Z.pos m => if e <=? emax64 - prec64 then S754_finite s m e else S754_infinity s | _ => S754_nan end) =
  (let '(m, e) := if q =? 2 ^ 53 then (2 ^ 52, f + 1) else (q, f) in
   match m with Z.pos p => if 971 <? e then S754_infinity s else S754_finite s p e | _ => S754_zero s end).
Proof.
  intros Hq Hf. destruct (Z.eqb_spec q (2 ^ 53)) as [->|N].
  - unfold shr_fexp. rewrite fexp_64. change (Zdigits2 (2 ^ 53)) with 54. rewrite Z.max_l by lia. replace (54 + f - 53 - f) with 1 by lia. cbn -[Z.leb Z.ltb]. change (emax64 - prec64) with 971.
    destruct (Z.leb_spec (f + 1) 971), (Z.ltb_spec 971 (f + 1)); try lia; reflexivity.
  - rewrite shr_fexp_none.
    + cbn [shr_m]. destruct q as [|q|q]; [reflexivity| |lia]. change (emax64 - prec64) with 971. destruct (Z.leb_spec f 971), (Z.ltb_spec 971 f); try lia; reflexivity.
    + rewrite fexp_64. assert (Zdigits2 q <= 53); [|lia]. destruct q as [|q|q]; [cbn; lia| |lia]. cbn [Zdigits2]. pose proof (digits2_bounds q) as [B _]. set (d := Z.pos (digits2_pos q)) in *.
      destruct (Z_le_gt_dec d 53) as [|G]; [assumption|]. pose proof (Z.pow_le_mono_r 2 53 (d - 1) ltac:(lia) ltac:(lia)). lia.
Qed.
Lemma binary_round_ratio s m e : binary_round prec64 emax64 s m e = round_ratio s (num2 m e) (den2 e).
Proof.
  unfold round_ratio. pose proof (num2_pos m e) as Np. destruct (Z.eqb_spec (num2 m e) 0) as [Z0'|_]; [lia|].
  rewrite log2_num2. pose proof (digits2_bounds m) as [B1 B2]. set (d := Z.pos (digits2_pos m)) in *. assert (Hd : 1 <= d) by (unfold d; lia).
  replace (d + e - 1 - 52) with (d + e - 53) by lia. set (f := Z.max (d + e - 53) (-1074)). rewrite scaled_num2.
  unfold binary_round. fold d. rewrite fexp_64. fold f. unfold shl_align.
  destruct (Z_le_gt_dec f e) as [L|G].
  - (* exact *)
    set (q := Z.pos m * 2 ^ (e - f)). assert (Q : rne (Z.pos m * p2 (e - f)) (p2 (f - e)) = q).
    { replace (p2 (f - e)) with 1; [rewrite rne_1; unfold p2; destruct (Z.leb_spec 0 (e - f)); [reflexivity|lia]|]. unfold p2. destruct (Z.leb_spec 0 (f - e)); [replace (f - e) with 0 by lia; reflexivity|reflexivity]. }
    rewrite Q. pose proof (Z.pow_pos_nonneg 2 (e - f) ltac:(lia) ltac:(lia)) as Pw.
    assert (Qb : 2 ^ (d + (e - f) - 1) <= q < 2 ^ (d + (e - f))).
    { unfold q. replace (d + (e - f) - 1) with ((d - 1) + (e - f)) by lia. rewrite !Z.pow_add_r by lia. split; [apply Z.mul_le_mono_pos_r; lia|apply Z.mul_lt_mono_pos_r; lia]. }
    assert (Dq : Zdigits2 q = d + (e - f)) by (apply digits_unique; [unfold q; nia|exact Qb|lia]).
    assert (E : (match f - e with Z.neg d0 => (shift_pos d0 m, f) | _ => (m, e) end) = (Z.to_pos q, f)).
    { destruct (f - e) as [|k|k] eqn:Ek; [|lia|].
      - assert (e - f = 0) as Z1 by lia. unfold q. rewrite Z1, Z.mul_1_r. cbn [Z.to_pos]. f_equal. lia.
      - f_equal. apply Pos2Z.inj. rewrite shift_pos_val. rewrite Z2Pos.id by (unfold q; nia). unfold q. f_equal. f_equal. lia. }
    rewrite E. rewrite Z2Pos.id by (unfold q; nia). unfold binary_round_aux. rewrite shr_fexp_none by (rewrite fexp_64, Dq; replace (d + (e - f) + f) with (d + e) by lia; fold f; lia).
    cbn [shr_m loc_of_shr_record round_nearest_even]. apply (round_tail s q f); [|unfold f; lia].
    split; [unfold q; nia|]. apply Z.lt_le_incl. eapply Z.lt_le_trans; [apply Qb|]. apply Z.pow_le_mono_r; [lia|]. unfold f. lia.
  - (* rounded *)
    set (k := f - e). replace (match k with Z.neg d0 => (shift_pos d0 m, f) | _ => (m, e) end) with (m, e) by (unfold k; destruct (f - e) eqn:Ek; [reflexivity|reflexivity|lia]).
    assert (Q : rne (Z.pos m * p2 (e - f)) (p2 k) = rne (Z.pos m) (2 ^ k)).
    { f_equal; unfold p2; [destruct (Z.leb_spec 0 (e - f)); lia|destruct (Z.leb_spec 0 k); [reflexivity|unfold k in *; lia]]. }
    rewrite Q. unfold binary_round_aux, shr_fexp at 1. cbn [Zdigits2]. fold d. rewrite fexp_64. fold f. fold k. cbn [shr_record_of_loc].
    destruct k as [|kp|kp] eqn:Ek; [lia| |lia]. cbn [shr].
    assert (S0 : shifted (Z.pos m) 0 (Build_shr_record (Z.pos m) false false)) by (exists 0; cbn [shr_m shr_r shr_s]; lia).
    pose proof (shifted_iter kp _ _ _ (Z.le_refl 0) S0) as S1. rewrite Z.add_0_l in S1. rewrite (shifted_rne _ (Z.pos kp) _ ltac:(lia) S1). replace (e + Z.pos kp) with f by lia.
    apply (round_tail s (rne (Z.pos m) (2 ^ Z.pos kp)) f); [|unfold f; lia].
    (* 0 <= q <= 2^53 *)
    pose proof (Z.pow_pos_nonneg 2 (Z.pos kp) ltac:(lia) ltac:(lia)) as Pw. pose proof (rne_half (Z.pos m) (2 ^ Z.pos kp) Pw) as Hh. set (w := 2 ^ Z.pos kp) in *. set (q := rne _ _) in *.
    assert (Mb : Z.pos m < 2 ^ 53 * w). { eapply Z.lt_le_trans; [exact B2|]. unfold w. rewrite <- Z.pow_add_r by lia. apply Z.pow_le_mono_r; [lia|]. unfold f in *. lia. }
    split.
    + unfold q, rne. pose proof (Z.div_pos (Z.pos m) w ltac:(lia) Pw). destruct (_ ?= _); [destruct (Z.even _)| |]; lia.
    + destruct (Z_le_gt_dec q (2 ^ 53)) as [L|Gq]; [lia|exfalso]. nia.
Qed.

(** ** values *)
Definition sgn (s : bool) : R := (if s then -1 else 1)%R.
Lemma sgn_abs s x : Rabs (sgn s * x) = Rabs x.
Proof. destruct s; cbn [sgn]; [replace (-1 * x)%R with (- x)%R by ring; apply Rabs_Ropp|f_equal; ring]. Qed.
Definition up (m : positive) (e : Z) : Z := Z.max (Z.pos (digits2_pos m) + e - 53) (-1074).
Definition near_int (m : positive) (e : Z) : Z := rne (Z.pos m * p2 (e - up m e)) (p2 (up m e - e)).
Lemma near_int_bound m e : 0 <= near_int m e <= 2 ^ 53.
Proof.
  unfold near_int, up. pose proof (digits2_bounds m) as [B1 B2]. set (d := Z.pos (digits2_pos m)) in *. assert (Hd : 1 <= d) by (unfold d; lia). set (f := Z.max (d + e - 53) (-1074)).
  pose proof (p2_pos (f - e)) as Pw. pose proof (p2_pos (e - f)) as Pv. pose proof (rne_half (Z.pos m * p2 (e - f)) (p2 (f - e)) Pw) as Hh. set (q := rne _ _) in *.
  assert (Mb : Z.pos m * p2 (e - f) < 2 ^ 53 * p2 (f - e)).
  { unfold p2. destruct (Z.leb_spec 0 (e - f)), (Z.leb_spec 0 (f - e)); try lia.
    - replace (e - f) with 0 by lia. replace (f - e) with 0 by lia. rewrite Z.pow_0_r, !Z.mul_1_r. eapply Z.lt_le_trans; [exact B2|]. apply Z.pow_le_mono_r; [lia|]. unfold f in *. lia.
    - rewrite Z.mul_1_r. eapply Z.lt_le_trans; [apply Z.mul_lt_mono_pos_r; [apply Z.pow_pos_nonneg; lia|exact B2]|]. rewrite <- Z.pow_add_r by lia. apply Z.pow_le_mono_r; [lia|]. unfold f in *. lia.
    - rewrite Z.mul_1_r. eapply Z.lt_le_trans; [exact B2|]. rewrite <- Z.pow_add_r by lia. apply Z.pow_le_mono_r; [lia|]. unfold f in *. lia. }
  split.
  - unfold q, rne. pose proof (Z.div_pos (Z.pos m * p2 (e - f)) (p2 (f - e)) ltac:(lia) Pw). destruct (_ ?= _); [destruct (Z.even _)| |]; lia.
  - destruct (Z_le_gt_dec q (2 ^ 53)) as [L|G]; [exact L|exfalso]. nia.
Qed.
Lemma binary_round_eq s m e : binary_round prec64 emax64 s m e =
  (let '(q, f) := if near_int m e =? 2 ^ 53 then (2 ^ 52, up m e + 1) else (near_int m e, up m e) in
   match q with Z.pos p => if 971 <? f then S754_infinity s else S754_finite s p f | _ => S754_zero s end).
Proof.
  rewrite binary_round_ratio. unfold round_ratio. pose proof (num2_pos m e) as Np. destruct (Z.eqb_spec (num2 m e) 0) as [Z0'|_]; [lia|].
  rewrite log2_num2. replace (Z.pos (digits2_pos m) + e - 1 - 52) with (Z.pos (digits2_pos m) + e - 53) by lia. fold (up m e). rewrite scaled_num2. fold (near_int m e). reflexivity.
Qed.
Lemma round_value s m e : (forall t, binary_round prec64 emax64 s m e <> S754_infinity t) ->
  value (binary_round prec64 emax64 s m e) = (sgn s * (IZR (near_int m e) * powerRZ 2 (up m e)))%R.
Proof.
  rewrite binary_round_eq. pose proof (near_int_bound m e) as B. destruct (Z.eqb_spec (near_int m e) (2 ^ 53)) as [E|N].
  - change (2 ^ 52) with (Z.pos 4503599627370496). cbv beta iota. intro H. destruct (Z.ltb_spec 971 (up m e + 1)) as [L|L]; [exfalso; apply (H s); reflexivity|]. rewrite E. cbn [value]. rewrite (pw_succ 2 (up m e)) by lra. unfold sgn. assert (X : IZR (2 ^ 53) = (2 * IZR (Z.pos 4503599627370496))%R) by (rewrite <- mult_IZR; reflexivity). rewrite X. ring.
  - destruct (near_int m e) as [|q|q]; [| |lia].
    + intros _. cbn [value]. ring.
    + destruct (Z.ltb_spec 971 (up m e)) as [L|L]; intro H; [exfalso; apply (H s); reflexivity|]. cbn [value]. unfold sgn. ring.
Qed.
Lemma near_int_half m e : (Rabs (IZR (Z.pos m) * powerRZ 2 e - IZR (near_int m e) * powerRZ 2 (up m e)) <= powerRZ 2 (up m e) / 2)%R.
Proof.
  unfold near_int. set (f := up m e). pose proof (rne_half_R (Z.pos m * p2 (e - f)) (p2 (f - e)) (p2_pos _)) as H.
  assert (E : rat (Z.pos m * p2 (e - f)) (p2 (f - e)) = (IZR (Z.pos m) * powerRZ 2 (e - f))%R).
  { unfold rat. rewrite mult_IZR, (p2_real (e - f)). replace (- (e - f)) with (f - e) by lia. pose proof (IZR_lt _ _ (p2_pos (f - e))). field. lra. }
  rewrite E in H. pose proof (pw_pos 2 f ltac:(lra)) as Pf. replace (powerRZ 2 e) with (powerRZ 2 (e - f) * powerRZ 2 f)%R by (rewrite <- pw_add by lra; f_equal; lia).
  set (q := rne _ _) in *. replace (IZR (Z.pos m) * (powerRZ 2 (e - f) * powerRZ 2 f) - IZR q * powerRZ 2 f)%R with ((IZR (Z.pos m) * powerRZ 2 (e - f) - IZR q) * powerRZ 2 f)%R by ring.
  rewrite Rabs_mult, (Rabs_right (powerRZ 2 f)) by lra. nra.
Qed.
Lemma near_int_exact m e : up m e <= e -> (IZR (near_int m e) * powerRZ 2 (up m e) = IZR (Z.pos m) * powerRZ 2 e)%R.
Proof.
  intro L. unfold near_int. set (f := up m e) in *. replace (p2 (f - e)) with 1 by (unfold p2; destruct (Z.leb_spec 0 (f - e)); [replace (f - e) with 0 by lia; reflexivity|reflexivity]).
  rewrite rne_1. unfold p2. destruct (Z.leb_spec 0 (e - f)); [|lia]. rewrite mult_IZR, IZR_pow by lia. rewrite Rmult_assoc, <- pw_add by lra. do 2 f_equal. lia.
Qed.
(** relative error of a rounding to nearest of a multiple of the smallest double *)
Lemma round_error s m e : -1074 <= e -> (forall t, binary_round prec64 emax64 s m e <> S754_infinity t) ->
  (Rabs (value (binary_round prec64 emax64 s m e) - sgn s * (IZR (Z.pos m) * powerRZ 2 e)) <= powerRZ 2 (-53) * (IZR (Z.pos m) * powerRZ 2 e))%R.
Proof.
  intros He Hi. rewrite (round_value s m e Hi), <- Rmult_minus_distr_l, sgn_abs. assert (V0 : (0 < IZR (Z.pos m) * powerRZ 2 e)%R) by (apply Rmult_lt_0_compat; [apply IZR_lt; lia|apply pw_pos; lra]).
  pose proof (pw_pos 2 (-53) ltac:(lra)). destruct (Z_le_gt_dec (up m e) e) as [L|G].
  - rewrite (near_int_exact m e L). rewrite Rminus_diag_eq, Rabs_R0 by reflexivity. nra.
  - rewrite Rabs_minus_sym. eapply Rle_trans; [apply near_int_half|]. pose proof (digits2_bounds m) as [B1 _]. unfold up in *. set (d := Z.pos (digits2_pos m)) in *. assert (1 <= d) by (unfold d; lia).
    rewrite Z.max_l by lia. apply IZR_le in B1. rewrite IZR_pow in B1 by lia.
    assert (E : (powerRZ 2 (d + e - 53) = powerRZ 2 (-53) * 2 * (powerRZ 2 (d - 1) * powerRZ 2 e))%R).
    { replace (d + e - 53) with (-53 + 1 + ((d - 1) + e)) by lia. rewrite (pw_add 2 (-53 + 1)), (pw_succ 2 (-53)), (pw_add 2 (d - 1)) by lra. reflexivity. }
    rewrite E. assert ((powerRZ 2 (d - 1) * powerRZ 2 e <= IZR (Z.pos m) * powerRZ 2 e)%R) by (apply Rmult_le_compat_r; [apply Rlt_le, pw_pos; lra|exact B1]).
    assert ((powerRZ 2 (-53) * (powerRZ 2 (d - 1) * powerRZ 2 e) <= powerRZ 2 (-53) * (IZR (Z.pos m) * powerRZ 2 e))%R) by (apply Rmult_le_compat_l; lra). lra.
Qed.
(** no overflow below a finite double *)
Lemma finite_bound w : is_finite64 w = true -> (Rabs (value w) <= IZR (2 ^ 53 - 1) * powerRZ 2 971)%R.
Proof.
  pose proof (pw_pos 2 971 ltac:(lra)) as P. destruct w as [s|s| |s m e]; cbn [is_finite64]; try discriminate; intro H.
  - cbn [value]. rewrite Rabs_R0. apply Rmult_le_pos; [apply IZR_le; lia|lra].
  - apply bounded_spec in H as (M1 & E1 & _). cbn [value]. rewrite Rmult_assoc. fold (sgn s). rewrite sgn_abs. rewrite Rabs_right.
    + apply Rmult_le_compat; [apply IZR_le; lia|apply Rlt_le, pw_pos; lra|apply IZR_le; lia|apply pw_le; [lra|lia]].
    + apply Rle_ge, Rmult_le_pos; [apply IZR_le; lia|apply Rlt_le, pw_pos; lra].
Qed.
Lemma no_overflow s m e w : is_finite64 w = true -> (IZR (Z.pos m) * powerRZ 2 e <= Rabs (value w))%R -> forall t, binary_round prec64 emax64 s m e <> S754_infinity t.
Proof.
  intros Fw Hw t. pose proof (finite_bound w Fw) as B. rewrite binary_round_eq. pose proof (near_int_bound m e) as Qb. pose proof (near_int_half m e) as Qh.
  set (v := (IZR (Z.pos m) * powerRZ 2 e)%R) in *. pose proof (pw_pos 2 971 ltac:(lra)) as P.
  assert (U : up m e <= 971).
  { destruct (Z_le_gt_dec (up m e) 971) as [|G]; [assumption|exfalso]. pose proof (digits2_bounds m) as [B1 _]. unfold up in G. set (d := Z.pos (digits2_pos m)) in *. assert (1 <= d) by (unfold d; lia).
    apply IZR_le in B1. rewrite IZR_pow in B1 by lia. assert (V : (powerRZ 2 (d - 1 + e) <= v)%R) by (unfold v; rewrite pw_add by lra; apply Rmult_le_compat_r; [apply Rlt_le, pw_pos; lra|exact B1]).
    assert (W : (powerRZ 2 (53 + 971) <= powerRZ 2 (d - 1 + e))%R) by (apply pw_le; [lra|lia]). rewrite pw_add in W by lra.
    assert (IZR (2 ^ 53 - 1) * powerRZ 2 971 < powerRZ 2 53 * powerRZ 2 971)%R; [|lra]. apply Rmult_lt_compat_r; [exact P|]. rewrite p2_53. apply IZR_lt. lia. }
  destruct (Z.eqb_spec (near_int m e) (2 ^ 53)) as [E|N].
  - cbn -[Z.ltb]. destruct (Z.ltb_spec 971 (up m e + 1)) as [L|L]; [|discriminate]. exfalso. replace (up m e) with 971 in * by lia. rewrite E in Qh. apply Rabs_le_inv in Qh.
    rewrite minus_IZR in B. set (x := IZR (2 ^ 53)) in *. clearbody x. nra.
  - destruct (near_int m e) as [|q|q]; [discriminate| |discriminate]. destruct (Z.ltb_spec 971 (up m e)); [lia|discriminate].
Qed.

(** ** sums and differences *)
Lemma align_val m e ez : ez <= e -> (IZR (Z.pos (fst (shl_align m e ez))) * powerRZ 2 ez = IZR (Z.pos m) * powerRZ 2 e)%R.
Proof.
  intro H. unfold shl_align. destruct (ez - e) as [|k|k] eqn:E; [replace ez with e by lia; reflexivity|lia|]. cbn [fst]. rewrite shift_pos_val, mult_IZR, IZR_pow by lia.
  rewrite Rmult_assoc, <- pw_add by lra. do 2 f_equal. lia.
Qed.
Lemma normalize_spec M e z : -1074 <= e -> let x := binary_normalize prec64 emax64 M e z in let v := (IZR M * powerRZ 2 e)%R in
  ((exists w, is_finite64 w = true /\ Rabs v <= Rabs (value w))%R -> forall t, x <> S754_infinity t) /\
  ((forall t, x <> S754_infinity t) -> is_finite64 x = true /\ (forall y, is_finite64 y = true -> Rabs (v - value x) <= Rabs (v - value y))%R /\ (Rabs (value x - v) <= powerRZ 2 (-53) * Rabs v)%R).
Proof.
  intros He x v. unfold x, v, binary_normalize. pose proof (pw_pos 2 e ltac:(lra)) as Pe. destruct M as [|m|m].
  - split; [discriminate|]. intros _. split; [reflexivity|]. rewrite Rmult_0_l. cbn [value]. rewrite Rminus_0_r, Rabs_R0. split; [intros; apply Rabs_pos|]. lra.
  - assert (V0 : (0 < IZR (Z.pos m) * powerRZ 2 e)%R) by (apply Rmult_lt_0_compat; [apply IZR_lt; lia|exact Pe]). rewrite (Rabs_right (_ * _)) by lra. split.
    + intros [w [Fw Hw]]. apply (no_overflow false m e w Fw Hw).
    + intro H. pose proof (round_error false m e He H) as E. pose proof H as H'. rewrite binary_round_ratio in H' |- *. apply round_nearest in H' as [F Nr]; [|apply Z.lt_le_incl, num2_pos|apply p2_pos].
      rewrite rat_num2, Rmult_1_l in Nr. split; [exact F|]. split; [exact Nr|]. rewrite binary_round_ratio in E. cbn [sgn] in E. rewrite Rmult_1_l in E. exact E.
  - assert (V0 : (0 < IZR (Z.pos m) * powerRZ 2 e)%R) by (apply Rmult_lt_0_compat; [apply IZR_lt; lia|exact Pe]).
    assert (En : (IZR (Z.neg m) * powerRZ 2 e = -1 * (IZR (Z.pos m) * powerRZ 2 e))%R) by (change (Z.neg m) with (- Z.pos m); rewrite opp_IZR; ring). rewrite En.
    assert (Ea : (Rabs (-1 * (IZR (Z.pos m) * powerRZ 2 e)) = IZR (Z.pos m) * powerRZ 2 e)%R) by (change (-1)%R with (sgn true); rewrite sgn_abs; apply Rabs_right; lra). rewrite Ea. split.
    + intros [w [Fw Hw]]. apply (no_overflow true m e w Fw Hw).
    + intro H. pose proof (round_error true m e He H) as E. pose proof H as H'. rewrite binary_round_ratio in H' |- *. apply round_nearest in H' as [F Nr]; [|apply Z.lt_le_incl, num2_pos|apply p2_pos].
      rewrite rat_num2 in Nr. split; [exact F|]. split; [exact Nr|]. rewrite binary_round_ratio in E. exact E.
Qed.
(** z is the correctly rounded real v *)
Definition rounds (v : R) (z : spec_float) : Prop :=
  ((exists w, is_finite64 w = true /\ Rabs v <= Rabs (value w))%R -> forall t, z <> S754_infinity t) /\
  ((forall t, z <> S754_infinity t) -> is_finite64 z = true /\ (forall y, is_finite64 y = true -> Rabs (v - value z) <= Rabs (v - value y))%R /\ (Rabs (value z - v) <= powerRZ 2 (-53) * Rabs v)%R).
Lemma rounds_self z : is_finite64 z = true -> rounds (value z) z.
Proof.
  intro F. split; [intros _ t ->; discriminate|]. intros _. split; [exact F|]. rewrite Rminus_diag_eq, Rabs_R0 by reflexivity. split; [intros; apply Rabs_pos|].
  apply Rmult_le_pos; [apply Rlt_le, pw_pos; lra|apply Rabs_pos].
Qed.
Lemma value_finite s m e : value (S754_finite s m e) = (sgn s * (IZR (Z.pos m) * powerRZ 2 e))%R.
Proof. cbn [value]. unfold sgn. ring. Qed.
Lemma value_opp x : value (SFopp x) = (- value x)%R.
Proof. destruct x as [s|s| |s m e]; cbn [SFopp value]; try ring. destruct s; cbn [negb]; ring. Qed.
Lemma finite_opp x : is_finite64 (SFopp x) = is_finite64 x. Proof. destruct x; reflexivity. Qed.
Lemma cond_val s k e : (IZR (cond_Zopp s k) * powerRZ 2 e = sgn s * (IZR k * powerRZ 2 e))%R.
Proof. destruct s; cbn [cond_Zopp sgn]; [rewrite opp_IZR|]; ring. Qed.
Lemma add_rounds x y : is_finite64 x = true -> is_finite64 y = true -> rounds (value x + value y) (SFadd prec64 emax64 x y).
Proof.
  intros Fx Fy. destruct x as [sx|sx| |sx mx ex]; try discriminate; destruct y as [sy|sy| |sy my ey]; try discriminate; cbn [SFadd].
  - cbn [value]. rewrite Rplus_0_l. destruct (Bool.eqb sx sy); apply (rounds_self (S754_zero _)); reflexivity.
  - cbn [value]. rewrite Rplus_0_l. apply (rounds_self (S754_finite sy my ey)). exact Fy.
  - cbn [value]. rewrite Rplus_0_r. apply (rounds_self (S754_finite sx mx ex)). exact Fx.
  - pose proof (bounded_spec _ _ Fx) as (_ & Ex & _). pose proof (bounded_spec _ _ Fy) as (_ & Ey & _). rewrite !value_finite.
    rewrite <- (align_val mx ex (Z.min ex ey)), <- (align_val my ey (Z.min ex ey)) by lia. rewrite <- !cond_val, <- Rmult_plus_distr_r, <- plus_IZR. apply normalize_spec. lia.
Qed.
Lemma sub_rounds x y : is_finite64 x = true -> is_finite64 y = true -> rounds (value x - value y) (SFsub prec64 emax64 x y).
Proof.
  intros Fx Fy. destruct x as [sx|sx| |sx mx ex]; try discriminate; destruct y as [sy|sy| |sy my ey]; try discriminate; cbn [SFsub].
  - cbn [value]. rewrite Rminus_0_r. destruct (Bool.eqb sx (negb sy)); apply (rounds_self (S754_zero _)); reflexivity.
  - change (value (S754_zero sx)) with 0%R. rewrite Rminus_0_l. rewrite <- (value_opp (S754_finite sy my ey)). apply (rounds_self (S754_finite (negb sy) my ey)). exact Fy.
  - cbn [value]. rewrite Rminus_0_r. apply (rounds_self (S754_finite sx mx ex)). exact Fx.
  - pose proof (bounded_spec _ _ Fx) as (_ & Ex & _). pose proof (bounded_spec _ _ Fy) as (_ & Ey & _). rewrite !value_finite.
    rewrite <- (align_val mx ex (Z.min ex ey)), <- (align_val my ey (Z.min ex ey)) by lia. rewrite <- !cond_val, <- Rmult_minus_distr_r, <- minus_IZR. apply normalize_spec. lia.
Qed.

(** ** comparisons *)
Lemma canonical_lt m e m' e' : bounded prec64 emax64 m e = true -> bounded prec64 emax64 m' e' = true -> e < e' -> (IZR (Z.pos m) * powerRZ 2 e < IZR (Z.pos m') * powerRZ 2 e')%R.
Proof.
  intros H H' L. apply bounded_spec in H as (M1 & E1 & _). apply bounded_spec in H' as (_ & E1' & C). destruct C as [C|C]; [|lia].
  apply IZR_lt in M1. apply IZR_le in C. rewrite IZR_pow in M1, C by lia. pose proof (pw_pos 2 e ltac:(lra)). pose proof (pw_pos 2 e' ltac:(lra)).
  eapply Rlt_le_trans; [apply Rmult_lt_compat_r; [assumption|exact M1]|]. eapply Rle_trans; [|apply Rmult_le_compat_r; [lra|exact C]]. rewrite <- !pw_add by lra. apply pw_le; [lra|lia].
Qed.
Lemma pos_compare m e m' e' : bounded prec64 emax64 m e = true -> bounded prec64 emax64 m' e' = true ->
  (match Z.compare e e' with Lt => Lt | Gt => Gt | Eq => Pcompare m m' Eq end = Lt <-> IZR (Z.pos m) * powerRZ 2 e < IZR (Z.pos m') * powerRZ 2 e')%R /\
  (match Z.compare e e' with Lt => Lt | Gt => Gt | Eq => Pcompare m m' Eq end = Gt <-> IZR (Z.pos m') * powerRZ 2 e' < IZR (Z.pos m) * powerRZ 2 e)%R.
Proof.
  intros H H'. destruct (Z.compare_spec e e') as [->|L|G].
  - pose proof (pw_pos 2 e' ltac:(lra)) as P. change (Pcompare m m' Eq) with (Pos.compare m m'). change (Pos.compare m m') with (Z.compare (Z.pos m) (Z.pos m')).
    destruct (Z.compare_spec (Z.pos m) (Z.pos m')) as [E|L|G].
    + rewrite E. split; split; intro K; try discriminate; lra.
    + apply IZR_lt in L. split; split; intro K; try discriminate; try reflexivity; nra.
    + apply IZR_lt in G. split; split; intro K; try discriminate; try reflexivity; nra.
  - pose proof (canonical_lt m e m' e' H H' L). split; split; intro K; try discriminate; try reflexivity; lra.
  - pose proof (canonical_lt m' e' m e H' H G). split; split; intro K; try discriminate; try reflexivity; lra.
Qed.
Lemma ltb_value x y : is_finite64 x = true -> is_finite64 y = true -> SFltb x y = true <-> (value x < value y)%R.
Proof.
  intros Fx Fy. unfold SFltb, SFcompare. destruct x as [sx|sx| |sx mx ex]; try discriminate; destruct y as [sy|sy| |sy my ey]; try discriminate; cbn [is_finite64 valid_binary] in *.
  - cbn [value]. split; [discriminate|lra].
  - change (value (S754_zero sx)) with 0%R. rewrite value_finite. assert (0 < IZR (Z.pos my) * powerRZ 2 ey)%R by (apply Rmult_lt_0_compat; [apply IZR_lt; lia|apply pw_pos; lra]).
    destruct sy; cbn [sgn]; split; intro; try discriminate; try reflexivity; lra.
  - change (value (S754_zero sy)) with 0%R. rewrite value_finite. assert (0 < IZR (Z.pos mx) * powerRZ 2 ex)%R by (apply Rmult_lt_0_compat; [apply IZR_lt; lia|apply pw_pos; lra]).
    destruct sx; cbn [sgn]; split; intro; try discriminate; try reflexivity; lra.
  - rewrite !value_finite. assert (0 < IZR (Z.pos mx) * powerRZ 2 ex)%R by (apply Rmult_lt_0_compat; [apply IZR_lt; lia|apply pw_pos; lra]).
    assert (0 < IZR (Z.pos my) * powerRZ 2 ey)%R by (apply Rmult_lt_0_compat; [apply IZR_lt; lia|apply pw_pos; lra]). destruct (pos_compare mx ex my ey Fx Fy) as [P1 P2].
    destruct sx, sy; cbn [sgn].
    + assert (E : (match Z.compare ex ey with Lt => Gt | Gt => Lt | Eq => CompOpp (Pcompare mx my Eq) end = Lt) <-> (match Z.compare ex ey with Lt => Lt | Gt => Gt | Eq => Pcompare mx my Eq end = Gt)).
      { destruct (Z.compare ex ey); [|split; discriminate|split; reflexivity]. destruct (Pcompare mx my Eq); cbn; split; intro; try discriminate; reflexivity. }
      split; intro K.
      * assert (G : match Z.compare ex ey with Lt => Gt | Gt => Lt | Eq => CompOpp (Pcompare mx my Eq) end = Lt) by (destruct (match Z.compare ex ey with Lt => Gt | Gt => Lt | Eq => CompOpp (Pcompare mx my Eq) end); [discriminate|reflexivity|discriminate]).
        apply E, P2 in G. lra.
      * rewrite (proj2 E); [reflexivity|]. apply P2. lra.
    + split; intro; try reflexivity; lra.
    + split; intro; try discriminate; lra.
    + rewrite !Rmult_1_l. split; intro K.
      * apply P1. destruct (match Z.compare ex ey with Lt => Lt | Gt => Gt | Eq => Pcompare mx my Eq end); [discriminate|reflexivity|discriminate].
      * rewrite (proj2 P1 K). reflexivity.
Qed.
(** a nonzero double is determined by its value *)
Lemma value_inj s m e y : bounded prec64 emax64 m e = true -> is_finite64 y = true -> value y = value (S754_finite s m e) -> y = S754_finite s m e.
Proof.
  intros H Fy E. assert (V0 : (0 < IZR (Z.pos m) * powerRZ 2 e)%R) by (apply Rmult_lt_0_compat; [apply IZR_lt; lia|apply pw_pos; lra]). rewrite value_finite in E.
  destruct y as [sy|sy| |sy my ey]; try discriminate; [cbn [value] in E; destruct s; cbn [sgn] in E; lra|]. rewrite value_finite in E. cbn [is_finite64 valid_binary] in Fy.
  assert (V1 : (0 < IZR (Z.pos my) * powerRZ 2 ey)%R) by (apply Rmult_lt_0_compat; [apply IZR_lt; lia|apply pw_pos; lra]).
  assert (Es : sy = s) by (destruct sy, s; cbn [sgn] in E; try reflexivity; lra). subst sy. assert (E' : (IZR (Z.pos my) * powerRZ 2 ey = IZR (Z.pos m) * powerRZ 2 e)%R) by (destruct s; cbn [sgn] in E; lra).
  assert (Ee : ey = e).
  { destruct (Z.lt_trichotomy ey e) as [L|[L|L]]; [|exact L|].
    - pose proof (canonical_lt _ _ _ _ Fy H L). lra.
    - pose proof (canonical_lt _ _ _ _ H Fy L). lra. }
  subst ey. f_equal. pose proof (pw_pos 2 e ltac:(lra)). apply Rmult_eq_reg_r in E'; [|lra]. apply eq_IZR in E'. congruence.
Qed.
(** integers below 2^53 times a power of two are doubles *)
Lemma double_of k e : 0 <= k < 2 ^ 53 -> -1074 <= e <= 971 -> exists w, is_finite64 w = true /\ value w = (IZR k * powerRZ 2 e)%R.
Proof.
  intros Hk He. destruct k as [|m|m]; [exists (S754_zero false); split; [reflexivity|cbn [value]; ring]| |lia].
  assert (U : up m e <= e).
  { unfold up. pose proof (digits2_bounds m) as [B1 _]. set (d := Z.pos (digits2_pos m)) in *. assert (d <= 53); [|lia].
    destruct (Z_le_gt_dec d 53) as [|G]; [assumption|]. pose proof (Z.pow_le_mono_r 2 53 (d - 1) ltac:(lia) ltac:(lia)). lia. }
  assert (I : forall t, binary_round prec64 emax64 false m e <> S754_infinity t).
  { intro t. apply (no_overflow false m e (S754_finite false (2 ^ 53 - 1) 971)); [reflexivity|]. rewrite value_finite. cbn [sgn]. rewrite Rmult_1_l, Rabs_right.
    - apply Rmult_le_compat; [apply IZR_le; lia|apply Rlt_le, pw_pos; lra|apply IZR_le; lia|apply pw_le; [lra|lia]].
    - apply Rle_ge, Rmult_le_pos; [apply IZR_le; lia|apply Rlt_le, pw_pos; lra]. }
  destruct (normalize_spec (Z.pos m) e false ltac:(lia)) as [_ S2]. cbn [binary_normalize] in S2. destruct (S2 I) as (F & _ & _).
  exists (binary_round prec64 emax64 false m e). split; [exact F|]. rewrite (round_value false m e I), (near_int_exact m e U). cbn [sgn]. ring.
Qed.

(** ** quotients are doubles *)
Lemma shr_1_m x : 0 <= shr_m x -> shr_m (shr_1 x) = shr_m x / 2 /\ 0 <= shr_m (shr_1 x).
Proof.
  destruct x as [m r s]. cbn [shr_m]. intro H. destruct m as [|[p|p|]|p]; cbn [shr_1 shr_m]; try lia.
  - split; [reflexivity|lia].
  - split; [apply (Z.div_unique _ 2 _ 1); lia|lia].
  - split; [apply (Z.div_unique _ 2 _ 0); lia|lia].
  - split; [reflexivity|lia].
Qed.
Lemma shr_iter_m p : forall x, 0 <= shr_m x -> shr_m (iter_pos shr_1 p x) = shr_m x / 2 ^ Z.pos p /\ 0 <= shr_m (iter_pos shr_1 p x).
Proof.
  induction p as [p IH|p IH|]; intros x H; cbn [iter_pos].
  - destruct (shr_1_m x H) as [E1 P1]. destruct (IH _ P1) as [E2 P2]. destruct (IH _ P2) as [E3 P3]. split; [|exact P3]. rewrite E3, E2, E1, !Z.div_div by (apply Z.pow_nonzero + apply Z.pow_pos_nonneg + idtac; lia).
    f_equal. rewrite <- Z.pow_add_r by lia. rewrite <- Z.pow_succ_r by lia. f_equal. lia.
  - destruct (IH _ H) as [E2 P2]. destruct (IH _ P2) as [E3 P3]. split; [|exact P3]. rewrite E3, E2, !Z.div_div by (apply Z.pow_nonzero + apply Z.pow_pos_nonneg + idtac; lia).
    f_equal. rewrite <- Z.pow_add_r by lia. f_equal. lia.
  - apply (shr_1_m x H).
Qed.
Lemma digits_bound m : 0 < m -> 2 ^ (Zdigits2 m - 1) <= m < 2 ^ Zdigits2 m /\ 1 <= Zdigits2 m.
Proof. intro H. destruct m as [|m|m]; [lia| |lia]. cbn [Zdigits2]. split; [apply digits2_bounds|lia]. Qed.
Lemma aux_valid s m e l : 0 <= m -> e <= fexp prec64 emax64 (Zdigits2 m + e) -> valid_binary prec64 emax64 (binary_round_aux prec64 emax64 s m e l) = true.
Proof.
  intros Hm He. unfold binary_round_aux, shr_fexp at 1. rewrite fexp_64 in *. set (f := Z.max (Zdigits2 m + e - 53) (-1074)) in *.
  assert (E : exists x, shr (shr_record_of_loc m l) e (f - e) = (x, f) /\ shr_m x = m / 2 ^ (f - e) /\ 0 <= shr_m x).
  { assert (M0 : shr_m (shr_record_of_loc m l) = m) by (destruct l as [|[| |]]; reflexivity). unfold shr. destruct (f - e) as [|k|k] eqn:Ek; [| |lia].
    - exists (shr_record_of_loc m l). rewrite M0, Z.pow_0_r, Z.div_1_r. split; [f_equal; lia|lia].
    - destruct (shr_iter_m k (shr_record_of_loc m l) ltac:(lia)) as [A B]. rewrite M0 in A. eexists. split; [f_equal; lia|]. split; [exact A|exact B]. }
  destruct E as [x [Ex [Mx Px]]]. rewrite Ex. pose proof (Z.pow_pos_nonneg 2 (f - e) ltac:(lia) ltac:(lia)) as Pw.
  assert (M53 : shr_m x < 2 ^ 53 /\ (2 ^ 52 <= shr_m x \/ f = -1074)).
  { rewrite Mx. destruct (Z.eq_dec m 0) as [Z0'|N0].
    - split; [rewrite Z0', Z.div_0_l by lia; lia|right]. assert (Zdigits2 m = 0) by (rewrite Z0'; reflexivity). unfold f in *. lia.
    - destruct (digits_bound m ltac:(lia)) as [[B1 B2] B3]. set (dg := Zdigits2 m) in *. split.
      + apply Z.div_lt_upper_bound; [exact Pw|]. eapply Z.lt_le_trans; [exact B2|]. rewrite Z.mul_comm, <- Z.pow_add_r by lia. apply Z.pow_le_mono_r; [lia|]. unfold f. lia.
      + destruct (Z.eq_dec f (-1074)) as [|Nf]; [right; assumption|left]. apply Z.div_le_lower_bound; [exact Pw|]. eapply Z.le_trans; [|exact B1]. rewrite <- Z.pow_add_r by lia. apply Z.pow_le_mono_r; [lia|]. unfold f in *. lia. }
  set (q := round_nearest_even (shr_m x) (loc_of_shr_record x)).
  assert (Q : shr_m x <= q <= shr_m x + 1) by (unfold q, round_nearest_even; destruct (loc_of_shr_record x) as [|[| |]]; [lia|destruct (Z.even _); lia|lia|lia]).
  assert (Hf : -1074 <= f) by (unfold f; lia).
  pose proof (round_tail s q f ltac:(lia) Hf) as T. rewrite T. destruct (Z.eqb_spec q (2 ^ 53)) as [Eq|Nq].
  - change (2 ^ 52) with (Z.pos 4503599627370496). cbv beta iota. destruct (Z.ltb_spec 971 (f + 1)) as [|L]; [reflexivity|]. cbn [valid_binary]. apply bounded_intro; [lia|lia|left; lia].
  - destruct q as [|p|p] eqn:Ep; [reflexivity| |reflexivity]. destruct (Z.ltb_spec 971 f) as [|L]; [reflexivity|]. cbn [valid_binary]. apply bounded_intro; [lia|lia|]. destruct (proj2 M53); [left; lia|right; assumption].
Qed.
Lemma div_valid x y : valid_binary prec64 emax64 (SFdiv prec64 emax64 x y) = true.
Proof.
  destruct x as [sx|sx| |sx mx ex], y as [sy|sy| |sy my ey]; try reflexivity. cbn [SFdiv]. unfold SFdiv_core_binary. cbn [Zdigits2].
  set (d1 := Z.pos (digits2_pos mx)). set (d2 := Z.pos (digits2_pos my)). set (g := fexp prec64 emax64 (d1 + ex - (d2 + ey))). set (e' := Z.min g (ex - ey)). set (k := ex - ey - e').
  assert (K0 : 0 <= k) by (unfold k, e'; lia). pose proof (Z.pow_pos_nonneg 2 k ltac:(lia) K0) as Pk.
  assert (M' : match k with Z.pos _ => Z.shiftl (Z.pos mx) k | 0 => Z.pos mx | Z.neg _ => 0 end = Z.pos mx * 2 ^ k).
  { destruct k as [|kp|kp]; [lia|apply Z.shiftl_mul_pow2; lia|lia]. }
  rewrite M'. destruct (Z.div_eucl (Z.pos mx * 2 ^ k) (Z.pos my)) as [q r] eqn:Eq.
  assert (Q : q = Z.pos mx * 2 ^ k / Z.pos my) by (unfold Z.div; rewrite Eq; reflexivity). assert (Q0 : 0 <= q) by (rewrite Q; apply Z.div_pos; lia).
  apply aux_valid; [exact Q0|]. pose proof (digits2_bounds mx) as [A1 _]. pose proof (digits2_bounds my) as [_ A2]. fold d1 in A1. fold d2 in A2. assert (1 <= d1) by (unfold d1; lia). assert (1 <= d2) by (unfold d2; lia).
  assert (D : d1 + k - d2 <= Zdigits2 q).
  { destruct (Z_le_gt_dec (d1 + k - d2) 0) as [L|G]; [destruct q; cbn [Zdigits2]; lia|].
    assert (Lq : 2 ^ (d1 + k - d2 - 1) <= q).
    { rewrite Q. apply Z.div_le_lower_bound; [lia|]. apply Z.le_trans with (2 ^ d2 * 2 ^ (d1 + k - d2 - 1)); [apply Z.mul_le_mono_nonneg_r; [apply Z.pow_nonneg; lia|lia]|].
      rewrite <- Z.pow_add_r by lia. replace (d2 + (d1 + k - d2 - 1)) with ((d1 - 1) + k) by lia. rewrite Z.pow_add_r by lia. apply Z.mul_le_mono_nonneg_r; lia. }
    assert (0 < q) by (pose proof (Z.pow_pos_nonneg 2 (d1 + k - d2 - 1) ltac:(lia) ltac:(lia)); lia). destruct (digits_bound q ltac:(lia)) as [[_ B2] B3].
    destruct (Z_le_gt_dec (d1 + k - d2) (Zdigits2 q)) as [|G']; [assumption|exfalso]. pose proof (Z.pow_le_mono_r 2 (Zdigits2 q) (d1 + k - d2 - 1) ltac:(lia) ltac:(lia)). lia. }
  assert (G : g = Z.max (d1 + ex - (d2 + ey) - 53) (-1074)) by apply fexp_64. rewrite fexp_64. unfold k in D. clearbody g. unfold e' in *. lia.
Qed.
