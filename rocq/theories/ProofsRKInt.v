(** Fixed-point ball arithmetic in machine integers, for the tables of high order: x is m/2^s up to e/2^s, where s is 54 or, for coefficients up to 2048, 51. *)
From Coq Require Import ZArith Uint63 List Bool Arith Lia Reals Lra.
From Verif Require Import Num Py Lib RealLib RKCoeffs SpecRK ProofsRK ProofsRKOrder ProofsRKTables.
Import ListNotations.

(** unknown, zero, m with error e, -m with error e *)
Inductive ib := IBad | IZ | IP (m e : int) | IN (m e : int).
Section Ops.
  Variable fine : bool.
  Local Open Scope uint63_scope.
  Definition emax : int := 2147483648.                 (* 2^31 *)
  Definition mmax : int := 4611686018427387904.        (* 2^62 *)
  Definition unit : int := if fine then 18014398509481984 else 2251799813685248.  (* 2^54, 2^51 *)
  Definition hmax : int := if fine then 9007199254740992 else 1125899906842624.   (* 2^53, 2^50 *)
  Definition low : int := if fine then 13 else 10.     (* s - 41 *)
  Definition top : int := if fine then 9 else 12.      (* 63 - s *)
  Definition sc : Z := if fine then 54%Z else 51%Z.
  Definition pos (m e : int) : ib := if e <? emax then if m <? mmax then IP m e else IBad else IBad.
  Definition neg (m e : int) : ib := if e <? emax then if m <? mmax then IN m e else IBad else IBad.
  Definition diff (m e m' e' : int) : ib := if m' <=? m then pos (m - m') (e + e') else neg (m' - m) (e + e').
  Definition ib_add (a b : ib) : ib :=
    match a, b with
    | IZ, _ => b
    | _, IZ => a
    | IP m e, IP m' e' => pos (m + m') (e + e')
    | IN m e, IN m' e' => neg (m + m') (e + e')
    | IP m e, IN m' e' => diff m e m' e'
    | IN m e, IP m' e' => diff m' e' m e
    | _, _ => IBad
    end.
  (** error of a product *)
  Definition err (m e m' e' : int) : int := ((((m >> 41) + 1) * e' + ((m' >> 41) + 2) * e) >> low) + 2.
  Definition ib_prod (sgn : bool) (m e m' e' : int) : ib :=
    let (h, l) := mulc m m' in
    if h <? hmax then let p := addmuldiv top h l in if sgn then pos p (err m e m' e') else neg p (err m e m' e') else IBad.
  Definition ib_mul (a b : ib) : ib :=
    match a, b with
    | IZ, _ => IZ
    | _, IZ => IZ
    | IP m e, IP m' e' => ib_prod true m e m' e'
    | IN m e, IN m' e' => ib_prod true m e m' e'
    | IP m e, IN m' e' => ib_prod false m e m' e'
    | IN m e, IP m' e' => ib_prod false m e m' e'
    | _, _ => IBad
    end.
  Definition ib_quot (n : Z) (d : positive) : ib :=
    let q := (Z.abs n * 2 ^ sc / Zpos d)%Z in
    if (q <? 2 ^ 62)%Z then match n with Z0 => IZ | Zpos _ => IP (of_Z q) 1 | Zneg _ => IN (of_Z q) 1 end else IBad.
  Definition ib_ent (c : centry) : ib := match ce_n5 c with 0%Z => ib_quot (ce_n c) (ce_d c) | _ => IBad end.
  Definition ib_ops : ops ib := {| o_zero := IZ; o_one := IP unit 0; o_add := ib_add; o_mul := ib_mul; o_ent := ib_ent |}.
  (** |x - 1/g| <= thr / 2^s *)
  Variable thr : int.
  Definition ib_chk (a : ib) (g : Z) : bool :=
    match a with
    | IP m e => let q := unit / of_Z g in
        (0 <? g)%Z && (g <? 2 ^ 62)%Z && ((if m <=? q then q - m else m - q) + e + 1 <=? thr)
    | _ => false
    end.
End Ops.

Ltac scales fine := destruct fine; unfold sc, low, top, unit, hmax in *.
Section Rel.
Variable fine : bool.
Notation sc := (sc fine). Notation low := (low fine). Notation top := (top fine). Notation unit := (unit fine). Notation hmax := (hmax fine). Notation err := (err fine).
Notation ib_prod := (ib_prod fine). Notation ib_mul := (ib_mul fine). Notation ib_quot := (ib_quot fine). Notation ib_ent := (ib_ent fine). Notation ib_ops := (ib_ops fine). Notation ib_chk := (ib_chk fine).
Local Open Scope R_scope.
Notation toZ := Uint63.to_Z.
Lemma wB_val : wB = 9223372036854775808%Z. Proof. reflexivity. Qed.
Definition near (m e : int) (x : R) : Prop :=
  (toZ m < 2 ^ 62)%Z /\ (toZ e < 2 ^ 31)%Z /\ Rabs (x * IZR (2 ^ sc) - IZR (toZ m)) <= IZR (toZ e).
Definition ib_rel (a : ib) (x : R) : Prop := match a with IBad => True | IZ => x = 0 | IP m e => near m e x | IN m e => near m e (- x) end.

Lemma pos_rel m e x : Rabs (x * IZR (2 ^ sc) - IZR (toZ m)) <= IZR (toZ e) -> ib_rel (pos m e) x.
Proof.
  intro H. unfold pos. destruct (e <? emax)%uint63 eqn:E1; [|exact I]. destruct (m <? mmax)%uint63 eqn:E2; [|exact I].
  apply ltb_spec in E1, E2. exact (conj E2 (conj E1 H)).
Qed.
Lemma neg_rel m e x : Rabs (- x * IZR (2 ^ sc) - IZR (toZ m)) <= IZR (toZ e) -> ib_rel (neg m e) x.
Proof.
  intro H. unfold neg. destruct (e <? emax)%uint63 eqn:E1; [|exact I]. destruct (m <? mmax)%uint63 eqn:E2; [|exact I].
  apply ltb_spec in E1, E2. exact (conj E2 (conj E1 H)).
Qed.
Lemma add_small a b : (toZ a + toZ b < wB)%Z -> toZ (a + b)%uint63 = (toZ a + toZ b)%Z.
Proof. intro H. rewrite add_spec. apply Z.mod_small. pose proof (to_Z_bounded a). pose proof (to_Z_bounded b). lia. Qed.
Lemma mul_small a b : (toZ a * toZ b < wB)%Z -> toZ (a * b)%uint63 = (toZ a * toZ b)%Z.
Proof. intro H. rewrite mul_spec. apply Z.mod_small. pose proof (to_Z_bounded a). pose proof (to_Z_bounded b). nia. Qed.
Lemma sub_small a b : (toZ b <= toZ a)%Z -> toZ (a - b)%uint63 = (toZ a - toZ b)%Z.
Proof. intro H. rewrite sub_spec. apply Z.mod_small. pose proof (to_Z_bounded a). pose proof (to_Z_bounded b). lia. Qed.
Lemma near_add m e x m' e' x' : near m e x -> near m' e' x' ->
  Rabs ((x + x') * IZR (2 ^ sc) - IZR (toZ (m + m')%uint63)) <= IZR (toZ (e + e')%uint63).
Proof.
  intros (A1 & A2 & A3) (B1 & B2 & B3). rewrite !add_small by (rewrite wB_val; lia). rewrite !plus_IZR.
  replace ((x + x') * IZR (2 ^ sc) - (IZR (toZ m) + IZR (toZ m'))) with ((x * IZR (2 ^ sc) - IZR (toZ m)) + (x' * IZR (2 ^ sc) - IZR (toZ m'))) by ring.
  eapply Rle_trans; [apply Rabs_triang|]. lra.
Qed.
Lemma diff_rel m e x m' e' x' : near m e x -> near m' e' x' -> ib_rel (diff m e m' e') (x - x').
Proof.
  intros (A1 & A2 & A3) (B1 & B2 & B3). unfold diff. destruct (m' <=? m)%uint63 eqn:E.
  - apply leb_spec in E. apply pos_rel. rewrite sub_small by exact E. rewrite add_small by (rewrite wB_val; lia). rewrite plus_IZR, minus_IZR.
    replace ((x - x') * IZR (2 ^ sc) - (IZR (toZ m) - IZR (toZ m'))) with ((x * IZR (2 ^ sc) - IZR (toZ m)) + - (x' * IZR (2 ^ sc) - IZR (toZ m'))) by ring.
    eapply Rle_trans; [apply Rabs_triang|]. rewrite Rabs_Ropp. lra.
  - assert (E' : (toZ m <= toZ m')%Z).
    { destruct (Z.le_gt_cases (toZ m') (toZ m)) as [L|L]; [apply leb_spec in L; congruence|lia]. }
    apply neg_rel. rewrite sub_small by exact E'. rewrite add_small by (rewrite wB_val; lia). rewrite plus_IZR, minus_IZR.
    replace (- (x - x') * IZR (2 ^ sc) - (IZR (toZ m') - IZR (toZ m))) with (- (x * IZR (2 ^ sc) - IZR (toZ m)) + (x' * IZR (2 ^ sc) - IZR (toZ m'))) by ring.
    eapply Rle_trans; [apply Rabs_triang|]. rewrite Rabs_Ropp. lra.
Qed.
Lemma ib_add_rel a b x y : ib_rel a x -> ib_rel b y -> ib_rel (ib_add a b) (x + y).
Proof.
  intros Ha Hb. destruct a as [| |m e|m e], b as [| |m' e'|m' e']; cbn [ib_add]; cbn [ib_rel] in Ha, Hb; try exact I.
  - subst. cbn [ib_rel]. ring.
  - subst. rewrite Rplus_0_l. exact Hb.
  - subst. rewrite Rplus_0_l. exact Hb.
  - subst. rewrite Rplus_0_r. exact Ha.
  - apply pos_rel, near_add; assumption.
  - replace (x + y) with (x - - y) by ring. apply diff_rel; assumption.
  - subst. rewrite Rplus_0_r. exact Ha.
  - replace (x + y) with (y - - x) by ring. apply diff_rel; assumption.
  - apply neg_rel. replace (- (x + y)) with (- x + - y) by ring. apply near_add; assumption.
Qed.
Lemma lsr_val a k : toZ (a >> k)%uint63 = (toZ a / 2 ^ toZ k)%Z.
Proof. apply lsr_spec. Qed.
Lemma unit_val : toZ unit = (2 ^ sc)%Z. Proof. scales fine; reflexivity. Qed.
Lemma low_val : toZ low = (sc - 41)%Z. Proof. scales fine; reflexivity. Qed.
Lemma err_val m e m' e' : (toZ m < 2 ^ 62)%Z -> (toZ e < 2 ^ 31)%Z -> (toZ m' < 2 ^ 62)%Z -> (toZ e' < 2 ^ 31)%Z ->
  toZ (err m e m' e') = (((toZ m / 2 ^ 41 + 1) * toZ e' + (toZ m' / 2 ^ 41 + 2) * toZ e) / 2 ^ (sc - 41) + 2)%Z.
Proof.
  intros H1 H2 H3 H4. unfold err.
  pose proof (to_Z_bounded m). pose proof (to_Z_bounded e). pose proof (to_Z_bounded m'). pose proof (to_Z_bounded e').
  assert (Q1 : (0 <= toZ m / 2 ^ 41 < 2 ^ 21)%Z) by (split; [apply Z.div_pos; lia|apply Z.div_lt_upper_bound; lia]).
  assert (Q2 : (0 <= toZ m' / 2 ^ 41 < 2 ^ 21)%Z) by (split; [apply Z.div_pos; lia|apply Z.div_lt_upper_bound; lia]).
  assert (S1 : toZ ((m >> 41) + 1)%uint63 = (toZ m / 2 ^ 41 + 1)%Z).
  { rewrite add_small; rewrite lsr_val; change (toZ 41%uint63) with 41%Z; change (toZ 1%uint63) with 1%Z; [reflexivity|rewrite wB_val; lia]. }
  assert (S2 : toZ ((m' >> 41) + 2)%uint63 = (toZ m' / 2 ^ 41 + 2)%Z).
  { rewrite add_small; rewrite lsr_val; change (toZ 41%uint63) with 41%Z; change (toZ 2%uint63) with 2%Z; [reflexivity|rewrite wB_val; lia]. }
  assert (P1 : (0 <= (toZ m / 2 ^ 41 + 1) * toZ e' <= 2 ^ 21 * 2 ^ 31)%Z) by (split; [apply Z.mul_nonneg_nonneg; lia|apply Z.mul_le_mono_nonneg; lia]).
  assert (P2 : (0 <= (toZ m' / 2 ^ 41 + 2) * toZ e <= (2 ^ 21 + 1) * 2 ^ 31)%Z) by (split; [apply Z.mul_nonneg_nonneg; lia|apply Z.mul_le_mono_nonneg; lia]).
  assert (T1 : toZ (((m >> 41) + 1) * e')%uint63 = ((toZ m / 2 ^ 41 + 1) * toZ e')%Z) by (rewrite mul_small; rewrite S1; [reflexivity|rewrite wB_val; lia]).
  assert (T2 : toZ (((m' >> 41) + 2) * e)%uint63 = ((toZ m' / 2 ^ 41 + 2) * toZ e)%Z) by (rewrite mul_small; rewrite S2; [reflexivity|rewrite wB_val; lia]).
  assert (U : toZ (((m >> 41) + 1) * e' + ((m' >> 41) + 2) * e)%uint63 = ((toZ m / 2 ^ 41 + 1) * toZ e' + (toZ m' / 2 ^ 41 + 2) * toZ e)%Z).
  { rewrite add_small; rewrite T1, T2; [reflexivity|rewrite wB_val; lia]. }
  assert (V : ((((toZ m / 2 ^ 41 + 1) * toZ e' + (toZ m' / 2 ^ 41 + 2) * toZ e) / 2 ^ (sc - 41)) < 2 ^ 50)%Z) by (clear - P1 P2; scales fine; apply Z.div_lt_upper_bound; lia).
  rewrite add_small; rewrite lsr_val, U; rewrite low_val; change (toZ 2%uint63) with 2%Z; [reflexivity|rewrite wB_val; lia].
Qed.
Lemma high_part m m' : forall h l, mulc m m' = (h, l) -> (h <? hmax)%uint63 = true -> toZ (addmuldiv top h l) = (toZ m * toZ m' / 2 ^ sc)%Z.
Proof.
  intros h l E Hh. pose proof (mulc_spec m m') as S. rewrite E in S. cbn [fst snd] in S. apply ltb_spec in Hh.
  pose proof (to_Z_bounded h) as Bh. pose proof (to_Z_bounded l) as Bl. rewrite addmuldiv_spec by (scales fine; unfold digits; cbn; lia). rewrite S, wB_val in *.
  scales fine.
  - change (toZ 9007199254740992%uint63) with (2 ^ 53)%Z in Hh. change (toZ 9%uint63) with 9%Z. change (toZ digits) with 63%Z. change (63 - 9)%Z with 54%Z.
    replace (toZ h * 9223372036854775808 + toZ l)%Z with (toZ h * 2 ^ 9 * 2 ^ 54 + toZ l)%Z by lia.
    rewrite Z.div_add_l by lia. apply Z.mod_small. assert (0 <= toZ l / 2 ^ 54 < 2 ^ 9)%Z by (split; [apply Z.div_pos; lia|apply Z.div_lt_upper_bound; lia]). lia.
  - change (toZ 1125899906842624%uint63) with (2 ^ 50)%Z in Hh. change (toZ 12%uint63) with 12%Z. change (toZ digits) with 63%Z. change (63 - 12)%Z with 51%Z.
    replace (toZ h * 9223372036854775808 + toZ l)%Z with (toZ h * 2 ^ 12 * 2 ^ 51 + toZ l)%Z by lia.
    rewrite Z.div_add_l by lia. apply Z.mod_small. assert (0 <= toZ l / 2 ^ 51 < 2 ^ 12)%Z by (split; [apply Z.div_pos; lia|apply Z.div_lt_upper_bound; lia]). lia.
Qed.
Lemma near_mul m e x m' e' x' p : near m e x -> near m' e' x' -> toZ p = (toZ m * toZ m' / 2 ^ sc)%Z ->
  Rabs (x * x' * IZR (2 ^ sc) - IZR (toZ p)) <= IZR (toZ (err m e m' e')).
Proof.
  intros (A1 & A2 & A3) (B1 & B2 & B3) Hp. rewrite err_val by assumption.
  pose proof (to_Z_bounded m). pose proof (to_Z_bounded e). pose proof (to_Z_bounded m'). pose proof (to_Z_bounded e').
  set (M := toZ m) in *. set (M' := toZ m') in *. set (E := toZ e) in *. set (E' := toZ e') in *. set (P := toZ p) in *.
  set (S := ((M / 2 ^ 41 + 1) * E' + (M' / 2 ^ 41 + 2) * E)%Z).
  assert (D1 : (M * E' + M' * E + E * E' <= 2 ^ 41 * S)%Z).
  { pose proof (Z.mul_succ_div_gt M (2 ^ 41) ltac:(lia)) as G1. pose proof (Z.mul_succ_div_gt M' (2 ^ 41) ltac:(lia)) as G2. unfold Z.succ in *.
    assert (M * E' <= 2 ^ 41 * (M / 2 ^ 41 + 1) * E')%Z by (apply Z.mul_le_mono_nonneg_r; lia).
    assert ((M' + E') * E <= (2 ^ 41 * (M' / 2 ^ 41 + 2)) * E)%Z by (apply Z.mul_le_mono_nonneg_r; lia). unfold S. lia. }
  assert (D2 : (S < 2 ^ (sc - 41) * (S / 2 ^ (sc - 41) + 1))%Z) by (pose proof (Z.mul_succ_div_gt S (2 ^ (sc - 41)) ltac:(scales fine; lia)); unfold Z.succ in *; lia).
  assert (D3 : (2 ^ sc * P <= M * M' < 2 ^ sc * P + 2 ^ sc)%Z).
  { rewrite Hp. pose proof (Z.mul_div_le (M * M') (2 ^ sc) ltac:(scales fine; lia)). pose proof (Z.mul_succ_div_gt (M * M') (2 ^ sc) ltac:(scales fine; lia)). unfold Z.succ in *. lia. }
  assert (D4 : (M * E' + M' * E + E * E' + 2 ^ sc <= 2 ^ sc * (S / 2 ^ (sc - 41) + 2))%Z) by (clear - D1 D2; scales fine; lia).
  clearbody S P. clear D1 D2 Hp. set (T := (S / 2 ^ (sc - 41))%Z) in *. clearbody T.
  destruct D3 as [D3 D5]. apply IZR_le in D3, D4. apply IZR_lt in D5. rewrite !plus_IZR, !mult_IZR in *. rewrite plus_IZR in D4.
  set (w := IZR (2 ^ sc)) in *. assert (Hw : 0 < w) by (unfold w; apply IZR_lt; scales fine; lia).
  set (X := x * w) in *. set (Y := x' * w) in *. apply Rmult_le_reg_l with w; [exact Hw|].
  rewrite <- (Rabs_right w) at 1 by lra. rewrite <- Rabs_mult.
  replace (w * (x * x' * w - IZR P)) with ((X - IZR M) * (Y - IZR M') + IZR M * (Y - IZR M') + IZR M' * (X - IZR M) + (IZR M * IZR M' - w * IZR P)) by (unfold X, Y; ring).
  assert (0 <= IZR M) by (apply IZR_le; lia). assert (0 <= IZR M') by (apply IZR_le; lia).
  eapply Rle_trans; [apply Rabs_triang|]. eapply Rle_trans; [apply Rplus_le_compat_r, Rabs_triang|].
  eapply Rle_trans; [apply Rplus_le_compat_r, Rplus_le_compat_r, Rabs_triang|]. rewrite !Rabs_mult.
  rewrite (Rabs_right (IZR M)), (Rabs_right (IZR M')) by lra. rewrite (Rabs_right (IZR M * IZR M' - w * IZR P)) by lra.
  assert (Rabs (X - IZR M) * Rabs (Y - IZR M') <= IZR E * IZR E') by (apply Rmult_le_compat; try apply Rabs_pos; assumption).
  assert (IZR M * Rabs (Y - IZR M') <= IZR M * IZR E') by (apply Rmult_le_compat_l; assumption).
  assert (IZR M' * Rabs (X - IZR M) <= IZR M' * IZR E) by (apply Rmult_le_compat_l; assumption). lra.
Qed.
Lemma ib_prod_rel m e x m' e' x' : near m e x -> near m' e' x' -> ib_rel (ib_prod true m e m' e') (x * x') /\ ib_rel (ib_prod false m e m' e') (- (x * x')).
Proof.
  intros A B. unfold ib_prod. pose proof (high_part m m') as Hp. destruct (mulc m m') as [h l].
  destruct (h <? hmax)%uint63 eqn:Eh; [|split; exact I]. specialize (Hp h l eq_refl Eh). split; [apply pos_rel|apply neg_rel; rewrite Ropp_involutive]; apply near_mul; assumption.
Qed.
Lemma ib_mul_rel a b x y : ib_rel a x -> ib_rel b y -> ib_rel (ib_mul a b) (x * y).
Proof.
  intros Ha Hb. destruct a as [| |m e|m e], b as [| |m' e'|m' e']; cbn [ib_mul]; cbn [ib_rel] in Ha, Hb; try exact I; try (subst; cbn [ib_rel]; ring).
  - apply (ib_prod_rel _ _ _ _ _ _ Ha Hb).
  - replace (x * y) with (- (x * - y)) by ring. apply (ib_prod_rel _ _ _ _ _ _ Ha Hb).
  - replace (x * y) with (- (- x * y)) by ring. apply (ib_prod_rel _ _ _ _ _ _ Ha Hb).
  - replace (x * y) with (- x * - y) by ring. apply (ib_prod_rel _ _ _ _ _ _ Ha Hb).
Qed.
Lemma of_small q : (0 <= q < 2 ^ 62)%Z -> toZ (of_Z q) = q.
Proof. intro H. rewrite of_Z_spec. apply Z.mod_small. rewrite wB_val. lia. Qed.
Lemma quot_near n d : (0 <= n)%Z -> (n * 2 ^ sc / Zpos d < 2 ^ 62)%Z -> near (of_Z (n * 2 ^ sc / Zpos d)) 1 (IZR n / IZR (Zpos d)).
Proof.
  intros Hn Hq. assert (Hd : 0 < IZR (Zpos d)) by (apply IZR_lt; lia). set (q := (n * 2 ^ sc / Zpos d)%Z) in *.
  assert (Q0 : (0 <= q)%Z) by (apply Z.div_pos; lia). unfold near. rewrite of_small by lia. change (toZ 1%uint63) with 1%Z. split; [exact Hq|split; [lia|]].
  assert (D : (Zpos d * q <= n * 2 ^ sc < Zpos d * q + Zpos d)%Z).
  { pose proof (Z.mul_div_le (n * 2 ^ sc) (Zpos d) ltac:(lia)). pose proof (Z.mul_succ_div_gt (n * 2 ^ sc) (Zpos d) ltac:(lia)). unfold Z.succ, q in *. lia. }
  destruct D as [D1 D2]. apply IZR_le in D1. apply IZR_lt in D2. rewrite plus_IZR, !mult_IZR in *. set (w := IZR (2 ^ sc)) in *.
  apply Rmult_le_reg_l with (IZR (Zpos d)); [exact Hd|]. rewrite <- (Rabs_right (IZR (Zpos d))) at 1 by lra. rewrite <- Rabs_mult.
  replace (IZR (Zpos d) * (IZR n / IZR (Zpos d) * w - IZR q)) with (IZR n * w - IZR (Zpos d) * IZR q) by (field; lra). rewrite Rabs_right by lra. lra.
Qed.
Lemma ib_sound : sound ib_ops ib_rel.
Proof.
  constructor.
  - reflexivity.
  - cbn. split; [|split]; [scales fine; reflexivity|reflexivity|]. rewrite unit_val. change (toZ 0%uint63) with 0%Z. rewrite Rmult_1_l, Rminus_diag_eq, Rabs_R0 by reflexivity. lra.
  - apply ib_add_rel.
  - apply ib_mul_rel.
  - intro c. cbn [o_ent ib_ops]. unfold ib_ent, cval. destruct (ce_n5 c); [|exact I|exact I]. replace (0 / IZR (Zpos (ce_d5 c)) * sqrt 5) with 0 by (unfold Rdiv; ring).
    rewrite Rplus_0_r. unfold ib_quot. destruct (Z.ltb_spec (Z.abs (ce_n c) * 2 ^ sc / Zpos (ce_d c)) (2 ^ 62)) as [L|L]; [|exact I].
    destruct (ce_n c) as [|n|n]; cbn [ib_rel].
    + unfold Rdiv. ring.
    + apply (quot_near (Zpos n)); [lia|exact L].
    + replace (- (IZR (Zneg n) / IZR (Zpos (ce_d c)))) with (IZR (Zpos n) / IZR (Zpos (ce_d c))).
      * apply (quot_near (Zpos n)); [lia|exact L].
      * change (Zneg n) with (- Zpos n)%Z. rewrite opp_IZR. unfold Rdiv. ring.
Qed.
Lemma ib_chk_sound thr k : (0 < k)%Z -> (toZ thr * k <= 2 ^ sc)%Z -> forall a x g, ib_rel a x -> ib_chk thr a g = true -> Rabs (x - / IZR g) <= / IZR k.
Proof.
  intros Hk Ht a x g Ha H. destruct a as [| |m e|m e]; try discriminate. cbn [ib_rel] in Ha. destruct Ha as (A1 & A2 & A3). cbn [ib_chk] in H.
  apply andb_prop in H as [H H3]. apply andb_prop in H as [H1 H2]. apply Z.ltb_lt in H1, H2. apply leb_spec in H3.
  set (q := (unit / of_Z g)%uint63) in *.
  assert (Q : toZ q = (2 ^ sc / g)%Z) by (unfold q; rewrite div_spec, of_small by lia; rewrite unit_val; reflexivity).
  assert (Q0 : (0 <= toZ q <= 2 ^ sc)%Z).
  { rewrite Q. clear - H1. scales fine; (split; [apply Z.div_pos; lia|apply Z.div_le_upper_bound; [lia|nia]]). }
  assert (SC : (2 ^ sc <= 2 ^ 54)%Z) by (scales fine; lia).
  pose proof (to_Z_bounded m). pose proof (to_Z_bounded e).
  assert (D : (Z.abs (toZ m - toZ q) + toZ e + 1 <= toZ thr)%Z).
  { assert (V : toZ (if (m <=? q)%uint63 then q - m else m - q)%uint63 = Z.abs (toZ m - toZ q)).
    { destruct (m <=? q)%uint63 eqn:E.
      - apply leb_spec in E. rewrite sub_small by exact E. lia.
      - assert (toZ q <= toZ m)%Z by (destruct (Z.le_gt_cases (toZ m) (toZ q)) as [L|L]; [apply leb_spec in L; congruence|lia]). rewrite sub_small by assumption. lia. }
    rewrite <- V. set (z := (if (m <=? q)%uint63 then q - m else m - q)%uint63) in *.
    assert (W : (toZ z < 2 ^ 62)%Z) by lia. pose proof (to_Z_bounded z).
    assert (I1 : toZ (z + e)%uint63 = (toZ z + toZ e)%Z) by (apply add_small; rewrite wB_val; lia).
    assert (I2 : toZ (z + e + 1)%uint63 = (toZ z + toZ e + 1)%Z) by (rewrite add_small; rewrite I1; change (toZ 1%uint63) with 1%Z; [reflexivity|rewrite wB_val; lia]).
    rewrite I2 in H3. exact H3. }
  assert (B : (g * toZ q <= 2 ^ sc < g * toZ q + g)%Z).
  { rewrite Q. pose proof (Z.mul_div_le (2 ^ sc) g ltac:(lia)). pose proof (Z.mul_succ_div_gt (2 ^ sc) g ltac:(lia)). unfold Z.succ in *. lia. }
  destruct B as [B1 B2]. apply IZR_le in B1, D. apply IZR_lt in B2. apply IZR_lt in H1. rewrite !plus_IZR, ?mult_IZR, abs_IZR, minus_IZR in *.
  apply IZR_le in Ht. rewrite mult_IZR in Ht. apply IZR_lt in Hk. set (w := IZR (2 ^ sc)) in *. assert (Hw : 0 < w) by (unfold w; apply IZR_lt; scales fine; lia).
  set (K := IZR k) in *. set (G := IZR g) in *.
  assert (R1 : Rabs (w / G - IZR (toZ q)) <= 1).
  { apply Rmult_le_reg_l with G; [exact H1|]. rewrite <- (Rabs_right G) at 1 by lra. rewrite <- Rabs_mult.
    replace (G * (w / G - IZR (toZ q))) with (w - G * IZR (toZ q)) by (field; lra). rewrite Rabs_right by lra. lra. }
  assert (R2 : Rabs (x * w - w / G) <= IZR (toZ thr)).
  { replace (x * w - w / G) with ((x * w - IZR (toZ m)) + ((IZR (toZ m) - IZR (toZ q)) + - (w / G - IZR (toZ q)))) by ring.
    eapply Rle_trans; [apply Rabs_triang|]. eapply Rle_trans; [apply Rplus_le_compat_l, Rabs_triang|]. rewrite Rabs_Ropp. lra. }
  apply Rmult_le_reg_r with (w * K); [apply Rmult_lt_0_compat; assumption|]. replace (/ K * (w * K)) with w by (field; lra).
  replace (Rabs (x - / G) * (w * K)) with (Rabs (x * w - w / G) * K).
  - eapply Rle_trans; [apply Rmult_le_compat_r; [lra|exact R2]|exact Ht].
  - rewrite <- Rmult_assoc. f_equal. replace (x * w - w / G) with ((x - / G) * w) by (field; lra). rewrite Rabs_mult, (Rabs_right w) by lra. reflexivity.
Qed.
Definition ib_item_dec (a b : item (C:=ib)) : {a = b} + {a <> b}.
Proof. repeat (apply Uint63.eqs || decide equality). Defined.
Lemma int_order thr k tb p : (0 < k)%Z -> (toZ thr * k <= 2 ^ sc)%Z -> In tb all_tables -> run_order ib_ops tb (ib_chk thr) p = true -> order_conditions tb p (/ IZR k).
Proof.
  intros Hk Ht Hin H.
  apply (check_sound ib_ops ib_rel ib_sound tb (table_sound tb Hin) _ _ eq_refl eq_refl ib_item_dec (ib_chk thr) (/ IZR k) (ib_chk_sound thr k Hk Ht) p H).
Qed.
End Rel.
Local Open Scope R_scope.
Lemma rk10_order : order_conditions rk10_table 10 (/ IZR (10 ^ 14)).
Proof. apply (int_order true 180); [reflexivity|unfold sc; change (to_Z 180%uint63) with 180%Z; lia|known|vm_cast_no_check (eq_refl true)]. Qed.
Lemma rk12_order : order_conditions rk12_table 12 (/ IZR (10 ^ 13)).
Proof. apply (int_order true 1801); [reflexivity|unfold sc; change (to_Z 1801%uint63) with 1801%Z; lia|known|vm_cast_no_check (eq_refl true)]. Qed.

Lemma rk14_order : order_conditions rk14_table 14 (/ IZR (10 ^ 9)).
Proof. apply (int_order false 2251799); [reflexivity|unfold sc; change (to_Z 2251799%uint63) with 2251799%Z; lia|known|vm_cast_no_check (eq_refl true)]. Qed.
