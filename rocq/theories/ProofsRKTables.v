(** The tables of rk_coeffs.py against the order conditions. *)
From Coq Require Import ZArith QArith Qreals List Bool Arith String Lia Reals Lra.
From Verif Require Import Num Py Lib RealLib RKCoeffs SpecRK ProofsRK ProofsRKOrder.
Import ListNotations.
Open Scope R_scope.

(** * exact arithmetic in Q(sqrt 5) *)
Definition q5 := (Q * Q)%type.
Definition q5_ops : ops q5 := {|
  o_zero := (0, 0)%Q; o_one := (1, 0)%Q;
  o_add := fun x y => (Qred (fst x + fst y), Qred (snd x + snd y))%Q;
  o_mul := fun x y => (Qred (fst x * fst y + 5 * (snd x * snd y)), Qred (fst x * snd y + snd x * fst y))%Q;
  o_ent := fun c => (ce_n c # ce_d c, ce_n5 c # ce_d5 c)%Q |}.
Definition q5_rel (a : q5) (x : R) : Prop := x = Q2R (fst a) + Q2R (snd a) * sqrt 5.
Lemma Q2R_red q : Q2R (Qred q) = Q2R q.
Proof. apply Qeq_eqR, Qred_correct. Qed.
Lemma q5_sound : sound q5_ops q5_rel.
Proof.
  assert (S5 : sqrt 5 * sqrt 5 = 5) by (apply sqrt_sqrt; lra).
  assert (Q0 : Q2R 0 = 0) by (unfold Q2R; cbn; lra). assert (Q1 : Q2R 1 = 1) by (unfold Q2R; cbn; lra). assert (Q5 : Q2R 5 = 5) by (unfold Q2R; cbn; lra).
  constructor; unfold q5_rel; cbn [q5_ops o_zero o_one o_add o_mul o_ent fst snd].
  - rewrite Q0. ring.
  - rewrite Q0, Q1. ring.
  - intros [a b] [a' b'] x y -> ->. cbn [fst snd]. rewrite !Q2R_red, !Q2R_plus. ring.
  - intros [a b] [a' b'] x y -> ->. cbn [fst snd]. rewrite !Q2R_red, !Q2R_plus, !Q2R_mult, Q5. ring_simplify.
    replace (sqrt 5 ^ 2) with 5 by (rewrite <- S5 at 1; ring). ring.
  - intro c. unfold cval, Q2R, Rdiv. cbn [Qnum Qden]. reflexivity.
Qed.
Definition q5_chk (a : q5) (g : Z) : bool := (Qeq_bool (fst a * inject_Z g) 1 && Qeq_bool (snd a) 0)%Q%bool.
Lemma q5_chk_sound a x g : q5_rel a x -> q5_chk a g = true -> Rabs (x - / IZR g) <= 0.
Proof.
  intros -> H. apply andb_prop in H. destruct H as [H1 H2]. apply Qeq_bool_eq, Qeq_eqR in H1, H2. rewrite Q2R_mult in H1.
  assert (Eg : Q2R (inject_Z g) = IZR g) by (unfold Q2R, inject_Z; cbn; lra).
  assert (Q0 : Q2R 0 = 0) by (unfold Q2R; cbn; lra). assert (Q1 : Q2R 1 = 1) by (unfold Q2R; cbn; lra).
  rewrite Eg, Q1 in H1. rewrite H2, Q0. assert (Hg : IZR g <> 0) by (intro E; rewrite E in H1; lra).
  replace (Q2R (fst a) + 0 * sqrt 5 - / IZR g) with 0; [rewrite Rabs_R0; lra|].
  apply Rmult_eq_reg_r with (IZR g); [|exact Hg]. rewrite Rmult_minus_distr_r, Rinv_l by exact Hg. lra.
Qed.
Definition q5_chk0 (a : q5) (c : centry) : bool := (Qeq_bool (fst a) (ce_n c # ce_d c) && Qeq_bool (snd a) (ce_n5 c # ce_d5 c))%Q%bool.
Lemma q5_chk0_sound a x c : q5_rel a x -> q5_chk0 a c = true -> Rabs (x - cval c) <= 0.
Proof.
  intros -> H. apply andb_prop in H. destruct H as [H1 H2]. apply Qeq_bool_eq, Qeq_eqR in H1, H2. rewrite H1, H2.
  unfold cval, Q2R, Rdiv. cbn [Qnum Qden]. match goal with |- Rabs ?x <= 0 => replace x with 0 by ring end. rewrite Rabs_R0. lra.
Qed.
Definition q5_item_dec (a b : item (C:=q5)) : {a = b} + {a <> b}.
Proof. repeat decide equality. Defined.

(** * ball arithmetic: |x * 2^w - m| <= e *)
Definition ball := (Z * Z)%type.
Section Ball.
  Variable w : Z.
  Hypothesis Hw : (0 <= w)%Z.
  Let M := (2 ^ w)%Z.
  Definition b_rel (a : ball) (x : R) : Prop := Rabs (x * IZR M - IZR (fst a)) <= IZR (snd a).
  Definition b_add (x y : ball) : ball := (fst x + fst y, snd x + snd y)%Z.
  Definition is0 (x : ball) : bool := match x with (0, 0)%Z => true | _ => false end.
  Definition b_mul (x y : ball) : ball :=
    if is0 x then (0, 0)%Z else if is0 y then (0, 0)%Z else
    (Z.shiftr (fst x * fst y) w, Z.shiftr (Z.abs (fst x) * snd y + Z.abs (fst y) * snd x + snd x * snd y) w + 2)%Z.
  Definition b_quot (n : Z) (d : positive) : ball := match n with 0%Z => (0, 0)%Z | _ => ((n * M) / Zpos d, 1)%Z end.
  Definition b_sqrt5 : ball := (Z.sqrt (5 * M * M), 1)%Z.
  Definition b_ent (c : centry) : ball :=
    match ce_n5 c with 0%Z => b_quot (ce_n c) (ce_d c) | _ => b_add (b_quot (ce_n c) (ce_d c)) (b_mul (b_quot (ce_n5 c) (ce_d5 c)) b_sqrt5) end.
  Definition b_ops : ops ball := {| o_zero := (0, 0)%Z; o_one := (M, 0%Z); o_add := b_add; o_mul := b_mul; o_ent := b_ent |}.

  Lemma M_pos : (0 < M)%Z. Proof. unfold M. apply Z.pow_pos_nonneg; lia. Qed.
  Lemma M_R : 0 < IZR M. Proof. apply IZR_lt, M_pos. Qed.
  Lemma div_bounds a d : (0 < d)%Z -> IZR (a / d) <= IZR a / IZR d < IZR (a / d) + 1.
  Proof.
    intro Hd. assert (D : 0 < IZR d) by (apply IZR_lt; exact Hd). pose proof (Z.div_mod a d ltac:(lia)) as E. pose proof (Z.mod_pos_bound a d Hd) as [B1 B2].
    apply IZR_le in B1. apply IZR_lt in B2. apply (f_equal IZR) in E. rewrite plus_IZR, mult_IZR in E. split.
    - apply Rmult_le_reg_r with (IZR d); [exact D|]. unfold Rdiv. rewrite Rmult_assoc, Rinv_l, Rmult_1_r by lra. lra.
    - apply Rmult_lt_reg_r with (IZR d); [exact D|]. unfold Rdiv. rewrite Rmult_assoc, Rinv_l, Rmult_1_r by lra. lra.
  Qed.
  Lemma shiftr_bounds a : IZR (Z.shiftr a w) <= IZR a / IZR M < IZR (Z.shiftr a w) + 1.
  Proof. rewrite Z.shiftr_div_pow2 by exact Hw. apply div_bounds, M_pos. Qed.
  Lemma is0_true x : is0 x = true -> x = (0, 0)%Z.
  Proof. destruct x as [[|p|p] [|q|q]]; cbn; intro; congruence. Qed.
  Lemma rel_00 x : b_rel (0, 0)%Z x -> x = 0.
  Proof.
    unfold b_rel. cbn [fst snd]. intro H. pose proof M_R. pose proof (Rabs_pos (x * IZR M - 0)).
    assert (E : Rabs (x * IZR M - 0) = 0) by lra. destruct (Req_dec (x * IZR M - 0) 0) as [E0|E0]; [|apply Rabs_no_R0 in E0; lra].
    apply Rmult_eq_reg_r with (IZR M); lra.
  Qed.
  Lemma rel_zero : b_rel (0, 0)%Z 0.
  Proof. unfold b_rel. cbn [fst snd]. rewrite Rmult_0_l, Rminus_0_r, Rabs_R0. lra. Qed.
  Lemma add_rel a b x y : b_rel a x -> b_rel b y -> b_rel (b_add a b) (x + y).
  Proof.
    unfold b_rel, b_add. cbn [fst snd]. intros H1 H2. rewrite !plus_IZR.
    replace ((x + y) * IZR M - (IZR (fst a) + IZR (fst b))) with ((x * IZR M - IZR (fst a)) + (y * IZR M - IZR (fst b))) by ring.
    eapply Rle_trans; [apply Rabs_triang|]. lra.
  Qed.
  Lemma mul_rel a b x y : b_rel a x -> b_rel b y -> b_rel (b_mul a b) (x * y).
  Proof.
    intros H1 H2. unfold b_mul. destruct (is0 a) eqn:Ea.
    { apply is0_true in Ea. subst a. rewrite (rel_00 x H1), Rmult_0_l. apply rel_zero. }
    destruct (is0 b) eqn:Eb.
    { apply is0_true in Eb. subst b. rewrite (rel_00 y H2), Rmult_0_r. apply rel_zero. }
    clear Ea Eb. unfold b_rel in *. cbn [fst snd]. destruct a as [ma ea], b as [mb eb]. cbn [fst snd] in *.
    rewrite plus_IZR. pose proof M_R as HM.
    pose proof (shiftr_bounds (ma * mb)) as [P1 P2]. pose proof (shiftr_bounds (Z.abs ma * eb + Z.abs mb * ea + ea * eb)) as [P3 P4].
    rewrite mult_IZR in P1, P2. rewrite !plus_IZR, !mult_IZR, !abs_IZR in P3, P4.
    set (sh := IZR (Z.shiftr (ma * mb) w)) in *. set (sh2 := IZR (Z.shiftr _ w)) in *. set (m1 := IZR ma) in *. set (m2 := IZR mb) in *. set (e1 := IZR ea) in *. set (e2 := IZR eb) in *.
    set (X := x * IZR M) in *. set (Y := y * IZR M) in *.
    assert (Bd : Rabs (X * Y - m1 * m2) <= Rabs m1 * e2 + Rabs m2 * e1 + e1 * e2).
    { replace (X * Y - m1 * m2) with ((X - m1) * (Y - m2) + (m1 * (Y - m2) + m2 * (X - m1))) by ring.
      eapply Rle_trans; [apply Rabs_triang|]. rewrite Rabs_mult. pose proof (Rabs_triang (m1 * (Y - m2)) (m2 * (X - m1))) as T. rewrite !Rabs_mult in T.
      pose proof (Rabs_pos (X - m1)). pose proof (Rabs_pos (Y - m2)). pose proof (Rabs_pos m1). pose proof (Rabs_pos m2).
      assert (Rabs (X - m1) * Rabs (Y - m2) <= e1 * e2) by (apply Rmult_le_compat; lra).
      assert (Rabs m1 * Rabs (Y - m2) <= Rabs m1 * e2) by (apply Rmult_le_compat_l; lra).
      assert (Rabs m2 * Rabs (X - m1) <= Rabs m2 * e1) by (apply Rmult_le_compat_l; lra). lra. }
    replace (x * y * IZR M - sh) with ((X * Y - m1 * m2) / IZR M + (m1 * m2 / IZR M - sh)) by (unfold X, Y; field; lra).
    eapply Rle_trans; [apply Rabs_triang|].
    assert (B2 : Rabs ((X * Y - m1 * m2) / IZR M) <= (Rabs m1 * e2 + Rabs m2 * e1 + e1 * e2) / IZR M).
    { unfold Rdiv. rewrite Rabs_mult, (Rabs_right (/ IZR M)) by (apply Rle_ge, Rlt_le, Rinv_0_lt_compat, HM).
      apply Rmult_le_compat_r; [apply Rlt_le, Rinv_0_lt_compat, HM|exact Bd]. }
    assert (B3 : Rabs (m1 * m2 / IZR M - sh) <= 1) by (apply Rabs_le; lra). lra.
  Qed.
  Lemma quot_rel n d : b_rel (b_quot n d) (IZR n / IZR (Zpos d)).
  Proof.
    unfold b_quot. assert (G : b_rel ((n * M) / Zpos d, 1)%Z (IZR n / IZR (Zpos d))).
    { unfold b_rel. cbn [fst snd]. pose proof (div_bounds (n * M) (Zpos d) ltac:(lia)) as [B1 B2]. rewrite mult_IZR in B1, B2.
      replace (IZR n / IZR (Zpos d) * IZR M) with (IZR n * IZR M / IZR (Zpos d)) by (unfold Rdiv; ring). apply Rabs_le. lra. }
    destruct n as [|p|p]; [|exact G|exact G]. replace (IZR 0 / IZR (Zpos d)) with 0 by (unfold Rdiv; ring). apply rel_zero.
  Qed.
  Lemma sqrt5_rel : b_rel b_sqrt5 (sqrt 5).
  Proof.
    unfold b_rel, b_sqrt5. cbn [fst snd]. pose proof M_pos as HM. pose proof M_R as HR.
    pose proof (Z.sqrt_spec (5 * M * M) ltac:(nia)) as [B1 B2]. set (q := Z.sqrt (5 * M * M)) in *.
    assert (Hq : (0 <= q)%Z) by apply Z.sqrt_nonneg.
    apply IZR_le in B1. apply IZR_lt in B2. rewrite <- !Z.add_1_r in B2. rewrite !mult_IZR in B1, B2. rewrite !plus_IZR in B2. apply IZR_le in Hq.
    assert (S5 : sqrt 5 * sqrt 5 = 5) by (apply sqrt_sqrt; lra). assert (S0 : 0 < sqrt 5) by (apply sqrt_lt_R0; lra).
    set (v := sqrt 5 * IZR M). assert (V2 : v * v = 5 * IZR M * IZR M) by (unfold v; transitivity (sqrt 5 * sqrt 5 * IZR M * IZR M); [ring|rewrite S5; reflexivity]). assert (V0 : 0 < v) by (apply Rmult_lt_0_compat; assumption).
    apply Rabs_le. split.
    - assert (IZR q <= v); [|lra]. destruct (Rle_lt_dec (IZR q) v); [assumption|]. exfalso. nra.
    - assert (v < IZR q + 1); [|lra]. destruct (Rlt_le_dec v (IZR q + 1)); [assumption|]. exfalso. nra.
  Qed.
  Lemma b_sound : sound b_ops b_rel.
  Proof.
    constructor; cbn [b_ops o_zero o_one o_add o_mul o_ent].
    - apply rel_zero.
    - unfold b_rel. cbn [fst snd]. rewrite Rmult_1_l, Rminus_diag_eq, Rabs_R0 by reflexivity. lra.
    - exact add_rel.
    - exact mul_rel.
    - intro c. unfold b_ent, cval. destruct (ce_n5 c) as [|p|p].
      + replace (IZR 0 / IZR (Zpos (ce_d5 c)) * sqrt 5) with 0 by (unfold Rdiv; ring). rewrite Rplus_0_r. apply quot_rel.
      + apply add_rel; [apply quot_rel|]. apply mul_rel; [apply quot_rel|apply sqrt5_rel].
      + apply add_rel; [apply quot_rel|]. apply mul_rel; [apply quot_rel|apply sqrt5_rel].
  Qed.

  (** |x - 1/g| <= 1/k *)
  Variable k : Z.
  Hypothesis Hk : (0 < k)%Z.
  Definition b_chk (a : ball) (g : Z) : bool := ((0 <? g) && ((Z.abs (fst a * g - M) + snd a * g) * k <=? M * g))%Z%bool.
  Lemma b_chk_sound a x g : b_rel a x -> b_chk a g = true -> Rabs (x - / IZR g) <= / IZR k.
  Proof.
    intros H C. apply andb_prop in C. destruct C as [C1 C2]. apply Z.ltb_lt, IZR_lt in C1. apply Z.leb_le, IZR_le in C2.
    rewrite !mult_IZR, plus_IZR, abs_IZR, minus_IZR, !mult_IZR in C2. unfold b_rel in H. destruct a as [m e]. cbn [fst snd] in *.
    pose proof M_R as HM. apply IZR_lt in Hk. set (G := IZR g) in *. set (K := IZR k) in *. set (mm := IZR M) in *.
    apply Rmult_le_reg_r with (mm * G * K); [repeat apply Rmult_lt_0_compat; assumption|].
    replace (/ K * (mm * G * K)) with (mm * G) by (field; lra).
    replace (Rabs (x - / G) * (mm * G * K)) with (Rabs ((x * mm * G - IZR m * G) + (IZR m * G - mm)) * K).
    2: { assert (MG : 0 < mm * G) by (apply Rmult_lt_0_compat; assumption). rewrite <- (Rmult_assoc _ (mm * G) K). f_equal.
         replace (x * mm * G - IZR m * G + (IZR m * G - mm)) with ((x - / G) * (mm * G)) by (field; lra).
         rewrite Rabs_mult, (Rabs_right (mm * G)) by lra. reflexivity. }
    eapply Rle_trans; [|exact C2]. apply Rmult_le_compat_r; [lra|]. eapply Rle_trans; [apply Rabs_triang|].
    replace (x * mm * G - IZR m * G) with ((x * mm - IZR m) * G) by ring. rewrite Rabs_mult, (Rabs_right G) by lra.
    assert (Rabs (x * mm - IZR m) * G <= IZR e * G) by (apply Rmult_le_compat_r; lra). lra.
  Qed.
  Definition b_chk0 (a : ball) (c : centry) : bool :=
    let b := b_ent c in ((Z.abs (fst a - fst b) + snd a + snd b) * k <=? M)%Z.
  Lemma b_chk0_sound a x c : b_rel a x -> b_chk0 a c = true -> Rabs (x - cval c) <= / IZR k.
  Proof.
    intros H C. unfold b_chk0 in C. pose proof (so_ent _ _ b_sound c) as H'. cbn [b_ops o_ent] in H'. destruct (b_ent c) as [m' e']. destruct a as [m e].
    unfold b_rel in H, H'. cbn [fst snd] in *. apply Z.leb_le, IZR_le in C. rewrite mult_IZR, !plus_IZR, abs_IZR, minus_IZR in C.
    pose proof M_R as HM. apply IZR_lt in Hk. set (K := IZR k) in *. set (mm := IZR M) in *.
    apply Rmult_le_reg_r with (mm * K); [apply Rmult_lt_0_compat; assumption|]. replace (/ K * (mm * K)) with mm by (field; lra).
    replace (Rabs (x - cval c) * (mm * K)) with (Rabs ((x * mm - IZR m) + ((IZR m - IZR m') - (cval c * mm - IZR m'))) * K).
    2: { rewrite <- (Rmult_assoc _ mm K). f_equal.
         replace (x * mm - IZR m + (IZR m - IZR m' - (cval c * mm - IZR m'))) with ((x - cval c) * mm) by ring.
         rewrite Rabs_mult, (Rabs_right mm) by lra. reflexivity. }
    eapply Rle_trans; [|exact C]. apply Rmult_le_compat_r; [lra|]. eapply Rle_trans; [apply Rabs_triang|].
    pose proof (Rabs_triang (IZR m - IZR m') (- (cval c * mm - IZR m'))) as T. rewrite Rabs_Ropp in T.
    unfold Rminus at 2. lra.
  Qed.
End Ball.
Definition b_item_dec (a b : item (C:=ball)) : {a = b} + {a <> b}.
Proof. repeat decide equality. Defined.

(** * the checks *)
Definition run_order {C} (O : ops C) tb chk p : bool := let r := o_rows O tb in let w := o_weights O tb in check_order O tb r w chk p.
Definition run_growth {C} (O : ops C) tb chk p : bool := let r := o_rows O tb in let w := o_weights O tb in check_growth O tb r w chk p.
Definition run_rows {C} (O : ops C) tb chk0 : bool := let r := o_rows O tb in check_rows O tb r chk0.
Lemma exact_order tb p : In tb all_tables -> run_order q5_ops tb q5_chk p = true -> order_conditions tb p 0.
Proof.
  intros Ht H. apply (check_sound q5_ops q5_rel q5_sound tb (table_sound tb Ht) _ _ eq_refl eq_refl q5_item_dec q5_chk 0 q5_chk_sound p H).
Qed.
Lemma ball_order w k tb p : (0 <= w)%Z -> (0 < k)%Z -> In tb all_tables -> run_order (b_ops w) tb (b_chk w k) p = true -> order_conditions tb p (/ IZR k).
Proof.
  intros Hw Hk Ht H.
  apply (check_sound (b_ops w) (b_rel w) (b_sound w Hw) tb (table_sound tb Ht) _ _ eq_refl eq_refl b_item_dec (b_chk w k) (/ IZR k) (b_chk_sound w Hw k Hk) p H).
Qed.
Lemma abs_le_0 x : Rabs x <= 0 -> x = 0.
Proof. intro H. pose proof (Rabs_pos x). destruct (Req_dec x 0) as [E|E]; [exact E|]. apply Rabs_no_R0 in E. lra. Qed.
Lemma exact_growth tb p : In tb all_tables -> run_growth q5_ops tb q5_chk p = true -> forall j, (j <= p)%nat -> growth tb j = / INR (fact j).
Proof.
  intros Ht H j Hj. destruct j as [|j]; [cbn; lra|]. apply Rminus_diag_uniq, abs_le_0.
  apply (growth_sound q5_ops q5_rel q5_sound tb (table_sound tb Ht) _ _ eq_refl eq_refl q5_chk 0 q5_chk_sound p H). lia.
Qed.
Lemma ball_growth w k tb p : (0 <= w)%Z -> (0 < k)%Z -> In tb all_tables -> run_growth (b_ops w) tb (b_chk w k) p = true ->
  forall j, (j <= p)%nat -> Rabs (growth tb j - / INR (fact j)) <= / IZR k.
Proof.
  intros Hw Hk Ht H j Hj. destruct j as [|j].
  - cbn. rewrite Rinv_1, Rminus_diag_eq, Rabs_R0 by reflexivity. apply Rlt_le, Rinv_0_lt_compat, IZR_lt, Hk.
  - apply (growth_sound (b_ops w) (b_rel w) (b_sound w Hw) tb (table_sound tb Ht) _ _ eq_refl eq_refl (b_chk w k) _ (b_chk_sound w Hw k Hk) p H). lia.
Qed.
Lemma exact_rows tb : In tb all_tables -> run_rows q5_ops tb q5_chk0 = true -> forall i, (i < stages tb)%nat -> Rsum (stages tb) (coef tb i) = abscissa tb i.
Proof.
  intros Ht H i Hi. apply Rminus_diag_uniq, abs_le_0.
  apply (rows_sound q5_ops q5_rel q5_sound tb (table_sound tb Ht) _ eq_refl 0 q5_chk0 q5_chk0_sound H i Hi).
Qed.
Lemma ball_rows w k tb : (0 <= w)%Z -> (0 < k)%Z -> In tb all_tables -> run_rows (b_ops w) tb (b_chk0 w k) = true ->
  forall i, (i < stages tb)%nat -> Rabs (Rsum (stages tb) (coef tb i) - abscissa tb i) <= / IZR k.
Proof.
  intros Hw Hk Ht H i Hi.
  apply (rows_sound (b_ops w) (b_rel w) (b_sound w Hw) tb (table_sound tb Ht) _ eq_refl _ (b_chk0 w k) (b_chk0_sound w Hw k Hk) H i Hi).
Qed.

Ltac known := unfold all_tables; cbn [In]; tauto.
Lemma rk3_order : order_conditions rk3_table 3 0. Proof. apply exact_order; [known|vm_compute; reflexivity]. Qed.
Lemma rk4_order : order_conditions rk4_table 4 0. Proof. apply exact_order; [known|vm_compute; reflexivity]. Qed.
Lemma rk5_order : order_conditions rk5_table 5 0. Proof. apply exact_order; [known|vm_compute; reflexivity]. Qed.
Lemma rk6_order : order_conditions rk6_table 6 0. Proof. apply exact_order; [known|vm_compute; reflexivity]. Qed.
Lemma rk8_order : order_conditions rk8_table 8 (/ IZR (10 ^ 17)).
Proof. apply (ball_order 80); [lia|lia|known|vm_cast_no_check (eq_refl true)]. Qed.
Lemma exact_growths : forall j, ((j <= 3)%nat -> growth rk3_table j = / INR (fact j)) /\ ((j <= 4)%nat -> growth rk4_table j = / INR (fact j)) /\
  ((j <= 5)%nat -> growth rk5_table j = / INR (fact j)) /\ ((j <= 6)%nat -> growth rk6_table j = / INR (fact j)).
Proof.
  intro j. repeat split; intro Hj.
  - apply (exact_growth _ 3); [known|vm_compute; reflexivity|exact Hj].
  - apply (exact_growth _ 4); [known|vm_compute; reflexivity|exact Hj].
  - apply (exact_growth _ 5); [known|vm_compute; reflexivity|exact Hj].
  - apply (exact_growth _ 6); [known|vm_compute; reflexivity|exact Hj].
Qed.
Lemma rk8_growth j : (j <= 8)%nat -> Rabs (growth rk8_table j - / INR (fact j)) <= / IZR (10 ^ 17).
Proof. apply (ball_growth 80 _ _ 8); [lia|lia|known|vm_cast_no_check (eq_refl true)]. Qed.
Lemma rk10_growth j : (j <= 10)%nat -> Rabs (growth rk10_table j - / INR (fact j)) <= / IZR (10 ^ 26).
Proof. apply (ball_growth 100 _ _ 10); [lia|lia|known|vm_cast_no_check (eq_refl true)]. Qed.
Lemma rk12_growth j : (j <= 12)%nat -> Rabs (growth rk12_table j - / INR (fact j)) <= / IZR (10 ^ 26).
Proof. apply (ball_growth 100 _ _ 12); [lia|lia|known|vm_cast_no_check (eq_refl true)]. Qed.
Lemma rk14_growth j : (j <= 14)%nat -> Rabs (growth rk14_table j - / INR (fact j)) <= / IZR (10 ^ 24).
Proof. apply (ball_growth 100 _ _ 14); [lia|lia|known|vm_cast_no_check (eq_refl true)]. Qed.
Lemma exact_row_sums tb i : In tb [rk3_table; rk4_table; rk5_table; rk6_table] -> (i < stages tb)%nat -> Rsum (stages tb) (coef tb i) = abscissa tb i.
Proof.
  intros Ht. apply exact_rows; [revert Ht; unfold all_tables; cbn [In]; tauto|].
  cbn [In] in Ht. destruct Ht as [<-|[<-|[<-|[<-|[]]]]]; vm_compute; reflexivity.
Qed.
Lemma rk8_rows i : (i < stages rk8_table)%nat -> Rabs (Rsum (stages rk8_table) (coef rk8_table i) - abscissa rk8_table i) <= / IZR (10 ^ 16).
Proof. apply (ball_rows 80); [lia|lia|known|vm_cast_no_check (eq_refl true)]. Qed.
Lemma high_rows tb i : In tb [rk10_table; rk12_table; rk14_table] -> (i < stages tb)%nat ->
  Rabs (Rsum (stages tb) (coef tb i) - abscissa tb i) <= / IZR (10 ^ 27).
Proof.
  intros Ht. apply (ball_rows 100); [lia|lia|revert Ht; unfold all_tables; cbn [In]; tauto|].
  cbn [In] in Ht. destruct Ht as [<-|[<-|[<-|[]]]]; vm_cast_no_check (eq_refl true).
Qed.
Lemma tall_product tb k i : sound_table tb -> (i < stages tb)%nat -> branch_product tb (tall k) i = stage_sum tb k i.
Proof.
  intro T. revert i. induction k as [|k IH]; intros i Hi; [reflexivity|]. cbn [tall branch_product fold_right stage_sum].
  rewrite Rmult_1_r, (Rsum_coef tb T) by exact Hi. apply Rsum_ext. intros j Hj. rewrite IH by lia. reflexivity.
Qed.
Lemma tall_weight tb k : sound_table tb -> tree_weight tb (tall k) = growth tb (S k).
Proof. intro T. unfold tree_weight. cbn [growth]. apply Rsum_ext. intros i Hi. rewrite tall_product by assumption. reflexivity. Qed.
Lemma tall_nodes k : nodes (tall k) = S k.
Proof. induction k as [|k IH]; [reflexivity|]. change (nodes (tall (S k))) with (S (nodes (tall k) + 0)). lia. Qed.
Lemma tall_density k : density (tall k) = zfact (S k).
Proof.
  induction k as [|k IH]; [reflexivity|]. change (density (tall (S k))) with (Z.of_nat (nodes (tall (S k))) * (density (tall k) * 1))%Z.
  rewrite tall_nodes, IH. cbn [zfact]. lia.
Qed.
