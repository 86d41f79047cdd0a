(** The upwind discontinuous Galerkin operator on coefficient arrays x n e (mode n, cell e): energy identity, norm bound, and the third-order
    Runge-Kutta step, which does not increase the norm. *)
From Coq Require Import List Bool Arith Lia Reals Lra Psatz.
From Verif Require Import Num RealLib.
Import ListNotations.
Open Scope R_scope.

(** * weighted Cauchy-Schwarz *)
Lemma cs_step S A Xs a x w : 0 < w -> 0 <= A -> 0 <= Xs -> S * S <= A * Xs -> (S + a * x) * (S + a * x) <= (A + a * a * w) * (Xs + x * x / w).
Proof.
  intros Hw HA HX H. set (P := A * (x * x / w)). set (Q := a * a * w * Xs).
  assert (Hx : 0 <= x * x / w) by (apply Rmult_le_pos; [nra|apply Rlt_le, Rinv_0_lt_compat, Hw]).
  assert (HP : 0 <= P) by (apply Rmult_le_pos; assumption).
  assert (HQ : 0 <= Q) by (unfold Q; apply Rmult_le_pos; [nra|exact HX]).
  assert (PQ : P * Q = A * Xs * (a * x) * (a * x)) by (unfold P, Q; field; lra).
  assert (B : 2 * S * (a * x) <= P + Q).
  { apply Rsqr_incr_0_var; [|lra]. unfold Rsqr. assert (Q1 : S * S * ((a * x) * (a * x)) <= A * Xs * ((a * x) * (a * x))) by (apply Rmult_le_compat_r; [nra|exact H]).
    pose proof (Rle_0_sqr (P - Q)) as Q2. unfold Rsqr in Q2. clearbody P Q. nra. }
  replace ((A + a * a * w) * (Xs + x * x / w)) with (A * Xs + P + Q + (a * x) * (a * x)) by (unfold P, Q; field; lra). nra.
Qed.
Lemma cauchy_w n (a x w : nat -> R) : (forall i, (i < n)%nat -> 0 < w i) ->
  Rsum n (fun i => a i * x i) * Rsum n (fun i => a i * x i) <= Rsum n (fun i => a i * a i * w i) * Rsum n (fun i => x i * x i / w i).
Proof.
  induction n as [|n IH]; intro H; cbn [Rsum]; [lra|]. apply cs_step; [apply H; lia| | |apply IH; intros; apply H; lia].
  - apply Rsum_nonneg. intros i Hi. pose proof (H i ltac:(lia)). apply Rmult_le_pos; [nra|lra].
  - apply Rsum_nonneg. intros i Hi. pose proof (H i ltac:(lia)). apply Rmult_le_pos; [nra|apply Rlt_le, Rinv_0_lt_compat; lra].
Qed.
Lemma odd_sum n : Rsum n (fun i => 2 * INR i + 1) = INR n * INR n.
Proof. induction n as [|n IH]; cbn [Rsum]; [cbn; ring|]. rewrite IH, S_INR. ring. Qed.
Lemma w_pos n : 0 < 2 * INR n + 1. Proof. pose proof (pos_INR n). lra. Qed.
(** a sum with coefficients of size at most 1 *)
Lemma unit_sum N (a x : nat -> R) : (forall i, (i < N)%nat -> a i * a i <= 1) ->
  Rsum N (fun i => a i * x i) * Rsum N (fun i => a i * x i) <= INR N * INR N * Rsum N (fun i => x i * x i / (2 * INR i + 1)).
Proof.
  intro H. eapply Rle_trans; [apply (cauchy_w N a x (fun i => 2 * INR i + 1)); intros; apply w_pos|].
  apply Rmult_le_compat_r.
  - apply Rsum_nonneg. intros i _. apply Rmult_le_pos; [nra|apply Rlt_le, Rinv_0_lt_compat, w_pos].
  - rewrite <- odd_sum. apply Rsum_le. intros i Hi. pose proof (w_pos i). pose proof (H i Hi). nra.
Qed.

Definition sgn (n : nat) : R := if Nat.even n then 1 else -1.
Lemma sgn_sq n : sgn n * sgn n = 1. Proof. unfold sgn. destruct (Nat.even n); ring. Qed.
Lemma sgn_add n m : sgn (n + m) = sgn n * sgn m.
Proof. unfold sgn. rewrite Nat.even_add. destruct (Nat.even n), (Nat.even m); cbn; ring. Qed.
(** the integrals of P_n' P_m *)
Definition vmat (n m : nat) : R := if (m <? n)%nat then 1 - sgn n * sgn m else 0.
Lemma vmat_sym n m : vmat n m + vmat m n = 1 - sgn n * sgn m.
Proof.
  unfold vmat. destruct (Nat.ltb_spec m n), (Nat.ltb_spec n m); try lia; try ring.
  assert (n = m) by lia. subst. rewrite sgn_sq. ring.
Qed.
Lemma vmat_unit n m : (vmat n m - 1) * (vmat n m - 1) <= 1.
Proof. unfold vmat. pose proof (sgn_sq n). pose proof (sgn_sq m). destruct (m <? n)%nat; nra. Qed.

Section Op.
  Variables (N ne : nat) (h : R).
  Hypothesis Hh : 0 < h.
  Hypothesis Hne : (1 <= ne)%nat.
  Implicit Types x y z : nat -> nat -> R.
  Definition prev (e : nat) : nat := if (e =? 1)%nat then ne else (e - 1)%nat.
  Definition at_right x e : R := Rsum N (fun m => x m e).
  Definition at_left x e : R := Rsum N (fun m => sgn m * x m e).
  Definition dop x (n e : nat) : R := (2 * INR n + 1) / h * (Rsum N (fun m => vmat n m * x m e) - at_right x e + sgn n * at_right x (prev e)).
  Definition ip x y : R := Rsum ne (fun i => Rsum N (fun n => x n (i + 1)%nat * y n (i + 1)%nat / (2 * INR n + 1))).
  Definition jmp x e : R := at_left x e - at_right x (prev e).
  Definition cellsq x e : R := Rsum N (fun n => x n e * x n e / (2 * INR n + 1)).
  Definition eqi x y : Prop := forall n e, (n < N)%nat -> (1 <= e <= ne)%nat -> x n e = y n e.

  Lemma prev_in e : (1 <= e <= ne)%nat -> (1 <= prev e <= ne)%nat.
  Proof. intro. unfold prev. destruct (Nat.eqb_spec e 1); lia. Qed.
  Lemma prev_sum (f : nat -> R) : Rsum ne (fun i => f (prev (i + 1))) = Rsum ne (fun i => f (i + 1)%nat).
  Proof.
    pose proof Hne as H1. destruct ne as [|k] eqn:E; [lia|]. rewrite Rsum_S_l. cbn [Rsum]. unfold prev at 1. cbn [Nat.add Nat.eqb]. rewrite E, Rplus_comm. f_equal; [|f_equal; lia].
    apply Rsum_ext. intros i Hi. replace (prev (S (i + 1))) with (i + 1)%nat; [reflexivity|]. unfold prev. destruct (Nat.eqb_spec (S (i + 1)) 1); lia.
  Qed.
  Lemma ip_ext x x' y y' : eqi x x' -> eqi y y' -> ip x y = ip x' y'.
  Proof. intros H1 H2. apply Rsum_ext. intros i Hi. apply Rsum_ext. intros n Hn. rewrite H1, H2 by (first [assumption|lia]). reflexivity. Qed.
  Lemma ip_sym x y : ip x y = ip y x.
  Proof. apply Rsum_ext. intros i Hi. apply Rsum_ext. intros n Hn. unfold Rdiv. ring. Qed.
  Lemma ip_add x y z : ip (fun n e => x n e + y n e) z = ip x z + ip y z.
  Proof. unfold ip. rewrite <- Rsum_plus. apply Rsum_ext. intros i Hi. rewrite <- Rsum_plus. apply Rsum_ext. intros n Hn. unfold Rdiv. ring. Qed.
  Lemma ip_scale c x z : ip (fun n e => c * x n e) z = c * ip x z.
  Proof. unfold ip. rewrite <- Rsum_scale. apply Rsum_ext. intros i Hi. rewrite <- Rsum_scale. apply Rsum_ext. intros n Hn. unfold Rdiv. ring. Qed.
  Lemma ip_pos x : 0 <= ip x x.
  Proof. apply Rsum_nonneg. intros i _. apply Rsum_nonneg. intros n _. apply Rmult_le_pos; [nra|apply Rlt_le, Rinv_0_lt_compat, w_pos]. Qed.
  Lemma cellsq_pos x e : 0 <= cellsq x e.
  Proof. apply Rsum_nonneg. intros n _. apply Rmult_le_pos; [nra|apply Rlt_le, Rinv_0_lt_compat, w_pos]. Qed.
  Lemma dop_ext x y : eqi x y -> eqi (dop x) (dop y).
  Proof.
    intros H n e Hn He. unfold dop, at_right. pose proof (prev_in e He) as Hp.
    rewrite (Rsum_ext N (fun m => vmat n m * x m e) (fun m => vmat n m * y m e)) by (intros m Hm; rewrite H by assumption; reflexivity).
    rewrite (Rsum_ext N (fun m => x m e) (fun m => y m e)) by (intros m Hm; apply H; assumption).
    rewrite (Rsum_ext N (fun m => x m (prev e)) (fun m => y m (prev e))) by (intros m Hm; apply H; assumption). reflexivity.
  Qed.
  Lemma dop_add x y n e : dop (fun n e => x n e + y n e) n e = dop x n e + dop y n e.
  Proof.
    unfold dop, at_right. rewrite !Rsum_plus. rewrite (Rsum_ext N (fun m => vmat n m * (x m e + y m e)) (fun m => vmat n m * x m e + vmat n m * y m e)) by (intros; ring).
    rewrite Rsum_plus. ring.
  Qed.
  Lemma dop_scale c x n e : dop (fun n e => c * x n e) n e = c * dop x n e.
  Proof.
    unfold dop, at_right. rewrite !Rsum_scale. rewrite (Rsum_ext N (fun m => vmat n m * (c * x m e)) (fun m => c * (vmat n m * x m e))) by (intros; ring).
    rewrite Rsum_scale. ring.
  Qed.
  (** * the energy identity *)
  Lemma ip_dop x y : ip (dop x) y = / h * Rsum ne (fun i => Rsum N (fun n => y n (i + 1)%nat * Rsum N (fun m => vmat n m * x m (i + 1)%nat))
      - at_right x (i + 1) * at_right y (i + 1) + at_right x (prev (i + 1)) * at_left y (i + 1)).
  Proof.
    unfold ip. rewrite <- Rsum_scale. apply Rsum_ext. intros i Hi. set (e := (i + 1)%nat).
    replace (/ h * (Rsum N (fun n => y n e * Rsum N (fun m => vmat n m * x m e)) - at_right x e * at_right y e + at_right x (prev e) * at_left y e))
      with (Rsum N (fun n => / h * (y n e * Rsum N (fun m => vmat n m * x m e) - at_right x e * y n e + at_right x (prev e) * (sgn n * y n e)))).
    2:{ rewrite Rsum_scale, Rsum_plus, Rsum_minus, !Rsum_scale. reflexivity. }
    apply Rsum_ext. intros n Hn. unfold dop. pose proof (w_pos n). field. lra.
  Qed.
  Lemma vsum x y e : Rsum N (fun n => y n e * Rsum N (fun m => vmat n m * x m e)) + Rsum N (fun n => x n e * Rsum N (fun m => vmat n m * y m e))
    = at_right x e * at_right y e - at_left x e * at_left y e.
  Proof.
    rewrite (Rsum_ext N (fun n => x n e * Rsum N (fun m => vmat n m * y m e)) (fun n => Rsum N (fun m => x n e * vmat n m * y m e))) by (intros; rewrite <- Rsum_scale; apply Rsum_ext; intros; ring).
    rewrite (Rsum_swap N N (fun n m => x n e * vmat n m * y m e)). rewrite <- Rsum_plus.
    rewrite (Rsum_ext N _ (fun n => y n e * at_right x e - sgn n * y n e * at_left x e)).
    2:{ intros n Hn. rewrite <- Rsum_scale, <- Rsum_plus. unfold at_right, at_left. rewrite <- !Rsum_scale, <- Rsum_minus. apply Rsum_ext. intros m Hm.
        pose proof (vmat_sym n m) as V. replace (vmat n m) with (1 - sgn n * sgn m - vmat m n) by lra. ring. }
    rewrite Rsum_minus, !Rsum_scale_r. unfold at_right, at_left. ring.
  Qed.
  Theorem energy x y : ip (dop x) y + ip x (dop y) = - / h * Rsum ne (fun i => jmp x (i + 1) * jmp y (i + 1)).
  Proof.
    rewrite (ip_sym x (dop y)), (ip_dop x y), (ip_dop y x), <- Rmult_plus_distr_l, <- Rsum_plus.
    rewrite <- Ropp_mult_distr_l, Ropp_mult_distr_r. f_equal. rewrite <- Rsum_opp.
    rewrite (Rsum_ext ne _ (fun i => - (jmp x (i + 1) * jmp y (i + 1)) + (at_right x (prev (i + 1)) * at_right y (prev (i + 1)) - at_right x (i + 1) * at_right y (i + 1)))).
    2:{ intros i Hi. pose proof (vsum x y (i + 1)) as V. unfold jmp. nra. }
    rewrite Rsum_plus, Rsum_minus. rewrite (prev_sum (fun e => at_right x e * at_right y e)). ring.
  Qed.
  (** * the norm bound *)
  Lemma right_sq x e : at_right x e * at_right x e <= INR N * INR N * cellsq x e.
  Proof.
    pose proof (unit_sum N (fun _ => 1) (fun m => x m e) ltac:(intros; lra)) as Q. cbv beta in Q. unfold at_right, cellsq.
    rewrite (Rsum_ext N (fun i => 1 * x i e) (fun i => x i e)) in Q by (intros; ring). exact Q.
  Qed.
  Lemma left_sq x e : at_left x e * at_left x e <= INR N * INR N * cellsq x e.
  Proof. apply (unit_sum N sgn (fun m => x m e)). intros. rewrite sgn_sq. lra. Qed.
  Lemma row_sq x n e : (Rsum N (fun m => vmat n m * x m e) - at_right x e) * (Rsum N (fun m => vmat n m * x m e) - at_right x e) <= INR N * INR N * cellsq x e.
  Proof.
    pose proof (unit_sum N (fun m => vmat n m - 1) (fun m => x m e) (fun i _ => vmat_unit n i)) as Q. cbv beta in Q. unfold at_right.
    rewrite <- Rsum_minus. rewrite (Rsum_ext N (fun i => vmat n i * x i e - x i e) (fun i => (vmat n i - 1) * x i e)) by (intros; ring). exact Q.
  Qed.
  Lemma ip_cells x : ip x x = Rsum ne (fun i => cellsq x (i + 1)). Proof. reflexivity. Qed.
  Lemma two_cells x : Rsum ne (fun i => cellsq x (i + 1) + cellsq x (prev (i + 1))) = 2 * ip x x.
  Proof. rewrite Rsum_plus, (prev_sum (cellsq x)), ip_cells. ring. Qed.
  Theorem dop_bound x : ip (dop x) (dop x) <= 4 * (INR N * INR N) * (INR N * INR N) / (h * h) * ip x x.
  Proof.
    set (N2 := INR N * INR N). assert (HN : 0 <= N2) by (unfold N2; nra).
    replace (4 * N2 * N2 / (h * h) * ip x x) with (N2 / (h * h) * (2 * N2) * (2 * ip x x)) by (field; lra). rewrite <- two_cells, <- Rsum_scale. apply Rsum_le. intros i Hi.
    set (e := (i + 1)%nat). set (B := 2 * N2 * (cellsq x e + cellsq x (prev e))).
    apply Rle_trans with (Rsum N (fun n => (2 * INR n + 1) * (/ (h * h) * B))).
    2:{ rewrite Rsum_scale_r, odd_sum. fold N2. unfold B. apply Req_le. field. lra. }
    apply Rsum_le. intros n Hn. unfold dop. set (a := Rsum N (fun m => vmat n m * x m e) - at_right x e). set (b := sgn n * at_right x (prev e)).
    assert (Ha : a * a <= N2 * cellsq x e) by apply row_sq.
    assert (Hb : b * b <= N2 * cellsq x (prev e)). { unfold b. pose proof (right_sq x (prev e)) as Q. pose proof (sgn_sq n) as S1. fold N2 in Q. replace (sgn n * at_right x (prev e) * (sgn n * at_right x (prev e))) with (sgn n * sgn n * (at_right x (prev e) * at_right x (prev e))) by ring. rewrite S1. lra. }
    pose proof (w_pos n) as Hw.
    replace ((2 * INR n + 1) / h * (a + b) * ((2 * INR n + 1) / h * (a + b)) / (2 * INR n + 1)) with ((2 * INR n + 1) * (/ (h * h) * ((a + b) * (a + b)))) by (field; lra).
    apply Rmult_le_compat_l; [lra|]. apply Rmult_le_compat_l; [apply Rlt_le, Rinv_0_lt_compat, Rmult_lt_0_compat; exact Hh|]. unfold B.
    pose proof (Rle_0_sqr (a - b)) as Q. unfold Rsqr in Q. clearbody a b. lra.
  Qed.
  Theorem jump_bound x : Rsum ne (fun i => jmp x (i + 1) * jmp x (i + 1)) <= 4 * (INR N * INR N) * ip x x.
  Proof.
    set (N2 := INR N * INR N). replace (4 * N2 * ip x x) with (2 * N2 * (2 * ip x x)) by ring. rewrite <- two_cells, <- Rsum_scale. apply Rsum_le. intros i Hi.
    pose proof (left_sq x (i + 1)) as Q1. pose proof (right_sq x (prev (i + 1))) as Q2. fold N2 in Q1, Q2. unfold jmp.
    pose proof (Rle_0_sqr (at_left x (i + 1) + at_right x (prev (i + 1)))) as Q. unfold Rsqr in Q. lra.
  Qed.
  (** * the step *)
  Definition jform x y : R := Rsum ne (fun i => jmp x (i + 1) * jmp y (i + 1)).
  Lemma jform_sq (a b c : R) x y z : a * a * jform x x + b * b * jform y y + c * c * jform z z + 2 * a * b * jform x y + 2 * a * c * jform x z + 2 * b * c * jform y z >= 0.
  Proof.
    unfold jform. rewrite <- !Rsum_scale, <- !Rsum_plus. apply Rle_ge, Rsum_nonneg. intros i _.
    set (u := jmp x (i + 1)). set (v := jmp y (i + 1)). set (w := jmp z (i + 1)). pose proof (Rle_0_sqr (a * u + b * v + c * w)) as Q. unfold Rsqr in Q. clearbody u v w. lra.
  Qed.
  Variable dt : R.
  Hypothesis Hdt : 0 <= dt.
  Hypothesis Hcfl : 2 * (INR N * INR N) * dt <= h.
  Definition lop x n e : R := dt * dop x n e.
  Definition step3 x n e : R := x n e + lop x n e + / 2 * lop (lop x) n e + / 6 * lop (lop (lop x)) n e.
  Lemma lop_energy x y : ip (lop x) y + ip x (lop y) = - (dt / h) * jform x y.
  Proof.
    unfold lop at 1. rewrite ip_scale. rewrite (ip_sym x). unfold lop. rewrite ip_scale, (ip_sym (dop y)), <- Rmult_plus_distr_l, energy. unfold jform. field. lra.
  Qed.
  Lemma lop_bound x : ip (lop x) (lop x) <= ip x x.
  Proof.
    unfold lop at 1. rewrite ip_scale, ip_sym. unfold lop. rewrite ip_scale. pose proof (dop_bound x) as Q. pose proof (ip_pos x) as P.
    apply Rle_trans with (dt * (dt * (4 * (INR N * INR N) * (INR N * INR N) / (h * h) * ip x x))).
    - apply Rmult_le_compat_l; [exact Hdt|]. apply Rmult_le_compat_l; [exact Hdt|exact Q].
    - set (k := 2 * (INR N * INR N) * dt / h). replace (dt * (dt * (4 * (INR N * INR N) * (INR N * INR N) / (h * h) * ip x x))) with (k * k * ip x x) by (unfold k; field; lra).
      assert (0 <= k <= 1). { unfold k. split; [apply Rmult_le_pos; [apply Rmult_le_pos; [pose proof (Rle_0_sqr (INR N)) as Q1; unfold Rsqr in Q1; lra|exact Hdt]|apply Rlt_le, Rinv_0_lt_compat, Hh]|]. apply Rmult_le_reg_r with h; [exact Hh|]. unfold Rdiv. rewrite Rmult_assoc, Rinv_l by lra. lra. }
      rewrite <- (Rmult_1_l (ip x x)) at 2. apply Rmult_le_compat_r; [exact P|]. clearbody k. nra.
  Qed.
  Theorem step3_norm x : ip (step3 x) (step3 x) <= ip x x.
  Proof.
    set (y := lop x). set (z := lop y). set (w := lop z). set (c := dt / h).
    assert (Hc : 0 <= c) by (apply Rmult_le_pos; [exact Hdt|apply Rlt_le, Rinv_0_lt_compat, Hh]).
    assert (Hc1 : c * jform z z <= 2 * ip z z).
    { pose proof (jump_bound z) as Q. fold (jform z z) in Q. pose proof (ip_pos z). apply Rle_trans with (c * (4 * (INR N * INR N) * ip z z)); [apply Rmult_le_compat_l; assumption|].
      assert (2 * (INR N * INR N) * c <= 1). { unfold c. apply Rmult_le_reg_r with h; [exact Hh|]. replace (2 * (INR N * INR N) * (dt / h) * h) with (2 * (INR N * INR N) * dt) by (field; lra). lra. }
      nra. }
    pose proof (lop_bound z) as Hw. fold w in Hw.
    pose proof (lop_energy x x) as E1. pose proof (lop_energy x y) as E2. pose proof (lop_energy y y) as E3. pose proof (lop_energy x z) as E4. pose proof (lop_energy y z) as E5. pose proof (lop_energy z z) as E6.
    fold y in E1, E2, E3, E4, E5. fold z in E2, E3, E4, E5, E6. fold w in E4, E5, E6. fold c in E1, E2, E3, E4, E5, E6.
    rewrite (ip_sym y x) in E1. rewrite (ip_sym z y) in E3. rewrite (ip_sym w z) in E6. rewrite (ip_sym y z), (ip_sym z y) in *.
    assert (X : ip (step3 x) (step3 x) = ip x x + ip y y + / 4 * ip z z + / 36 * ip w w + 2 * ip x y + ip x z + / 3 * ip x w + ip y z + / 3 * ip y w + / 6 * ip z w).
    { unfold step3. fold y. fold z. fold w. set (f := fun n e => x n e + y n e + / 2 * z n e + / 6 * w n e).
      assert (Lf : forall v, ip f v = ip x v + ip y v + / 2 * ip z v + / 6 * ip w v).
      { intro v. unfold f. rewrite (ip_add (fun n e => x n e + y n e + / 2 * z n e) (fun n e => / 6 * w n e)), (ip_add (fun n e => x n e + y n e) (fun n e => / 2 * z n e)), (ip_add x y), !ip_scale. reflexivity. }
      rewrite Lf, (ip_sym x f), (ip_sym y f), (ip_sym z f), (ip_sym w f), !Lf. rewrite (ip_sym y x), (ip_sym z x), (ip_sym w x), (ip_sym z y), (ip_sym w y), (ip_sym w z). field. }
    rewrite X. rewrite (ip_sym y z) in *.
    pose proof (jform_sq 1 (/ 2) (/ 6) x y z) as J1. pose proof (jform_sq 0 1 1 x y z) as J2.
    assert (K1 : 0 <= c * (1 * 1 * jform x x + / 2 * / 2 * jform y y + / 6 * / 6 * jform z z + 2 * 1 * / 2 * jform x y + 2 * 1 * / 6 * jform x z + 2 * / 2 * / 6 * jform y z)) by (apply Rmult_le_pos; lra).
    assert (K2 : 0 <= c * (0 * 0 * jform x x + 1 * 1 * jform y y + 1 * 1 * jform z z + 2 * 0 * 1 * jform x y + 2 * 0 * 1 * jform x z + 2 * 1 * 1 * jform y z)) by (apply Rmult_le_pos; lra).
    clear J1 J2 X. set (a1 := c * jform x x) in *. 
    assert (K1' : 0 <= a1 + / 4 * (c * jform y y) + / 36 * (c * jform z z) + c * jform x y + / 3 * (c * jform x z) + / 6 * (c * jform y z)) by (unfold a1; lra).
    assert (K2' : 0 <= c * jform y y + c * jform z z + 2 * (c * jform y z)) by lra.
    pose proof (ip_pos z). lra.
  Qed.
End Op.
