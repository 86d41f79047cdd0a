(** C82: what rk_stability.py draws.  Polynomial inequalities for rk3, rk4 and rk5; sign changes far away for the others. *)
From Coq Require Import ZArith QArith List Bool Arith String Lia Reals Lra Rgeom.
From Verif Require Import Num Py LegNumpy Ext Basis Enhance Solution Solver Lib RealLib RKCoeffs SpecDG SpecRK RK SpecTime ProofsTime Analysis AnalysisPlot SpecAnalysis SpecRKPlot
  ProofsRK ProofsRKOrder ProofsRKTables ProofsMonotone ProofsDG ProofsAnalysis.
Import ListNotations.
Open Scope list_scope.
Open Scope R_scope.

(** squared modulus; a polynomial with real coefficients at a complex point *)
Definition csq (z : C) : R := fst z * fst z + snd z * snd z.
Definition csum (n : nat) (g : nat -> R) (z : C) : C := Csum n (fun k => nmul (Cr (g k)) (Cpow z k)).
Definition rsum (n : nat) (g : nat -> R) (x : R) : R := Rsum n (fun k => g k * x ^ k).
Lemma csum_ext n g h z : (forall k, (k < n)%nat -> g k = h k) -> csum n g z = csum n h z.
Proof. intro H. apply Csum_ext. intros k Hk. rewrite H by exact Hk. reflexivity. Qed.
Lemma csum_real n g x : csum n g (Cr x) = Cr (rsum n g x).
Proof. unfold csum, rsum. rewrite <- Csum_Cr. apply Csum_ext. intros k Hk. rewrite Cpow_Cr, Cr_mul. reflexivity. Qed.
Definition cconj (z : C) : C := (fst z, - snd z).
Lemma Cpow_conj z k : Cpow (cconj z) k = cconj (Cpow z k).
Proof. induction k as [|k IH]; cbn [Cpow]; [unfold cconj; cbn; f_equal; ring|]. rewrite IH. unfold cconj. cbn. f_equal; ring. Qed.
Lemma csum_conj n g z : csum n g (cconj z) = cconj (csum n g z).
Proof.
  unfold csum. induction n as [|n IH]; [unfold cconj; cbn; f_equal; ring|]. rewrite !Csum_S, IH, Cpow_conj. unfold cconj, Cr. cbn. f_equal; ring.
Qed.

(** ** the modulus *)
Definition cmod (z : C) : R := sqrt (csq z).
Lemma csq_nonneg z : 0 <= csq z. Proof. unfold csq. nra. Qed.
Lemma cmod_nonneg z : 0 <= cmod z. Proof. apply sqrt_pos. Qed.
Lemma cmod_mul a b : cmod (nmul a b) = cmod a * cmod b.
Proof. unfold cmod. rewrite <- sqrt_mult by apply csq_nonneg. f_equal. unfold csq. cbn. ring. Qed.
Lemma cmod_triangle a b : cmod (nadd a b) <= cmod a + cmod b.
Proof.
  pose proof (triangle (fst a + fst b) (snd a + snd b) 0 0 (fst b) (snd b)) as T. unfold dist_euc in T.
  replace (cmod (nadd a b)) with (sqrt (Rsqr (fst a + fst b - 0) + Rsqr (snd a + snd b - 0))) by (unfold cmod, csq, Rsqr; cbn; f_equal; ring).
  replace (cmod a) with (sqrt (Rsqr (fst a + fst b - fst b) + Rsqr (snd a + snd b - snd b))) by (unfold cmod, csq, Rsqr; f_equal; ring).
  replace (cmod b) with (sqrt (Rsqr (fst b - 0) + Rsqr (snd b - 0))) by (unfold cmod, csq, Rsqr; f_equal; ring). exact T.
Qed.
Lemma cmod_Cr x : cmod (Cr x) = Rabs x.
Proof. unfold cmod, csq, Cr. cbn [fst snd]. replace (x * x + 0 * 0) with (Rsqr x) by (unfold Rsqr; ring). apply sqrt_Rsqr_abs. Qed.
Lemma cmod_pow z k : cmod (Cpow z k) = cmod z ^ k.
Proof. induction k as [|k IH]; cbn [Cpow pow]; [change (nofZ 1) with (Cr 1); rewrite cmod_Cr; apply Rabs_R1|]. rewrite cmod_mul, IH. reflexivity. Qed.
Lemma cmod_csum n g z : cmod (csum n g z) <= Rsum n (fun k => Rabs (g k) * cmod z ^ k).
Proof.
  unfold csum. induction n as [|n IH].
  - change (Csum 0 _) with (Cr 0). rewrite cmod_Cr, Rabs_R0. cbn. lra.
  - rewrite Csum_S. cbn [Rsum]. apply Rle_trans with (1 := cmod_triangle _ _). rewrite cmod_mul, cmod_Cr, cmod_pow. lra.
Qed.
(** the leading term against the others *)
Lemma cmod_lead n g z : Rabs (g n) * cmod z ^ n - Rsum n (fun k => Rabs (g k) * cmod z ^ k) <= cmod (csum (S n) g z).
Proof.
  pose proof (cmod_csum n g z) as H. unfold csum in *. rewrite Csum_S. set (q := Csum n _) in *.
  pose proof (cmod_triangle (nadd q (nmul (Cr (g n)) (Cpow z n))) (nmul (Cr (-1)) q)) as T.
  replace (nadd (nadd q (nmul (Cr (g n)) (Cpow z n))) (nmul (Cr (-1)) q)) with (nmul (Cr (g n)) (Cpow z n)) in T
    by (unfold Cr; destruct q as [q1 q2], (Cpow z n) as [p1 p2]; cbn; f_equal; ring).
  rewrite !cmod_mul, !cmod_Cr, cmod_pow in T. replace (Rabs (-1)) with 1 in T by (rewrite Rabs_left; lra). lra.
Qed.
Lemma cmod_gt_1 z : 1 < cmod z -> 1 < csq z.
Proof. unfold cmod. intro H. rewrite <- sqrt_1 in H. apply sqrt_lt_0_alt in H. exact H. Qed.
Lemma cmod_ge z r : 0 <= r -> r * r <= csq z -> r <= cmod z.
Proof. intros Hr H. unfold cmod. rewrite <- (sqrt_square r Hr). apply sqrt_le_1_alt. exact H. Qed.

(** ** rk3, rk4, rk5 *)
Definition rk3_g (k : nat) : R := nth k [1; 1; 1 / 2; 1 / 6] 0.
Definition rk4_g (k : nat) : R := nth k [1; 1; 1 / 2; 1 / 6; 1 / 24] 0.
Definition rk5_g (k : nat) : R := nth k [1; 1; 1 / 2; 1 / 6; 1 / 24; 1 / 120; 1 / 800] 0.
Definition rk6_g (k : nat) : R := nth k [1; 1; 1 / 2; 1 / 6; 1 / 24; 1 / 120; 1 / 720; - (1 / 2520)] 0.
Ltac growths H := repeat match goal with Hk : (?k < S _)%nat |- _ => destruct k as [|k]; [try reflexivity; rewrite H by lia; cbn; field|] end; lia.
Lemma rk3_growths k : (k < 4)%nat -> growth rk3_table k = rk3_g k.
Proof. intro Hk. rewrite (proj1 (exact_growths k)) by lia. do 4 (destruct k as [|k]; [cbn; field|]). lia. Qed.
Lemma rk4_growths k : (k < 5)%nat -> growth rk4_table k = rk4_g k.
Proof. intro Hk. rewrite (proj1 (proj2 (exact_growths k))) by lia. do 5 (destruct k as [|k]; [cbn; field|]). lia. Qed.
Lemma rk5_growths k : (k < 7)%nat -> growth rk5_table k = rk5_g k.
Proof.
  intro Hk. destruct (Nat.eq_dec k 6) as [->|Hne]; [rewrite rk5_top; reflexivity|].
  rewrite (proj1 (proj2 (proj2 (exact_growths k)))) by lia. do 6 (destruct k as [|k]; [cbn; field|]). lia.
Qed.
Lemma rk6_growths k : (k < 8)%nat -> growth rk6_table k = rk6_g k.
Proof.
  intro Hk. destruct (Nat.eq_dec k 7) as [->|Hne]; [rewrite rk6_top; reflexivity|].
  rewrite (proj2 (proj2 (proj2 (exact_growths k)))) by lia. do 7 (destruct k as [|k]; [cbn; field|]). lia.
Qed.
Ltac positive := repeat first [assumption | lra | apply Rplus_lt_le_0_compat | apply Rmult_le_pos | apply pow_le].

Lemma rk3_right t y : 0 <= t -> 1 < csq (csum 4 rk3_g (3 + t, y)).
Proof.
  intro Ht. assert (Hy : 0 <= y * y) by nra.
  assert (E : csq (csum 4 rk3_g (3 + t, y)) - 1 = 168 + 221 * t ^ 1 * (y * y) ^ 0 + (81 / 4) * t ^ 0 * (y * y) ^ 1 + (497 / 4) * t ^ 2 * (y * y) ^ 0 + 21 * t ^ 1 * (y * y) ^ 1 + (115 / 3) * t ^ 3 * (y * y) ^ 0 + (7 / 6) * t ^ 0 * (y * y) ^ 2 + 8 * t ^ 2 * (y * y) ^ 1 + (41 / 6) * t ^ 4 * (y * y) ^ 0 + (2 / 3) * t ^ 1 * (y * y) ^ 2 + (4 / 3) * t ^ 3 * (y * y) ^ 1 + (2 / 3) * t ^ 5 * (y * y) ^ 0 + (1 / 36) * t ^ 0 * (y * y) ^ 3 + (1 / 12) * t ^ 2 * (y * y) ^ 2 + (1 / 12) * t ^ 4 * (y * y) ^ 1 + (1 / 36) * t ^ 6 * (y * y) ^ 0) by (unfold csq, csum, rk3_g; cbn; field).
  assert (P : 0 < 168 + 221 * t ^ 1 * (y * y) ^ 0 + (81 / 4) * t ^ 0 * (y * y) ^ 1 + (497 / 4) * t ^ 2 * (y * y) ^ 0 + 21 * t ^ 1 * (y * y) ^ 1 + (115 / 3) * t ^ 3 * (y * y) ^ 0 + (7 / 6) * t ^ 0 * (y * y) ^ 2 + 8 * t ^ 2 * (y * y) ^ 1 + (41 / 6) * t ^ 4 * (y * y) ^ 0 + (2 / 3) * t ^ 1 * (y * y) ^ 2 + (4 / 3) * t ^ 3 * (y * y) ^ 1 + (2 / 3) * t ^ 5 * (y * y) ^ 0 + (1 / 36) * t ^ 0 * (y * y) ^ 3 + (1 / 12) * t ^ 2 * (y * y) ^ 2 + (1 / 12) * t ^ 4 * (y * y) ^ 1 + (1 / 36) * t ^ 6 * (y * y) ^ 0) by positive. lra.
Qed.
Lemma rk3_left t y : 0 <= t -> 1 < csq (csum 4 rk3_g (-6 - t, y)).
Proof.
  intro Ht. assert (Hy : 0 <= y * y) by nra.
  assert (E : csq (csum 4 rk3_g (-6 - t, y)) - 1 = 528 + 598 * t ^ 1 * (y * y) ^ 0 + 54 * t ^ 0 * (y * y) ^ 1 + 284 * t ^ 2 * (y * y) ^ 0 + 42 * t ^ 1 * (y * y) ^ 1 + (218 / 3) * t ^ 3 * (y * y) ^ 0 + (23 / 12) * t ^ 0 * (y * y) ^ 2 + (25 / 2) * t ^ 2 * (y * y) ^ 1 + (127 / 12) * t ^ 4 * (y * y) ^ 0 + (5 / 6) * t ^ 1 * (y * y) ^ 2 + (5 / 3) * t ^ 3 * (y * y) ^ 1 + (5 / 6) * t ^ 5 * (y * y) ^ 0 + (1 / 36) * t ^ 0 * (y * y) ^ 3 + (1 / 12) * t ^ 2 * (y * y) ^ 2 + (1 / 12) * t ^ 4 * (y * y) ^ 1 + (1 / 36) * t ^ 6 * (y * y) ^ 0) by (unfold csq, csum, rk3_g; cbn; field).
  assert (P : 0 < 528 + 598 * t ^ 1 * (y * y) ^ 0 + 54 * t ^ 0 * (y * y) ^ 1 + 284 * t ^ 2 * (y * y) ^ 0 + 42 * t ^ 1 * (y * y) ^ 1 + (218 / 3) * t ^ 3 * (y * y) ^ 0 + (23 / 12) * t ^ 0 * (y * y) ^ 2 + (25 / 2) * t ^ 2 * (y * y) ^ 1 + (127 / 12) * t ^ 4 * (y * y) ^ 0 + (5 / 6) * t ^ 1 * (y * y) ^ 2 + (5 / 3) * t ^ 3 * (y * y) ^ 1 + (5 / 6) * t ^ 5 * (y * y) ^ 0 + (1 / 36) * t ^ 0 * (y * y) ^ 3 + (1 / 12) * t ^ 2 * (y * y) ^ 2 + (1 / 12) * t ^ 4 * (y * y) ^ 1 + (1 / 36) * t ^ 6 * (y * y) ^ 0) by positive. lra.
Qed.
Lemma rk4_right t y : 0 <= t -> 1 < csq (csum 5 rk4_g (3 + t, y)).
Proof.
  intro Ht. assert (Hy : 0 <= y * y) by nra.
  assert (E : csq (csum 5 rk4_g (3 + t, y)) - 1 = (17097 / 64) + (1703 / 4) * t ^ 1 * (y * y) ^ 0 + (477 / 16) * t ^ 0 * (y * y) ^ 1 + (4931 / 16) * t ^ 2 * (y * y) ^ 0 + 45 * t ^ 1 * (y * y) ^ 1 + (397 / 3) * t ^ 3 * (y * y) ^ 0 + (67 / 32) * t ^ 0 * (y * y) ^ 2 + (447 / 16) * t ^ 2 * (y * y) ^ 1 + (3529 / 96) * t ^ 4 * (y * y) ^ 0 + (29 / 12) * t ^ 1 * (y * y) ^ 2 + (55 / 6) * t ^ 3 * (y * y) ^ 1 + (27 / 4) * t ^ 5 * (y * y) ^ 0 + (13 / 144) * t ^ 0 * (y * y) ^ 3 + (47 / 48) * t ^ 2 * (y * y) ^ 2 + (27 / 16) * t ^ 4 * (y * y) ^ 1 + (115 / 144) * t ^ 6 * (y * y) ^ 0 + (1 / 18) * t ^ 1 * (y * y) ^ 3 + (1 / 6) * t ^ 3 * (y * y) ^ 2 + (1 / 6) * t ^ 5 * (y * y) ^ 1 + (1 / 18) * t ^ 7 * (y * y) ^ 0 + (1 / 576) * t ^ 0 * (y * y) ^ 4 + (1 / 144) * t ^ 2 * (y * y) ^ 3 + (1 / 96) * t ^ 4 * (y * y) ^ 2 + (1 / 144) * t ^ 6 * (y * y) ^ 1 + (1 / 576) * t ^ 8 * (y * y) ^ 0) by (unfold csq, csum, rk4_g; cbn; field).
  assert (P : 0 < (17097 / 64) + (1703 / 4) * t ^ 1 * (y * y) ^ 0 + (477 / 16) * t ^ 0 * (y * y) ^ 1 + (4931 / 16) * t ^ 2 * (y * y) ^ 0 + 45 * t ^ 1 * (y * y) ^ 1 + (397 / 3) * t ^ 3 * (y * y) ^ 0 + (67 / 32) * t ^ 0 * (y * y) ^ 2 + (447 / 16) * t ^ 2 * (y * y) ^ 1 + (3529 / 96) * t ^ 4 * (y * y) ^ 0 + (29 / 12) * t ^ 1 * (y * y) ^ 2 + (55 / 6) * t ^ 3 * (y * y) ^ 1 + (27 / 4) * t ^ 5 * (y * y) ^ 0 + (13 / 144) * t ^ 0 * (y * y) ^ 3 + (47 / 48) * t ^ 2 * (y * y) ^ 2 + (27 / 16) * t ^ 4 * (y * y) ^ 1 + (115 / 144) * t ^ 6 * (y * y) ^ 0 + (1 / 18) * t ^ 1 * (y * y) ^ 3 + (1 / 6) * t ^ 3 * (y * y) ^ 2 + (1 / 6) * t ^ 5 * (y * y) ^ 1 + (1 / 18) * t ^ 7 * (y * y) ^ 0 + (1 / 576) * t ^ 0 * (y * y) ^ 4 + (1 / 144) * t ^ 2 * (y * y) ^ 3 + (1 / 96) * t ^ 4 * (y * y) ^ 2 + (1 / 144) * t ^ 6 * (y * y) ^ 1 + (1 / 576) * t ^ 8 * (y * y) ^ 0) by positive. lra.
Qed.
Lemma rk4_left t y : 0 <= t -> 1 < csq (csum 5 rk4_g (-6 - t, y)).
Proof.
  intro Ht. assert (Hy : 0 <= y * y) by nra.
  assert (E : csq (csum 5 rk4_g (-6 - t, y)) - 1 = 960 + 1426 * t ^ 1 * (y * y) ^ 0 + 126 * t ^ 0 * (y * y) ^ 1 + 932 * t ^ 2 * (y * y) ^ 0 + 144 * t ^ 1 * (y * y) ^ 1 + (1052 / 3) * t ^ 3 * (y * y) ^ 0 + (13 / 2) * t ^ 0 * (y * y) ^ 2 + 69 * t ^ 2 * (y * y) ^ 1 + (499 / 6) * t ^ 4 * (y * y) ^ 0 + (61 / 12) * t ^ 1 * (y * y) ^ 2 + (107 / 6) * t ^ 3 * (y * y) ^ 1 + (51 / 4) * t ^ 5 * (y * y) ^ 0 + (11 / 72) * t ^ 0 * (y * y) ^ 3 + (37 / 24) * t ^ 2 * (y * y) ^ 2 + (21 / 8) * t ^ 4 * (y * y) ^ 1 + (89 / 72) * t ^ 6 * (y * y) ^ 0 + (5 / 72) * t ^ 1 * (y * y) ^ 3 + (5 / 24) * t ^ 3 * (y * y) ^ 2 + (5 / 24) * t ^ 5 * (y * y) ^ 1 + (5 / 72) * t ^ 7 * (y * y) ^ 0 + (1 / 576) * t ^ 0 * (y * y) ^ 4 + (1 / 144) * t ^ 2 * (y * y) ^ 3 + (1 / 96) * t ^ 4 * (y * y) ^ 2 + (1 / 144) * t ^ 6 * (y * y) ^ 1 + (1 / 576) * t ^ 8 * (y * y) ^ 0) by (unfold csq, csum, rk4_g; cbn; field).
  assert (P : 0 < 960 + 1426 * t ^ 1 * (y * y) ^ 0 + 126 * t ^ 0 * (y * y) ^ 1 + 932 * t ^ 2 * (y * y) ^ 0 + 144 * t ^ 1 * (y * y) ^ 1 + (1052 / 3) * t ^ 3 * (y * y) ^ 0 + (13 / 2) * t ^ 0 * (y * y) ^ 2 + 69 * t ^ 2 * (y * y) ^ 1 + (499 / 6) * t ^ 4 * (y * y) ^ 0 + (61 / 12) * t ^ 1 * (y * y) ^ 2 + (107 / 6) * t ^ 3 * (y * y) ^ 1 + (51 / 4) * t ^ 5 * (y * y) ^ 0 + (11 / 72) * t ^ 0 * (y * y) ^ 3 + (37 / 24) * t ^ 2 * (y * y) ^ 2 + (21 / 8) * t ^ 4 * (y * y) ^ 1 + (89 / 72) * t ^ 6 * (y * y) ^ 0 + (5 / 72) * t ^ 1 * (y * y) ^ 3 + (5 / 24) * t ^ 3 * (y * y) ^ 2 + (5 / 24) * t ^ 5 * (y * y) ^ 1 + (5 / 72) * t ^ 7 * (y * y) ^ 0 + (1 / 576) * t ^ 0 * (y * y) ^ 4 + (1 / 144) * t ^ 2 * (y * y) ^ 3 + (1 / 96) * t ^ 4 * (y * y) ^ 2 + (1 / 144) * t ^ 6 * (y * y) ^ 1 + (1 / 576) * t ^ 8 * (y * y) ^ 0) by positive. lra.
Qed.
Lemma rk5_right t y : 0 <= t -> 1 < csq (csum 7 rk5_g (3 + t, y)).
Proof.
  intro Ht. assert (Hy : 0 <= y * y) by nra.
  assert (E : csq (csum 7 rk5_g (3 + t, y)) - 1 = (238031601 / 640000) + (112453271 / 160000) * t ^ 1 * (y * y) ^ 0 + (6862347 / 320000) * t ^ 0 * (y * y) ^ 1 + (205073017 / 320000) * t ^ 2 * (y * y) ^ 0 + (1583559 / 32000) * t ^ 1 * (y * y) ^ 1 + (35772269 / 96000) * t ^ 3 * (y * y) ^ 0 + (144483 / 128000) * t ^ 0 * (y * y) ^ 2 + (3255867 / 64000) * t ^ 2 * (y * y) ^ 1 + (58898377 / 384000) * t ^ 4 * (y * y) ^ 0 + (46031 / 16000) * t ^ 1 * (y * y) ^ 2 + (246133 / 8000) * t ^ 3 * (y * y) ^ 1 + (11266429 / 240000) * t ^ 5 * (y * y) ^ 0 + (20081 / 288000) * t ^ 0 * (y * y) ^ 3 + (274487 / 96000) * t ^ 2 * (y * y) ^ 2 + (1168261 / 96000) * t ^ 4 * (y * y) ^ 1 + (15731671 / 1440000) * t ^ 6 * (y * y) ^ 0 + (21191 / 144000) * t ^ 1 * (y * y) ^ 3 + (24153 / 16000) * t ^ 3 * (y * y) ^ 2 + (793331 / 240000) * t ^ 5 * (y * y) ^ 1 + (1399063 / 720000) * t ^ 7 * (y * y) ^ 0 + (1369 / 384000) * t ^ 0 * (y * y) ^ 4 + (6443 / 57600) * t ^ 2 * (y * y) ^ 3 + (18223 / 38400) * t ^ 4 * (y * y) ^ 2 + (60269 / 96000) * t ^ 6 * (y * y) ^ 1 + (301291 / 1152000) * t ^ 8 * (y * y) ^ 0 + (1439 / 288000) * t ^ 1 * (y * y) ^ 4 + (589 / 14400) * t ^ 3 * (y * y) ^ 3 + (4451 / 48000) * t ^ 5 * (y * y) ^ 2 + (5957 / 72000) * t ^ 7 * (y * y) ^ 1 + (7463 / 288000) * t ^ 9 * (y * y) ^ 0 + (323 / 2880000) * t ^ 0 * (y * y) ^ 5 + (1289 / 576000) * t ^ 2 * (y * y) ^ 4 + (451 / 57600) * t ^ 4 * (y * y) ^ 3 + (3221 / 288000) * t ^ 6 * (y * y) ^ 2 + (4187 / 576000) * t ^ 8 * (y * y) ^ 1 + (5153 / 2880000) * t ^ 10 * (y * y) ^ 0 + (37 / 480000) * t ^ 1 * (y * y) ^ 5 + (37 / 96000) * t ^ 3 * (y * y) ^ 4 + (37 / 48000) * t ^ 5 * (y * y) ^ 3 + (37 / 48000) * t ^ 7 * (y * y) ^ 2 + (37 / 96000) * t ^ 9 * (y * y) ^ 1 + (37 / 480000) * t ^ 11 * (y * y) ^ 0 + (1 / 640000) * t ^ 0 * (y * y) ^ 6 + (3 / 320000) * t ^ 2 * (y * y) ^ 5 + (3 / 128000) * t ^ 4 * (y * y) ^ 4 + (1 / 32000) * t ^ 6 * (y * y) ^ 3 + (3 / 128000) * t ^ 8 * (y * y) ^ 2 + (3 / 320000) * t ^ 10 * (y * y) ^ 1 + (1 / 640000) * t ^ 12 * (y * y) ^ 0) by (unfold csq, csum, rk5_g; cbn; field).
  assert (P : 0 < (238031601 / 640000) + (112453271 / 160000) * t ^ 1 * (y * y) ^ 0 + (6862347 / 320000) * t ^ 0 * (y * y) ^ 1 + (205073017 / 320000) * t ^ 2 * (y * y) ^ 0 + (1583559 / 32000) * t ^ 1 * (y * y) ^ 1 + (35772269 / 96000) * t ^ 3 * (y * y) ^ 0 + (144483 / 128000) * t ^ 0 * (y * y) ^ 2 + (3255867 / 64000) * t ^ 2 * (y * y) ^ 1 + (58898377 / 384000) * t ^ 4 * (y * y) ^ 0 + (46031 / 16000) * t ^ 1 * (y * y) ^ 2 + (246133 / 8000) * t ^ 3 * (y * y) ^ 1 + (11266429 / 240000) * t ^ 5 * (y * y) ^ 0 + (20081 / 288000) * t ^ 0 * (y * y) ^ 3 + (274487 / 96000) * t ^ 2 * (y * y) ^ 2 + (1168261 / 96000) * t ^ 4 * (y * y) ^ 1 + (15731671 / 1440000) * t ^ 6 * (y * y) ^ 0 + (21191 / 144000) * t ^ 1 * (y * y) ^ 3 + (24153 / 16000) * t ^ 3 * (y * y) ^ 2 + (793331 / 240000) * t ^ 5 * (y * y) ^ 1 + (1399063 / 720000) * t ^ 7 * (y * y) ^ 0 + (1369 / 384000) * t ^ 0 * (y * y) ^ 4 + (6443 / 57600) * t ^ 2 * (y * y) ^ 3 + (18223 / 38400) * t ^ 4 * (y * y) ^ 2 + (60269 / 96000) * t ^ 6 * (y * y) ^ 1 + (301291 / 1152000) * t ^ 8 * (y * y) ^ 0 + (1439 / 288000) * t ^ 1 * (y * y) ^ 4 + (589 / 14400) * t ^ 3 * (y * y) ^ 3 + (4451 / 48000) * t ^ 5 * (y * y) ^ 2 + (5957 / 72000) * t ^ 7 * (y * y) ^ 1 + (7463 / 288000) * t ^ 9 * (y * y) ^ 0 + (323 / 2880000) * t ^ 0 * (y * y) ^ 5 + (1289 / 576000) * t ^ 2 * (y * y) ^ 4 + (451 / 57600) * t ^ 4 * (y * y) ^ 3 + (3221 / 288000) * t ^ 6 * (y * y) ^ 2 + (4187 / 576000) * t ^ 8 * (y * y) ^ 1 + (5153 / 2880000) * t ^ 10 * (y * y) ^ 0 + (37 / 480000) * t ^ 1 * (y * y) ^ 5 + (37 / 96000) * t ^ 3 * (y * y) ^ 4 + (37 / 48000) * t ^ 5 * (y * y) ^ 3 + (37 / 48000) * t ^ 7 * (y * y) ^ 2 + (37 / 96000) * t ^ 9 * (y * y) ^ 1 + (37 / 480000) * t ^ 11 * (y * y) ^ 0 + (1 / 640000) * t ^ 0 * (y * y) ^ 6 + (3 / 320000) * t ^ 2 * (y * y) ^ 5 + (3 / 128000) * t ^ 4 * (y * y) ^ 4 + (1 / 32000) * t ^ 6 * (y * y) ^ 3 + (3 / 128000) * t ^ 8 * (y * y) ^ 2 + (3 / 320000) * t ^ 10 * (y * y) ^ 1 + (1 / 640000) * t ^ 12 * (y * y) ^ 0) by positive. lra.
Qed.
Lemma rk5_left t y : 0 <= t -> 1 < csq (csum 7 rk5_g (-6 - t, y)).
Proof.
  intro Ht. assert (Hy : 0 <= y * y) by nra.
  assert (E : csq (csum 7 rk5_g (-6 - t, y)) - 1 = (375144 / 625) + (837358 / 625) * t ^ 1 * (y * y) ^ 0 + (74169 / 625) * t ^ 0 * (y * y) ^ 1 + (858809 / 625) * t ^ 2 * (y * y) ^ 0 + (27963 / 125) * t ^ 1 * (y * y) ^ 1 + (321733 / 375) * t ^ 3 * (y * y) ^ 0 + (1257 / 125) * t ^ 0 * (y * y) ^ 2 + (23796 / 125) * t ^ 2 * (y * y) ^ 1 + (136273 / 375) * t ^ 4 * (y * y) ^ 0 + (3817 / 250) * t ^ 1 * (y * y) ^ 2 + (12071 / 125) * t ^ 3 * (y * y) ^ 1 + (412763 / 3750) * t ^ 5 * (y * y) ^ 0 + (8099 / 18000) * t ^ 0 * (y * y) ^ 3 + (61913 / 6000) * t ^ 2 * (y * y) ^ 2 + (194239 / 6000) * t ^ 4 * (y * y) ^ 1 + (2201929 / 90000) * t ^ 6 * (y * y) ^ 0 + (9779 / 18000) * t ^ 1 * (y * y) ^ 3 + (8037 / 2000) * t ^ 3 * (y * y) ^ 2 + (224999 / 30000) * t ^ 5 * (y * y) ^ 1 + (362227 / 90000) * t ^ 7 * (y * y) ^ 0 + (19 / 1500) * t ^ 0 * (y * y) ^ 4 + (121 / 450) * t ^ 2 * (y * y) ^ 3 + (74 / 75) * t ^ 4 * (y * y) ^ 2 + (913 / 750) * t ^ 6 * (y * y) ^ 1 + (2191 / 4500) * t ^ 8 * (y * y) ^ 0 + (359 / 36000) * t ^ 1 * (y * y) ^ 4 + (13 / 180) * t ^ 3 * (y * y) ^ 3 + (941 / 6000) * t ^ 5 * (y * y) ^ 2 + (154 / 1125) * t ^ 7 * (y * y) ^ 1 + (1523 / 36000) * t ^ 9 * (y * y) ^ 0 + (1 / 5625) * t ^ 0 * (y * y) ^ 5 + (29 / 9000) * t ^ 2 * (y * y) ^ 4 + (1 / 90) * t ^ 4 * (y * y) ^ 3 + (71 / 4500) * t ^ 6 * (y * y) ^ 2 + (23 / 2250) * t ^ 8 * (y * y) ^ 1 + (113 / 45000) * t ^ 10 * (y * y) ^ 0 + (11 / 120000) * t ^ 1 * (y * y) ^ 5 + (11 / 24000) * t ^ 3 * (y * y) ^ 4 + (11 / 12000) * t ^ 5 * (y * y) ^ 3 + (11 / 12000) * t ^ 7 * (y * y) ^ 2 + (11 / 24000) * t ^ 9 * (y * y) ^ 1 + (11 / 120000) * t ^ 11 * (y * y) ^ 0 + (1 / 640000) * t ^ 0 * (y * y) ^ 6 + (3 / 320000) * t ^ 2 * (y * y) ^ 5 + (3 / 128000) * t ^ 4 * (y * y) ^ 4 + (1 / 32000) * t ^ 6 * (y * y) ^ 3 + (3 / 128000) * t ^ 8 * (y * y) ^ 2 + (3 / 320000) * t ^ 10 * (y * y) ^ 1 + (1 / 640000) * t ^ 12 * (y * y) ^ 0) by (unfold csq, csum, rk5_g; cbn; field).
  assert (P : 0 < (375144 / 625) + (837358 / 625) * t ^ 1 * (y * y) ^ 0 + (74169 / 625) * t ^ 0 * (y * y) ^ 1 + (858809 / 625) * t ^ 2 * (y * y) ^ 0 + (27963 / 125) * t ^ 1 * (y * y) ^ 1 + (321733 / 375) * t ^ 3 * (y * y) ^ 0 + (1257 / 125) * t ^ 0 * (y * y) ^ 2 + (23796 / 125) * t ^ 2 * (y * y) ^ 1 + (136273 / 375) * t ^ 4 * (y * y) ^ 0 + (3817 / 250) * t ^ 1 * (y * y) ^ 2 + (12071 / 125) * t ^ 3 * (y * y) ^ 1 + (412763 / 3750) * t ^ 5 * (y * y) ^ 0 + (8099 / 18000) * t ^ 0 * (y * y) ^ 3 + (61913 / 6000) * t ^ 2 * (y * y) ^ 2 + (194239 / 6000) * t ^ 4 * (y * y) ^ 1 + (2201929 / 90000) * t ^ 6 * (y * y) ^ 0 + (9779 / 18000) * t ^ 1 * (y * y) ^ 3 + (8037 / 2000) * t ^ 3 * (y * y) ^ 2 + (224999 / 30000) * t ^ 5 * (y * y) ^ 1 + (362227 / 90000) * t ^ 7 * (y * y) ^ 0 + (19 / 1500) * t ^ 0 * (y * y) ^ 4 + (121 / 450) * t ^ 2 * (y * y) ^ 3 + (74 / 75) * t ^ 4 * (y * y) ^ 2 + (913 / 750) * t ^ 6 * (y * y) ^ 1 + (2191 / 4500) * t ^ 8 * (y * y) ^ 0 + (359 / 36000) * t ^ 1 * (y * y) ^ 4 + (13 / 180) * t ^ 3 * (y * y) ^ 3 + (941 / 6000) * t ^ 5 * (y * y) ^ 2 + (154 / 1125) * t ^ 7 * (y * y) ^ 1 + (1523 / 36000) * t ^ 9 * (y * y) ^ 0 + (1 / 5625) * t ^ 0 * (y * y) ^ 5 + (29 / 9000) * t ^ 2 * (y * y) ^ 4 + (1 / 90) * t ^ 4 * (y * y) ^ 3 + (71 / 4500) * t ^ 6 * (y * y) ^ 2 + (23 / 2250) * t ^ 8 * (y * y) ^ 1 + (113 / 45000) * t ^ 10 * (y * y) ^ 0 + (11 / 120000) * t ^ 1 * (y * y) ^ 5 + (11 / 24000) * t ^ 3 * (y * y) ^ 4 + (11 / 12000) * t ^ 5 * (y * y) ^ 3 + (11 / 12000) * t ^ 7 * (y * y) ^ 2 + (11 / 24000) * t ^ 9 * (y * y) ^ 1 + (11 / 120000) * t ^ 11 * (y * y) ^ 0 + (1 / 640000) * t ^ 0 * (y * y) ^ 6 + (3 / 320000) * t ^ 2 * (y * y) ^ 5 + (3 / 128000) * t ^ 4 * (y * y) ^ 4 + (1 / 32000) * t ^ 6 * (y * y) ^ 3 + (3 / 128000) * t ^ 8 * (y * y) ^ 2 + (3 / 320000) * t ^ 10 * (y * y) ^ 1 + (1 / 640000) * t ^ 12 * (y * y) ^ 0) by positive. lra.
Qed.

(** far up or down: around -1 the leading term wins outside the circle of radius 6 *)
Definition rk3_b (k : nat) : R := nth k [1 / 3; 1 / 2; 0; 1 / 6] 0.
Definition rk4_b (k : nat) : R := nth k [3 / 8; 1 / 3; 1 / 4; 0; 1 / 24] 0.
Definition rk5_b (k : nat) : R := nth k [883 / 2400; 147 / 400; 89 / 480; 7 / 120; 3 / 160; 1 / 1200; 1 / 800] 0.
Lemma rk3_centre x y : csum 4 rk3_g (x, y) = csum 4 rk3_b (x + 1, y).
Proof. unfold csum, rk3_g, rk3_b. cbn. f_equal; field. Qed.
Lemma rk4_centre x y : csum 5 rk4_g (x, y) = csum 5 rk4_b (x + 1, y).
Proof. unfold csum, rk4_g, rk4_b. cbn. f_equal; field. Qed.
Lemma rk5_centre x y : csum 7 rk5_g (x, y) = csum 7 rk5_b (x + 1, y).
Proof. unfold csum, rk5_g, rk5_b. cbn. f_equal; field. Qed.
Lemma far_radius x y : 36 <= y * y -> exists t, 0 <= t /\ cmod (x + 1, y) = 6 + t.
Proof.
  intro H. exists (cmod (x + 1, y) - 6). split; [|ring]. assert (6 <= cmod (x + 1, y)); [|lra]. apply cmod_ge; [lra|]. unfold csq. cbn [fst snd]. pose proof (Rle_0_sqr (x + 1)) as Q. unfold Rsqr in Q. lra.
Qed.
Ltac abs_pos := repeat match goal with |- context [Rabs ?x] => rewrite (Rabs_pos_eq x) by lra end.
Ltac powers t Ht := pose proof (pow_le t 2 Ht); pose proof (pow_le t 3 Ht); pose proof (pow_le t 4 Ht); pose proof (pow_le t 5 Ht); pose proof (pow_le t 6 Ht); lra.
Lemma rk3_far x y : 36 <= y * y -> 1 < csq (csum 4 rk3_g (x, y)).
Proof.
  intro H. destruct (far_radius x y H) as [t [Ht E]]. rewrite rk3_centre. apply cmod_gt_1. eapply Rlt_le_trans; [|apply cmod_lead]. rewrite E.
  unfold rk3_b. cbn. abs_pos. powers t Ht.
Qed.
Lemma rk4_far x y : 36 <= y * y -> 1 < csq (csum 5 rk4_g (x, y)).
Proof.
  intro H. destruct (far_radius x y H) as [t [Ht E]]. rewrite rk4_centre. apply cmod_gt_1. eapply Rlt_le_trans; [|apply cmod_lead]. rewrite E.
  unfold rk4_b. cbn. abs_pos. powers t Ht.
Qed.
Lemma rk5_far x y : 36 <= y * y -> 1 < csq (csum 7 rk5_g (x, y)).
Proof.
  intro H. destruct (far_radius x y H) as [t [Ht E]]. rewrite rk5_centre. apply cmod_gt_1. eapply Rlt_le_trans; [|apply cmod_lead]. rewrite E.
  unfold rk5_b. cbn. abs_pos. powers t Ht.
Qed.
Lemma window n g : (forall t y, 0 <= t -> 1 < csq (csum n g (3 + t, y))) -> (forall t y, 0 <= t -> 1 < csq (csum n g (-6 - t, y))) ->
  (forall x y, 36 <= y * y -> 1 < csq (csum n g (x, y))) -> forall z, csq (csum n g z) <= 1 -> rectangle z.
Proof.
  intros HR HL HF [x y] H. unfold rectangle. cbn [fst snd]. repeat split.
  - apply Rnot_lt_le. intro L. specialize (HL (-6 - x) y ltac:(lra)). replace (-6 - (-6 - x)) with x in HL by ring. lra.
  - apply Rnot_lt_le. intro L. specialize (HR (x - 3) y ltac:(lra)). replace (3 + (x - 3)) with x in HR by ring. lra.
  - apply Rnot_lt_le. intro L. specialize (HF x y ltac:(nra)). lra.
  - apply Rnot_lt_le. intro L. specialize (HF x y ltac:(nra)). lra.
Qed.

(** ** the imaginary axis *)
Lemma rk3_axis y : csq (csum 4 rk3_g (0, y)) = 1 + y ^ 4 * (y * y - 3) / 36.
Proof. unfold csq, csum, rk3_g. cbn. field. Qed.
Lemma rk4_axis y : csq (csum 5 rk4_g (0, y)) = 1 + y ^ 6 * (y * y - 8) / 576.
Proof. unfold csq, csum, rk4_g. cbn. field. Qed.
Lemma rk5_axis y : csq (csum 7 rk5_g (0, y)) = 1 + y ^ 6 * (1 / 3600 + (y * y) * (1 / 4800 - (y * y) / 28800 + (y * y) * (y * y) / 640000)).
Proof. unfold csq, csum, rk5_g. cbn. field. Qed.
Lemma rk6_axis y : csq (csum 8 rk6_g (0, y)) = 1 + y ^ 8 * (23 / 20160 - (y * y) / 5600 + 31 / 3628800 * (y * y) * (y * y) + (y * y) * ((y * y) * (y * y)) / 6350400).
Proof. unfold csq, csum, rk6_g. cbn. field. Qed.
Lemma pow_even_pos y n : y <> 0 -> 0 < y ^ (2 * n).
Proof. intro H. rewrite pow_mult. apply pow_lt. replace (y ^ 2) with (Rsqr y) by (unfold Rsqr; ring). apply Rsqr_pos_lt. exact H. Qed.
Lemma rk3_imaginary y : csq (csum 4 rk3_g (0, y)) <= 1 <-> y * y <= 3.
Proof.
  rewrite rk3_axis. destruct (Req_dec y 0) as [->|H]; [split; intro; lra|]. pose proof (pow_even_pos y 2 H) as P. cbn [Nat.mul Nat.add] in P. split; intro; nra.
Qed.
Lemma rk4_imaginary y : csq (csum 5 rk4_g (0, y)) <= 1 <-> y * y <= 8.
Proof.
  rewrite rk4_axis. destruct (Req_dec y 0) as [->|H]; [split; intro; lra|]. pose proof (pow_even_pos y 3 H) as P. cbn [Nat.mul Nat.add] in P. split; intro; nra.
Qed.
Lemma rk5_imaginary y : csq (csum 7 rk5_g (0, y)) <= 1 <-> y = 0.
Proof.
  rewrite rk5_axis. split; [|intros ->; lra]. intro L. destruct (Req_dec y 0) as [E|H]; [exact E|]. exfalso.
  pose proof (pow_even_pos y 3 H) as P. cbn [Nat.mul Nat.add] in P. assert (Y : 0 <= y * y) by nra. set (v := y * y) in *.
  assert (0 < 1 / 4800 - v / 28800 + v * v / 640000) by (pose proof (Rle_0_sqr (v - 100 / 9)); unfold Rsqr in *; nra).
  assert (0 < 1 / 3600 + v * (1 / 4800 - v / 28800 + v * v / 640000)) by nra. nra.
Qed.
Lemma rk6_imaginary y : csq (csum 8 rk6_g (0, y)) <= 1 <-> y = 0.
Proof.
  rewrite rk6_axis. split; [|intros ->; lra]. intro L. destruct (Req_dec y 0) as [E|H]; [exact E|]. exfalso.
  pose proof (pow_even_pos y 4 H) as P. cbn [Nat.mul Nat.add] in P. assert (Y : 0 <= y * y) by nra. set (v := y * y) in *.
  assert (0 < 23 / 20160 - v / 5600 + 31 / 3628800 * v * v) by (pose proof (Rle_0_sqr (v - 324 / 31)); unfold Rsqr in *; nra).
  assert (0 <= v * (v * v) / 6350400) by (assert (0 <= v * (v * v)) by (apply Rmult_le_pos; nra); lra). nra.
Qed.

(** ** the other tables: zeros far away *)
Section Eval.
  Context {CC : Type} (O : ops CC) (rel : CC -> R -> Prop) (SO : sound O rel).
  Variables (tb : rk_table) (ST : sound_table tb).
  (** sum of (weights . B^j 1) x^(j+1), starting from v = B^k 1 and p = x^(k+1) *)
  Fixpoint tail_at (rows : list (list CC)) (wts : list CC) (x : CC) (n : nat) (v : list CC) (p : CC) : CC :=
    match n with 0%nat => o_zero O | S n' => o_add O (o_mul O (dot O wts v) p) (tail_at rows wts x n' (hang O rows v) (o_mul O p x)) end.
  Definition sigma_at (x : CC) : CC :=
    let rows := o_rows O tb in let wts := o_weights O tb in o_add O (o_one O) (tail_at rows wts x (stages tb) (repeat (o_one O) (stages tb)) x).
  Lemma tail_rel x X : rel x X -> forall n k v p P, vrel O rel (stages tb) v (stage_sum tb k) -> rel p P -> P = X ^ (S k) ->
    rel (tail_at (o_rows O tb) (o_weights O tb) x n v p) (Rsum n (fun j => growth tb (S (k + j)) * X ^ (S (k + j)))).
  Proof.
    intro Hx. induction n as [|n IH]; intros k v p P Hv Hp EP; [apply (so_zero _ _ SO)|]. cbn [tail_at]. rewrite Rsum_S_l. rewrite Nat.add_0_r. apply (so_add _ _ SO).
    - apply (so_mul _ _ SO); [|subst P; exact Hp]. cbn [growth]. apply (dot_rel O rel SO (stages tb) _ (stages tb)); [lia|apply (weights_rel O rel SO)|exact Hv].
    - rewrite (Rsum_ext n _ (fun j => growth tb (S (S k + j)) * X ^ (S (S k + j)))) by (intros; rewrite <- plus_n_Sm; reflexivity).
      apply (IH (S k) (hang O (o_rows O tb) v) (o_mul O p x) (P * X)).
      + destruct (hang_rel O rel SO tb ST _ eq_refl v _ Hv) as [L1 L2]. split; [exact L1|]. intros i Hi. specialize (L2 i Hi). rewrite (Rsum_coef tb ST) in L2 by exact Hi. exact L2.
      + apply (so_mul _ _ SO); assumption.
      + subst P. cbn [pow]. ring.
  Qed.
  Lemma sigma_rel x X : rel x X -> rel (sigma_at x) (rsum (S (stages tb)) (growth tb) X).
  Proof.
    intro Hx. unfold sigma_at, rsum. rewrite Rsum_S_l. apply (so_add _ _ SO).
    - replace (growth tb 0 * X ^ 0) with 1 by (cbn; ring). apply (so_one _ _ SO).
    - apply (tail_rel x X Hx (stages tb) 0 _ x X); [|exact Hx|ring]. split; [apply repeat_length|]. intros i Hi.
      rewrite (nth_indep _ (o_zero O) (o_one O)) by (rewrite repeat_length; exact Hi). rewrite nth_repeat. apply (so_one _ _ SO).
  Qed.
End Eval.
(** signs in ball arithmetic *)
Definition ball_pos (a : ball) : bool := (snd a <? fst a)%Z.
Definition ball_neg (a : ball) : bool := (snd a <? - fst a)%Z.
Lemma ball_pos_sound w a x : (0 <= w)%Z -> b_rel w a x -> ball_pos a = true -> 0 < x.
Proof.
  intros Hw H P. apply Z.ltb_lt in P. apply IZR_lt in P. unfold b_rel in H. pose proof (M_R w Hw) as M.
  pose proof (Rle_abs (- (x * IZR (2 ^ w) - IZR (fst a)))) as H'. rewrite Rabs_Ropp in H'. apply Rnot_le_lt. intro L. nra.
Qed.
Lemma ball_neg_sound w a x : (0 <= w)%Z -> b_rel w a x -> ball_neg a = true -> x < 0.
Proof.
  intros Hw H P. apply Z.ltb_lt in P. apply IZR_lt in P. rewrite opp_IZR in P. unfold b_rel in H. pose proof (M_R w Hw) as M.
  pose proof (Rle_abs (x * IZR (2 ^ w) - IZR (fst a))) as H'. apply Rnot_le_lt. intro L. nra.
Qed.
Lemma sigma_continuous n g : continuity (rsum n g).
Proof.
  induction n as [|n IH]; [apply continuity_const; intros x y; reflexivity|].
  apply (continuity_plus (rsum n g) (fun x => g n * x ^ n)); [exact IH|]. apply (continuity_scal (fun x => x ^ n) (g n)). apply derivable_continuous, derivable_pow.
Qed.
Definition at_int (w : Z) (tb : rk_table) (z : Z) : ball := sigma_at (b_ops w) tb (o_ent (b_ops w) (cq z 1)).
Lemma at_int_rel w tb z : (0 <= w)%Z -> In tb all_tables -> b_rel w (at_int w tb z) (rsum (S (stages tb)) (growth tb) (IZR z)).
Proof.
  intros Hw Ht. apply (sigma_rel _ _ (b_sound w Hw) tb (table_sound tb Ht)). replace (IZR z) with (cval (cq z 1)); [apply (so_ent _ _ (b_sound w Hw))|].
  unfold cval, cq, c5. cbn. field.
Qed.
(** a sign change between two integers *)
Lemma zero_between w tb a b : (0 <= w)%Z -> In tb all_tables -> (a < b)%Z ->
  ((ball_neg (at_int w tb a) && ball_pos (at_int w tb b)) || (ball_pos (at_int w tb a) && ball_neg (at_int w tb b)))%bool = true ->
  exists x, IZR a <= x <= IZR b /\ rsum (S (stages tb)) (growth tb) x = 0.
Proof.
  intros Hw Ht Hab H. pose proof (at_int_rel w tb a Hw Ht) as Ra. pose proof (at_int_rel w tb b Hw Ht) as Rb. apply IZR_lt in Hab.
  set (f := rsum (S (stages tb)) (growth tb)) in *. assert (Cf : continuity f) by apply sigma_continuous. apply orb_prop in H.
  destruct H as [H|H]; apply andb_prop in H; destruct H as [H1 H2].
  - apply (ball_neg_sound w _ _ Hw Ra) in H1. apply (ball_pos_sound w _ _ Hw Rb) in H2.
    destruct (IVT f (IZR a) (IZR b) Cf Hab H1 H2) as [x [Hx E]]. exists x. split; assumption.
  - apply (ball_pos_sound w _ _ Hw Ra) in H1. apply (ball_neg_sound w _ _ Hw Rb) in H2.
    destruct (IVT (- f)%F (IZR a) (IZR b) (continuity_opp f Cf) Hab) as [x [Hx E]]; [unfold opp_fct; lra|unfold opp_fct; lra|]. exists x. split; [exact Hx|]. unfold opp_fct in E. lra.
Qed.
Lemma rk6_zero : exists x, 8 <= x <= 9 /\ rsum (S (stages rk6_table)) (growth rk6_table) x = 0.
Proof. apply (zero_between 60 rk6_table 8 9); [lia|known|lia|vm_cast_no_check (eq_refl true)]. Qed.
Lemma rk8_zero : exists x, 100 <= x <= 200 /\ rsum (S (stages rk8_table)) (growth rk8_table) x = 0.
Proof. apply (zero_between 150 rk8_table 100 200); [lia|known|lia|vm_cast_no_check (eq_refl true)]. Qed.
Lemma rk10_zero : exists x, 5 <= x <= 6 /\ rsum (S (stages rk10_table)) (growth rk10_table) x = 0.
Proof. apply (zero_between 120 rk10_table 5 6); [lia|known|lia|vm_cast_no_check (eq_refl true)]. Qed.
Lemma rk12_zero : exists x, 5 <= x <= 6 /\ rsum (S (stages rk12_table)) (growth rk12_table) x = 0.
Proof. apply (zero_between 150 rk12_table 5 6); [lia|known|lia|vm_cast_no_check (eq_refl true)]. Qed.
Lemma rk14_zero : exists x, Ropp 9 <= x <= Ropp 8 /\ rsum (S (stages rk14_table)) (growth rk14_table) x = 0.
Proof. apply (zero_between 220 rk14_table (-9) (-8)); [lia|known|lia|vm_cast_no_check (eq_refl true)]. Qed.

(** ** the script *)
Lemma factor_eq det method z : det_ok det -> factor det method z = cmod (csum (S (stages (rk_choice method))) (growth (rk_choice method)) z).
Proof. intro HD. unfold factor, stability_sigma. rewrite (rk_determinant det method z HD). reflexivity. Qed.
Lemma factor_le_1 det method z : det_ok det -> factor det method z <= 1 <-> csq (csum (S (stages (rk_choice method))) (growth (rk_choice method)) z) <= 1.
Proof.
  intro HD. rewrite factor_eq by exact HD. split; intro H.
  - apply Rnot_lt_le. intro L. apply Rle_not_lt in H. apply H. unfold cmod. rewrite <- sqrt_1. apply sqrt_lt_1_alt. lra.
  - unfold cmod. rewrite <- sqrt_1. apply sqrt_le_1_alt. exact H.
Qed.
Lemma factor_conj det method z : det_ok det -> factor det method (cconj z) = factor det method z.
Proof. intro HD. rewrite !factor_eq by exact HD. rewrite csum_conj. unfold cmod, csq, cconj. cbn [fst snd]. f_equal. ring. Qed.
Lemma in_linspace a b n x : (2 <= n)%nat -> a <= b -> In x (linspace a b n) -> a <= x <= b.
Proof.
  intros Hn Hab H. apply In_nth with (d := 0) in H. destruct H as [i [Hi <-]]. rewrite length_linspace in Hi.
  change (nth i (linspace a b n) 0) with (at1 (A := R) (linspace a b n) i). rewrite linspace_R by assumption.
  assert (P : 0 < INR (n - 1)) by (apply lt_0_INR; lia). assert (Q : 0 <= INR i <= INR (n - 1)) by (split; [apply pos_INR|apply le_INR; lia]).
  assert (E : INR i * ((b - a) / INR (n - 1)) = (b - a) * (INR i / INR (n - 1))) by (field; lra). rewrite E.
  assert (F : 0 <= INR i / INR (n - 1) <= 1); [|nra]. split.
  - apply Rmult_le_pos; [lra|]. apply Rlt_le, Rinv_0_lt_compat, P.
  - apply Rmult_le_reg_r with (1 := P). unfold Rdiv. rewrite Rmult_assoc, Rinv_l by lra. lra.
Qed.
Lemma in_linspace_iff a b n x : (2 <= n)%nat -> In x (linspace a b n) <-> exists i, (i < n)%nat /\ x = a + INR i * ((b - a) / INR (n - 1)).
Proof.
  intro Hn. split.
  - intro H. apply In_nth with (d := 0) in H. destruct H as [i [Hi <-]]. rewrite length_linspace in Hi. exists i. split; [exact Hi|].
    change (nth i (linspace a b n) 0) with (at1 (A := R) (linspace a b n) i). apply linspace_R; assumption.
  - intros [i [Hi ->]]. rewrite <- linspace_R by assumption. unfold at1. apply nth_In. rewrite length_linspace. exact Hi.
Qed.
Lemma length_rows (X Y W : Type) (f : X -> Y -> W) (l : list X) (m : list Y) : List.length (flat_map (fun x => map (f x) m) l) = (List.length l * List.length m)%nat.
Proof. induction l as [|x l IH]; [reflexivity|]. cbn [flat_map List.length]. rewrite app_length, map_length, IH. reflexivity. Qed.
Lemma in_mesh det co B zr zi s : In (zr, zi, s) (rk_mesh det co B) <-> s = stability_sigma det co B (zr, zi) /\ grid (zr, zi).
Proof.
  unfold rk_mesh, grid. rewrite in_flat_map. cbn [fst snd]. unfold rk_zis, rk_zrs. split.
  - intros [zi' [Hi Hq]]. apply in_map_iff in Hq. destruct Hq as [zr' [E Hr]]. injection E as -> -> <-. split; [reflexivity|].
    apply in_linspace_iff in Hi; [|lia]. apply in_linspace_iff in Hr; [|lia]. destruct Hi as [j [Hj ->]], Hr as [i [Hi ->]]. exists i, j. repeat split; [exact Hi|exact Hj| |];
      numR; change (200 - 1)%nat with 199%nat; replace (INR 199) with 199 by (rewrite INR_IZR_INZ; reflexivity); field.
  - intros [-> [i [j [Hi [Hj [Er Ei]]]]]]. exists zi. split.
    + apply in_linspace_iff; [lia|]. exists j. split; [exact Hj|]. rewrite Ei. numR. change (200 - 1)%nat with 199%nat. replace (INR 199) with 199 by (rewrite INR_IZR_INZ; reflexivity). field.
    + apply in_map_iff. exists zr. split; [reflexivity|]. apply in_linspace_iff; [lia|]. exists i. split; [exact Hi|]. rewrite Er. numR.
      change (200 - 1)%nat with 199%nat. replace (INR 199) with 199 by (rewrite INR_IZR_INZ; reflexivity). field.
Qed.
Lemma grid_rectangle z : grid z -> rectangle z /\ 0 <= snd z.
Proof.
  intros [i [j [Hi [Hj [Er Ei]]]]]. assert (I : 0 <= INR i <= 199) by (split; [apply pos_INR|]; replace 199 with (INR 199) by (rewrite INR_IZR_INZ; reflexivity); apply le_INR; lia).
  assert (J : 0 <= INR j <= 199) by (split; [apply pos_INR|]; replace 199 with (INR 199) by (rewrite INR_IZR_INZ; reflexivity); apply le_INR; lia).
  unfold rectangle. rewrite Er, Ei. lra.
Qed.
Lemma drawn det method : det_ok det -> let (up, down) := rk_contours det method in
  List.length up = (200 * 200)%nat /\ List.length down = (200 * 200)%nat /\
  forall z s, (In (z, s) up <-> s = factor det method z /\ grid z) /\ (In (z, s) down <-> s = factor det method z /\ grid (fst z, - snd z)).
Proof.
  intro HD. unfold rk_contours. destruct (get_formatted_rk_coeffs method) as [co B] eqn:E.
  assert (L : List.length (rk_mesh det co B) = (200 * 200)%nat).
  { unfold rk_mesh. rewrite (length_rows R R (R * R * R)). unfold rk_zis, rk_zrs. rewrite !length_linspace. reflexivity. }
  assert (F : forall z, factor det method z = stability_sigma det co B z) by (intro z; unfold factor; rewrite E; reflexivity).
  split; [exact L|]. split; [rewrite map_length; exact L|]. intros [zr zi] s. cbn [fst snd]. split; [rewrite F; apply in_mesh|].
  rewrite in_map_iff. rewrite <- (factor_conj det method (zr, zi) HD). unfold cconj. cbn [fst snd]. rewrite F. split.
  - intros [[[zr' zi'] s'] [E' H]]. cbn [fst snd] in E'. injection E' as -> <- ->. apply in_mesh in H. destruct H as [-> G]. numR. rewrite Ropp_involutive. split; [reflexivity|exact G].
  - intros [-> G]. exists (zr, - zi, stability_sigma det co B (zr, - zi)). cbn [fst snd]. numR. rewrite Ropp_involutive. split; [reflexivity|]. apply in_mesh. split; [reflexivity|exact G].
Qed.
Lemma all_drawn rk : exists m, In m rk_methods /\ rk_choice m = rk_choice rk.
Proof.
  unfold rk_choice at 2. repeat (match goal with |- context [if String.eqb rk ?b then _ else _] => destruct (String.eqb rk b); [exists b; split; [cbn; tauto|reflexivity]|] end).
  exists "rk4"%string. split; [cbn; tauto|reflexivity].
Qed.
Lemma whole_region det method z : det_ok det -> ~ In method ["rk6"; "rk8"; "rk10"; "rk12"; "rk14"]%string -> factor det method z <= 1 -> rectangle z.
Proof.
  intros HD HM H. apply (factor_le_1 det method z HD) in H. revert H. unfold rk_choice.
  destruct (String.eqb_spec method "rk3") as [->|_].
  { change (S (stages rk3_table)) with 4%nat. rewrite (csum_ext 4 _ rk3_g) by exact rk3_growths. apply (window 4 rk3_g rk3_right rk3_left rk3_far). }
  assert (K4 : csq (csum (S (stages rk4_table)) (growth rk4_table) z) <= 1 -> rectangle z).
  { change (S (stages rk4_table)) with 5%nat. rewrite (csum_ext 5 _ rk4_g) by exact rk4_growths. apply (window 5 rk4_g rk4_right rk4_left rk4_far). }
  destruct (String.eqb_spec method "rk4") as [->|_]; [exact K4|].
  destruct (String.eqb_spec method "rk5") as [->|_].
  { change (S (stages rk5_table)) with 7%nat. rewrite (csum_ext 7 _ rk5_g) by exact rk5_growths. apply (window 7 rk5_g rk5_right rk5_left rk5_far). }
  repeat (match goal with |- context [String.eqb method ?b] => destruct (String.eqb_spec method b) as [->|_] end; [exfalso; apply HM; cbn; tauto|]). exact K4.
Qed.
Lemma island det method tb a b : det_ok det -> rk_choice method = tb -> (exists x, a <= x <= b /\ rsum (S (stages tb)) (growth tb) x = 0) ->
  (3 < a \/ b < -6) -> exists z, factor det method z = 0 /\ ~ rectangle z.
Proof.
  intros HD E [x [Hx Z]] Hab. exists (Cr x). rewrite factor_eq, E, csum_real, Z, cmod_Cr, Rabs_R0 by exact HD. split; [reflexivity|].
  unfold rectangle, Cr. cbn [fst snd]. lra.
Qed.
Lemma islands det method : det_ok det -> In method ["rk6"; "rk8"; "rk10"; "rk12"; "rk14"]%string -> exists z, factor det method z = 0 /\ ~ rectangle z.
Proof.
  intros HD [<-|[<-|[<-|[<-|[<-|[]]]]]].
  - apply (island det "rk6" rk6_table 8 9 HD eq_refl rk6_zero). lra.
  - apply (island det "rk8" rk8_table 100 200 HD eq_refl rk8_zero). lra.
  - apply (island det "rk10" rk10_table 5 6 HD eq_refl rk10_zero). lra.
  - apply (island det "rk12" rk12_table 5 6 HD eq_refl rk12_zero). lra.
  - apply (island det "rk14" rk14_table (Ropp 9) (Ropp 8) HD eq_refl rk14_zero). lra.
Qed.
Lemma undamped det y : det_ok det ->
  (factor det "rk3" (0, y) <= 1 <-> y * y <= 3) /\ (factor det "rk4" (0, y) <= 1 <-> y * y <= 8) /\
  (factor det "rk5" (0, y) <= 1 <-> y = 0) /\ (factor det "rk6" (0, y) <= 1 <-> y = 0).
Proof.
  intro HD. rewrite !factor_le_1 by exact HD.
  change (rk_choice "rk3") with rk3_table. change (rk_choice "rk4") with rk4_table. change (rk_choice "rk5") with rk5_table. change (rk_choice "rk6") with rk6_table.
  change (S (stages rk3_table)) with 4%nat. change (S (stages rk4_table)) with 5%nat. change (S (stages rk5_table)) with 7%nat. change (S (stages rk6_table)) with 8%nat.
  rewrite (csum_ext 4 _ rk3_g) by exact rk3_growths. rewrite (csum_ext 5 _ rk4_g) by exact rk4_growths. rewrite (csum_ext 7 _ rk5_g) by exact rk5_growths. rewrite (csum_ext 8 _ rk6_g) by exact rk6_growths.
  split; [apply rk3_imaginary|]. split; [apply rk4_imaginary|]. split; [apply rk5_imaginary|apply rk6_imaginary].
Qed.
Lemma inside det : det_ok det -> factor det "rk4" (Ropp 1, 0) <= 1.
Proof.
  intro HD. apply factor_le_1; [exact HD|]. change (rk_choice "rk4") with rk4_table. change (S (stages rk4_table)) with 5%nat. rewrite (csum_ext 5 _ rk4_g) by exact rk4_growths.
  unfold csq, csum, rk4_g. cbn. lra.
Qed.
Lemma inside_both z : grid z -> rectangle z /\ rectangle (fst z, - snd z).
Proof. intro G. destruct (grid_rectangle z G) as [H _]. split; [exact H|]. unfold rectangle in *. cbn [fst snd]. lra. Qed.
