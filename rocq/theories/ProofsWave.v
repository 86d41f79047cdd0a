(** Pointwise distance between the stages of a step and the travelling profile. *)
From Coq Require Import List Bool Arith Lia Reals Lra Psatz.
From Verif Require Import Num RealLib SpecPoly SpecConverge SpecOrder ProofsPoly ProofsLeg ProofsGauss ProofsBasis ProofsMonotone ProofsL2 ProofsL2Run ProofsRadau ProofsOrder.
Import ListNotations.
Open Scope R_scope.

Lemma Rsum_member n (f : nat -> R) : (forall i, (i < n)%nat -> 0 <= f i) -> forall i, (i < n)%nat -> f i <= Rsum n f.
Proof.
  induction n as [|n IH]; intros H i Hi; [lia|]. cbn [Rsum]. destruct (Nat.eq_dec i n) as [->|Ne].
  - pose proof (Rsum_nonneg n f ltac:(intros; apply H; lia)). lra.
  - pose proof (IH ltac:(intros; apply H; lia) i ltac:(lia)). pose proof (H n ltac:(lia)). lra.
Qed.
Lemma ser_nm N ne (x : nat -> nat -> R) e xi : (1 <= ne)%nat -> (1 <= e <= ne)%nat -> -1 <= xi <= 1 -> Rabs (Rsum N (fun n => x n e * LegP n xi)) <= INR N * nm N ne x.
Proof.
  intros Hne He Hx. pose proof (unit_sum N (fun n => LegP n xi) (fun n => x n e)) as U.
  assert (U1 : forall i, (i < N)%nat -> LegP i xi * LegP i xi <= 1) by (intros i _; pose proof (LegP_bound i xi Hx) as Q; apply Rabs_le_inv in Q; nra).
  specialize (U U1). rewrite (Rsum_ext N (fun n => x n e * LegP n xi) (fun i => LegP i xi * x i e)) by (intros; ring). set (S := Rsum N (fun i => LegP i xi * x i e)) in *.
  assert (C : Rsum N (fun i => x i e * x i e / (2 * INR i + 1)) <= ip N ne x x).
  { unfold ip. replace e with (e - 1 + 1)%nat by lia. apply (Rsum_member ne (fun i => Rsum N (fun n => x n (i + 1)%nat * x n (i + 1)%nat / (2 * INR n + 1)))); [|lia].
    intros i _. apply Rsum_nonneg. intros n _. pose proof (w_pos n). pose proof (Rle_0_sqr (x n (i + 1)%nat)) as Q. unfold Rsqr in Q. apply Rmult_le_pos; [exact Q|apply Rlt_le, Rinv_0_lt_compat; assumption]. }
  assert (P : 0 <= ip N ne x x) by (apply ip_pos). pose proof (pos_INR N) as PN.
  unfold nm. rewrite <- (sqrt_square (INR N)) by exact PN. rewrite <- sqrt_mult_alt by nra. rewrite <- sqrt_Rsqr_abs. apply sqrt_le_1_alt. unfold Rsqr.
  eapply Rle_trans; [exact U|]. apply Rmult_le_compat_l; [nra|exact C].
Qed.
Lemma ser_flat N (x : nat -> R) K xi : -1 <= xi <= 1 -> (forall n, (n < N)%nat -> Rabs (x n) <= K) -> Rabs (Rsum N (fun n => x n * LegP n xi)) <= INR N * K.
Proof.
  intros Hx H. eapply Rle_trans; [apply ProofsMonotone.Rsum_abs|]. rewrite <- Rsum_const. apply Rsum_le. intros n Hn.
  rewrite Rabs_mult. rewrite <- (Rmult_1_r K). apply Rmult_le_compat; try apply Rabs_pos; [apply H; exact Hn|apply LegP_bound; exact Hx].
Qed.

Section Wave.
  Variables (p ne : nat) (h A : R).
  Hypothesis Hh : 0 < h.
  Hypothesis Hne : (1 <= ne)%nat.
  Variable F : nat -> R -> R.
  Variable B : nat -> R.
  Hypothesis HF : forall k x, derivable_pt_lim (F k) x (F (S k) x).
  Hypothesis HB : forall k x, Rabs (F k x) <= B k.
  Hypothesis HP : forall k x, F k (x + INR ne * h) = F k x.
  Notation N := (S p).
  Variable dt : R.
  Hypothesis Hdt : 0 <= dt.
  Hypothesis Hcfl : 2 * (INR N * INR N) * dt <= h.
  Notation lop := (lop N ne h dt).
  Notation nm := (nm N ne).
  Notation wave := (wave p h A F HF).
  Notation lack := (lack p h A F HF).
  Notation cap := (cap p h B).
  Notation K := (1 + INR N * INR N).
  Definition st (c1 c2 : R) (x : nat -> nat -> R) : nat -> nat -> R := fun n e => x n e + (c1 * lop x n e + c2 * lop (lop x) n e).
  Lemma st_nm c1 c2 x : Rabs c1 <= 1 -> Rabs c2 <= 1 -> nm (st c1 c2 x) <= 3 * nm x.
  Proof.
    intros H1 H2. unfold st. pose proof (lop_nm p ne h Hh Hne dt Hdt Hcfl x) as L1. pose proof (lop_nm p ne h Hh Hne dt Hdt Hcfl (lop x)) as L2.
    pose proof (nm_pos N ne (lop x)) as P1. pose proof (nm_pos N ne (lop (lop x))) as P2.
    eapply Rle_trans; [apply nm_add|]. eapply Rle_trans; [apply Rplus_le_compat_l, nm_add|]. rewrite !nm_scale.
    assert (Rabs c1 * nm (lop x) <= 1 * nm x) by (apply Rmult_le_compat; try apply Rabs_pos; assumption).
    assert (Rabs c2 * nm (lop (lop x)) <= 1 * nm x) by (apply Rmult_le_compat; try apply Rabs_pos; try assumption; lra). lra.
  Qed.
  Lemma st_add c1 c2 x y n e : (n < N)%nat -> (1 <= e <= ne)%nat -> st c1 c2 (fun n e => x n e + y n e) n e = st c1 c2 x n e + st c1 c2 y n e.
  Proof.
    intros Hn He. unfold st. assert (E1 : eqi N ne (lop (fun n e => x n e + y n e)) (fun n e => lop x n e + lop y n e)) by (intros i j _ _; apply lop_add).
    rewrite (lop_ext p ne h Hne dt _ _ E1 n e Hn He), !lop_add. ring.
  Qed.
  Lemma st_ext c1 c2 x y n e : (n < N)%nat -> (1 <= e <= ne)%nat -> eqi N ne x y -> st c1 c2 x n e = st c1 c2 y n e.
  Proof.
    intros Hn He E0. pose proof (lop_ext p ne h Hne dt _ _ E0) as E1. pose proof (lop_ext p ne h Hne dt _ _ E1) as E2. unfold st. rewrite (E2 n e Hn He), (E1 n e Hn He), (E0 n e Hn He). reflexivity.
  Qed.
  Lemma wave_bound k t n e : (n < N)%nat -> Rabs (wave k t n e) <= K * B k.
  Proof.
    intro Hn. unfold ProofsOrder.wave. apply (rc_bound p (cellg h A F HF k e t (sg1 k))); [lia|]. intros x _. cbn [cellg cf]. rewrite Rabs_mult, sg1_abs, Rmult_1_l. apply HB.
  Qed.
  Lemma dt_le : dt <= h / 2.
  Proof. assert (PN1 : 1 <= INR N) by (rewrite S_INR; pose proof (pos_INR p); lra). assert (1 <= INR N * INR N) by nra. nra. Qed.
  (** a stage with coefficients c1, c2 of a state within Y of the wave *)
  Theorem stage_close x t c1 c2 Y e xi : Rabs c1 <= 1 -> Rabs c2 <= 1 -> nm (fun n e => x n e + -1 * wave 0 t n e) <= Y -> (1 <= e <= ne)%nat -> -1 <= xi <= 1 ->
    Rabs (Rsum N (fun n => st c1 c2 x n e * LegP n xi) - F 0 (cellx h A e t xi)) <= sag_size p ne (h / 2) B Y.
  Proof.
    intros H1 H2 HY He Hx. set (y := fun n e => x n e + -1 * wave 0 t n e) in *. pose proof dt_le as Hd.
    assert (HK : 0 <= K) by (pose proof (Rle_0_sqr (INR N)) as Q; unfold Rsqr in Q; lra). pose proof (pos_INR N) as PN.
    pose proof (cap_pos p h Hh F B HB 1) as C1. pose proof (cap_pos p h Hh F B HB 2) as C2. pose proof (B_pos F B HB 1) as B1. pose proof (B_pos F B HB 2) as B2.
    assert (E : Rsum N (fun n => st c1 c2 x n e * LegP n xi) = Rsum N (fun n => wave 0 t n e * LegP n xi) +
      (Rsum N (fun n => st c1 c2 y n e * LegP n xi) + (c1 * Rsum N (fun n => lop (wave 0 t) n e * LegP n xi) +
       c2 * (Rsum N (fun n => dt * (dt * wave 2 t n e + dt * lack 2 t n e) * LegP n xi) + dt * Rsum N (fun n => lop (lack 1 t) n e * LegP n xi))))).
    { rewrite <- !Rsum_scale, <- !Rsum_plus, <- !Rsum_scale, <- !Rsum_plus. apply Rsum_ext. intros n Hn.
      rewrite (st_ext c1 c2 x (fun n e => y n e + wave 0 t n e) n e Hn He) by (intros i j _ _; unfold y; ring). rewrite st_add by assumption. unfold st at 2.
      rewrite (lop2_wave p ne h A Hh Hne F HF HP dt 0 t n e Hn He). ring. }
    rewrite E. set (w0 := Rsum N (fun n => wave 0 t n e * LegP n xi)). set (s1 := Rsum N (fun n => st c1 c2 y n e * LegP n xi)).
    set (s2 := Rsum N (fun n => lop (wave 0 t) n e * LegP n xi)). set (s3 := Rsum N (fun n => dt * (dt * wave 2 t n e + dt * lack 2 t n e) * LegP n xi)). set (s4 := Rsum N (fun n => lop (lack 1 t) n e * LegP n xi)).
    assert (Q0 : Rabs (w0 - F 0%nat (cellx h A e t xi)) <= proj_size p (h / 2) B) by exact (wave_close p h A Hh F B HF HB t e xi Hx).
    assert (Q1 : Rabs s1 <= INR N * (3 * Y)).
    { eapply Rle_trans; [apply (ser_nm N ne (st c1 c2 y) e xi Hne He Hx)|]. apply Rmult_le_compat_l; [exact PN|]. eapply Rle_trans; [apply st_nm; assumption|lra]. }
    assert (WL : forall k n, (n < N)%nat -> Rabs (wave k t n e + lack k t n e) <= K * (B k + cap k)).
    { intros k n Hn. eapply Rle_trans; [apply Rabs_triang|]. pose proof (wave_bound k t n e Hn). pose proof (lack_bound p h A Hh F B HF HB k t n e). lra. }
    assert (Q2 : Rabs s2 <= INR N * (h / 2 * (K * (B 1%nat + cap 1)))).
    { apply ser_flat; [exact Hx|]. intros n Hn. rewrite (lop_wave p ne h A Hh Hne F HF HP dt 0 t n e Hn He). replace (dt * wave 1 t n e + dt * lack 1 t n e) with (dt * (wave 1 t n e + lack 1 t n e)) by ring.
      rewrite Rabs_mult, (Rabs_right dt) by lra. apply Rmult_le_compat; [lra|apply Rabs_pos|exact Hd|apply WL; exact Hn]. }
    assert (Q3 : Rabs s3 <= INR N * (h / 2 * (h / 2 * (K * (B 2%nat + cap 2))))).
    { apply ser_flat; [exact Hx|]. intros n Hn. replace (dt * (dt * wave 2 t n e + dt * lack 2 t n e)) with (dt * (dt * (wave 2 t n e + lack 2 t n e))) by ring.
      rewrite !Rabs_mult, !(Rabs_right dt) by lra. apply Rmult_le_compat; [lra|apply Rmult_le_pos; [lra|apply Rabs_pos]|exact Hd|]. apply Rmult_le_compat; [lra|apply Rabs_pos|exact Hd|apply WL; exact Hn]. }
    assert (Q4 : Rabs s4 <= INR N * (sqrt (INR ne * INR N) * (K * cap 1))).
    { eapply Rle_trans; [apply (ser_nm N ne (lop (lack 1 t)) e xi Hne He Hx)|]. apply Rmult_le_compat_l; [exact PN|]. eapply Rle_trans; [apply lop_nm; assumption|].
      apply nm_bound; [exact Hne|apply Rmult_le_pos; assumption|]. intros n e' _ _. apply lack_bound; assumption. }
    assert (R1 : Rabs (c1 * s2) <= INR N * (h / 2 * (K * (B 1%nat + cap 1)))) by (rewrite Rabs_mult; rewrite <- (Rmult_1_l (INR N * _)); apply Rmult_le_compat; try apply Rabs_pos; assumption).
    assert (R4 : Rabs (dt * s4) <= h / 2 * (INR N * (sqrt (INR ne * INR N) * (K * cap 1)))) by (rewrite Rabs_mult, (Rabs_right dt) by lra; apply Rmult_le_compat; try apply Rabs_pos; assumption).
    assert (R2 : Rabs (c2 * (s3 + dt * s4)) <= INR N * (h / 2 * (h / 2 * (K * (B 2%nat + cap 2)))) + h / 2 * (INR N * (sqrt (INR ne * INR N) * (K * cap 1)))).
    { rewrite Rabs_mult. rewrite <- (Rmult_1_l (_ + h / 2 * _)). apply Rmult_le_compat; try apply Rabs_pos; [assumption|]. eapply Rle_trans; [apply Rabs_triang|lra]. }
    clearbody w0 s1 s2 s3 s4. clear E Q2 Q3 Q4 R4.
    replace (w0 + (s1 + (c1 * s2 + c2 * (s3 + dt * s4))) - F 0%nat (cellx h A e t xi)) with (w0 - F 0%nat (cellx h A e t xi) + (s1 + (c1 * s2 + c2 * (s3 + dt * s4)))) by ring.
    eapply Rle_trans; [apply Rabs_triang|]. unfold sag_size. apply Rplus_le_compat; [exact Q0|]. eapply Rle_trans; [apply Rabs_triang|]. eapply Rle_trans; [apply Rplus_le_compat_l, Rabs_triang|].
    change (taylor_size p (h / 2) B 1) with (cap 1). change (taylor_size p (h / 2) B 2) with (cap 2). lra.
  Qed.
End Wave.
