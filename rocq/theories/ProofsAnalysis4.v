(** Upwind discontinuous Galerkin advection: every eigenvalue of the Fourier matrix has real part at most 0. *)
From Coq Require Import ZArith List Bool Arith String Lia Reals Lra Ring.
From Verif Require Import Num Py Lib RealLib LegNumpy Ext Basis SpecDG SpecPoly SpecRK Analysis SpecAnalysis
  ProofsPoly ProofsLeg ProofsGauss ProofsDG ProofsBasis ProofsAnalysis ProofsAnalysis2.
Import ListNotations.
Open Scope R_scope.

Lemma Fnm_parts n m : Fnm n m + Fnm m n = 1 - sg n * sg m.
Proof.
  assert (E : forall n m, nint (fun x => dLegP n x * LegP m x) (-1) 1 (Fnm n m)).
  { intros i j. apply (nint_ext (fun x => legseries (legder (leg_basis i)) x * legseries (leg_basis j) x)); [|apply product_nint].
    intro x. rewrite legseries_basis. f_equal. apply (uniqueness_limite (LegP i) x); [|apply LegP_deriv].
    apply (dlim_ext (legseries (leg_basis i))); [intro; apply legseries_basis|]. rewrite legder_ok. apply legseries_deriv. }
  pose proof (nint_plus _ _ _ _ _ _ (E n m) (E m n)) as H.
  assert (Q : nint (fun x => dLegP n x * LegP m x + dLegP m x * LegP n x) (-1) 1 (LegP n 1 * LegP m 1 - LegP n (-1) * LegP m (-1))).
  { apply (nint_ext (fun x => dLegP n x * LegP m x + LegP n x * dLegP m x)); [intro; ring|].
    apply (nint_deriv (fun x => LegP n x * LegP m x)). intro x. apply (dlim_mult (LegP n) (LegP m)); apply LegP_deriv. }
  rewrite (nint_unique _ _ _ _ _ H Q), !LegP_at1. unfold sg. ring.
Qed.
Lemma Rsum_quad n (a : nat -> R) : Rsum n (fun i => a i * Rsum n (fun j => Fnm i j * a j)) = (Rsum n a * Rsum n a - Rsum n (fun i => sg i * a i) * Rsum n (fun i => sg i * a i)) / 2.
Proof.
  set (Q := Rsum n (fun i => a i * Rsum n (fun j => Fnm i j * a j))).
  assert (Q1 : Q = Rsum n (fun i => Rsum n (fun j => Fnm i j * (a i * a j)))) by (apply Rsum_ext; intros; rewrite <- Rsum_scale; apply Rsum_ext; intros; ring).
  assert (Q2 : Q = Rsum n (fun i => Rsum n (fun j => Fnm j i * (a i * a j)))) by (rewrite Q1, Rsum_swap; apply Rsum_ext; intros; apply Rsum_ext; intros; ring).
  assert (Q3 : Q + Q = Rsum n (fun i => a i * Rsum n a) - Rsum n (fun i => sg i * a i * Rsum n (fun j => sg j * a j))).
  { rewrite Q1 at 1. rewrite Q2. rewrite <- Rsum_plus, <- Rsum_minus. apply Rsum_ext. intros i _. rewrite <- Rsum_plus.
    rewrite <- (Rsum_scale n (a i)), <- (Rsum_scale n (sg i * a i)), <- Rsum_minus. apply Rsum_ext. intros j _. rewrite <- Rmult_plus_distr_r, Fnm_parts. ring. }
  assert (S1 : forall c f, Rsum n (fun i => f i * c) = Rsum n f * c) by (intros c f; rewrite Rmult_comm, <- Rsum_scale; apply Rsum_ext; intros; ring).
  rewrite (S1 (Rsum n a) a), (S1 (Rsum n (fun j => sg j * a j)) (fun i => sg i * a i)) in Q3. lra.
Qed.
Lemma Rsum_pos_one n f k : (k < n)%nat -> (forall i, (i < n)%nat -> 0 <= f i) -> 0 < f k -> 0 < Rsum n f.
Proof.
  intros Hk H Hp. destruct (Rsum_nonneg n f H) as [P|E]; [exact P|]. exfalso. pose proof (Rsum_nonneg_0 n f H (eq_sym E) k Hk). lra.
Qed.
Section Half.
  Context {X : Ext R}.
  Lemma fst_Csum n f : fst (Csum n f) = Rsum n (fun i => fst (f i)).
  Proof. induction n as [|n IH]; [reflexivity|]. rewrite Csum_S. cbn [Rsum]. rewrite <- IH. reflexivity. Qed.
  Lemma snd_Csum n f : snd (Csum n f) = Rsum n (fun i => snd (f i)).
  Proof. induction n as [|n IH]; [reflexivity|]. rewrite Csum_S. cbn [Rsum]. rewrite <- IH. reflexivity. Qed.
  Theorem half_plane p t l w : 1 <= fst t * fst t + snd t * snd t -> eigen (p + 1) (dg_FK p t) l w -> fst l <= 0.
  Proof.
    intros Ht [[i0 [Hi0 Hw0]] Hw].
    set (a := fun n => fst (w n)). set (b := fun n => snd (w n)). set (n := (p + 1)%nat) in *.
    set (c := fst (ndiv (nofZ 1) t)). set (d := snd (ndiv (nofZ 1) t)).
    assert (CD : c * c + d * d <= 1).
    { unfold c, d. destruct t as [t1 t2]. cbn in Ht |- *. set (q := t1 * t1 + t2 * t2) in *.
      replace ((1 * t1 + 0 * t2) / q * ((1 * t1 + 0 * t2) / q) + (0 * t1 - 1 * t2) / q * ((0 * t1 - 1 * t2) / q)) with (/ q) by (unfold q in *; field; lra).
      rewrite <- Rinv_1. apply Rinv_le_contravar; lra. }
    set (A := Rsum n a). set (B := Rsum n b). set (A' := Rsum n (fun i => sg i * a i)). set (B' := Rsum n (fun i => sg i * b i)).
    assert (E1 : forall i, (i < n)%nat -> Rsum n (fun j => Fnm i j * a j) - A + sg i * (c * A - d * B) = (fst l * a i - snd l * b i) * (2 / (2 * INR i + 1))
                                /\ Rsum n (fun j => Fnm i j * b j) - B + sg i * (c * B + d * A) = (fst l * b i + snd l * a i) * (2 / (2 * INR i + 1))).
    { intros i Hi. specialize (Hw i Hi). unfold n in Hw. rewrite dg_symbol in Hw by (unfold n in Hi; lia). unfold symbol_row in Hw. fold n in Hw.
      assert (S1 : Csum n (fun m => nmul (nofZ 1) (w m)) = (A, B)).
      { apply C_eq; [rewrite fst_Csum|rewrite snd_Csum]; apply Rsum_ext; intros; unfold a, b; cbn; unfold n0; cbn; ring. }
      assert (S2 : Csum n (fun m => nmul (Cr (Fnm i m)) (w m)) = (Rsum n (fun j => Fnm i j * a j), Rsum n (fun j => Fnm i j * b j))).
      { apply C_eq; [rewrite fst_Csum|rewrite snd_Csum]; apply Rsum_ext; intros; unfold a, b; cbn; ring. }
      rewrite S1, S2 in Hw. pose proof (pos_INR i) as Pi.
      assert (EU : ndiv (nofZ 1) t = ((c, d) : C)) by (unfold c, d; destruct (ndiv (nofZ 1) t); reflexivity). rewrite EU in Hw.
      pose proof (f_equal fst Hw) as H1. pose proof (f_equal snd Hw) as H2. clear Hw S1 S2 EU.
      destruct (w i) as [wa wb] eqn:Ew.
      assert (a i = wa /\ b i = wb) as [-> ->] by (unfold a, b; rewrite Ew; split; reflexivity).
      cbn [fst snd nadd nmul nsub nofZ NumC Cr NumR] in H1, H2. unfold n0 in H1, H2. cbn [nofZ NumR] in H1, H2. split.
      - rewrite <- H1. field. lra.
      - rewrite <- H2. field. lra. }
    set (N := Rsum n (fun i => (a i * a i + b i * b i) * (2 / (2 * INR i + 1)))).
    assert (HN : 0 < N).
    { unfold N. apply (Rsum_pos_one n _ i0 Hi0).
      - intros i Hi. pose proof (pos_INR i). apply Rmult_le_pos; [nra|]. apply Rlt_le, Rdiv_lt_0_compat; lra.
      - pose proof (pos_INR i0). apply Rmult_lt_0_compat; [|apply Rdiv_lt_0_compat; lra].
        destruct (w i0) as [wa wb] eqn:Ew. unfold a, b. rewrite Ew. cbn [fst snd].
        destruct (Req_dec wa 0) as [->|Ha]; [|nra]. destruct (Req_dec wb 0) as [->|Hb]; [|nra]. exfalso. apply Hw0. reflexivity. }
    assert (EN : fst l * N = (A * A - A' * A') / 2 + (B * B - B' * B') / 2 - A * A - B * B + A' * (c * A - d * B) + B' * (c * B + d * A)).
    { unfold A, A', B, B'. rewrite <- !Rsum_quad. fold A A' B B'. unfold N. rewrite <- Rsum_scale.
      rewrite (Rsum_ext n _ (fun i => (a i * Rsum n (fun j => Fnm i j * a j) + b i * Rsum n (fun j => Fnm i j * b j)) + ((- A) * a i + (- B) * b i) + ((c * A - d * B) * (sg i * a i) + (c * B + d * A) * (sg i * b i)))).
      - rewrite !Rsum_plus, !Rsum_scale. fold A B A' B'. ring.
      - intros i Hi. destruct (E1 i Hi) as [H1 H2].
        transitivity (a i * ((fst l * a i - snd l * b i) * (2 / (2 * INR i + 1))) + b i * ((fst l * b i + snd l * a i) * (2 / (2 * INR i + 1)))); [ring|].
        rewrite <- H1, <- H2. ring. }
    assert (Q : fst l * N <= 0).
    { rewrite EN. set (u := c * A - d * B). set (v := c * B + d * A).
      assert (UV : u * u + v * v <= A * A + B * B). { replace (u * u + v * v) with ((c * c + d * d) * (A * A + B * B)) by (unfold u, v; ring). nra. }
      pose proof (Rle_0_sqr (A' - u)) as S1. pose proof (Rle_0_sqr (B' - v)) as S2. unfold Rsqr in S1, S2. nra. }
    nra.
  Qed.
End Half.
