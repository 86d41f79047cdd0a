(** Which Fourier modes of the upwind scheme do not decay: the constants, and nothing else. *)
From Coq Require Import ZArith List Bool Arith String Lia Reals Lra Ring.
From Verif Require Import Num Py Lib RealLib LegNumpy Ext Basis SpecDG SpecPoly SpecRK Analysis SpecAnalysis
  ProofsPoly ProofsLeg ProofsGauss ProofsDG ProofsBasis ProofsAnalysis ProofsAnalysis2 ProofsAnalysis4.
Import ListNotations.
Open Scope R_scope.

(** the interior matrix is strictly lower triangular with twos below the diagonal *)
Lemma Fnm_upper n m : (n <= m)%nat -> Fnm n m = 0.
Proof.
  intro H.
  assert (E : nint (fun x => dLegP n x * LegP m x) (-1) 1 (Fnm n m)).
  { apply (nint_ext (fun x => legseries (legder (leg_basis n)) x * legseries (leg_basis m) x)); [|apply product_nint].
    intro x. rewrite legseries_basis. f_equal. apply (uniqueness_limite (LegP n) x); [|apply LegP_deriv].
    apply (dlim_ext (legseries (leg_basis n))); [intro; apply legseries_basis|]. rewrite legder_ok. apply legseries_deriv. }
  destruct n as [|n].
  - refine (nint_unique _ _ _ _ _ E _). replace 0 with (0 * (1 - -1)) at 2 by ring.
    apply (nint_ext (fun x => 0)); [intro x; rewrite dLegP_0; ring|]. exists (fun x => 0). split; [|ring].
    intro x. apply derivable_pt_lim_const.
  - refine (nint_unique _ _ _ _ _ E _). apply (nint_low_orth n); [|lia]. replace n with (S n - 1)%nat at 1 by lia. apply dLegP_poly.
Qed.
Lemma Fnm_below m : Fnm (S m) m = 2.
Proof.
  pose proof (Fnm_parts (S m) m) as H. rewrite (Fnm_upper m (S m)) in H by lia. unfold sg in H. rewrite !LegP_atm1 in H.
  rewrite Nat.odd_succ, <- Nat.negb_odd in H. destruct (Nat.odd m); cbn [negb] in H; lra.
Qed.
Lemma last_one n (P : nat -> Prop) : (forall i, P i \/ ~ P i) -> (exists i, (i < n)%nat /\ P i) ->
  exists k, (k < n)%nat /\ P k /\ forall i, (k < i < n)%nat -> ~ P i.
Proof.
  intros D. induction n as [|n IH]; intros [i [Hi Pi]]; [lia|]. destruct (D n) as [Pn|Pn].
  - exists n. split; [lia|]. split; [exact Pn|intros; lia].
  - destruct IH as [k [Hk [Pk Lk]]]; [exists i; split; [|exact Pi]; assert (i <> n) by (intro; subst; tauto); lia|].
    exists k. split; [lia|]. split; [exact Pk|]. intros j Hj. destruct (Nat.eq_dec j n) as [->|Ne]; [exact Pn|apply Lk; lia].
Qed.
Section Neutral.
  Context {X : Ext R}.
  (** a wave on the unit circle that does not decay *)
  Theorem neutral p t l w : fst t * fst t + snd t * snd t = 1 -> eigen (p + 1) (dg_FK p t) l w -> 0 <= fst l ->
    l = nofZ 0 /\ t = nofZ 1 /\ forall i, (1 <= i < p + 1)%nat -> w i = nofZ 0.
  Proof.
    intros Ht [[i0 [Hi0 Hw0]] Hw] Hl.
    set (a := fun n => fst (w n)). set (b := fun n => snd (w n)). set (n := (p + 1)%nat) in *.
    set (c := fst (ndiv (nofZ 1) t)). set (d := snd (ndiv (nofZ 1) t)).
    assert (CT : c = fst t /\ d = - snd t).
    { unfold c, d. destruct t as [t1 t2]. cbn in Ht |- *. rewrite Ht. split; field. }
    assert (CD : c * c + d * d = 1) by (destruct CT as [-> ->]; lra).
    set (A := Rsum n a). set (B := Rsum n b). set (A' := Rsum n (fun i => sg i * a i)). set (B' := Rsum n (fun i => sg i * b i)).
    assert (E1 : forall i, (i < n)%nat -> Rsum n (fun j => Fnm i j * a j) - A + sg i * (c * A - d * B) = (fst l * a i - snd l * b i) * (2 / (2 * INR i + 1))
                                /\ Rsum n (fun j => Fnm i j * b j) - B + sg i * (c * B + d * A) = (fst l * b i + snd l * a i) * (2 / (2 * INR i + 1))).
    { intros i Hi. specialize (Hw i Hi). unfold n in Hw. rewrite dg_symbol in Hw by (unfold n in Hi; lia). unfold symbol_row in Hw. fold n in Hw.
      assert (S1 : Csum n (fun m => nmul (nofZ 1) (w m)) = (A, B)).
      { apply C_eq; [rewrite fst_Csum|rewrite snd_Csum]; apply Rsum_ext; intros; unfold a, b; cbn; unfold n0; cbn; ring. }
      assert (S2 : Csum n (fun m => nmul (Cr (Fnm i m)) (w m)) = (Rsum n (fun j => Fnm i j * a j), Rsum n (fun j => Fnm i j * b j))).
      { apply C_eq; [rewrite fst_Csum|rewrite snd_Csum]; apply Rsum_ext; intros; unfold a, b; cbn; ring. }
      rewrite S1, S2 in Hw. pose proof (pos_INR i) as Pi.
      assert (EU : ndiv (nofZ 1) t = ((c, d) : C)) by (unfold c, d; destruct (ndiv (nofZ 1) t); reflexivity). rewrite EU in Hw.
      pose proof (f_equal fst Hw) as H1. pose proof (f_equal snd Hw) as H2. clear Hw S1 S2 EU.
      destruct (w i) as [wa wb] eqn:Ew.
      assert (a i = wa /\ b i = wb) as [-> ->] by (unfold a, b; rewrite Ew; split; reflexivity).
      cbn [fst snd nadd nmul nsub nofZ NumC Cr NumR] in H1, H2. unfold n0 in H1, H2. cbn [nofZ NumR] in H1, H2. split.
      - rewrite <- H1. field. lra.
      - rewrite <- H2. field. lra. }
    set (N := Rsum n (fun i => (a i * a i + b i * b i) * (2 / (2 * INR i + 1)))).
    assert (HN : 0 < N).
    { unfold N. apply (Rsum_pos_one n _ i0 Hi0).
      - intros i Hi. pose proof (pos_INR i). apply Rmult_le_pos; [nra|]. apply Rlt_le, Rdiv_lt_0_compat; lra.
      - pose proof (pos_INR i0). apply Rmult_lt_0_compat; [|apply Rdiv_lt_0_compat; lra].
        destruct (w i0) as [wa wb] eqn:Ew. unfold a, b. rewrite Ew. cbn [fst snd].
        destruct (Req_dec wa 0) as [->|Ha]; [|nra]. destruct (Req_dec wb 0) as [->|Hb]; [|nra]. exfalso. apply Hw0. reflexivity. }
    assert (EN : fst l * N = (A * A - A' * A') / 2 + (B * B - B' * B') / 2 - A * A - B * B + A' * (c * A - d * B) + B' * (c * B + d * A)).
    { unfold A, A', B, B'. rewrite <- !Rsum_quad. fold A A' B B'. unfold N. rewrite <- Rsum_scale.
      rewrite (Rsum_ext n _ (fun i => (a i * Rsum n (fun j => Fnm i j * a j) + b i * Rsum n (fun j => Fnm i j * b j)) + ((- A) * a i + (- B) * b i) + ((c * A - d * B) * (sg i * a i) + (c * B + d * A) * (sg i * b i)))).
      - rewrite !Rsum_plus, !Rsum_scale. fold A B A' B'. ring.
      - intros i Hi. destruct (E1 i Hi) as [H1 H2].
        transitivity (a i * ((fst l * a i - snd l * b i) * (2 / (2 * INR i + 1))) + b i * ((fst l * b i + snd l * a i) * (2 / (2 * INR i + 1)))); [ring|].
        rewrite <- H1, <- H2. ring. }
    set (u := c * A - d * B) in *. set (v := c * B + d * A) in *.
    assert (UV : u * u + v * v = A * A + B * B). { replace (u * u + v * v) with ((c * c + d * d) * (A * A + B * B)) by (unfold u, v; ring). rewrite CD. ring. }
    assert (Q : 2 * (fst l * N) = - ((A' - u) * (A' - u) + (B' - v) * (B' - v))) by (rewrite EN; nra).
    pose proof (Rle_0_sqr (A' - u)) as S1. pose proof (Rle_0_sqr (B' - v)) as S2. unfold Rsqr in S1, S2.
    assert (Pl : 0 <= fst l * N) by (apply Rmult_le_pos; lra).
    assert (Ju : A' = u). { assert (K : (A' - u) * (A' - u) = 0) by lra. apply Rmult_integral in K. lra. }
    assert (Jv : B' = v). { assert (K : (B' - v) * (B' - v) = 0) by lra. apply Rmult_integral in K. lra. }
    assert (L1 : fst l = 0). { assert (K : fst l * N = 0) by lra. apply Rmult_integral in K. lra. }
    assert (Z : forall i, (i < n)%nat -> Rsum n (fun j => Fnm j i * a j) = snd l * b i * (2 / (2 * INR i + 1)) /\ Rsum n (fun j => Fnm j i * b j) = - (snd l * a i * (2 / (2 * INR i + 1)))).
    { intros i Hi. destruct (E1 i Hi) as [H1 H2]. rewrite L1 in H1, H2.
      assert (P : forall f, Rsum n (fun j => Fnm i j * f j) = Rsum n f - sg i * Rsum n (fun j => sg j * f j) - Rsum n (fun j => Fnm j i * f j)).
      { intro f. rewrite <- (Rsum_scale n (sg i)), <- !Rsum_minus. apply Rsum_ext. intros j _. pose proof (Fnm_parts i j) as H. replace (Fnm i j) with (1 - sg i * sg j - Fnm j i) by lra. ring. }
      rewrite (P a) in H1. rewrite (P b) in H2. fold A A' in H1. fold B B' in H2. rewrite Ju in H1. rewrite Jv in H2. split; lra. }
    destruct (last_one n (fun i => w i <> nofZ 0)) as [k [Hk [Wk Lk]]].
    { intro i. destruct (w i) as [x y]. destruct (Req_dec x 0) as [->|Hx]; [destruct (Req_dec y 0) as [->|Hy]|].
      - right. intro H. apply H. reflexivity.
      - left. intro H. apply (f_equal snd) in H. cbn in H. lra.
      - left. intro H. apply (f_equal fst) in H. cbn in H. lra. }
    { exists i0. split; assumption. }
    assert (Ab : forall i, (k < i < n)%nat -> a i = 0 /\ b i = 0).
    { intros i Hi. unfold a, b. destruct (w i) as [x y] eqn:E. specialize (Lk i Hi). rewrite E in Lk. cbn [fst snd].
      destruct (Req_dec x 0) as [->|Hx]; [destruct (Req_dec y 0) as [->|Hy]|].
      - split; reflexivity.
      - exfalso. apply Lk. intro H. apply (f_equal snd) in H. cbn in H. lra.
      - exfalso. apply Lk. intro H. apply (f_equal fst) in H. cbn in H. lra. }
    assert (Nk : a k * a k + b k * b k <> 0).
    { intro H. apply Wk. unfold a, b in H. destruct (w k) as [x y]. cbn [fst snd] in H. assert (x = 0) by nra. assert (y = 0) by nra. subst. reflexivity. }
    assert (One : forall i f, (i < n)%nat -> (forall j, (k < j < n)%nat -> f j = 0) -> (i <= k)%nat -> (k <= S i)%nat -> Rsum n (fun j => Fnm j i * f j) = Fnm k i * f k).
    { intros i f Hi Hf H1 H2. apply (Rsum_single n k); [exact Hk|]. intros j Hj Ne. destruct (le_lt_dec j k) as [H|H].
      - rewrite (Fnm_upper j i) by lia. ring.
      - rewrite Hf by lia. ring. }
    assert (L2 : snd l = 0).
    { destruct (Z k Hk) as [H1 H2]. rewrite One in H1, H2 by (first [exact Hk|lia|intros j Hj; apply (Ab j Hj)]). rewrite Fnm_upper in H1, H2 by lia.
      pose proof (pos_INR k). assert (M : 0 < 2 / (2 * INR k + 1)) by (apply Rdiv_lt_0_compat; lra).
      assert (K : snd l * (a k * a k + b k * b k) * (2 / (2 * INR k + 1)) = 0).
      { transitivity (b k * (snd l * b k * (2 / (2 * INR k + 1))) - a k * (- (snd l * a k * (2 / (2 * INR k + 1))))); [ring|]. rewrite <- H1, <- H2. ring. }
      apply Rmult_integral in K. destruct K as [K|K]; [|lra]. apply Rmult_integral in K. destruct K; [assumption|contradiction]. }
    assert (K0 : k = 0%nat).
    { destruct k as [|k']; [reflexivity|]. exfalso. destruct (Z k' ltac:(lia)) as [H1 H2].
      rewrite One in H1, H2 by (first [lia|intros j Hj; apply (Ab j Hj)]). rewrite Fnm_below in H1, H2. rewrite L2 in H1, H2. apply Nk.
      assert (a (S k') = 0) as -> by lra. assert (b (S k') = 0) as -> by lra. ring. }
    subst k. split; [apply C_eq; cbn; [exact L1|exact L2]|]. split.
    - assert (SA : forall f g, (forall j, (0 < j < n)%nat -> f j = 0) -> Rsum n (fun j => g j * f j) = g 0%nat * f 0%nat).
      { intros f g Hf. apply (Rsum_single n 0%nat); [exact Hk|]. intros j Hj Ne. rewrite Hf by lia. ring. }
      assert (A1 : A = a 0%nat). { unfold A. rewrite (Rsum_ext n a (fun j => 1 * a j)) by (intros; ring). rewrite (SA a (fun _ => 1)) by (intros j Hj; apply (Ab j Hj)). ring. }
      assert (B1 : B = b 0%nat). { unfold B. rewrite (Rsum_ext n b (fun j => 1 * b j)) by (intros; ring). rewrite (SA b (fun _ => 1)) by (intros j Hj; apply (Ab j Hj)). ring. }
      assert (A2 : A' = a 0%nat). { unfold A'. rewrite (SA a sg) by (intros j Hj; apply (Ab j Hj)). unfold sg. rewrite LegP_0. ring. }
      assert (B2 : B' = b 0%nat). { unfold B'. rewrite (SA b sg) by (intros j Hj; apply (Ab j Hj)). unfold sg. rewrite LegP_0. ring. }
      unfold u in Ju. unfold v in Jv. rewrite A1, B1 in Ju, Jv. rewrite A2 in Ju. rewrite B2 in Jv.
      assert (C1 : (c - 1) * (a 0%nat * a 0%nat + b 0%nat * b 0%nat) = 0). { transitivity (a 0%nat * (c * a 0%nat - d * b 0%nat - a 0%nat) + b 0%nat * (c * b 0%nat + d * a 0%nat - b 0%nat)); [ring|]. rewrite <- Ju, <- Jv. ring. }
      apply Rmult_integral in C1. destruct C1 as [C1|C1]; [|contradiction].
      assert (c1 : c = 1) by lra. assert (D1 : d = 0). { rewrite c1 in CD. assert (K : d * d = 0) by lra. apply Rmult_integral in K. lra. }
      destruct CT as [T1 T2]. apply C_eq; cbn; unfold n0; cbn; lra.
    - intros i Hi. destruct (Ab i ltac:(lia)) as [H1 H2]. apply C_eq; [exact H1|exact H2].
  Qed.
  (** and constants do not decay *)
  Lemma constants_stay p : eigen (p + 1) (dg_FK p (nofZ 1)) (nofZ 0) (fun i => if (i =? 0)%nat then nofZ 1 else nofZ 0).
  Proof.
    split; [exists 0%nat; split; [lia|]; intro H; apply (f_equal fst) in H; cbn in H; lra|]. intros i Hi. rewrite dg_symbol by lia. unfold symbol_row.
    assert (E : forall f : nat -> C, Csum (p + 1) (fun m => nmul (f m) (if (m =? 0)%nat then nofZ 1 else nofZ 0)) = f 0%nat).
    { intro f. rewrite (Csum_single _ 0%nat); [|lia|]. - cbn [Nat.eqb]. apply C_eq; cbn; unfold n0; cbn; ring. - intros j Hj Ne. destruct j; [lia|]. cbn [Nat.eqb]. apply C_eq; cbn; ring. }
    rewrite !E. pose proof (Fnm_parts i 0) as H. rewrite (Fnm_upper 0 i) in H by lia. unfold sg in *. rewrite LegP_0 in H.
    replace (Fnm i 0) with (1 - LegP i (-1)) by lra. apply C_eq; cbn; unfold n0; cbn; field; lra.
  Qed.
End Neutral.
