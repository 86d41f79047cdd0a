(** C83: the steps of an advection run, and how far the Courant number can be raised. *)
From Coq Require Import ZArith List Bool Arith String Lia Reals Lra.
From Verif Require Import Num Py Lib RealLib LegNumpy Ext Basis Enhance Solution Solver RKCoeffs RK SpecDG SpecTime SpecPoly SpecRK SpecEnh SpecUniform SpecCfl
  ProofsDG ProofsCons ProofsWf ProofsAdv ProofsTime ProofsRun ProofsAnalysis3 ProofsCfl ProofsCflLimit ExtReal Witness PropertiesAnalysis.
Import ListNotations.
Open Scope R_scope.

(** m full steps and one shorter step from each output to the next, whatever the limiter *)
Theorem C83_steps : forall (X : Ext R) gamma ne (sol0 : solution R) d lm rk cfl tf nout m, wf ne sol0 -> wf_dg ne sol0 d -> s_euler sol0 = false ->
  (2 <= nout)%Z -> s_t sol0 <= tf -> fits sol0 cfl tf nout m -> forall fuel evs s', integrate gamma rk d lm cfl tf nout fuel sol0 = (evs, Finished s') ->
  List.length evs = Z.to_nat nout /\ (forall i ev, nth_error evs i = Some ev -> s_n (ev_sol ev) = (s_n sol0 + i * S m)%nat) /\
  s_n s' = (s_n sol0 + (Z.to_nat nout - 1) * S m)%nat.
Proof. intros X gamma ne sol0 d lm rk cfl tf nout m W D Ha Hn Ht [F1 F2]. exact (run_steps gamma ne sol0 d lm rk cfl tf nout m W D Ha Hn Ht F1 F2). Qed.
Print Assumptions C83_steps.

Section C83.
  Context (X : Ext R) (G : gauss_ok) (gamma : R) (ne : nat) (sol0 : solution R) (d : dg) (rk : string) (cfl a : R).
  Notation p := (b_p (s_basis sol0)).
  Context (M : made ne sol0) (D : wf_dg ne sol0 d) (Ha : s_euler sol0 = false) (He : s_enh sol0 = None) (Hl : is_literal (s_bcl sol0) "periodic" = true)
    (Hp : (p <= 1)%nat) (Hev : p = 0%nat -> Nat.even ne = true) (H0 : holds_mode ne sol0 a (teeth p)).
  (** the amplitude at every output *)
  Theorem C83_teeth : forall tf nout m fuel evs s', (2 <= nout)%Z -> s_t sol0 <= tf -> fits sol0 cfl tf nout m ->
    integrate gamma rk d None cfl tf nout fuel sol0 = (evs, Finished s') ->
    let g := gain rk (- (2 * cfl)) ^ m * gain rk (- (2 * cfl * (last_step sol0 cfl tf nout m / full_step sol0 cfl))) in
    List.length evs = Z.to_nat nout /\ (forall i ev, nth_error evs i = Some ev -> holds_mode ne (ev_sol ev) (g ^ i * a) (teeth p)) /\
    holds_mode ne s' (g ^ (Z.to_nat nout - 1) * a) (teeth p).
  Proof. exact (teeth_run G gamma ne sol0 d rk cfl a M D Ha He Hl Hp Hev H0). Qed.
  (** up to the limit they do not grow *)
  Theorem C83_bounded : forall lo hi tf nout m fuel evs s', In (rk, (lo, hi)) limits -> 0 <= cfl <= lo -> (2 <= nout)%Z -> s_t sol0 <= tf -> fits sol0 cfl tf nout m ->
    integrate gamma rk d None cfl tf nout fuel sol0 = (evs, Finished s') ->
    (forall ev, In ev evs -> exists b, Rabs b <= Rabs a /\ holds_mode ne (ev_sol ev) b (teeth p)) /\ exists b, Rabs b <= Rabs a /\ holds_mode ne s' b (teeth p).
  Proof. exact (teeth_bounded G gamma ne sol0 d rk cfl a M D Ha He Hl Hp Hev H0). Qed.
  (** from the limit on they grow without bound; the run completes all the same *)
  Theorem C83_grow : forall lo hi B, In (rk, (lo, hi)) limits -> hi <= cfl -> 1 / 100000000000000 <= full_step sol0 cfl -> a <> 0 ->
    exists tf F evs s' b, s_t sol0 < tf /\ integrate gamma rk d None cfl tf 2 F sol0 = (evs, Finished s') /\ B < Rabs b /\ holds_mode ne s' b (teeth p).
  Proof. exact (teeth_grow G gamma ne sol0 d rk cfl a M D Ha He Hl Hp Hev H0). Qed.
End C83.
Print Assumptions C83_teeth.
Print Assumptions C83_bounded.
Print Assumptions C83_grow.

(** the polynomials *)
Theorem C83_gains : forall x, gain "rk3" x = 1 + x + x * x / 2 + x * x * x / 6 /\ gain "rk4" x = gain "rk3" x + x * x * x * x / 24 /\ gain "low_storage_rk4" x = gain "rk4" x /\
  gain "rk5" x = gain "rk4" x + x * x * x * x * x / 120 + x * x * x * x * x * x / 800 /\
  gain "rk6" x = gain "rk4" x + x * x * x * x * x / 120 + x * x * x * x * x * x / 720 - x * x * x * x * x * x * x / 2520.
Proof. intro x. destruct (gains x) as [-> [-> [-> [-> ->]]]]. repeat split; reflexivity. Qed.
Print Assumptions C83_gains.

(** eight cells, orders 0 and 1: the hypotheses are met, and the run with Courant number 2 is one that grows *)
Definition toothed (s : solution R) : solution R := with_u s (tab2 (s_Ns s) 10 (fun n e => teeth (b_p (s_basis s)) n e)).
Example C83_witness : forall p, (p <= 1)%nat -> exists s d, @made ExtReal 8 (toothed s) /\ wf_dg 8 (toothed s) d /\ s_euler (toothed s) = false /\ s_enh (toothed s) = None /\
  is_literal (s_bcl (toothed s)) "periodic" = true /\ b_p (s_basis (toothed s)) = p /\ holds_mode 8 (toothed s) 1 (teeth p) /\
  1 / 100000000000000 <= full_step (toothed s) 2 /\ s_t (toothed s) = 0 /\ fits (toothed s) (1 / 2) 2 3 (8 * (2 * p + 1)).
Proof.
  intros p Hp. destruct (sine_built p) as [s [d [B [Hd [D [E1 [E2 Ex]]]]]]]. exists s, d.
  pose proof (bl_made _ _ _ _ _ _ _ B) as M0. pose proof (md_wf _ _ M0) as W0. pose proof (bl_p _ _ _ _ _ _ _ B) as Bp. pose proof (bl_euler _ _ _ _ _ _ _ B : s_euler s = false) as Eu.
  pose proof (adv_NF s Eu) as NF.
  assert (W : wf 8 (toothed s)) by (apply wf_with_u; [exact W0|rewrite NF; apply shape_tab2]).
  assert (S : similar s (toothed s)) by apply similar_with_u.
  split; [eapply made_similar; [exact M0|exact S|exact W]|]. split; [exact D|]. split; [exact Eu|]. split; [exact (bl_enh _ _ _ _ _ _ _ B)|].
  split; [change (s_bcl (toothed s)) with (s_bcl s); rewrite E1; reflexivity|]. split; [exact Bp|].
  assert (Q : full_step (toothed s) 2 = 1 / 2 / INR (2 * p + 1) /\ full_step (toothed s) (1 / 2) = 1 / 8 / INR (2 * p + 1)).
  { assert (0 < INR (2 * p + 1)) by (apply lt_0_INR; lia). unfold full_step. change (s_basis (toothed s)) with (s_basis s). change (s_dx (toothed s)) with (s_dx s). rewrite Bp, Ex. split; field; lra. }
  destruct Q as [Q1 Q2]. split; [|split; [|split; [exact (bl_t _ _ _ _ _ _ _ B)|split]]].
  - intros e n H1 H2. change (s_Ns (toothed s)) with (s_Ns s) in H2. rewrite (modes_at 8 (toothed s)); try assumption; change (s_NF (toothed s)) with (s_NF s); rewrite ?NF; try lia.
    unfold toothed. cbn [with_u s_u]. rewrite Nat.mul_1_r, Nat.add_0_r, at2_tab2 by (first [exact H2|lia]). rewrite Bp. ring.
  - rewrite Q1. destruct p as [|[|p]]; [cbn; lra|cbn; lra|lia].
  - lia.
  - rewrite Q2. unfold interval. change (s_t (toothed s)) with (s_t s). rewrite (bl_t _ _ _ _ _ _ _ B). change (Z.to_nat 3 - 1)%nat with 2%nat.
    assert (P : 0 < INR (2 * p + 1)) by (apply lt_0_INR; lia). rewrite (S_INR (8 * (2 * p + 1))), (mult_INR 8). set (q := INR (2 * p + 1)) in *. replace (INR 8) with 8 by (cbn; lra). replace (INR 2) with 2 by (cbn; lra).
    replace (8 * q * (1 / 8 / q)) with 1 by (field; lra).
    replace ((8 * q + 1) * (1 / 8 / q)) with (1 + 1 / 8 / q) by (field; lra).
    assert (0 < 1 / 8 / q) by (apply Rdiv_lt_0_compat; lra). lra.
Qed.
