(** Runs that complete (C01), runs that skip requested outputs (C02, C03), and the cases that meet the
    hypotheses of the theorems of PropertiesTime. *)
From Coq Require Import ZArith List Bool Arith String Reals Lra Lia.
From Verif Require Import Num Py PyStr Constants LegNumpy Ext Basis Sensor Enhance Limiting EulerPhysics Solution Solver
  RKCoeffs RK SpecTime ProofsTime SpecDG SpecPoly ProofsDG ProofsWf ProofsCons ProofsSol ProofsRun ExtReal Witness PropertiesTime.
Import ListNotations.
Open Scope list_scope.
Open Scope nat_scope.

(** C01: without limiter and with a solver other than Godunov, a run can only fail at the check of a
    time step .. *)
Theorem C01_only_time_step_fails :
  forall (gamma : R) ne (sol0 : solution R) d rk cfl tf nout fuel evs e,
  wf ne sol0 -> wf_dg ne sol0 d -> s_riemann sol0 <> RGodunov -> (2 <= nout)%Z -> (s_t sol0 <= tf)%R ->
  integrate gamma rk d None cfl tf nout fuel sol0 = (evs, Failed e) ->
  exists k tout touts s sc, visits gamma rk d None cfl tf nout sol0 k tout touts s sc evs /\
    get_next_time_step gamma s tout cfl tf = Raise e.
Proof. exact @only_dt_fails. Qed.
(** .. and an advection run whose CFL step passes the check completes *)
Theorem C01_advection_completes :
  forall (gamma : R) ne (sol0 : solution R) d rk cfl tf nout,
  wf ne sol0 -> wf_dg ne sol0 d -> s_euler sol0 = false -> (2 <= nout)%Z -> (s_t sol0 <= tf)%R ->
  (1 / 100000000000000 <= s_dx sol0 * cfl / INR (2 * b_p (s_basis sol0) + 1))%R ->
  exists F evs s, s_t s = tf /\
    forall fuel, F <= fuel -> integrate gamma rk d None cfl tf nout fuel sol0 = (evs, Finished s).
Proof. exact @advection_completes. Qed.

(** with this CFL number the step of the eight-cell problem is 1 *)
Lemma witness_cfl p (s : solution R) : b_p (s_basis s) = p -> s_dx s = (1 / 4)%R ->
  (s_dx s * (4 * INR (2 * p + 1)) / INR (2 * b_p (s_basis s) + 1) = 1)%R.
Proof. intros -> ->. field. apply not_0_INR. lia. Qed.

(** a run of every order and RK option that completes: C01-C05 are not vacuous *)
Example C01_C05_witness : forall p rk, exists s d F evs s',
  built "sinewave 8" "advection" "" p 8 s gamma_default /\ DG s = Ok d /\ s_t s' = 10%R /\
  forall fuel, F <= fuel ->
    integrate gamma_default rk d None (4 * INR (2 * p + 1))%R 10%R 3 fuel s = (evs, Finished s').
Proof.
  intros p rk. destruct (sine_built p) as [s [d [B [Hd [D [_ [_ Ex]]]]]]].
  destruct (advection_completes gamma_default 8 s d rk (4 * INR (2 * p + 1)) 10 3) as [F [evs [s' [Et H]]]].
  - apply (md_wf _ _ (bl_made _ _ _ _ _ _ _ B)).
  - exact D.
  - exact (bl_euler _ _ _ _ _ _ _ B).
  - lia.
  - rewrite (bl_t _ _ _ _ _ _ _ B). lra.
  - rewrite (witness_cfl p) by (first [apply B | exact Ex]). lra.
  - exists s, d, F, evs, s'. tauto.
Qed.

(** C03 and C02 in full are false: with deck.nout = n >= 3 and one CFL step longer than the run, the
    run completes with two snapshots; the step jumps over the pending output times *)
Theorem C03_refuted : forall p rk n, (3 <= n)%Z -> exists s d evs s',
  built "sinewave 8" "advection" "" p 8 s gamma_default /\ DG s = Ok d /\
  (forall fuel, 1 <= fuel ->
     integrate gamma_default rk d None (4 * INR (2 * p + 1))%R (1 / 2)%R n fuel s = (evs, Finished s')) /\
  List.length evs = 2 /\ List.length evs <> Z.to_nat n.
Proof.
  intros p rk n Hn. destruct (sine_built p) as [s [d [B [Hd [D [_ [_ Ex]]]]]]].
  destruct (advection_skips gamma_default 8 s d rk (4 * INR (2 * p + 1)) (1 / 2) n) as [evs [s' [L [Et H]]]].
  - apply (md_wf _ _ (bl_made _ _ _ _ _ _ _ B)).
  - exact D.
  - exact (bl_euler _ _ _ _ _ _ _ B).
  - lia.
  - rewrite (bl_t _ _ _ _ _ _ _ B). lra.
  - rewrite (witness_cfl p) by (first [apply B | exact Ex]). lra.
  - rewrite (witness_cfl p) by (first [apply B | exact Ex]). rewrite (bl_t _ _ _ _ _ _ _ B). lra.
  - exists s, d, evs, s'. split; [exact B|]. split; [exact Hd|]. split; [exact H|]. split; [exact L|]. rewrite L. lia.
Qed.

Print Assumptions C01_only_time_step_fails.
Print Assumptions C01_advection_completes.
Print Assumptions C01_C05_witness.
Print Assumptions C03_refuted.
