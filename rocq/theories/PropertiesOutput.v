(** C55: which of the requested outputs a completed run writes. *)
From Coq Require Import ZArith List Bool Arith String Reals Lra Lia.
From Verif Require Import Num Py PyStr Constants LegNumpy Ext Basis Sensor Enhance Limiting EulerPhysics Solution Solver
  RKCoeffs RK SpecTime ProofsTime ProofsTime3 SpecDG ProofsDG ProofsWf ProofsCons ProofsSol ProofsRun ExtReal Witness PropertiesRun.
Import ListNotations.
Open Scope list_scope.
Open Scope nat_scope.

(** Output number i is requested at t0 + i*(tf-t0)/(nout-1).  Let s0 be the state the last step starts
    from.  Every output requested before the time of s0 is written at its time, and every output that
    is not written lies less than one CFL step of s0 before the final time. *)
Theorem C55_output_rule :
  forall (gamma : R) rk d l cfl tf nout (sol0 : solution R),
  (2 <= nout)%Z -> (s_t sol0 <= tf)%R ->
  forall fuel evs s, (s_t sol0 < tf)%R ->
  integrate gamma rk d l cfl tf nout fuel sol0 = (evs, Finished s) ->
  exists s0 v, max_wave_speed gamma s0 = Ok v /\
    (exists k tout touts sc evs0, visits gamma rk d l cfl tf nout sol0 k tout touts s0 sc evs0) /\
    (forall i, i < Z.to_nat nout - 1 ->
       (s_t sol0 + INR i * ((tf - s_t sol0) / INR (Z.to_nat nout - 1)) < s_t s0)%R ->
       exists ev, nth_error evs i = Some ev /\
         s_t (ev_sol ev) = (s_t sol0 + INR i * ((tf - s_t sol0) / INR (Z.to_nat nout - 1)))%R) /\
    (forall i, List.length evs - 1 <= i < Z.to_nat nout - 1 ->
       (0 < tf - (s_t sol0 + INR i * ((tf - s_t sol0) / INR (Z.to_nat nout - 1)))
          < s_dx s0 * cfl / (v * INR (2 * b_p (s_basis s0) + 1)))%R).
Proof. exact @missing_outputs. Qed.
(** the last step is the one that starts less than one CFL step before the final time *)
Theorem C55_last_step :
  forall (gamma : R) rk d l cfl tf nout (sol0 : solution R),
  (2 <= nout)%Z -> (s_t sol0 <= tf)%R ->
  forall fuel evs s, (s_t sol0 < tf)%R ->
  integrate gamma rk d l cfl tf nout fuel sol0 = (evs, Finished s) ->
  exists k tout touts s0 sc evs0 v,
    visits gamma rk d l cfl tf nout sol0 k tout touts s0 sc evs0 /\
    max_wave_speed gamma s0 = Ok v /\
    (tf - s_dx s0 * cfl / (v * INR (2 * b_p (s_basis s0) + 1)) < s_t s0 <= tf)%R /\
    List.length evs = S k /\
    (forall i ev, nth_error evs i = Some ev -> i < k ->
       s_t (ev_sol ev) = (s_t sol0 + INR i * ((tf - s_t sol0) / INR (Z.to_nat nout - 1)))%R) /\
    (forall i, i < Z.to_nat nout -> (s_t sol0 + INR i * ((tf - s_t sol0) / INR (Z.to_nat nout - 1)) < s_t s0)%R -> i < k) /\
    (forall i, i < Z.to_nat nout -> k <= i ->
       (s_t s0 <= s_t sol0 + INR i * ((tf - s_t sol0) / INR (Z.to_nat nout - 1)) <= tf)%R) /\
    (forall i, i < k -> (s_t sol0 + INR i * ((tf - s_t sol0) / INR (Z.to_nat nout - 1)) <= s_t s0)%R).
Proof. exact @output_rule. Qed.

(** such runs, of every order and every RK option *)
Example C55_witness : forall p rk, exists s d fuel evs s',
  built "sinewave 8" "advection" "" p 8 s gamma_default /\ DG s = Ok d /\ (s_t s < 10)%R /\
  integrate gamma_default rk d None (4 * INR (2 * p + 1))%R 10%R 3 fuel s = (evs, Finished s').
Proof.
  intros p rk. destruct (C01_C05_witness p rk) as [s [d [F [evs [s' [B [Hd [_ H]]]]]]]].
  exists s, d, F, evs, s'. split; [exact B|]. split; [exact Hd|].
  split; [rewrite (bl_t _ _ _ _ _ _ _ B); lra|]. apply H. lia.
Qed.

Print Assumptions C55_output_rule.
Print Assumptions C55_last_step.
Print Assumptions C55_witness.
