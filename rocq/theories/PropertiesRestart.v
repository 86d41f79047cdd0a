(** Property C93: continuing a run from one of its snapshots. *)
From Coq Require Import ZArith List Bool Arith String Lia Reals Lra Floats.SpecFloat.
From Verif Require Import Num Py PyStr Lib RealLib LegNumpy Ext Basis Sensor Enhance Limiting Solution Solver RKCoeffs RK Standins SpecTime SpecDG SpecRestart
  Constants ProofsTime SpecPoly ProofsDG ProofsWf ProofsCons ProofsSol ProofsRun ExtReal Witness ProofsRestart PropertiesTime PropertiesRun.
Import ListNotations.
Open Scope list_scope.
Open Scope nat_scope.

(** C93, exact arithmetic, with and without limiter: a run that has stopped is continued from any snapshot but its last.  The continuation, asked for the remaining
    number of outputs, writes the same snapshots with the same step lengths, numbered from that snapshot on, and ends the same way (state or exception). *)
Theorem C93_restart : forall (gamma : R) rk d l cfl tf nout fuel sol0 evs out k ev,
  (2 <= nout)%Z -> (s_t sol0 <= tf)%R ->
  integrate gamma rk d l cfl tf nout fuel sol0 = (evs, out) -> out <> OutOfFuel -> S k < List.length evs -> nth_error evs k = Some ev ->
  s_t (ev_sol ev) = at1 (linspace (s_t sol0) tf (Z.to_nat nout)) k /\
  integrate gamma rk d l cfl tf (nout - Z.of_nat k) fuel (ev_sol ev) = (opening (ev_sol ev) :: map (renumbered k) (skipn (S k) evs), out).
Proof. exact @restart_R. Qed.

(** C93, real and double-precision arithmetic: the run from a snapshot to the requested time of the next one (neither being the last) ends in the next snapshot,
    bit for bit. *)
Theorem C93_leg : forall (gamma : R) rk d l cfl tf nout fuel sol0 evs out k ev ev',
  (0 <= nout)%Z -> integrate gamma rk d l cfl tf nout fuel sol0 = (evs, out) -> out <> OutOfFuel ->
  S (S k) < List.length evs -> nth_error evs k = Some ev -> nth_error evs (S k) = Some ev' ->
  integrate gamma rk d l cfl (at1 (linspace (s_t sol0) tf (Z.to_nat nout)) (S k)) 2 fuel (ev_sol ev)
  = ([opening (ev_sol ev); renumbered k ev'], Finished (ev_sol ev')).
Proof. intros gamma *. apply (leg gamma skip0_R). Qed.
Theorem C93_leg_double : forall (L : Libm spec_float) (gamma : spec_float) rk d l cfl tf nout fuel sol0 evs out k ev ev',
  (0 <= nout)%Z -> integrate gamma rk d l cfl tf nout fuel sol0 = (evs, out) -> out <> OutOfFuel ->
  S (S k) < List.length evs -> nth_error evs k = Some ev -> nth_error evs (S k) = Some ev' ->
  integrate gamma rk d l cfl (at1 (linspace (s_t sol0) tf (Z.to_nat nout)) (S k)) 2 fuel (ev_sol ev)
  = ([opening (ev_sol ev); renumbered k ev'], Finished (ev_sol ev')).
Proof. intros L gamma *. apply (leg gamma skip0_SF). Qed.
(** .. and whenever the requested times agree to the last bit, so does the whole continuation in double precision *)
Theorem C93_restart_double : forall (L : Libm spec_float) (gamma : spec_float) rk d l cfl tf nout fuel sol0 evs out k ev,
  (0 <= nout)%Z -> integrate gamma rk d l cfl tf nout fuel sol0 = (evs, out) -> out <> OutOfFuel -> S k < List.length evs -> nth_error evs k = Some ev ->
  skipn 1 (linspace (s_t (ev_sol ev)) tf (Z.to_nat nout - k)) = skipn (S k) (linspace (s_t sol0) tf (Z.to_nat nout)) ->
  integrate gamma rk d l cfl tf (nout - Z.of_nat k) fuel (ev_sol ev) = (opening (ev_sol ev) :: map (renumbered k) (skipn (S k) evs), out).
Proof. intros L gamma *. apply (restart_gen gamma skip0_SF). Qed.

(** runs of every order and scheme with three snapshots: the hypotheses are met with k = 0 and k = 1
    (C07_witness is a limited run with three snapshots in double precision) *)
Example C93_witness : forall p rk, exists s d F evs s',
  built "sinewave 8" "advection" "" p 8 s gamma_default /\ DG s = Ok d /\
  integrate gamma_default rk d None (4 * INR (2 * p + 1))%R 10%R 3 F s = (evs, Finished s') /\ List.length evs = 3.
Proof.
  intros p rk. destruct (sine_built p) as [s [d [B [Hd [D [_ [_ Ex]]]]]]].
  destruct (advection_completes gamma_default 8 s d rk (4 * INR (2 * p + 1)) 10 3) as [F [evs [s' [Et H]]]].
  - apply (md_wf _ _ (bl_made _ _ _ _ _ _ _ B)).
  - exact D.
  - exact (bl_euler _ _ _ _ _ _ _ B).
  - lia.
  - rewrite (bl_t _ _ _ _ _ _ _ B). lra.
  - rewrite (witness_cfl p) by (first [apply B | exact Ex]). lra.
  - exists s, d, F, evs, s'. split; [exact B|]. split; [exact Hd|]. split; [apply H; lia|].
    apply (all_snapshots gamma_default rk d None (4 * INR (2 * p + 1)) 10 3 s) with (fuel := F) (s := s'); [lia|rewrite (bl_t _ _ _ _ _ _ _ B); lra| |apply H; lia].
    intros k tout touts s1 sc evs1 v Hv Hw. apply visits_V in Hv. destruct Hv as [Hv _].
    assert (E1 : s_dx s1 = s_dx s) by (change (s_dx (with_u (core s1) []) = s_dx (with_u (core s) [])); rewrite Hv; reflexivity).
    assert (E2 : s_basis s1 = s_basis s) by (change (s_basis (with_u (core s1) []) = s_basis (with_u (core s) [])); rewrite Hv; reflexivity).
    assert (E3 : s_euler s1 = s_euler s) by (change (s_euler (with_u (core s1) []) = s_euler (with_u (core s) [])); rewrite Hv; reflexivity).
    unfold max_wave_speed in Hw. rewrite E3, (bl_euler _ _ _ _ _ _ _ B) in Hw. injection Hw as <-. rewrite E1, E2.
    unfold n1; numR. rewrite Rmult_1_l, (witness_cfl p) by (first [apply B | exact Ex]). rewrite (bl_t _ _ _ _ _ _ _ B). change (Z.to_nat 3 - 1) with 2. replace (INR 2) with 2%R by (cbn; lra). lra.
Qed.

Print Assumptions C93_restart.
Print Assumptions C93_leg.
Print Assumptions C93_leg_double.
Print Assumptions C93_restart_double.
