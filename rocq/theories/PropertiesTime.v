(** Properties C01-C06, C11: time integration. *)
From Coq Require Import ZArith List Bool Arith String Reals Floats.SpecFloat.
From Verif Require Import Num Py PyStr Constants LegNumpy Ext Basis Sensor Enhance Limiting EulerPhysics Solution Solver
  RKCoeffs RK IO SpecTime ProofsTime ProofsStr ProofsTime2 ProofsOptions.
Import ListNotations.
Open Scope list_scope.

(** C01: every run stops after at most (tf-t0)*1e14 + nout + 2 passes of the loop, with the same
    result for every larger fuel; if it does not fail, it ends at the final time. *)
Theorem C01_run_terminates :
  forall (gamma : R) rk d l cfl tf nout (sol : solution R),
  (2 <= nout)%Z -> (s_t sol <= tf)%R ->
  exists F evs out,
    (INR F <= (tf - s_t sol) * 100000000000000 + IZR nout + 2)%R /\
    (forall fuel, F <= fuel -> integrate gamma rk d l cfl tf nout fuel sol = (evs, out)) /\
    ((exists e, out = Failed e) \/ (exists s, out = Finished s /\ s_t s = tf)).
Proof. exact @run_terminates. Qed.

(** C02: every step of every run. [dn] is the flag "this was the last step". *)
Theorem C02_time_steps_partial :
  forall (gamma : R) rk d l cfl tf nout (sol0 : solution R),
  (2 <= nout)%Z -> (s_t sol0 <= tf)%R ->
  forall k tout touts s sc evs s' sc' dt o dn,
  visits gamma rk d l cfl tf nout sol0 k tout touts s sc evs ->
  time_step gamma (rk_inner gamma rk d l) l cfl tf tout s sc = Ok (s', sc', (dt, o, dn)) ->
  (0 <= dt)%R /\ s_t s' = (s_t s + dt)%R /\ s_n s' = s_n s + 1 /\ (s_t s' <= tf)%R
  /\ (dn = false -> (s_t s' <= tout)%R) /\ (dn = true -> s_t s' = tf /\ o = true).
Proof. exact @step_times. Qed.

(** C03, what holds of every completed run: the snapshots are numbered 0..k without gaps, all but
    the last lie on the grid t0 + i*(tf-t0)/(nout-1), the last one is the final solution at tf. *)
Theorem C03_snapshots_partial :
  forall (gamma : R) rk d l cfl tf nout (sol0 : solution R),
  (2 <= nout)%Z -> (s_t sol0 <= tf)%R ->
  forall fuel evs s,
  integrate gamma rk d l cfl tf nout fuel sol0 = (evs, Finished s) ->
  exists k, 1 <= k <= Z.to_nat nout - 1 /\ List.length evs = S k /\ s_t s = tf /\
    (forall i ev, nth_error evs i = Some ev ->
       ev_nout ev = i /\
       (i < k -> s_t (ev_sol ev) = (s_t sol0 + INR i * ((tf - s_t sol0) / INR (Z.to_nat nout - 1)))%R) /\
       (i = k -> ev_sol ev = s)).
Proof. exact @finished_snapshots. Qed.

(** C03 in full, for runs whose CFL steps never exceed the spacing of the outputs *)
Theorem C03_all_snapshots_partial :
  forall (gamma : R) rk d l cfl tf nout (sol0 : solution R),
  (2 <= nout)%Z -> (s_t sol0 <= tf)%R ->
  forall fuel evs s,
  (forall k tout touts s sc evs v,
     visits gamma rk d l cfl tf nout sol0 k tout touts s sc evs -> max_wave_speed gamma s = Ok v ->
     (s_dx s * cfl / (v * INR (2 * b_p (s_basis s) + 1)) <= (tf - s_t sol0) / INR (Z.to_nat nout - 1))%R) ->
  integrate gamma rk d l cfl tf nout fuel sol0 = (evs, Finished s) ->
  List.length evs = Z.to_nat nout /\
  forall i ev, nth_error evs i = Some ev ->
    ev_nout ev = i /\ s_t (ev_sol ev) = (s_t sol0 + INR i * ((tf - s_t sol0) / INR (Z.to_nat nout - 1)))%R.
Proof. exact @all_snapshots. Qed.

(** C04: the files of a run (complete or not) have pairwise distinct names; snapshots are numbered
    0, 1, 2, ...; a name determines the step and the field. *)
Theorem C04_file_names_distinct :
  forall (A : Type) (N : Num A) (L : Libm A) (X : Ext A) (gamma : A) rk d l cfl tf nout fuel sol evs out,
  integrate gamma rk d l cfl tf nout fuel sol = (evs, out) ->
  NoDup (map fst (flat_map printed_files evs)) /\
  (forall i ev, nth_error evs i = Some ev -> ev_nout ev = i).
Proof. exact @integrate_files. Qed.
Theorem C04_name_injective :
  forall n m f g,
  all_chars (fun c => negb (is_digit c)) f = true -> all_chars (fun c => negb (is_digit c)) g = true ->
  format_fname n f = format_fname m g -> n = m /\ f = g.
Proof. exact format_fname_inj. Qed.
Example C04_names : format_fnames 12 ["rho"; "rhou"; "E"]%string
  = ["rho0000000012.dat"; "rhou0000000012.dat"; "E0000000012.dat"]%string.
Proof. reflexivity. Qed.

(** C05: the CFL bound, for every accepted step from any state *)
Theorem C05_cfl_bound :
  forall (gamma : R) inner l cfl tf tout s sc s' sc' dt o dn,
  time_step gamma inner l cfl tf tout s sc = Ok (s', sc', (dt, o, dn)) ->
  exists v, max_wave_speed gamma s = Ok v /\
    (dt <= s_dx s * cfl / (v * INR (2 * b_p (s_basis s) + 1)))%R /\
    (1 / 100000000000000 <= s_dx s * cfl / (v * INR (2 * b_p (s_basis s) + 1)))%R.
Proof. exact @step_cfl_bound. Qed.
(** .. and a CFL step below 1e-14 raises, whatever the inner loop would have done *)
Theorem C05_small_step_aborts :
  forall (gamma : R) inner l cfl tf tout s sc v,
  max_wave_speed gamma s = Ok v ->
  (s_dx s * cfl / (v * INR (2 * b_p (s_basis s) + 1)) < 1 / 100000000000000)%R ->
  time_step gamma inner l cfl tf tout s sc = Raise (SysExit "Next time step is too small").
Proof. exact @small_cfl_raises. Qed.
(** .. which ends the run with the snapshots written so far *)
Theorem C05_abort_ends_run :
  forall (A : Type) (N : Num A) (L : Libm A) (gamma : A) rk d l cfl tf nout sol0 k tout touts s sc evs e,
  (0 <= nout)%Z ->
  visits gamma rk d l cfl tf nout sol0 k tout touts s sc evs ->
  time_step gamma (rk_inner gamma rk d l) l cfl tf tout s sc = Raise e ->
  exists F, forall fuel, F <= fuel -> integrate gamma rk d l cfl tf nout fuel sol0 = (evs, Failed e).
Proof. exact @visits_step_raise. Qed.

(** C06: IEEE doubles.  A cell average (ghost cells included) with a NaN or infinite entry, zero
    density, or negative gamma*p/rho makes the next step exit. *)
Theorem C06_bad_average_stops :
  forall (gamma : spec_float),
  (exists m e, gamma = S754_finite false m e) ->
  (exists m e, nsub gamma n1 = S754_finite false m e) ->
  forall inner l cfl tf tout (s : solution spec_float) sc c,
  s_euler s = true -> In c (split3 (row (s_u s) 0)) ->
  (let '(rho, m, E) := c in
     nonfinite rho \/ sf_zero rho \/ nonfinite m \/ nonfinite E \/
     nltb (ndiv (nmul gamma (pres gamma (rho, m, E))) rho) n0 = true) ->
  exists msg, time_step gamma inner l cfl tf tout s sc = Raise (SysExit msg).
Proof. exact @bad_average_stops. Qed.
(** gamma = 1.4 qualifies *)
Example C06_gamma : (exists m e, (gamma_default : spec_float) = S754_finite false m e) /\
  (exists m e, nsub (gamma_default : spec_float) n1 = S754_finite false m e).
Proof. split; vm_compute; eauto. Qed.
Theorem C06_run_stops :
  forall (L : Libm spec_float) (gamma : spec_float),
  (exists m e, gamma = S754_finite false m e) ->
  (exists m e, nsub gamma n1 = S754_finite false m e) ->
  forall rk d l cfl tf nout sol0 k tout touts s sc evs c, (0 <= nout)%Z ->
  visits gamma rk d l cfl tf nout sol0 k tout touts s sc evs ->
  s_euler s = true -> In c (split3 (row (s_u s) 0)) ->
  (let '(rho, m, E) := c in
     nonfinite rho \/ sf_zero rho \/ nonfinite m \/ nonfinite E \/
     nltb (ndiv (nmul gamma (pres gamma (rho, m, E))) rho) n0 = true) ->
  exists F msg, forall fuel, F <= fuel ->
    integrate gamma rk d l cfl tf nout fuel sol0 = (evs, Failed (SysExit msg)).
Proof. exact @bad_average_run. Qed.

(** C11 *)
Theorem C11_unknown_rk :
  forall (A : Type) (N : Num A) (L : Libm A) (gamma : A) rk,
  ~ In rk ["low_storage_rk4"; "rk3"; "rk4"; "rk5"; "rk6"; "rk8"; "rk10"; "rk12"; "rk14"]%string ->
  forall d l cfl tf nout fuel sol,
  integrate gamma rk d l cfl tf nout fuel sol = integrate gamma "rk4" d l cfl tf nout fuel sol.
Proof. exact @unknown_rk. Qed.
Theorem C11_unknown_riemann :
  forall (A : Type) (N : Num A) (L : Libm A) (X : Ext A) r, r <> "rusanov"%string -> r <> "godunov"%string ->
  forall icline system order enh (th : list A),
  Solution icline system order r enh th = Solution icline system order "roe" enh th.
Proof. exact @unknown_riemann. Qed.
Theorem C11_unknown_limiter :
  forall (A : Type) (N : Num A) (X : Ext A) t (s : solution A),
  t <> "adaptive_hr"%string -> Limiter t s = Ok None.
Proof. exact @unknown_limiter. Qed.
Theorem C11_unknown_system :
  forall (A : Type) (N : Num A) (L : Libm A) (X : Ext A) sys, sys <> "euler"%string ->
  forall icline order r enh (th : list A),
  Solution icline sys order r enh th = Solution icline "advection" order r enh th.
Proof. exact @unknown_system. Qed.
Theorem C11_system_and_solver :
  forall (A : Type) (N : Num A) (L : Libm A) (X : Ext A) icline sys order r enh (th : list A) s g,
  Solution icline sys order r enh th = Ok (s, g) ->
  s_NF s = (if String.eqb sys "euler" then 3 else 1) /\
  forall gamma ul ur, riemann gamma s ul ur =
    if String.eqb sys "euler"
    then if String.eqb r "rusanov" then riemann_rusanov gamma ul ur
         else if String.eqb r "godunov" then riemann_godunov gamma ul ur
         else riemann_roe gamma ul ur
    else Ok ul.
Proof. exact @solution_solver. Qed.

Print Assumptions C01_run_terminates.
Print Assumptions C02_time_steps_partial.
Print Assumptions C03_snapshots_partial.
Print Assumptions C03_all_snapshots_partial.
Print Assumptions C04_file_names_distinct.
Print Assumptions C05_cfl_bound.
Print Assumptions C05_small_step_aborts.
Print Assumptions C05_abort_ends_run.
Print Assumptions C06_bad_average_stops.
Print Assumptions C06_run_stops.
Print Assumptions C11_unknown_rk.
Print Assumptions C11_unknown_riemann.
Print Assumptions C11_unknown_limiter.
Print Assumptions C11_unknown_system.
Print Assumptions C11_system_and_solver.
Print Assumptions C04_name_injective.
