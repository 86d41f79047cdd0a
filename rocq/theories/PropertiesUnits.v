(** Property C71: Euler runs do not depend on the units of density, velocity and length. *)
From Coq Require Import ZArith List Bool Arith String Lia Reals Lra.
From Verif Require Import Num Py PyStr Lib RealLib Constants LegNumpy Ext Basis Sensor Enhance Limiting EulerPhysics Solution Solver RKCoeffs RK SpecDG SpecTime SpecPoly SpecRK SpecUniform SpecEuler SpecContact SpecUnits
  ProofsDG ProofsCons ProofsWf ProofsSol ProofsRun ProofsUnits ProofsUnitsGodunov ProofsUnitsRun ExtReal Witness PropertiesContact.
Import ListNotations.
Open Scope list_scope.
Open Scope R_scope.

(** C71: the run of the converted problem, with the converted final time, writes the converted snapshots after the converted steps and ends alike; any order,
    scheme, boundary conditions, enhancement and limiter; unless the time unit changes and one of the two runs is abandoned because a step is below 1e-14,
    up to which point they correspond.  For the exact solver the unit of pressure must stay the same. *)
Theorem C71_units : forall gamma al be le ne (sol sol' : solution R) d, 0 < al -> 0 < be -> 0 < le -> rescaled al be le ne sol sol' -> unit_flux al be (s_riemann sol) -> wf_dg ne sol d ->
  forall l rk cfl tf nout fuel,
  let r := integrate gamma rk d l cfl tf nout fuel sol in
  let r' := integrate gamma rk d l cfl (le / be * tf) nout fuel sol' in
  common (rescaled_event al be le ne) (fst r) (fst r') /\
  ((List.length (fst r') = List.length (fst r) /\ rescaled_outcome al be le ne (snd r) (snd r')) \/ (le <> be /\ (too_small (snd r) \/ too_small (snd r')))).
Proof. exact units_run. Qed.

(** the fluxes, the wave speeds and the sensors behind it *)
Theorem C71_fluxes : forall g al be, 0 < al -> 0 < be -> forall l r, let U := state_unit al be in
  rusanov1 g (U l) (U r) = flux_unit al be (rusanov1 g l r) /\ roe1 g (U l) (U r) = flux_unit al be (roe1 g l r) /\ flux1 g (U l) = flux_unit al be (flux1 g l) /\
  wave_speed g (U l) = be * wave_speed g l /\ contact_value g (U l) (U r) = contact_value g l r /\ shock_value g (U l) (U r) = shock_value g l r /\
  (al * (be * be) = 1 -> godunov1 g (U l) (U r) = rmap al be (godunov1 g l r)).
Proof.
  intros g al be Ha Hb l r. cbv zeta. split; [apply rusanov_unit; assumption|]. split; [apply roe1_unit; assumption|]. split; [apply flux1_unit; assumption|]. split; [apply speed_unit; assumption|].
  split; [apply contact_unit; assumption|]. split; [apply shock_unit; assumption|]. intro H. apply godunov_unit; assumption.
Qed.

(** the exact solver's answer depends on the unit of density: gas colliding at half the speed of sound, described in units 1e5 times larger, gets a flux that is too small *)
Theorem C71_godunov_refuted : exists f1 f2 : R,
  godunov1 3 (cons 3 1 (1 / 2) (1 / 3)) (cons 3 1 (- (1 / 2)) (1 / 3)) = Ok (0, f1, 0) /\
  godunov1 3 (state_unit (1 / 100000) 1 (cons 3 1 (1 / 2) (1 / 3))) (state_unit (1 / 100000) 1 (cons 3 1 (- (1 / 2)) (1 / 3))) = Ok (0, f2, 0) /\ f2 < 1 / 100000 * f1.
Proof. exact godunov_units. Qed.

(** every solution has a converted counterpart *)
Theorem C71_convert : forall al be le ne s, wf ne s -> s_euler s = true -> rescaled al be le ne s (convert al be le ne s).
Proof. exact convert_rescaled. Qed.
(** two layers in motion, with velocities and lengths three times and densities one ninth as large: both runs complete *)
Example C71_witness : forall rk (r : string), In rk ["rk3"; "rk4"; "low_storage_rk4"]%string -> In r ["roe"; "godunov"]%string -> exists s d F evs evs' s1 s1',
  rescaled (1 / 9) 3 3 8 s (convert (1 / 9) 3 3 8 s) /\ unit_flux (1 / 9) 3 (s_riemann s) /\ wf_dg 8 s d /\
  integrate (14 / 10) rk d None (1 / 2) 5 3 F s = (evs, Finished s1) /\ integrate (14 / 10) rk d None (1 / 2) 5 3 F (convert (1 / 9) 3 3 8 s) = (evs', Finished s1') /\
  List.length evs' = List.length evs /\ s_t s1 = 5 /\ rescaled (1 / 9) 3 3 8 s1 s1'.
Proof.
  intros rk r Hk Hr. destruct (C64_witness rk r Hk Hr) as [s [d [M [D [_ [_ [_ [_ [Eu [HR [_ [_ [_ [_ [_ [_ [F [evs [s1 [Et [HF _]]]]]]]]]]]]]]]]]]]]].
  pose proof (C71_convert (1 / 9) 3 3 8 s (md_wf _ _ M) Eu) as RS.
  assert (UF : unit_flux (1 / 9) 3 (s_riemann s)) by (destruct HR as [->| ->]; [right; left; reflexivity|right; right; split; [reflexivity|lra]]).
  destruct (C71_units (14 / 10) (1 / 9) 3 3 8 s _ d ltac:(lra) ltac:(lra) ltac:(lra) RS UF D None rk (1 / 2) 5 3%Z F) as [_ [[L O]|[X _]]]; [|exfalso; apply X; reflexivity].
  replace (3 / 3 * 5) with 5 in * by field. rewrite (HF F (le_n F)) in *. cbn [fst snd] in *.
  destruct (integrate _ _ _ _ _ _ _ _ (convert _ _ _ _ s)) as [evs' o'] eqn:E'. cbn [fst snd] in *. inversion O as [? s1' R1| |]; subst.
  exists s, d, F, evs, evs', s1, s1'. split; [exact RS|]. split; [exact UF|]. split; [exact D|]. split; [exact (HF F (le_n F))|]. split; [exact E'|]. split; [exact L|]. split; [exact Et|exact R1].
Qed.

Print Assumptions C71_units.
Print Assumptions C71_fluxes.
Print Assumptions C71_godunov_refuted.
Print Assumptions C71_convert.
