(** Vocabulary for statements about changes of units. *)
From Coq Require Import ZArith List Bool Arith String Reals.
From Verif Require Import Num Py LegNumpy Ext Basis Sensor Enhance EulerPhysics Solution RK SpecDG.
Import ListNotations.
Open Scope list_scope.
Open Scope R_scope.

(** In units in which densities read [al] times, velocities [be] times and lengths [le] times as large, density, momentum and energy
    read [field_unit al be 0], [.. 1], [.. 2] times as large, and times [le / be] times. *)
Definition field_unit (al be : R) (f : nat) : R := match f with O => al | 1%nat => al * be | _ => al * (be * be) end.
(** a conserved state in the new units *)
Definition state_unit (al be : R) (c : R * R * R) : R * R * R := let '(r, m, E) := c in (al * r, al * be * m, al * (be * be) * E).

(** the same gas flow in the new units: same discretisation, flux function, boundary conditions, enhancement, step count and sensors; mesh width,
    inverse mass matrix, time and every coefficient of every cell converted *)
Record rescaled (al be le : R) (ne : nat) (s s' : solution R) : Prop := {
  rs_wf : wf ne s;
  rs_wf' : wf ne s';
  rs_euler : s_euler s = true /\ s_euler s' = true;
  rs_same : s_basis s' = s_basis s /\ s_riemann s' = s_riemann s /\ s_bcl s' = s_bcl s /\ s_bcr s' = s_bcr s /\ s_enh s' = s_enh s /\ s_sens s' = s_sens s /\ s_n s' = s_n s;
  rs_dx : s_dx s' = le * s_dx s;
  rs_minv : forall n, (n < s_Ns s)%nat -> at1 (s_minv s') n = at1 (s_minv s) n / le;
  rs_t : s_t s' = le / be * s_t s;
  rs_modes : forall e f n, (e < ne + 2)%nat -> (f < 3)%nat -> (n < s_Ns s)%nat -> at1 (modes s' e f) n = field_unit al be f * at1 (modes s e f) n
}.
(** a solution written in the new units *)
Definition convert (al be le : R) (ne : nat) (s : solution R) : solution R :=
  {| s_basis := s_basis s; s_icname := s_icname s; s_params := s_params s; s_t := le / be * s_t s;
     s_n := s_n s; s_NE := s_NE s; s_x := map (Rmult le) (s_x s); s_xc := map (Rmult le) (s_xc s); s_dx := le * s_dx s;
     s_u := tab2 (s_Ns s) ((ne + 2) * s_NF s) (fun n j => field_unit al be (j mod s_NF s) * at2 (s_u s) n j);
     s_minv := map (fun x => x / le) (s_minv s); s_euler := s_euler s; s_riemann := s_riemann s; s_bcl := s_bcl s;
     s_bcr := s_bcr s; s_enh := s_enh s; s_sens := s_sens s |}.
(** fluxes without absolute tolerance on this change of units: the exact solver compares pressures with 1e-6 *)
Definition unit_flux (al be : R) (r : riemann_kind) : Prop := r = RRusanov \/ r = RRoe \/ (r = RGodunov /\ al * (be * be) = 1).
(** snapshots: same number, step and state converted *)
Definition rescaled_event (al be le : R) (ne : nat) (x y : event R) : Prop :=
  ev_nout y = ev_nout x /\ ev_dt y = le / be * ev_dt x /\ rescaled al be le ne (ev_sol x) (ev_sol y).
(** both runs complete, with converted states, or fail with the same exception, or need more fuel *)
Inductive rescaled_outcome (al be le : R) (ne : nat) : outcome R -> outcome R -> Prop :=
| ro_finished s s' : rescaled al be le ne s s' -> rescaled_outcome al be le ne (Finished s) (Finished s')
| ro_failed e : rescaled_outcome al be le ne (Failed e) (Failed e)
| ro_fuel : rescaled_outcome al be le ne OutOfFuel OutOfFuel.
(** the run was abandoned because a step fell below 1e-14 *)
Definition too_small (o : outcome R) : Prop := o = Failed (SysExit "Next time step is too small").
(** the snapshots both runs have written correspond *)
Definition common {P : Type} (Rel : P -> P -> Prop) (xs ys : list P) : Prop :=
  forall i x y, nth_error xs i = Some x -> nth_error ys i = Some y -> Rel x y.
