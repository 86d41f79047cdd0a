(** Vocabulary for statements about mirror images of gas flows. *)
From Coq Require Import ZArith List Bool Arith String Reals.
From Verif Require Import Num Py LegNumpy Ext Basis Sensor Enhance EulerPhysics Solution RK SpecDG SpecEuler.
Import ListNotations.
Open Scope list_scope.
Open Scope R_scope.

(** a reflection x -> -x reverses the sign of the momentum, not of density and energy *)
Definition parity (f : nat) : R := match f with 1%nat => -1 | _ => 1 end.

(** the same gas flow seen in a mirror: cells in reverse order, in each cell the polynomial c(-x) (P_n is even or odd with n), momenta reversed; the boundary
    conditions change sides.  Everything else is the same. *)
Record mirrored {X : Ext R} (ne : nat) (s s' : solution R) : Prop := {
  mi_made : made ne s;
  mi_made' : made ne s';
  mi_euler : s_euler s = true /\ s_euler s' = true;
  mi_same : s_basis s' = s_basis s /\ s_riemann s' = s_riemann s /\ s_enh s' = s_enh s /\ s_n s' = s_n s /\ s_t s' = s_t s /\ s_dx s' = s_dx s;
  mi_bc : s_bcl s' = s_bcr s /\ s_bcr s' = s_bcl s;
  mi_modes : forall e f n, (e < ne + 2)%nat -> (f < 3)%nat -> (n < s_Ns s)%nat ->
    at1 (modes s' e f) n = parity f * ((-1) ^ n * at1 (modes s (ne + 1 - e) f) n)
}.
(** the mirror image of a solution *)
Definition reflect (ne : nat) (s : solution R) : solution R :=
  {| s_basis := s_basis s; s_icname := s_icname s; s_params := s_params s; s_t := s_t s; s_n := s_n s; s_NE := s_NE s;
     s_x := rev (map Ropp (s_x s)); s_xc := rev (map Ropp (s_xc s)); s_dx := s_dx s;
     s_u := tab2 (s_Ns s) ((ne + 2) * s_NF s) (fun n j => parity (j mod s_NF s) * ((-1) ^ n * at2 (s_u s) n ((ne + 1 - j / s_NF s) * s_NF s + j mod s_NF s)));
     s_minv := s_minv s; s_euler := s_euler s; s_riemann := s_riemann s; s_bcl := s_bcr s; s_bcr := s_bcl s; s_enh := s_enh s; s_sens := s_sens s |}.
(** snapshots: same number, same step, mirrored state *)
Definition mirrored_event {X : Ext R} (ne : nat) (x y : event R) : Prop :=
  ev_nout y = ev_nout x /\ ev_dt y = ev_dt x /\ mirrored ne (ev_sol x) (ev_sol y).
(** both runs complete, with mirrored states, or fail with exceptions related by Ex, or need more fuel *)
Inductive mirrored_outcome {X : Ext R} (ne : nat) (Ex : exn -> exn -> Prop) : outcome R -> outcome R -> Prop :=
| mo_finished s s' : mirrored ne s s' -> mirrored_outcome ne Ex (Finished s) (Finished s')
| mo_failed e e' : Ex e e' -> mirrored_outcome ne Ex (Failed e) (Failed e')
| mo_fuel : mirrored_outcome ne Ex OutOfFuel OutOfFuel.
(** the two states of the Riemann problem at the interface between cells e and e + 1 *)
Definition left_of (s : solution R) (e : nat) : R * R * R := (face_minus s (modes s) e 0, face_minus s (modes s) e 1, face_minus s (modes s) e 2).
Definition right_of (s : solution R) (e : nat) : R * R * R := (face_plus s (modes s) e 0, face_plus s (modes s) e 1, face_plus s (modes s) e 2).
(** positive density and pressure on both sides of every interface, once the ghost cells are filled *)
Definition physical (gamma : R) (ne : nat) (s : solution R) : Prop := forall t, apply_bc s = Ok t -> forall e, (e <= ne)%nat ->
  admissible gamma (left_of t e) /\ admissible gamma (right_of t e).
(** .. and no interface at which the gas on the left moves to the right and the gas on the right to the left, both at supersonic speed *)
Definition no_collision (gamma : R) (ne : nat) (s : solution R) : Prop := forall t, apply_bc s = Ok t -> forall e, (e <= ne)%nat ->
  exists rl vl pl rr vr pr, 0 < rl /\ 0 < pl /\ 0 < rr /\ 0 < pr /\ left_of t e = cons gamma rl vl pl /\ right_of t e = cons gamma rr vr pr /\ (vl < sound_of gamma rl pl \/ - sound_of gamma rr pr < vr).
