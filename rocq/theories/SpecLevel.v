(** Vocabulary for statements about a change of sign or of zero level of advected data. *)
From Coq Require Import ZArith List Bool Arith String Reals.
From Verif Require Import Num Py Ext Basis Solution Limiting Solver RK SpecDG SpecUniform.
Import ListNotations.
Open Scope list_scope.
Open Scope R_scope.

(** advection of u' = k u + c in place of u, on the modes n of the cells e that [hold] selects: same discretisation, boundary conditions,
    enhancement, sensors and clock; averages multiplied by k and raised by c, higher modes multiplied by k *)
Record lifted_on {X : Ext R} (hold : nat -> nat -> Prop) (k c : R) (ne : nat) (s s' : solution R) : Prop := {
  lf_made : made ne s;
  lf_made' : made ne s';
  lf_euler : s_euler s = false /\ s_euler s' = false;
  lf_same : s_basis s' = s_basis s /\ s_enh s' = s_enh s /\ s_sens s' = s_sens s /\ s_dx s' = s_dx s /\ s_bcl s' = s_bcl s /\ s_bcr s' = s_bcr s;
  lf_clock : s_t s' = s_t s /\ s_n s' = s_n s;
  lf_modes : forall e n, (e < ne + 2)%nat -> (n < s_Ns s)%nat -> hold e n ->
    at1 (modes s' e 0) n = k * at1 (modes s e 0) n + match n with O => c | S _ => 0 end
}.
(** .. everywhere *)
Definition lifted {X : Ext R} := lifted_on (fun _ _ => True).
(** the solution with data k u + c *)
Definition lift (k c : R) (ne : nat) (s : solution R) : solution R :=
  with_u s (tab2 (s_Ns s) ((ne + 2) * s_NF s) (fun n j => k * at2 (s_u s) n j + match n with O => c | S _ => 0 end)).
(** snapshots: same number and step, lifted states *)
Definition lifted_event {X : Ext R} (k c : R) (ne : nat) (x y : event R) : Prop :=
  ev_nout y = ev_nout x /\ ev_dt y = ev_dt x /\ lifted k c ne (ev_sol x) (ev_sol y).
(** both runs complete, with lifted states, or fail with the same exception, or need more fuel *)
Inductive lifted_outcome {X : Ext R} (k c : R) (ne : nat) : outcome R -> outcome R -> Prop :=
| lo_finished s s' : lifted k c ne s s' -> lifted_outcome k c ne (Finished s) (Finished s')
| lo_failed e : lifted_outcome k c ne (Failed e) (Failed e)
| lo_fuel : lifted_outcome k c ne OutOfFuel OutOfFuel.
