(** Vocabulary for a change of sign of advected data in binary64. *)
From Coq Require Import ZArith List Bool Arith String Floats.SpecFloat.
From Verif Require Import Num Py Basis Solution Limiting Solver RK SpecDG.
Import ListNotations.
Open Scope list_scope.

(** y = -x, where the two zeros count as one number (as they do for ==) *)
Definition opposite (x y : spec_float) : Prop := y = SFopp x \/ exists a b, x = S754_zero a /\ y = S754_zero b.
(** the same problem with opposite data: same discretisation, boundary conditions, thresholds and clock *)
Record negated (ne : nat) (s s' : solution spec_float) : Prop := {
  ng_wf : wf ne s;
  ng_wf' : wf ne s';
  ng_same : similar s s';
  ng_clock : s_t s' = s_t s /\ s_n s' = s_n s;
  ng_modes : forall e f n, e < ne + 2 -> f < s_NF s -> n < s_Ns s -> opposite (at1 (modes s e f) n) (at1 (modes s' e f) n)
}.
(** data with all signs changed *)
Definition negate (s : solution spec_float) : solution spec_float := with_u s (map (map SFopp) (s_u s)).
Definition negated_event (ne : nat) (x y : event spec_float) : Prop := ev_nout y = ev_nout x /\ ev_dt y = ev_dt x /\ negated ne (ev_sol x) (ev_sol y).
Inductive negated_outcome (ne : nat) : outcome spec_float -> outcome spec_float -> Prop :=
| no_finished s s' : negated ne s s' -> negated_outcome ne (Finished s) (Finished s')
| no_failed e : negated_outcome ne (Failed e) (Failed e)
| no_fuel : negated_outcome ne OutOfFuel OutOfFuel.
