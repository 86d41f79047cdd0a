(** Vocabulary of C79 and C80: flows given by an initial condition. *)
From Coq Require Import List Reals String.
From Verif Require Import Num Py PyStr Ext IC SpecEuler.
Import ListNotations.
Open Scope list_scope.
Open Scope R_scope.

(** the initial condition is the flow of density rho, velocity v and pressure p, written in conserved variables *)
Definition is_flow {X : Ext R} (ic : ic_spec R) (rho v p : R -> R) : Prop :=
  forall x, ic_f ic x = Ok [rho x; rho x * v x; energy (ic_gamma_after ic) (rho x) (v x) (p x)].
(** parameter number i of the initial-condition line is the number v *)
Definition given {X : Ext R} (params : list string) (i : nat) (v : R) : Prop :=
  exists t, nth_error params i = Some t /\ parse_float t = Some v.
