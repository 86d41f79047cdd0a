(** Vocabulary for statements about continuing a run from one of its snapshots. *)
From Coq Require Import ZArith List Bool Arith String.
From Verif Require Import Num Py LegNumpy Ext Basis Limiting Solution Solver RKCoeffs RK.
Import ListNotations.

Section SpecRestart.
  Context {A : Type} {N : Num A}.
  (** the snapshot with its number lowered by k: what a run started k snapshots later writes *)
  Definition renumbered (k : nat) (ev : event A) : event A :=
    {| ev_nout := ev_nout ev - k; ev_dt := ev_dt ev; ev_sol := ev_sol ev |}.
  (** the snapshot every run writes before its first step: number 0, step length 0 *)
  Definition opening (s : solution A) : event A := {| ev_nout := 0; ev_dt := n0; ev_sol := s |}.
End SpecRestart.
