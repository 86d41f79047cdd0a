(** Vocabulary for statements about deck files: what a list of definitions says. *)
From Coq Require Import ZArith List Bool Arith String Ascii.
From Verif Require Import Num Py PyStr ProofsStr Ext Deck SpecText.
Import ListNotations.
Open Scope string_scope.

Section SpecDeck.
  Context {A : Type} {N : Num A} {X : Ext A}.
  (** deck d holds the last value given for each setting, and d0's where none is given *)
  Definition deck_given (defs : list (string * string)) (d0 d : deck A) : Prop :=
    let text v := Some (rstrip v) in
    let float v := parse_float (strip v) in
    given defs "PDE system" text (dk_system d0) (dk_system d) /\
    given defs "RK scheme" text (dk_rk d0) (dk_rk d) /\
    given defs "riemann solver" text (dk_riemann d0) (dk_riemann d) /\
    given defs "initial condition" text (dk_ic d0) (dk_ic d) /\
    given defs "number of outputs" parse_int (dk_nout d0) (dk_nout d) /\
    given defs "final time" float (dk_finaltime d0) (dk_finaltime d) /\
    given defs "Courant-Friedrichs-Lewy condition" float (dk_cfl d0) (dk_cfl d) /\
    given defs "order" parse_int (dk_order d0) (dk_order d) /\
    given defs "limiting" text (dk_limiting d0) (dk_limiting d) /\
    given defs "enhancement" text (dk_enhance d0) (dk_enhance d) /\
    given defs "sensor thresholds" (fun v => read_all (fun w => parse_float (strip w)) (split_ws v)) (dk_thresholds d0) (dk_thresholds d).
  (** the numeric settings are given as numbers *)
  Definition readable (d : string * string) : bool :=
    ((negb (existsb (String.eqb (fst d)) int_names) || is_some (parse_int (snd d)))
     && (negb (existsb (String.eqb (fst d)) float_names) || is_some (parse_float (A := A) (strip (snd d))))
     && (negb (String.eqb (fst d) "sensor thresholds") || is_some (read_all (fun w => parse_float (A := A) (strip w)) (split_ws (snd d)))))%bool.
End SpecDeck.
