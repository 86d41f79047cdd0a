(** Vocabulary for statements about decimal text of doubles: real values. *)
From Coq Require Import ZArith Reals SpecFloat Bool.
From Verif Require Import Num.
Open Scope Z_scope.

Definition rat (a b : Z) : R := (IZR a / IZR b)%R.
Definition value (x : spec_float) : R :=
  match x with
  | S754_finite s m e => ((if s then -1 else 1) * IZR (Z.pos m) * powerRZ 2 e)%R
  | _ => 0%R
  end.
Definition is_finite64 (x : spec_float) : bool :=
  match x with S754_finite _ _ _ | S754_zero _ => valid_binary prec64 emax64 x | _ => false end.
