(** External library routines with no useful source in /repo, as oracles.  Theorems state the
    contract they need of each oracle as an explicit hypothesis. *)
From Coq Require Import ZArith List Bool String.
From Verif Require Import Num Py.

Class Ext (A : Type) := {
  (** numpy.polynomial.legendre.leggauss(deg): nodes and weights (basis.py:36) *)
  leggauss : nat -> list A * list A;
  (** numpy.linalg.inv: the inverse, or LinAlgError (limiting.py:40-41, enhance.py:140) *)
  linv : list (list A) -> res (list (list A));
  (** numpy.polynomial.legendre.legfit(x, y, deg): least-squares fit (basis.py:132) *)
  legfit : list A -> list A -> nat -> list A;
  (** float(s): None when Python raises ValueError *)
  parse_float : string -> option A;
  (** '%.18e' % x *)
  fmt_e18 : A -> string
}.
