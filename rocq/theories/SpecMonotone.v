(** Vocabulary for statements about the range and the variation of advection data. *)
From Coq Require Import List Arith String Reals.
From Verif Require Import Num Py RealLib Basis Solution SpecDG.
Open Scope R_scope.

(** average of a cell *)
Definition average (s : solution R) (e : nat) : R := at1 (modes s e 0) 0.
(** sum over the cells of the jump to the left neighbour; the left neighbour of the first cell is the last one in a periodic
    domain and the cell itself with zero gradient *)
Definition variation (ne : nat) (s : solution R) : R :=
  Rsum ne (fun i => Rabs (average s (i + 1) - average s (src_cell (s_bcl s) (s_bcr s) ne i))).
