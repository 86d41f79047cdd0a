(** Vocabulary for statements about growing modes. *)
From Coq Require Import List Arith Reals.
From Verif Require Import Num Py Lib RealLib Solution SpecDG.
Open Scope R_scope.
(** the sum of the squares of mode n of the first field over the interior cells *)
Definition energy (ne : nat) (s : solution R) (n : nat) : R := Rsum ne (fun c => at1 (modes s (S c) 0) n * at1 (modes s (S c) 0) n).
