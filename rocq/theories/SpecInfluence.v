(** Vocabulary for the domain of influence of advected data. *)
From Coq Require Import ZArith List Bool Arith String.
From Verif Require Import Num Py PyStr Basis Solution Solver RKCoeffs RK SpecDG.
Import ListNotations.

(** the cell whose data flow into cell c: its left neighbour, or what the boundary condition puts there *)
Definition upstream (bl br : pystr) (ne c : nat) : nat := src_cell bl br ne (c - 1).
(** i cells upstream of c *)
Fixpoint above (bl br : pystr) (ne i c : nat) : nat := match i with O => c | S i => above bl br ne i (upstream bl br ne c) end.
(** evaluations of the right-hand side per time step *)
Definition evaluations (rk : string) : nat := if String.eqb rk "low_storage_rk4" then 4 else List.length (tb_coeffs (rk_choice rk)).
(** the data in and upstream of a cell, as far as the evaluations made so far reach, are the same in s and s', and so is then the cell in a and b *)
Definition unreached {A : Type} {N : Num A} (ne : nat) (s s' : solution A) (rk : string) (a b : solution A) : Prop :=
  forall c, 1 <= c <= ne ->
  (forall i, i <= evaluations rk * (s_n a - s_n s) -> let c' := above (s_bcl s) (s_bcr s) ne i c in modes s c' 0 = modes s' c' 0) ->
  modes a c 0 = modes b c 0.
