(** Vocabulary for the domain of dependence of a cell, for both systems of equations. *)
From Coq Require Import ZArith List Bool Arith String.
From Verif Require Import Num Py PyStr Ext Basis Solution Limiting Solver RKCoeffs RK SpecTime SpecDG SpecInfluence.
Import ListNotations.
Open Scope list_scope.

(** the cells at most j neighbours away from c, the neighbours of the outer cells being those the boundary conditions make *)
Fixpoint reach (bl br : pystr) (ne j c : nat) : list nat :=
  match j with
  | O => [c]
  | S j => reach bl br ne j c ++ reach bl br ne j (src_cell bl br ne (c - 1)) ++ reach bl br ne j (src_cell bl br ne (c + 1))
  end.
Section Steps.
  Context {A : Type} {N : Num A} {L : Libm A}.
  (** steps of the given lengths one after the other: what the body of the time loop does (rk.py:77-124, 147-194) once the step is chosen *)
  Fixpoint steps (gamma : A) (rk : string) (d : dg) (l : limiter (A:=A)) (dts : list A) (s : solution A) (sc : scratch A) : res (solution A * scratch A) :=
    match dts with
    | [] => Ok (s, sc)
    | dt :: dts =>
        let! r := rk_inner gamma rk d l dt s (set_us sc s) in
        let '(s1, sc1) := r in
        let! s2 := apply_bc (with_n (with_t s1 (nadd (s_t s1) dt)) (s_n s1 + 1)) in
        let! s3 := limit gamma l s2 in
        steps gamma rk d l dts s3 sc1
    end.
  (** cells per step: one for every evaluation of the right-hand side and one for every use of the limiter, which is used as often *)
  Definition radius (l : limiter (A:=A)) (rk : string) : nat := match l with None => evaluations rk | Some _ => 2 * evaluations rk end.
  (** the variables of a run at its start *)
  Definition fresh (rk : string) (s : solution A) : scratch A := {| sc_us := s; sc_uk := s; sc_K := rk_K0 rk s |}.
  (** a cell is the same in a and b if the data s and s' agree up to k cells away from it *)
  Definition untouched (ne k : nat) (s s' a b : solution A) : Prop :=
    forall c, 1 <= c <= ne ->
    (forall c' f, In c' (reach (s_bcl s) (s_bcr s) ne k c) -> f < s_NF s -> modes s c' f = modes s' c' f) ->
    forall f, f < s_NF s -> modes a c f = modes b c f.
End Steps.
