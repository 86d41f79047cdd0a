(** Vocabulary for convergence statements. *)
From Coq Require Import Reals.
From Verif Require Import Num Basis Solution.
Open Scope R_scope.

(** f is periodic with period L and has a derivative with Lipschitz constant M *)
Definition smooth_wave (f g : R -> R) (M L : R) : Prop :=
  (forall x, derivable_pt_lim f x (g x)) /\ (forall x y, Rabs (g x - g y) <= M * Rabs (x - y)) /\ (forall x, f (x + L) = f x).
(** centre of cell e of a grid with left end A *)
Definition centre (A dx : R) (e : nat) : R := A + (INR e - 1 / 2) * dx.
