(** Vocabulary for statements about enhancement: moments of polynomials on the reference cell. *)
From Coq Require Import ZArith List Bool Arith Reals.
From Verif Require Import Num Py RealLib SpecPoly.
Import ListNotations.
Open Scope R_scope.

(** f and g have the same moment with the Legendre polynomial P_m over [-1,1] *)
Definition same_moment (m : nat) (f g : R -> R) : Prop :=
  forall v, integral (fun x => LegP m x * f x) (-1) 1 v <-> integral (fun x => LegP m x * g x) (-1) 1 v.
(** q is a polynomial of degree at most p + (number of modes), in the coordinates of one cell: it has all
    moments of that cell's polynomial up to order p, and those moments of the neighbouring cell's that
    are listed in modes.  The neighbour's reference cell is at distance d (2: right, -2: left). *)
Definition reconstructs (p : nat) (modes : list nat) (d : R) (cell nb q : list R) : Prop :=
  length q = (p + length modes + 1)%nat /\
  (forall m, (m <= p)%nat -> same_moment m (legseries q) (legseries cell)) /\
  (forall m, In m modes -> same_moment m (fun x => legseries q (x + d)) (legseries nb)).
(** the only such polynomial has value v at x *)
Definition reconstructed_value (p : nat) (modes : list nat) (d : R) (cell nb : list R) (x v : R) : Prop :=
  exists q, reconstructs p modes d cell nb q /\ (forall q', reconstructs p modes d cell nb q' -> q' = q) /\ legseries q x = v.
