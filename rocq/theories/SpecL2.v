(** Vocabulary for statements about the L2 norm of advection runs. *)
From Coq Require Import ZArith List Bool Arith Reals.
From Verif Require Import Num RealLib Basis Solution SpecDG SpecPoly.
Import ListNotations.
Open Scope R_scope.

(** E is the integral of the square of the solution (field 0) over the interior cells *)
Definition l2sq (ne : nat) (s : solution R) (E : R) : Prop :=
  exists v : nat -> R, (forall e, (1 <= e <= ne)%nat ->
      integral (fun x => s_dx s / 2 * (legseries (modes s e 0) x * legseries (modes s e 0) x)) (-1) 1 (v e)) /\
    E = Rsum ne (fun i => v (i + 1)%nat).
(** ... of the square of the difference of two solutions on the same grid *)
Definition l2dist (ne : nat) (s1 s2 : solution R) (E : R) : Prop :=
  exists v : nat -> R, (forall e, (1 <= e <= ne)%nat ->
      integral (fun x => s_dx s1 / 2 * ((legseries (modes s1 e 0) x - legseries (modes s2 e 0) x) * (legseries (modes s1 e 0) x - legseries (modes s2 e 0) x))) (-1) 1 (v e)) /\
    E = Rsum ne (fun i => v (i + 1)%nat).
(** the norm of [later] is at most that of [earlier] *)
Definition l2_decays (ne : nat) (earlier later : solution R) : Prop :=
  exists E E', l2sq ne earlier E /\ l2sq ne later E' /\ E' <= E.
(** the largest CFL number for which stability is shown *)
Definition cfl_max (p : nat) : R := INR (2 * p + 1) / (2 * (INR (p + 1) * INR (p + 1))).
