(** Vocabulary for C14: constant states. *)
From Coq Require Import ZArith List Bool Arith String Reals.
From Verif Require Import Num Py PyStr Ext Basis Enhance Solution Limiting Solver SpecDG SpecEuler SpecLimit.
Import ListNotations.
Open Scope list_scope.
Open Scope R_scope.

(** modes of the constant c *)
Definition cmodes (p : nat) (c : R) : list R := c :: repeat 0 p.
(** boundary names apply_bc acts on *)
Definition bc_known (b : pystr) : Prop := is_literal b "periodic" = true \/ is_literal b "zerograd" = true.
(** enhancement off, or built from distinct modes up to the order *)
Definition enh_sound {X : Ext R} (s : solution R) : Prop :=
  match s_enh s with
  | None => True
  | Some e => exists mthd, Enhance (b_p (s_basis s)) mthd = Ok e /\ NoDup (e_modes e) /\ (forall m, In m (e_modes e) -> m <= b_p (s_basis s))%nat
  end.
(** the interior cells hold the constant state c *)
Definition uniform (ne : nat) (c : nat -> R) (s : solution R) : Prop :=
  forall e f, (1 <= e <= ne)%nat -> (f < s_NF s)%nat -> modes s e f = cmodes (b_p (s_basis s)) (c f).
(** .. an admissible one for the Euler equations *)
Definition good_state (gamma : R) (c : nat -> R) (s : solution R) : Prop :=
  s_euler s = true -> 1 < gamma /\ admissible gamma (c 0%nat, c 1%nat, c 2%nat).

(** every cell, ghosts included *)
Definition uniform_all (ne : nat) (c : nat -> R) (s : solution R) : Prop :=
    forall e f, (e < ne + 2)%nat -> (f < s_NF s)%nat -> modes s e f = cmodes (b_p (s_basis s)) (c f).
(** what Limiter made of any name; with a sensor, thresholds that are not negative *)
Definition limiter_of {X : Ext R} (s : solution R) (l : limiter (A:=R)) : Prop :=
  exists name, Limiter name s = Ok l /\ (l = None \/ quiet s (fun t => 0 <= t)).
