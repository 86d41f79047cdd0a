(** Vocabulary for statements about the scripts: reading numbers up to rounding, root mean squares, plotted values. *)
From Coq Require Import ZArith List Bool Arith String Reals.
From Verif Require Import Num Py PyStr ProofsStr Ext Basis Solution RealLib SpecDG SpecText SpecIO SpecPoly.
Import ListNotations.
Open Scope R_scope.

Section SpecScripts.
  Context {X : Ext R}.
  (** the text of v is one token, and reads as a number within delta of v *)
  Definition near_text (delta v : R) : Prop :=
    fmt_e18 v <> EmptyString /\ plain (fmt_e18 v) = true /\ exists w, parse_float (fmt_e18 v) = Some w /\ Rabs (w - v) <= delta.
  (** ... for every number of a snapshot *)
  Definition texts_near (delta : R) (ne : nat) (s : solution R) : Prop :=
    near_text delta (s_t s) /\ (forall e, (e < ne)%nat -> near_text delta (at1 (s_xc s) e)) /\
    (forall n j, (n < s_Ns s)%nat -> interior_col ne (s_NF s) j -> near_text delta (at2 (s_u s) n j)).
End SpecScripts.

(** root mean square of f 1, ..., f n *)
Definition rms (n : nat) (f : nat -> R) : R := sqrt (Rsum n (fun i => f (i + 1)%nat * f (i + 1)%nat) / INR n).

(** value of field f at the point x of [-1,1] of cell e *)
Definition value_at (s : solution R) (e f : nat) (x : R) : R := legseries (modes s e f) x.
(** what a plot shows for it: the value itself, or density, velocity and pressure at gamma *)
Definition shown (gamma : R) (s : solution R) (e f : nat) (x : R) : R :=
  if s_euler s then
    let rho := value_at s e 0 x in
    let u := value_at s e 1 x / rho in
    match f with
    | 0%nat => rho
    | 1%nat => u
    | _ => (gamma - 1) * (value_at s e 2 x - rho * (u * u) / 2)
    end
  else value_at s e f x.

(** two solutions on the same number of cells and modes whose centroids and interior modes differ by less than tol *)
Definition agree (tol : R) (ne : nat) (s g : solution R) : Prop :=
  s_Ns s = s_Ns g /\ (forall e, (e < ne)%nat -> Rabs (at1 (s_xc s) e - at1 (s_xc g) e) < tol) /\
  (forall n e f, (n < s_Ns s)%nat -> (1 <= e <= ne)%nat -> (f < s_NF s)%nat ->
     Rabs (at2 (s_u s) n (e * s_NF s + f) - at2 (s_u g) n (e * s_NF s + f)) < tol).
