(** Vocabulary for statements about the output of analysis/dg_stability.py. *)
From Coq Require Import ZArith List Arith Reals Permutation Sorted.
From Verif Require Import Num Py Analysis SpecAnalysis.
Import ListNotations.
Open Scope R_scope.

(** the k-th of the fifty phases *)
Definition phase (k : nat) : C := (cos (PI * (2 * INR k - 49) / 49), sin (PI * (2 * INR k - 49) / 49)).
(** ndarray.argsort: the positions 0, 1, ... in an order in which the entries do not decrease *)
Definition argsort_ok (argsort : vec R -> list nat) : Prop :=
  forall v, Permutation (argsort v) (seq 0 (List.length v)) /\ StronglySorted (fun i j => nth i v 0 <= nth j v 0) (argsort v).
(** every entry of the list is an eigenvalue; every eigenvalue is in the list *)
Definition only_eigenvalues (n : nat) (M : mat C) (l : list C) : Prop := forall z, In z l -> exists w, eigen n M z w.
Definition all_eigenvalues (n : nat) (M : mat C) (l : list C) : Prop := forall z w, eigen n M z w -> In z l.
(** the arithmetic mean *)
Definition average (l : list R) : R := fold_right Rplus 0 l / INR (List.length l).
Definition conjugate (z : C) : C := (fst z, - snd z).
(** the angle under which q is seen from the mean of the points *)
Definition seen (arctan2 : R -> R -> R) (pts : list C) (q : C) : R := arctan2 (snd q - average (map snd pts)) (fst q - average (map fst pts)).
