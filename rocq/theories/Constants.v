(** dg1d/constants.py: the module-global ratio of specific heats. *)
From Coq Require Import ZArith.
From Verif Require Import Num.
(** constants.init(), constants.py:8-12: gamma = 1.4 *)
Definition gamma_default {A} {N : Num A} : A := lit 14 10.
