(** Vocabulary for statements about the stability plot of the Runge-Kutta options. *)
From Coq Require Import List String Reals.
From Verif Require Import Num Py LegNumpy Ext Basis Enhance RKCoeffs Analysis SpecAnalysis.
Import ListNotations.
Open Scope R_scope.

(** modulus of the determinant at z *)
Definition factor (det : mat C -> C) (method : string) (z : C) : R :=
  stability_sigma det (fst (get_formatted_rk_coeffs method)) (snd (get_formatted_rk_coeffs method)) z.
(** what is drawn, the lower half being the mirror image of the upper one *)
Definition rectangle (z : C) : Prop := -6 <= fst z <= 3 /\ -6 <= snd z <= 6.
(** the sample points: 200 by 200 *)
Definition grid (z : C) : Prop :=
  exists i j, (i < 200)%nat /\ (j < 200)%nat /\ fst z = -6 + 9 * INR i / 199 /\ snd z = 6 * INR j / 199.
