(** Vocabulary for statements about the order of convergence of advection runs. *)
From Coq Require Import ZArith List Bool Arith Reals.
From Verif Require Import Num RealLib Basis Solution SpecDG SpecPoly SpecConverge.
Open Scope R_scope.

(** F 0 has period L, F (k+1) is the derivative of F k, and B k bounds F k *)
Definition smooth_profile (F : nat -> R -> R) (B : nat -> R) (L : R) : Prop :=
  (forall k x, derivable_pt_lim (F k) x (F (S k) x)) /\ (forall k x, Rabs (F k x) <= B k) /\ (forall x, F 0%nat (x + L) = F 0%nat x).
(** E is the integral over the domain [a, a + ne dx] of the squared difference between the solution (field 0) and f *)
Definition l2err (ne : nat) (a : R) (s : solution R) (f : R -> R) (E : R) : Prop :=
  exists v : nat -> R, (forall e, (1 <= e <= ne)%nat ->
      integral (fun xi => s_dx s / 2 * ((legseries (modes s e 0) xi - f (centre a (s_dx s) e + s_dx s / 2 * xi)) * (legseries (modes s e 0) xi - f (centre a (s_dx s) e + s_dx s / 2 * xi)))) (-1) 1 (v e)) /\
    E = Rsum ne (fun i => v (i + 1)%nat).
(** error of approximating F k by polynomials of degree p on cells of half width r *)
Definition taylor_size (p : nat) (r : R) (B : nat -> R) (k : nat) : R := B (k + S p)%nat * (r ^ S p / INR (fact (S p))).
(** projection error and error per unit time *)
Definition proj_size (p : nat) (r : R) (B : nat -> R) : R := (1 + INR (S p) * (1 + INR (S p) * INR (S p))) * taylor_size p r B 0.
Definition trunc_size (p : nat) (r : R) (B : nat -> R) : R := (1 + INR (S p) * INR (S p)) *
  (5 / 3 * taylor_size p r B 1 + 2 / 3 * r * taylor_size p r B 2 + / 6 * (r * r) * taylor_size p r B 3 + B 4%nat * (r ^ 3 / 24)).
(** error of interpolating at the Gauss nodes *)
Definition interp_size (p : nat) (r : R) (B : nat -> R) : R := (1 + INR (S p) * INR (S p)) * taylor_size p r B 0.
(** bounds of the derivatives of sin(2 pi x), and the constant of the convergence rate *)
Definition sine_B (k : nat) : R := (2 * PI) ^ k.
Definition rate_of (B : nat -> R) (p : nat) : R := sqrt 2 * (interp_size p 1 B + 2 * proj_size p 1 B + sqrt (INR (S p)) * trunc_size p 1 B).
Definition rate_const (p : nat) : R := rate_of sine_B p.
(** how far below the profile the numerical solution and its Runge-Kutta stages can come, when the coefficients are within Y of those of the profile *)
Definition sag_size (p ne : nat) (r : R) (B : nat -> R) (Y : R) : R := proj_size p r B + INR (S p) * (3 * Y + (1 + INR (S p) * INR (S p)) *
  (r * (B 1%nat + taylor_size p r B 1) + r * r * (B 2%nat + taylor_size p r B 2) + r * (sqrt (INR ne * INR (S p)) * taylor_size p r B 1))).
(** distance between the coefficients of the solution and those of the profile after the wave has travelled D, from an initial L2 error of sqrt E0 *)
Definition drift_size (p ne : nat) (h : R) (B : nat -> R) (E0 D : R) : R :=
  sqrt E0 / sqrt h + sqrt (INR ne) * proj_size p (h / 2) B + D * (sqrt (INR ne * INR (S p)) * trunc_size p (h / 2) B).
(** bounds of the derivatives of 1 + sin(pi x) / 5; how far below that profile an entropy wave on ne cells can come by time T *)
Definition entropy_B (k : nat) : R := match k with O => 6 / 5 | S _ => / 5 * PI ^ k end.
Definition entropy_gap (p ne : nat) (T : R) : R :=
  sag_size p ne (/ INR ne) entropy_B (sqrt (INR ne) * (interp_size p (/ INR ne) entropy_B + proj_size p (/ INR ne) entropy_B + T * sqrt (INR (S p)) * trunc_size p (/ INR ne) entropy_B)).
(** constant of the bound entropy_gap p ne T <= gap_const p (1+T) / sqrt ne *)
Definition gap_const (p : nat) : R := proj_size p 1 entropy_B + INR (S p) * (3 * (interp_size p 1 entropy_B + proj_size p 1 entropy_B + sqrt (INR (S p)) * trunc_size p 1 entropy_B) +
  (1 + INR (S p) * INR (S p)) * (entropy_B 1 + taylor_size p 1 entropy_B 1 + (entropy_B 2 + taylor_size p 1 entropy_B 2) + sqrt (INR (S p)) * taylor_size p 1 entropy_B 1)).
