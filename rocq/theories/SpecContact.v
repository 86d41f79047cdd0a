(** Vocabulary for flows of uniform velocity and pressure: contact discontinuities and entropy waves. *)
From Coq Require Import ZArith List Bool Arith String Reals.
From Verif Require Import Num Py RealLib Ext Basis Enhance Solution Solver RKCoeffs SpecDG SpecPoly SpecEuler SpecRK.
Import ListNotations.
Open Scope list_scope.
Open Scope R_scope.

(** the interior cells hold, at every point, velocity v and pressure p with the density found there *)
Definition uniform_vp (gamma : R) (ne : nat) (v p : R) (s : solution R) : Prop :=
  forall e x, (1 <= e <= ne)%nat ->
    legseries (modes s e 1) x = legseries (modes s e 0) x * v /\
    legseries (modes s e 2) x = energy gamma (legseries (modes s e 0) x) v p.
(** the modes of cell e once the boundary conditions have filled the ghost cells *)
Definition filled (ne : nat) (s : solution R) (e f : nat) : list R := modes s (src_cell (s_bcl s) (s_bcr s) ne e) f.
(** density on the left / right side of interface e *)
Definition rho_minus (ne : nat) (s : solution R) (e : nat) : R := face_minus s (filled ne s) e 0.
Definition rho_plus (ne : nat) (s : solution R) (e : nat) : R := face_plus s (filled ne s) e 0.
(** the density is positive wherever the scheme reads it: at the quadrature nodes and on both sides of every interface *)
Definition dense (ne : nat) (s : solution R) : Prop :=
  (forall e g, (1 <= e <= ne)%nat -> (g < b_NG (s_basis s))%nat -> 0 < legseries (modes s e 0) (at1 (b_x (s_basis s)) g)) /\
  (forall e, (e <= ne)%nat -> 0 < rho_minus ne s e /\ 0 < rho_plus ne s e).

(** the advection problem (speed 1, upwind flux) whose unknown is the density of s *)
Definition density_of (ne : nat) (s : solution R) : solution R :=
  {| s_basis := s_basis s; s_icname := s_icname s; s_params := s_params s; s_t := s_t s; s_n := s_n s; s_NE := s_NE s; s_x := s_x s; s_xc := s_xc s; s_dx := s_dx s;
     s_u := tab2 (s_Ns s) (ne + 2) (fun n e => at2 (s_u s) n (e * s_NF s)); s_minv := s_minv s; s_euler := false; s_riemann := RUpwind;
     s_bcl := s_bcl s; s_bcr := s_bcr s; s_enh := s_enh s; s_sens := s_sens s |}.
(** the i-th stage of a Runge-Kutta step of length tau of u' = L u: a polynomial in tau L *)
Definition stage_poly (tb : rk_table) (LL : (nat -> nat -> R) -> nat -> nat -> R) (tau : R) (x : nat -> nat -> R) (i : nat) (n j : nat) : R :=
  x n j + Rsum (stages tb) (fun k => stage_sum tb (S k) i * tau ^ (S k) * power LL (S k) x n j).
(** the density is positive in every stage of an advection step of length tau from s *)
Definition dense_stages (ne : nat) (tb : rk_table) (tau : R) (s : solution R) : Prop :=
  forall i, (i < stages tb)%nat ->
    dense ne (with_u (density_of ne s) (tab2 (s_Ns s) (ne + 2) (stage_poly tb (adv_op ne (density_of ne s)) tau (at2 (s_u (density_of ne s))) i))).
