(** Vocabulary for statements about the steps of an advection run: step sizes, amplification of one real mode. *)
From Coq Require Import ZArith List String Reals.
From Verif Require Import Num Py Lib RealLib LegNumpy Ext Basis Solution Solver RKCoeffs RK SpecDG SpecRK.
Open Scope R_scope.

(** the step the CFL condition gives, and the time between two outputs *)
Definition full_step (s : solution R) (cfl : R) : R := s_dx s * cfl / INR (2 * b_p (s_basis s) + 1).
Definition interval (s : solution R) (tf : R) (nout : Z) : R := (tf - s_t s) / INR (Z.to_nat nout - 1).
(** m full steps and a shorter one, which may be 0, lead from one output to the next *)
Definition fits (s : solution R) (cfl tf : R) (nout : Z) (m : nat) : Prop :=
  (1 <= m)%nat /\ INR m * full_step s cfl <= interval s tf nout < INR (S m) * full_step s cfl.
Definition last_step (s : solution R) (cfl tf : R) (nout : Z) (m : nat) : R := interval s tf nout - INR m * full_step s cfl.
(** the polynomial by which one step of the option multiplies solutions of u' = l u, at x = l dt *)
Definition gain (rk : string) (x : R) : R := Rsum (S (stages (rk_choice rk))) (fun k => growth (rk_choice rk) k * x ^ k).
(** the modes of cell e *)
Definition holds_mode (ne : nat) (s : solution R) (a : R) (v : nat -> nat -> R) : Prop :=
  forall e n, (1 <= e <= ne)%nat -> (n < s_Ns s)%nat -> at1 (modes s e 0) n = a * v n e.
(** +1, -1, +1, ... in order 0; the same straight line with average 0 in every cell in order 1 *)
Definition teeth (p : nat) (n e : nat) : R := match p, n with O, O => if Nat.even e then 1 else -1 | 1%nat, 1%nat => 1 | _, _ => 0 end.
(** Courant numbers between which the limit of each option lies *)
Definition limits : list (string * (R * R)) :=
  (("rk3", (12563 / 10000, 12564 / 10000)) :: ("rk4", (13926 / 10000, 13927 / 10000)) :: ("low_storage_rk4", (13926 / 10000, 13927 / 10000)) ::
   ("rk5", (18671 / 10000, 18672 / 10000)) :: ("rk6", (14526 / 10000, 14527 / 10000)) :: nil)%string.
