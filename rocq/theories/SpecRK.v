(** Vocabulary for statements about Runge-Kutta steps: tables of numbers, Butcher steps, linear operators, rooted trees. *)
From Coq Require Import ZArith List Bool Arith String Reals.
From Verif Require Import Num Py RealLib Basis Enhance Solution Solver RKCoeffs RK SpecDG.
Import ListNotations.
Open Scope R_scope.

(** ** the numbers in a table *)
Definition cval (c : centry) : R := IZR (ce_n c) / IZR (Zpos (ce_d c)) + IZR (ce_n5 c) / IZR (Zpos (ce_d5 c)) * sqrt 5.
Definition stages (tb : rk_table) : nat := List.length (tb_coeffs tb).
Definition weight (tb : rk_table) (i : nat) : R := cval (nth i (tb_coeffs tb) c0).
Definition abscissa (tb : rk_table) (i : nat) : R := cval (nth i (tb_alphas tb) c0).
Definition coef (tb : rk_table) (i j : nat) : R := cval (nth j (nth i (tb_betas tb) []) c0).
Definition all_tables : list rk_table :=
  [rk3_table; rk4_table; rk5_table; rk6_table; rk8_table; rk10_table; rk12_table; rk14_table].

(** ** a Butcher step.  u and u' are r x c arrays; [Res U F]: the right-hand side at U is F. *)
Definition butcher_step (tb : rk_table) (Res : mat R -> mat R -> Prop) (dt : R) (r c : nat) (u u' : mat R) : Prop :=
  shape r c u' /\ exists K : nat -> mat R,
    (forall i, (i < stages tb)%nat -> exists U F, shape r c U /\ shape r c F /\ Res U F /\
       forall n j, (n < r)%nat -> (j < c)%nat ->
         at2 U n j = at2 u n j + Rsum i (fun k => coef tb i k * at2 (K k) n j) /\ at2 (K i) n j = dt * at2 F n j) /\
    (forall n j, (n < r)%nat -> (j < c)%nat -> at2 u' n j = at2 u n j + Rsum (stages tb) (fun i => weight tb i * at2 (K i) n j)).

(** ** linear right-hand sides.  Arrays are functions of row and column here; only the entries inside the r x c box count. *)
Definition same_on (r c : nat) (x y : nat -> nat -> R) : Prop := forall n j, (n < r)%nat -> (j < c)%nat -> x n j = y n j.
Record linear_on (r c : nat) (LL : (nat -> nat -> R) -> nat -> nat -> R) : Prop := {
  lin_ext : forall x y, same_on r c x y -> same_on r c (LL x) (LL y);
  lin_add : forall x y, same_on r c (LL (fun n j => x n j + y n j)) (fun n j => LL x n j + LL y n j);
  lin_scale : forall a x, same_on r c (LL (fun n j => a * x n j)) (fun n j => a * LL x n j) }.
Fixpoint power (LL : (nat -> nat -> R) -> nat -> nat -> R) (k : nat) (x : nat -> nat -> R) : nat -> nat -> R :=
  match k with O => x | S k' => LL (power LL k' x) end.
(** the factor of dt^k L^k u in one step: weights^T B^(k-1) 1 *)
Fixpoint stage_sum (tb : rk_table) (k i : nat) : R :=
  match k with O => 1 | S k' => Rsum i (fun j => coef tb i j * stage_sum tb k' j) end.
Definition growth (tb : rk_table) (k : nat) : R :=
  match k with O => 1 | S k' => Rsum (stages tb) (fun i => weight tb i * stage_sum tb k' i) end.
(** the right-hand side of a run: what the discretisation computes from coefficients U *)
Definition rhs_of (gamma : R) (d : dg) (s : solution R) (U F : mat R) : Prop :=
  exists s1, residual gamma d (with_u s U) = Ok (s1, F).
(** upwind advection (flux u, speed 1): the linear operator on coefficient arrays, in sums *)
Definition bc_column (ne : nat) (s : solution R) (j : nat) : nat :=
  (src_cell (s_bcl s) (s_bcr s) ne (j / s_NF s) * s_NF s + j mod s_NF s)%nat.
Definition face_up (ne : nat) (s : solution R) (x : nat -> nat -> R) (j : nat) : R :=
  match s_enh s with
  | None => Rsum (s_Ns s) (fun m => at2 (b_psi (s_basis s)) 1 m * x m (bc_column ne s j))
  | Some en => Rsum (s_Ns s) (fun m => at1 (e_alphaL en) m * x m (bc_column ne s j)) +
               Rsum (s_Ns s) (fun m => at1 (e_alphaR en) m * x m (bc_column ne s (j + s_NF s)))
  end.
Definition adv_op (ne : nat) (s : solution R) (x : nat -> nat -> R) (n j : nat) : R :=
  let vol := Rsum (b_NG (s_basis s)) (fun g => at2 (b_dphi_w (s_basis s)) n g *
               Rsum (s_Ns s) (fun m => at2 (b_phi (s_basis s)) g m * x m (bc_column ne s j))) in
  let left := face_up ne s x (j - s_NF s) in
  let right := face_up ne s x j in
  at1 (s_minv s) n *
  (if ((1 <=? j / s_NF s) && (j / s_NF s <=? ne))%nat%bool
   then vol - (if Nat.even n then right - left else right + left) else vol).

(** ** rooted trees and order conditions (Butcher) *)
Inductive tree : Type := Node (children : list tree).
Fixpoint nodes (t : tree) : nat := match t with Node ts => S (fold_right (fun t' acc => (nodes t' + acc)%nat) 0%nat ts) end.
(** the density: number of nodes times the densities of the branches *)
Fixpoint density (t : tree) : Z :=
  match t with Node ts => (Z.of_nat (nodes (Node ts)) * fold_right (fun t' acc => density t' * acc) 1 ts)%Z end.
(** product over the branches of sum_k b_ik * (the same for the branch, at k) *)
Fixpoint branch_product (tb : rk_table) (t : tree) (i : nat) : R :=
  match t with Node ts => fold_right (fun t' acc => Rsum (stages tb) (fun k => coef tb i k * branch_product tb t' k) * acc) 1 ts end.
(** the elementary weight *)
Definition tree_weight (tb : rk_table) (t : tree) : R := Rsum (stages tb) (fun i => weight tb i * branch_product tb t i).
Definition order_conditions (tb : rk_table) (p : nat) (eps : R) : Prop :=
  forall t, (nodes t <= p)%nat -> Rabs (tree_weight tb t - / IZR (density t)) <= eps.
(** the number of non-isomorphic trees is not used; [order_conditions] ranges over all trees *)
Fixpoint tall (k : nat) : tree := match k with O => Node [] | S k' => Node [tall k'] end.
