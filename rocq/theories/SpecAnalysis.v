(** Vocabulary for statements about the stability analysis: determinants, complex vectors, travelling waves. *)
From Coq Require Import ZArith List Bool Arith String Reals.
From Verif Require Import Num Py LegNumpy Ext Basis Enhance Solution Solver RKCoeffs SpecDG SpecRK Analysis.
Import ListNotations.

(** ** determinants over any type with 0, 1, + and * *)
Section Det.
  Variables (K : Type) (k0 k1 : K) (kadd kmul : K -> K -> K).
  Infix "+" := kadd. Infix "*" := kmul.
  Definition upd (M : nat -> nat -> K) (i : nat) (v : nat -> K) : nat -> nat -> K := fun r c => if Nat.eqb r i then v c else M r c.
  Definition idm (i j : nat) : K := if Nat.eqb i j then k1 else k0.
  Fixpoint ksum (n : nat) (f : nat -> K) : K := match n with O => k0 | S n' => ksum n' f + f n' end.
  Definition same (n : nat) (M M' : nat -> nat -> K) := forall i j, (i < n)%nat -> (j < n)%nat -> M i j = M' i j.

  (** the three properties that determine the determinant of n x n matrices *)
  Record is_det (n : nat) (D : (nat -> nat -> K) -> K) : Prop := {
    det_ext : forall M M', same n M M' -> D M = D M';
    det_lin : forall M i a b x y, (i < n)%nat -> D (upd M i (fun c => a * x c + b * y c)) = a * D (upd M i x) + b * D (upd M i y);
    det_alt : forall M i j, (i < n)%nat -> (j < n)%nat -> i <> j -> (forall c, (c < n)%nat -> M i c = M j c) -> D M = k0;
    det_one : D idm = k1 }.
End Det.
Arguments det_ext {K k0 k1 kadd kmul n D}.
Arguments det_lin {K k0 k1 kadd kmul n D}.
Arguments det_alt {K k0 k1 kadd kmul n D}.
Arguments det_one {K k0 k1 kadd kmul n D}.

Notation C := (R * R)%type.
(** a function on matrices that is the determinant for every size *)
Definition det_ok (det : mat C -> C) : Prop := forall n, is_det C (nofZ 0) (nofZ 1) nadd nmul n (fun M => det (tab2 n n M)).

(** ** complex sums *)
Definition Csum (n : nat) (f : nat -> C) : C := ksum C (nofZ 0) nadd n f.
Fixpoint Cpow (z : C) (k : nat) : C := match k with O => nofZ 1 | S k' => nmul z (Cpow z k') end.
(** entry i of M w, for an n x n matrix M *)
Definition Capply (n : nat) (M : mat C) (w : nat -> C) (i : nat) : C := Csum n (fun j => nmul (at2 M i j) (w j)).
(** w is an eigenvector of M for the eigenvalue l *)
Definition eigen (n : nat) (M : mat C) (l : C) (w : nat -> C) : Prop :=
  (exists i, (i < n)%nat /\ w i <> nofZ 0) /\ forall i, (i < n)%nat -> Capply n M w i = nmul l (w i).

(** ** two solutions, read as real and imaginary part of one complex solution *)
Definition cmode (sr si : solution R) (e n : nat) : C := (at1 (modes sr e 0) n, at1 (modes si e 0) n).
(** cell e carries t^e w *)
Definition wave (ne : nat) (sr si : solution R) (t : C) (w : nat -> C) : Prop :=
  forall e n, (1 <= e <= ne)%nat -> (n < s_Ns sr)%nat -> cmode sr si e n = nmul (Cpow t e) (w n).
(** the solver's set-up: upwind advection on ne cells of size dx with basis of order p, with (mthd = Some text) or
    without enhancement.  The matrix of analysis/dg_stability.py for the same order and modes, at T = t: *)
Definition symbol {X : Ext R} (s : solution R) (t : C) : res (mat C) :=
  match s_enh s with
  | None => Ok (dg_FK (b_p (s_basis s)) t)
  | Some en => icb_FK (b_p (s_basis s)) (e_modes en) t
  end.
(** a real number as a complex one *)
Definition Cr (x : R) : C := (x, 0%R).
(** the product of a function of the step sizes over the steps of a run *)
Definition Cprod (f : R -> C) (l : list R) : C := fold_right (fun x acc => nmul (f x) acc) (nofZ 1) l.
(** the amplification factor analysis/rk_stability.py computes for z = 2 dt l / dx *)
Definition rk_factor (det : mat C -> C) (rk : string) (dx : R) (l : C) (dt : R) : C :=
  det (stability_matrix (fst (get_formatted_rk_coeffs rk)) (snd (get_formatted_rk_coeffs rk)) (nmul (Cr (2 * dt / dx)) l)).
Definition total_time (l : list R) : R := fold_right Rplus 0%R l.
