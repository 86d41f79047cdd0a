(** Vocabulary for statements about polynomials: Legendre polynomials, integrals, and the contracts
    of the library routines (numpy.polynomial.legendre.leggauss and legfit, numpy.linalg.inv) that
    theorems take as hypotheses. *)
From Coq Require Import ZArith List Bool Arith Reals.
From Verif Require Import Num Py Ext RealLib SpecDG.
Import ListNotations.
Open Scope R_scope.

(** Legendre polynomials by Bonnet's recursion
    P_0 = 1, P_1 = x, (n+2) P_{n+2} = (2n+3) x P_{n+1} - (n+1) P_n *)
Fixpoint legpair (n : nat) (x : R) : R * R :=
  match n with
  | O => (1, x)
  | S k => let '(a, b) := legpair k x in
           (b, (INR (2 * k + 3) * x * b - INR (k + 1) * a) / INR (k + 2))
  end.
Definition LegP (n : nat) (x : R) : R := fst (legpair n x).

(** sum of c_n P_n(x) *)
Definition legseries (c : list R) (x : R) : R := Rsum (length c) (fun n => nth n c 0 * LegP n x).

(** f is a polynomial of degree at most d *)
Definition is_poly (d : nat) (f : R -> R) : Prop :=
  exists a : list R, forall x, f x = Rsum (S d) (fun i => nth i a 0 * x ^ i).

(** the Riemann integral of f over [a,b] exists and is v *)
Definition integral (f : R -> R) (a b v : R) : Prop :=
  exists pr : Riemann_integrable f a b, RiemannInt pr = v.

(** n-point Gauss rule on [-1,1] *)
Record gauss_rule (n : nat) (x w : list R) : Prop := {
  gr_lx : length x = n;
  gr_lw : length w = n;
  gr_in : forall i, (i < n)%nat -> -1 < nth i x 0 < 1;
  gr_nodup : NoDup x;
  gr_exact : forall f v, is_poly (2 * n - 1) f -> integral f (-1) 1 v ->
               Rsum n (fun i => nth i w 0 * f (nth i x 0)) = v
}.

Definition is_inverse (n : nat) (M Mi : mat R) : Prop :=
  shape n n M /\ shape n n Mi /\
  (forall i j, (i < n)%nat -> (j < n)%nat ->
     Rsum n (fun k => at2 M i k * at2 Mi k j) = if (i =? j)%nat then 1 else 0) /\
  (forall i j, (i < n)%nat -> (j < n)%nat ->
     Rsum n (fun k => at2 Mi i k * at2 M k j) = if (i =? j)%nat then 1 else 0).

Section Contracts.
  Context {X : Ext R}.
  (** leggauss(n) returns the n-point Gauss rule *)
  Definition gauss_ok : Prop := forall n, (1 <= n)%nat -> gauss_rule n (fst (leggauss n)) (snd (leggauss n)).
  (** inv(M) returns the inverse, or raises; it does not raise on an invertible matrix *)
  Definition inv_ok : Prop := forall n M, shape n n M ->
    match linv M with
    | Ok Mi => is_inverse n M Mi
    | Raise _ => ~ exists Mi, is_inverse n M Mi
    end.
  (** legfit(x, y, n-1) at n distinct nodes returns the interpolating series *)
  Definition legfit_ok : Prop := forall n x y, (1 <= n)%nat -> length x = n -> length y = n -> NoDup x ->
    length (legfit x y (n - 1)) = n /\
    forall i, (i < n)%nat -> legseries (legfit x y (n - 1)) (nth i x 0) = nth i y 0.
End Contracts.
