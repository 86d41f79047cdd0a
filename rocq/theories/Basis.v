(** dg1d/basis.py *)
From Coq Require Import ZArith List Bool Arith.
From Verif Require Import Num Py LegNumpy Ext.
Import ListNotations.
Open Scope num_scope.

Section Basis.
  Context {A : Type} {N : Num A} {X : Ext A}.

  (** class Basis, basis.py:17-46: attributes p, N_s, x, w, N_G, phi, dphi_w, psi, m, minv *)
  Record basis := {
    b_p : nat;             (* self.p *)
    b_x : vec A;           (* Gaussian nodes *)
    b_w : vec A;           (* Gaussian weights *)
    b_phi : mat A;         (* phi[g, n] *)
    b_dphi_w : mat A;      (* dphi_w[n, g] *)
    b_psi : mat A;         (* psi[0/1, n] *)
    b_m : vec A;
    b_minv : vec A
  }.
  Definition b_Ns (b : basis) : nat := b_p b + 1.          (* self.N_s = order + 1, basis.py:29 *)
  Definition b_NG (b : basis) : nat := length (b_x b).     (* basis.py:37 *)

  (** evaluate_basis_gauss, basis.py:49-74: phi[:, n] = legval(x, L_n.coef) *)
  Definition basis_phi (Ns : nat) (x : vec A) : mat A :=
    tab (length x) (fun g => tab Ns (fun n => legval (at1 x g) (leg_basis n))).
  (** dphi_w[n, :] = legval(x, L_n'.coef) * w *)
  Definition basis_dphi_w (Ns : nat) (x w : vec A) : mat A :=
    tab Ns (fun n => tab (length x) (fun g => legval (at1 x g) (legder (leg_basis n)) * at1 w g)).

  (** evaluate_basis_edges, basis.py:77-85: ones, with psi[0, 1::2] = -1 *)
  Definition basis_psi (Ns : nat) : mat A :=
    [ tab Ns (fun n => if Nat.odd n then nofZ (-1) else n1);
      tab Ns (fun _ => n1) ].

  (** mass_matrix, basis.py:88-96 *)
  Definition basis_m (Ns : nat) : vec A := tab Ns (fun i => nofZ 2 / nnat (2 * i + 1)).
  Definition basis_minv (Ns : nat) : vec A := tab Ns (fun i => nnat (2 * i + 1) / nofZ 2).

  (** Basis.__init__, basis.py:21-46 *)
  Definition Basis (order : nat) : basis :=
    let '(x, w) := leggauss (order + 1) in
    let Ns := (order + 1)%nat in
    {| b_p := order; b_x := x; b_w := w;
       b_phi := basis_phi Ns x; b_dphi_w := basis_dphi_w Ns x w;
       b_psi := basis_psi Ns; b_m := basis_m Ns; b_minv := basis_minv Ns |}.

  (** shifted_xgauss, basis.py:137-139 *)
  Definition shifted_xgauss (b : basis) (l r : A) : vec A :=
    map (fun x => nhalf * (r - l) * x + nhalf * (r + l)) (b_x b).

  (** projection, basis.py:99-134: sample component [c] of f at the Gauss nodes of [l,r], then fit.
      f(xg)[component] raises IndexError when f returns too few fields. *)
  Definition projection (b : basis) (l r : A) (f : A -> res (list A)) (c : nat) : res (vec A) :=
    let! fg := mapM (fun x => let! fx := f x in
                              match nth_error fx c with
                              | Some v => Ok v | None => Raise IndexError end)
                    (shifted_xgauss b l r) in
    Ok (legfit (b_x b) fg (b_p b)).

  (** shift_legendre_polynomial(l, shift), basis.py:143-154: coefficients of l(x + shift).
      L.cast to the window shifted by -shift evaluates l at the line series [shift, 1]. *)
  Definition shift_legendre (l : vec A) (shift : A) : vec A := legcompose l [shift; n1].

  (** integrate_legendre_product(l1, l2), basis.py:158-168 *)
  Definition integrate_legendre_product (l1 l2 : vec A) : A :=
    let imul := legint (legmul l1 l2) in
    legval n1 imul - legval (nofZ (-1)) imul.
End Basis.
Arguments basis : clear implicits.
