(** dg1d/enhance.py *)
From Coq Require Import ZArith List Bool Arith String.
From Verif Require Import Num Py PyStr LegNumpy Ext Basis.
Import ListNotations.
Open Scope list_scope.
Open Scope num_scope.

Section Enhance.
  Context {A : Type} {N : Num A} {X : Ext A}.

  (** class Enhance: the four enhancement vectors (enhance.py:40); the pre-allocated face buffer
      uf_tmp has no state that survives a call except its two never-written ends, which stay 0 *)
  Record enhance := {
    e_modes : list nat; e_order : nat;
    e_alphaL : vec A; e_alphaR : vec A; e_betaL : vec A; e_betaR : vec A }.

  (** the rows cl[i,:] / cr[i,:], enhance.py:119-135 *)
  Definition enh_row (order mode : nat) (shift : A) : vec A :=
    let l1 := leg_basis mode in
    let norm := integrate_legendre_product l1 l1 in
    tab (order + 1) (fun j =>
      integrate_legendre_product l1 (shift_legendre (leg_basis j) shift) / norm).
  (** np.hstack((diag(ones), zeros)), enhance.py:112-113 *)
  Definition enh_top (p order : nat) : mat A :=
    tab2 (p + 1) (order + 1) (fun i j => if (i =? j)%nat then n1 else n0).
  Definition enhancement_A (p : nat) (modes : list nat) (shift : A) : mat A :=
    let order := (p + List.length modes)%nat in
    enh_top p order ++ map (fun m => enh_row order m shift) modes.
  (** enhancement_matrices, enhance.py:94-140 *)
  Definition enhancement_matrices (p : nat) (modes : list nat)
    : res (mat A * mat A * mat A * mat A) :=
    let Am := enhancement_A p modes (nofZ 2) in
    let Bm := enhancement_A p modes (nofZ (-2)) in
    let! Ai := linv Am in
    let! Bi := linv Bm in
    Ok (Am, Ai, Bm, Bi).

  (** np.insert(v, i, 0) *)
  Definition np_insert0 (v : vec A) (i : nat) : res (vec A) :=
    if (i <=? List.length v)%nat then Ok (firstn i v ++ [n0] ++ skipn i v) else Raise IndexError.
  (** the loop enhance.py:85-88 *)
  Definition insert_missing (p : nat) (modes : list nat) (v : vec A) : res (vec A) :=
    fold_left (fun acc i =>
      let! w := acc in
      if existsb (Nat.eqb i) modes then Ok w else np_insert0 w i) (seq 0 (p + 1)) (Ok v).

  (** np.dot(psi[k,:], M): row vector times matrix *)
  Definition rowdot (v : vec A) (m : mat A) : vec A := rowcomb (ncols m) v m.

  (** left_enhancement_vectors, enhance.py:62-90: (alphaL, alphaR, betaL, betaR) *)
  Definition left_enhancement_vectors (Ainv Binv : mat A) (p : nat) (modes : list nat) (psi : mat A)
    : res (vec A * vec A * vec A * vec A) :=
    let vs := rowdot (row psi 0) Binv in
    let ve := rowdot (row psi 1) Ainv in
    let betaR := firstn (p + 1) vs in
    let alphaL := firstn (p + 1) ve in
    let! betaL := insert_missing p modes (skipn (p + 1) vs) in
    let! alphaR := insert_missing p modes (skipn (p + 1) ve) in
    Ok (alphaL, alphaR, betaL, betaR).

  (** self.modes.sort(), enhance.py:30 *)
  Fixpoint insert_nat (x : nat) (l : list nat) : list nat :=
    match l with [] => [x] | y :: r => if (x <? y)%nat then x :: l else y :: insert_nat x r end.
  Definition sort_nat (l : list nat) : list nat := fold_left (fun acc x => insert_nat x acc) l [].

  (** Enhance.__init__, enhance.py:21-44.  Negative modes make L.basis raise ValueError. *)
  Definition parse_mode (s : string) : res nat :=
    match parse_int s with
    | Some z => if (z <? 0)%Z then Raise ValueError else Ok (Z.to_nat z)
    | None => Raise ValueError
    end.
  Definition Enhance (p : nat) (mthd : string) : res enhance :=
    match split_ws mthd with
    | [] => Raise IndexError                               (* method[0] *)
    | _ :: ms =>
        let! modes0 := mapM parse_mode ms in
        let modes := sort_nat modes0 in
        let order := (p + List.length modes)%nat in
        let! mm := enhancement_matrices p modes in
        let '(_, Ai, _, Bi) := mm in
        let! ev := left_enhancement_vectors Ai Bi p modes (basis_psi (order + 1)) in
        let '(aL, aR, bL, bR) := ev in
        Ok {| e_modes := modes; e_order := order;
              e_alphaL := aL; e_alphaR := aR; e_betaL := bL; e_betaR := bR |}
    end.

  (** face_value, enhance.py:47-58.  np.dot raises ValueError when a vector's length differs from
      the number of rows of u. *)
  Definition face_value (e : enhance) (u : mat A) (NF : nat) : res (mat A) :=
    let uL := map (fun r => slice_to r (- Z.of_nat NF)) u in
    let uR := map (fun r => slice_from r (Z.of_nat NF)) u in
    let ok v := (List.length v =? nrows u)%nat in
    if (ok (e_alphaL e) && ok (e_alphaR e) && ok (e_betaL e) && ok (e_betaR e))%bool
    then Ok [ zeros NF ++ vadd (rowdot (e_betaL e) uL) (rowdot (e_betaR e) uR);
              vadd (rowdot (e_alphaL e) uL) (rowdot (e_alphaR e) uR) ++ zeros NF ]
    else Raise ValueError.
End Enhance.
Arguments enhance : clear implicits.
