(** analysis/dg_stability.py, analysis/rk_stability.py and analysis/aux_functions.py: the matrices whose
    eigenvalues, and the determinant whose modulus, the two scripts plot.

    The sampling, sort_roots_angle and the printed numbers are in AnalysisEig.v, the plot of
    rk_stability.py in AnalysisPlot.v.  Not modelled: argument parsing, drawing, and the eigenvalue and
    root finders (numpy.linalg.eigvals, numpy.roots); the theorems speak of eigenvalues of the matrix. *)
From Coq Require Import ZArith List Bool Arith String.
From Verif Require Import Num Py LegNumpy Ext Basis Enhance RKCoeffs.
Import ListNotations.
Open Scope list_scope.
Open Scope num_scope.

(** complex numbers (np.complex): pairs of real and imaginary part.  The code does not compare them. *)
#[global] Instance NumC {A} {N : Num A} : Num (A * A) := {|
  nofZ := fun z => (nofZ z, n0);
  nadd := fun x y => (fst x + fst y, snd x + snd y);
  nsub := fun x y => (fst x - fst y, snd x - snd y);
  nmul := fun x y => (fst x * fst y - snd x * snd y, fst x * snd y + snd x * fst y);
  ndiv := fun x y => let m := fst y * fst y + snd y * snd y in
                     ((fst x * fst y + snd x * snd y) / m, (snd x * fst y - fst x * snd y) / m);
  nopp := fun x => (- fst x, - snd x);
  nabs := fun x => (nsqrt (fst x * fst x + snd x * snd x), n0);
  nsqrt := fun x => x; nltb := fun _ _ => false; nleb := fun _ _ => false;
  nisnan := fun x => (nisnan (fst x) || nisnan (snd x))%bool |}.

Section Analysis.
  Context {A : Type} {N : Num A} {X : Ext A}.
  Definition cofr (x : A) : A * A := (x, n0).
  (** smp.Matrix * smp.Matrix, np.dot of two matrices *)
  Definition cmatmul (a b : mat (A * A)) : mat (A * A) :=
    tab2 (nrows a) (ncols b) (fun i j => vdot (row a i) (col b j)).
  (** np.diag(v) *)
  Definition cdiag (v : vec A) : mat (A * A) :=
    tab2 (List.length v) (List.length v) (fun i j => if (i =? j)%nat then cofr (at1 v i) else n0).

  (** aux_functions.delta, aux_functions.py:31-40, for integers *)
  Definition delta (i j : nat) : A * A := if (i =? j)%nat then n1 else n0.

  (** dg_interior_flux_matrix, dg_stability.py:71-84 *)
  Definition dg_interior_flux_matrix (p : nat) : mat A :=
    tab2 (p + 1) (p + 1) (fun i j => integrate_legendre_product (legder (leg_basis i)) (leg_basis j)).

  (** the loops dg_stability.py:98-106 and :122-130: G0 and G1 with p+1 rows and q+1 columns.
      Simplification (here and below): the symbol T is replaced by its value before, not after, the
      matrix products (get_eigenvalue substitutes T := exp(i beta), dg_stability.py:211-212). *)
  Definition faces_G0 (p q : nat) (T : A * A) : mat (A * A) :=
    tab2 (p + 1) (q + 1) (fun i j =>
      cofr (legval (nofZ (-1)) (leg_basis i) * legval n1 (leg_basis j)) * (n1 / T)).
  Definition faces_G1 (p q : nat) : mat (A * A) :=
    tab2 (p + 1) (q + 1) (fun i j => cofr (legval n1 (leg_basis i) * legval n1 (leg_basis j))).
  (** dg_interface_flux_matrix, dg_stability.py:89-108 *)
  Definition dg_interface_flux_matrix (p : nat) (T : A * A) : mat (A * A) * mat (A * A) :=
    (faces_G0 p p T, faces_G1 p p).

  (** BL, dg_stability.py:136-146 (BR is not used) *)
  Definition icb_BL (p : nat) (K : list nat) (T : A * A) : mat (A * A) :=
    let phat := (p + List.length K)%nat in
    tab2 (phat + 1) (phat + 1) (fun i j => if (i =? j)%nat then (if (i <=? p)%nat then n1 else T) else n0).
  (** R, dg_stability.py:149-154 *)
  Definition icb_R (p : nat) (K : list nat) : mat (A * A) :=
    let phat := (p + List.length K)%nat in
    tab2 (phat + 1) (p + 1) (fun i j =>
      if (i <=? p)%nat then (if (i =? j)%nat then n1 else n0) else delta (nth (i - (p + 1)) K 0%nat) j).
  (** icb_interface_flux_matrix, dg_stability.py:112-160 *)
  Definition icb_interface_flux_matrix (p : nat) (K : list nat) (T : A * A) : res (mat (A * A) * mat (A * A)) :=
    let phat := (p + List.length K)%nat in
    let! mm := enhancement_matrices p K in
    let '(_, Ai, _, _) := mm in
    let Ainv := map (map cofr) Ai in
    let reduce G := cmatmul (cmatmul (cmatmul G Ainv) (icb_BL p K T)) (icb_R p K) in
    Ok (reduce (faces_G0 p phat T), reduce (faces_G1 p phat)).

  (** FK = Minv.dot(-(g1 - g0) + F), dg_stability.py:215 *)
  Definition fourier_matrix (Minv : mat (A * A)) (F : mat A) (g : mat (A * A) * mat (A * A)) : mat (A * A) :=
    let '(g0, g1) := g in
    cmatmul Minv (tab2 (nrows F) (ncols F) (fun i j => nopp (at2 g1 i j - at2 g0 i j) + cofr (at2 F i j))).
  (** dg_matrices and icb_matrices, dg_stability.py:164-197, followed by get_eigenvalue's matrix at T *)
  Definition dg_FK (p : nat) (T : A * A) : mat (A * A) :=
    fourier_matrix (cdiag (b_minv (Basis p))) (dg_interior_flux_matrix p) (dg_interface_flux_matrix p T).
  Definition icb_FK (p : nat) (K : list nat) (T : A * A) : res (mat (A * A)) :=
    let! g := icb_interface_flux_matrix p K T in
    Ok (fourier_matrix (cdiag (b_minv (Basis p))) (dg_interior_flux_matrix p) g).

  (** get_formatted_rk_coeffs, rk_stability.py:159-192: the table of the method (rk4 if the name is not
      known), with a column of zeros appended to the betas *)
  Definition formatted_table (method : string) : rk_table :=
    if String.eqb method "rk3" then rk3_table
    else if String.eqb method "rk4" then rk4_table
    else if String.eqb method "rk5" then rk5_table
    else if String.eqb method "rk6" then rk6_table
    else if String.eqb method "rk8" then rk8_table
    else if String.eqb method "rk10" then rk10_table
    else if String.eqb method "rk12" then rk12_table
    else if String.eqb method "rk14" then rk14_table
    else rk4_table.
  Definition get_formatted_rk_coeffs (method : string) : vec A * mat A :=
    let tb := formatted_table method in
    (map ceval (tb_coeffs tb), map (fun r => map ceval r ++ [n0]) (tb_betas tb)).
  (** I - z*B + z*np.outer(e, coeffs), rk_stability.py:142 (and :84) *)
  Definition stability_matrix (coeffs : vec A) (B : mat A) (z : A * A) : mat (A * A) :=
    let s := List.length coeffs in
    tab2 s s (fun i j => (if (i =? j)%nat then n1 else n0) - z * cofr (at2 B i j) + z * cofr (at1 coeffs j)).
  (** abs(np.linalg.det(A)), rk_stability.py:143; det is an oracle *)
  Definition stability_sigma (det : mat (A * A) -> A * A) (coeffs : vec A) (B : mat A) (z : A * A) : A :=
    fst (nabs (det (stability_matrix coeffs B z))).
End Analysis.
