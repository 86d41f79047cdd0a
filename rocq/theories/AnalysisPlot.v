(** analysis/rk_stability.py: the values handed to plt.contour.  Not modelled: the contour itself, the legend and the axes. *)
From Coq Require Import ZArith List Bool Arith String.
From Verif Require Import Num Py LegNumpy Ext Basis Enhance RKCoeffs Analysis.
Import ListNotations.
Open Scope list_scope.
Open Scope num_scope.

Section AnalysisPlot.
  Context {A : Type} {N : Num A}.
  (** zrs and zis, rk_stability.py:131-133 *)
  Definition rk_zrs : vec A := linspace (nofZ (-6)) (nofZ 3) 200.
  Definition rk_zis : vec A := linspace n0 (nofZ 6) 200.
  (** the arrays ZR, ZI, sigma as one list of rows of points, rk_stability.py:134-143 *)
  Definition rk_mesh (det : mat (A * A) -> A * A) (coeffs : vec A) (B : mat A) : list (A * A * A) :=
    flat_map (fun zi => map (fun zr => (zr, zi, stability_sigma det coeffs B (zr, zi))) rk_zrs) rk_zis.
  (** the data of the two calls of plt.contour, rk_stability.py:147-148: the second has -ZI and the same sigma *)
  Definition rk_contours (det : mat (A * A) -> A * A) (method : string) : list (A * A * A) * list (A * A * A) :=
    let '(coeffs, B) := get_formatted_rk_coeffs method in
    let m := rk_mesh det coeffs B in
    (m, map (fun q => (fst (fst q), nopp (snd (fst q)), snd q)) m).
  (** methods, rk_stability.py:208 *)
  Definition rk_methods : list string := ["rk3"; "rk4"; "rk5"; "rk6"; "rk8"; "rk10"; "rk12"; "rk14"]%string.
End AnalysisPlot.
