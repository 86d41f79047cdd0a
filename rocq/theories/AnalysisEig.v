(** analysis/dg_stability.py: the numbers it prints and the polygon it draws.  Not modelled: the formatting of the printed numbers,
    colours, axes and labels. *)
From Coq Require Import ZArith List Bool Arith String.
From Verif Require Import Num Py LegNumpy Ext Basis Enhance RKCoeffs Analysis.
Import ListNotations.
Open Scope list_scope.
Open Scope num_scope.

Section AnalysisEig.
  Context {A : Type} {N : Num A} {L : Libm A} {X : Ext A}.
  (** numpy.linalg.eigvals, np.arctan2 and ndarray.argsort are oracles *)
  Variables (eigvals : mat (A * A) -> vec (A * A)) (arctan2 : A -> A -> A) (argsort : vec A -> list nat).

  (** ebjs = np.exp(np.linspace(-1 * np.pi, np.pi, 50) * 1j), dg_stability.py:203-205; exp(i b) is written (cos b, sin b) *)
  Definition ebjs : vec (A * A) := map (fun b => (ncos b, nsin b)) (linspace (nofZ (-1) * npi) npi 50).
  (** roots.reshape((roots.size,), order='F'), aux_functions.py:15: column after column *)
  Definition by_columns (c : nat) (roots : mat (A * A)) : vec (A * A) := flat_map (fun j => map (fun r => at1 r j) roots) (seq 0 c).
  (** x.mean() *)
  Definition mean (v : vec A) : A := nsum v / nofZ (Z.of_nat (List.length v)).
  (** sort_roots_angle, aux_functions.py:7-27 *)
  Definition sort_roots_angle (c : nat) (roots : mat (A * A)) : vec A * vec A :=
    let reshaped := by_columns c roots in
    let x := map fst reshaped in let y := map snd reshaped in
    let x0 := mean x in let y0 := mean y in
    let angle := map (fun q => arctan2 (snd q - y0) (fst q - x0)) reshaped in
    let idx := argsort angle in
    (map (at1 x) idx, map (at1 y) idx).
  (** the loop over the phases, dg_stability.py:206-216: FK is the matrix at T; a row of eigs has c entries, and assigning
      anything else is a ValueError *)
  Fixpoint eig_rows (c : nat) (FK : A * A -> res (mat (A * A))) (ts : vec (A * A)) : res (mat (A * A)) :=
    match ts with
    | [] => Ok []
    | t :: ts' => let! M := FK t in
                  if (List.length (eigvals M) =? c)%nat then let! r := eig_rows c FK ts' in Ok (eigvals M :: r) else Raise ValueError
    end.
  (** get_eigenvalue, dg_stability.py:201-221, for matrices of c rows *)
  Definition get_eigenvalue (c : nat) (FK : A * A -> res (mat (A * A))) : res (vec A * vec A) :=
    let! eigs := eig_rows c FK ebjs in Ok (sort_roots_angle c eigs).
  (** np.min, np.max; None: ValueError *)
  Definition npminimum (a b : A) : A := if nisnan a then a else if nisnan b then b else if nltb b a then b else a.
  Definition npmin (l : vec A) : option A := match l with [] => None | x :: r => Some (fold_left npminimum r x) end.
  (** one turn of the loop over the orders, dg_stability.py:236-256: the two numbers printed and the vertices of the polygon *)
  Definition report (p : nat) (FK : A * A -> res (mat (A * A))) : res (A * A * list (A * A)) :=
    let! xy := get_eigenvalue (p + 1) FK in
    match npmin (fst xy), npmax (fst xy) with
    | Some lo, Some hi => Ok (lo, hi, combine (fst xy) (snd xy))
    | _, _ => Raise ValueError
    end.
  (** the script as it stands: orders = [3], icb_matrices(p, [0, 1, 2], T), dg_stability.py:230-242 *)
  Definition dg_stability : res (A * A * list (A * A)) := report 3 (icb_FK 3 [0; 1; 2]%nat).
  (** with the line it replaced, dg_stability.py:241: dg_matrices(p, T) *)
  Definition dg_stability_standard (p : nat) : res (A * A * list (A * A)) := report p (fun T => Ok (dg_FK p T)).
End AnalysisEig.
