(** dg1d/dg.py and the solution-level part of dg1d/limiting.py *)
From Coq Require Import ZArith List Bool Arith String.
From Verif Require Import Num Py LegNumpy Ext Basis Sensor Enhance Limiting Solution.
Import ListNotations.
Open Scope list_scope.
Open Scope num_scope.

Section Solver.
  Context {A : Type} {N : Num A} {L : Libm A} {X : Ext A}.
  Variable gamma : A.         (* constants.gamma *)

  (** class DG, dg.py:15-28.  Only the shape of the buffer Q outlives a call of residual: the other
      arrays are rebound before they are read. *)
  Record dg := { dg_rows : nat; dg_cols : nat }.
  Definition DG (s : solution A) : res dg :=
    let NF := Z.of_nat (s_NF s) in
    if (((s_NE s + 1) * NF <? 0) || (s_NE s * NF <? 0))%Z%bool then Raise ValueError
    else Ok {| dg_rows := nrows (s_u s); dg_cols := Z.to_nat (s_NE s * NF) |}.

  (** integrate_interior_flux, dg.py:69-71 *)
  Definition integrate_interior_flux (D F : mat A) : mat A := dot D F.

  (** add_interior_face_fluxes, dg.py:74-86: even rows of Q hold q[NF:] - q[:-NF], odd rows the
      sum; then F[:, NF:-NF] -= Q.  Shape mismatches raise ValueError. *)
  Definition face_flux_row (NF : nat) (q : vec A) (n : nat) : vec A :=
    let qr := slice_from q (Z.of_nat NF) in
    let ql := slice_to q (- Z.of_nat NF) in
    if Nat.even n then map2 nsub qr ql else map2 nadd ql qr.
  Definition add_interior_face_fluxes (d : dg) (NF : nat) (F : mat A) (q : vec A) : res (mat A) :=
    let inner r := slice r (Z.of_nat NF) (- Z.of_nat NF) in
    if (Nat.eqb (List.length (slice_from q (Z.of_nat NF))) (dg_cols d)
        && Nat.eqb (List.length (slice_to q (- Z.of_nat NF))) (dg_cols d)
        && Nat.eqb (nrows F) (dg_rows d)
        && forallb (fun r => Nat.eqb (List.length (inner r)) (dg_cols d)) F)%bool
    then Ok (tab (nrows F) (fun n =>
               let r := row F n in
               slice_set r (Z.of_nat NF) (- Z.of_nat NF)
                         (map2 nsub (inner r) (face_flux_row NF q n))))
    else Raise ValueError.

  (** inverse_mass_matrix_multiply, dg.py:89-94 *)
  Definition inverse_mass_matrix_multiply (minv : vec A) (F : mat A) : res (mat A) :=
    if Nat.eqb (List.length minv) (nrows F)
    then Ok (map2 (fun r m => map (fun v => v * m) r) F minv)
    else Raise ValueError.

  (** residual, dg.py:31-66: the solution (its ghost cells are refreshed) and the residual *)
  Definition residual (d : dg) (s0 : solution A) : res (solution A * mat A) :=
    let! s := apply_bc s0 in
    let NF := s_NF s in
    let ug := collocate s in
    let! uf := evaluate_faces s in
    let F := integrate_interior_flux (b_dphi_w (s_basis s)) (interior_flux gamma s ug) in
    let! q := riemann gamma s (slice_to (row uf 1) (- Z.of_nat NF))
                              (slice_from (row uf 0) (Z.of_nat NF)) in
    let! F1 := add_interior_face_fluxes d NF F q in
    let! F2 := inverse_mass_matrix_multiply (s_minv s) F1 in
    Ok (s, F2).

  (** class Limiter, limiting.py:15-62: None when limiting_type is not 'adaptive_hr' *)
  Definition limiter := option (hr_maps A).
  Definition Limiter (limiting_type : string) (s : solution A) : res limiter :=
    if String.eqb limiting_type "adaptive_hr"
    then let! h := hr_init (s_basis s) in Ok (Some h)
    else Ok None.

  (** the new column j, limiting.py:80-89: cells 1..N_E whose sensor is on are limited *)
  Definition limited_column (h : hr_maps A) (s : solution A) (sens : list Z) (j : nat)
    : res (vec A) :=
    let NF := s_NF s in
    let e := (j / NF)%nat in
    let u := s_u s in
    if ((1 <=? Z.of_nat e) && (Z.of_nat e <=? s_NE s) && negb (nth e sens 0 =? 0))%Z%bool
    then if (j + NF <? ncols u)%nat
         then hr h (col u j) (col u (j - NF)) (col u (j + NF))
         else Raise IndexError
    else Ok (col u j).
  Definition of_columns (Ns : nat) (cols : list (vec A)) : mat A :=
    tab Ns (fun n => map (fun c => at1 c n) cols).

  (** adaptive_hr, limiting.py:72-92 *)
  Definition adaptive_hr (h : hr_maps A) (s : solution A) : res (solution A) :=
    match s_sens s with
    | None => Raise AttributeError                       (* no attribute 'sensors' *)
    | Some sn =>
        let! sn' := sensing gamma (s_euler s) sn (s_u s) (s_NF s) in
        let! cols := mapM (limited_column h s (sn_sensors sn')) (seq 0 (ncols (s_u s))) in
        apply_bc (with_u (with_sens s (Some sn')) (of_columns (nrows (s_u s)) cols))
    end.

  (** limit, limiting.py:65-69 *)
  Definition limit (l : limiter) (s : solution A) : res (solution A) :=
    match l with None => Ok s | Some h => adaptive_hr h s end.
End Solver.
