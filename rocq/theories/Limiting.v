(** dg1d/limiting.py: the cell-wise part (the class's loop over the solution is in Solver.v) *)
From Coq Require Import ZArith List Bool Arith.
From Verif Require Import Num Py LegNumpy Ext Basis.
Import ListNotations.
Open Scope num_scope.

Section Limiting.
  Context {A : Type} {N : Num A} {X : Ext A}.

  Definition nfact (n : nat) : A := nofZ (Z.of_nat (fact n)).      (* np.math.factorial *)

  (** integrate_monomial_derivative(k, n), limiting.py:175-186 *)
  Definition integrate_monomial_derivative (k n : nat) : A :=
    let num := (n - k + 1)%nat in
    if Nat.odd num then nofZ 2 / nfact num else n0.

  (** integrate_monomial_derivative_bounds(k, n, a, b) for integer bounds, limiting.py:191-197 *)
  Definition integrate_monomial_derivative_bounds (k n : nat) (a b : Z) : A :=
    let num := (n - k + 1)%nat in
    nofZ (b ^ Z.of_nat num - a ^ Z.of_nat num) / nfact num.

  (** sorted(l): insertion by <, each element compared with the sorted ones from the right (for the three elements the code
      sorts this is what CPython's sort does, also when < is false both ways for NaN) *)
  Fixpoint insert_sorted (x : A) (l : list A) : list A :=
    match l with [] => [x] | y :: r => if forallb (fun z => x <? z) l then x :: l else y :: insert_sorted x r end.
  Definition pysorted (l : list A) : list A := fold_left (fun acc x => insert_sorted x acc) l [].

  (** scalar_minmod(a, b), limiting.py:202-207: sorted([a, b, 0])[1] *)
  Definition scalar_minmod (a b : A) : A := nth 1 (pysorted [a; b; n0]) n0.

  (** v[i] = x *)
  Definition vset (v : vec A) (i : nat) (x : A) : vec A :=
    if (i <? length v)%nat then firstn i v ++ [x] ++ skipn (S i) v else v.

  (** body of the loop over m, limiting.py:131-165: the new alim[m] and avgLC.
      The pre-computed integral tables (limiting.py:44-58) are inlined as calls; entries not filled
      by the constructor are never read. *)
  Definition hr_candidates (ac al ar alim : vec A) (m : nat) : A * A :=
    let Np := (length ac - 1)%nat in
    let ns := seq (m - 1) (Np + 2 - m) in
    let rs := seq (m + 1) (Np - m) in
    let avg a := nsum (map (fun n => at1 a n * integrate_monomial_derivative (m - 1) n) ns) in
    let avgRL := nsum (map (fun n => at1 alim n * integrate_monomial_derivative_bounds (m - 1) n (-3) (-1)) rs) in
    let avgRC := nsum (map (fun n => at1 alim n * integrate_monomial_derivative (m - 1) n) rs) in
    let avgRR := nsum (map (fun n => at1 alim n * integrate_monomial_derivative_bounds (m - 1) n 1 3) rs) in
    let avgLL := nhalf * (avg al - avgRL) in
    let avgLC := nhalf * (avg ac - avgRC) in
    let avgLR := nhalf * (avg ar - avgRR) in
    let c1 := nhalf * (avgLC - avgLL) in
    let c2 := nhalf * (avgLR - avgLC) in
    (scalar_minmod c1 c2, avgLC).

  (** for m in range(N, 0, -1); avgLC is unassigned until the first pass *)
  Fixpoint hr_loop (ac al ar : vec A) (m : nat) (alim : vec A) (avgLC : option A)
    : vec A * option A :=
    match m with
    | O => (alim, avgLC)
    | S m' => let '(c, avg) := hr_candidates ac al ar alim m in
              hr_loop ac al ar m' (vset alim m c) (Some avg)
    end.

  (** limit_monomial, limiting.py:122-169 *)
  Definition limit_monomial (ac al ar : vec A) : res (vec A) :=
    let '(alim, avgLC) := hr_loop ac al ar (length ac - 1) (zeros (length ac)) None in
    match avgLC with
    | Some a => Ok (vset alim 0 a)
    | None => Raise UnboundLocalError
    end.

  (** the matrix V, limiting.py:34-38 *)
  Definition hr_V (b : basis A) : mat A :=
    tab2 (b_Ns b) (b_Ns b) (fun i j => npown (at1 (b_x b) i) j / nfact j).

  (** the transforms, limiting.py:40-41 *)
  Record hr_maps := { h_L2M : mat A; h_M2L : mat A }.
  Definition hr_init (b : basis A) : res hr_maps :=
    let! Vinv := linv (hr_V b) in
    let L2M := dot Vinv (b_phi b) in
    let! M2L := linv L2M in
    Ok {| h_L2M := L2M; h_M2L := M2L |}.

  (** hr, limiting.py:95-119 *)
  Definition hr (h : hr_maps) (uc ul ur : vec A) : res (vec A) :=
    let! lim := limit_monomial (dotv (h_L2M h) uc) (dotv (h_L2M h) ul) (dotv (h_L2M h) ur) in
    Ok (dotv (h_M2L h) lim).
End Limiting.
Arguments hr_maps : clear implicits.
