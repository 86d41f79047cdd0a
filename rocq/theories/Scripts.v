(** The scripts around the solver: what dg1d/plot.py and regressions/plot.py draw, the comparison of regressions/regressions.py,
    and the convergence study of advection_convergence/.  Drawing, LaTeX and processes are not modelled; a script is the function
    from the files of a directory to the numbers it draws or computes. *)
From Coq Require Import ZArith List Bool Arith String.
From Verif Require Import Num Py PyStr LegNumpy Ext Basis Sensor Enhance IC Solution Solver RK IO Deck.
Import ListNotations.
Open Scope string_scope.
Open Scope list_scope.
Open Scope num_scope.

Section Scripts.
  Context {A : Type} {N : Num A} {L : Libm A} {X : Ext A}.

  Definition read (dir : directory) (name : string) : res string :=
    match read_file dir name with Some c => Ok c | None => Raise FileNotFound end.

  (** gamma = 1.4, dg1d/plot.py:69, regressions/plot.py:79 *)
  Definition plot_gamma : A := lit 14 10.
  (** primitive variables in place of the conserved ones, dg1d/plot.py:68-81, on one row *)
  Definition prim_row (NF : nat) (r : vec A) : vec A :=
    tab (List.length r) (fun j =>
      let e := (j / NF)%nat in
      let rho := at1 r (e * NF) in
      let u := at1 r (e * NF + 1) / rho in
      match (j mod NF)%nat with
      | 0%nat => rho
      | 1%nat => u
      | _ => (plot_gamma - n1) * (at1 r (e * NF + 2) - nhalf * rho * u * u)
      end).

  (** the points drawn for one element: circles at the Gauss nodes, squares at the edges, dg1d/plot.py:90-102 *)
  Definition element_points (s : solution A) (ug uf : mat A) (field e : nat) : list (A * A) * list (A * A) :=
    let a := at1 (s_x s) (e - 1) in
    let b := at1 (s_x s) e in
    (combine (map (fun x => nhalf * (b - a) * x + nhalf * (b + a)) (b_x (s_basis s))) (map (fun r => at1 r (e * s_NF s + field)) ug),
     combine [a; b] (map (fun r => at1 r (e * s_NF s + field)) uf)).
  (** dg1d/plot.py:58-102: per field, per element *)
  Definition plot_points (dir : directory) (step : nat) (system : string) : res (list (list (list (A * A) * list (A * A)))) :=
    let! sg := Solution "empty" system 0 "" "" [] in
    let! s := loader dir step (fst sg) in
    let ug := collocate s in
    let! uf := evaluate_faces s in
    let prims u := if String.eqb system "euler" then map (prim_row (s_NF s)) u else u in
    Ok (tab (s_NF s) (fun field => tab (Z.to_nat (s_NE s)) (fun i => element_points s (prims ug) (prims uf) field (i + 1)))).
  (** the curve drawn over every advection plot, dg1d/plot.py:105-108 *)
  Definition plot_exact : list (A * A) :=
    map (fun x => (x, nsin (nofZ 2 * npi * x))) (linspace (- n1) n1 200).
  (** the sensors, dg1d/plot.py:111-116; columns 0 and 1 of the file *)
  Definition plot_sensors (dir : directory) (step : nat) : res (list (A * A)) :=
    match read_file dir (format_fname 0 "sensor") with
    | None => Ok []
    | Some _ =>
        let! c := read dir (format_fname step "sensor") in
        let! rows := loadtxt c in
        mapM (fun r => let! x := nth_res r 0 in let! y := nth_res r 1 in Ok (x, y)) rows
    end.

  (** regressions/plot.py:71-83: cell centres with density, velocity and pressure of the averages *)
  Definition regression_points (dir : directory) (step : nat) : res (list (A * (A * A * A))) :=
    let! sg := Solution "empty" "euler" 0 "" "" [] in
    let! s := loader dir step (fst sg) in
    let sol := slice (row (s_u s) 0) (Z.of_nat (s_NF s)) (- Z.of_nat (s_NF s)) in
    let rho := stride sol 0 (s_NF s) in
    let u := map2 (fun m r => m / r) (stride sol 1 (s_NF s)) rho in
    let p := map2 (fun E ru => (plot_gamma - n1) * (E - nhalf * fst ru * snd ru * snd ru)) (stride sol 2 (s_NF s)) (combine rho u) in
    Ok (combine (s_xc s) (combine (combine rho u) p)).

  (** npt.assert_array_almost_equal(.., decimal=10): same shape, and entries equal, both NaN, or less than 1.5e-10 apart *)
  Definition almost_equal (x y : A) : bool :=
    ((nisnan x && nisnan y) || (x <=? y) && (y <=? x) || (nabs (x - y) <? lit 15 100000000000))%bool.
  Fixpoint all2 {Y Z} (f : Y -> Z -> bool) (a : list Y) (b : list Z) : bool :=
    match a, b with
    | [], [] => true
    | x :: a, y :: b => (f x y && all2 f a b)%bool
    | _, _ => false
    end.
  Definition same_table (a b : list (list A)) : bool := all2 (all2 almost_equal) a b.
  (** compare_with_golds, regressions.py:46-72: Ok false for an AssertionError *)
  Definition compare_field (dir : directory) (field : string) : res bool :=
    let! c := read dir (field ++ "0000000001.dat") in
    let! dat := loadtxt c in
    let! g := read dir (field ++ "0000000001.gold") in
    let! gold := loadtxt g in
    Ok (same_table dat gold).
  Definition compare_with_golds (dir : directory) : res bool :=
    let! b0 := compare_field dir "rho" in
    if b0 then
      let! b1 := compare_field dir "rhou" in
      if b1 then compare_field dir "E" else Ok false
    else Ok false.

  (** error_norm, advection_convergence/plot.py:48-62.  The function ignores its arguments and reads globals of the same values;
      sum() starts at 0; max() of an empty sequence raises. *)
  Definition half_diff (u0 uf : vec A) : vec A := map2 (fun a b => nhalf * a - nhalf * b) u0 uf.
  Definition sumA (l : vec A) : A := fold_left nadd l n0.
  Definition error_norm (u0 uf : vec A) (res_ : nat) (etype : string) : res A :=
    let d := half_diff u0 uf in
    let l2 := nsqrt (sumA (map (fun x => x * x) d) / nofZ (Z.of_nat res_)) in
    if negb (Nat.eqb (List.length u0) (List.length uf)) then Raise ValueError
    else if String.eqb etype "L2" then Ok l2
    else if String.eqb etype "L1" then Ok (sumA (map nabs d) / nofZ (Z.of_nat (List.length u0)))
    else if String.eqb etype "Linf" then match map nabs d with [] => Raise ValueError | x :: r => Ok (fold_left (fun m y => if m <? y then y else m) r x) end
    else Ok l2.
  (** one entry of errors, advection_convergence/plot.py:110-122.  Indexing the 1-d array of a single row raises. *)
  Definition study_column (dir : directory) (name : string) : res (vec A) :=
    let! c := read dir name in
    let! rows := loadtxt c in
    if Nat.eqb (List.length rows) 1 then Raise IndexError else mapM (fun r => nth_res r 1) rows.
  Definition study_error (dir : directory) (res_ : nat) : res A :=
    let! u0 := study_column dir "u0000000000.dat" in
    let! uf := study_column dir "u0000000010.dat" in
    error_norm u0 uf res_ "L2".
  (** the printed orders, advection_convergence/plot.py:129-130: - diff(log(errors)) / diff(log(resolutions)) *)
  Definition diff (l : vec A) : vec A := map2 (fun b a => b - a) (tl l) l.
  Definition observed_orders (ln : A -> A) (errors : vec A) (resolutions : list nat) : vec A :=
    map2 (fun a b => - a / b) (diff (map ln errors)) (diff (map (fun n => ln (nofZ (Z.of_nat n))) resolutions)).
End Scripts.

(** problem definitions, advection_convergence/run.py:82-89 *)
Definition study_defs (order res_ : nat) : list (string * string) :=
  [ ("PDE system", "advection"); ("RK scheme", "rk12"); ("initial condition", ("sinewave " ++ show_nat res_)%string);
    ("number of outputs", "11"); ("final time", "8"); ("Courant-Friedrichs-Lewy condition", "0.5");
    ("order", show_nat order); ("limiting", "0") ].
(** the deck that deck.write_deck writes, run.py:98 *)
Definition study_deck (order res_ : nat) : string := write_deck (study_defs order res_).
