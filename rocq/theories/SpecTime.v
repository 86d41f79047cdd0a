(** Vocabulary for statements about time integration: the states the while-loop of
    classic_rk / low_storage_rk4 (rk.py:79-124, 153-194) passes through. *)
From Coq Require Import ZArith List Bool Arith String Reals.
From Verif Require Import Num Py LegNumpy Ext Basis Limiting Solution Solver RKCoeffs RK.
Import ListNotations.

Section SpecTime.
  Context {A : Type} {N : Num A} {L : Libm A} {X : Ext A}.
  Variable gamma : A.

  (** the inner loop and the initial increments that option [rk] selects *)
  Definition rk_inner (rk : string) (d : dg) (l : limiter)
    : A -> solution A -> scratch A -> res (solution A * scratch A) :=
    if String.eqb rk "low_storage_rk4"
    then fun dt s sc => low_storage_stages gamma d l dt 0 (combine ls_betas ls_gammas) s sc
    else let tb := rk_choice rk in
         fun dt s sc => classic_stages gamma d l (map (map ceval) (tb_betas tb)) dt 0
                          (combine (map ceval (tb_coeffs tb)) (map ceval (tb_alphas tb))) s sc.
  Definition rk_K0 (rk : string) (sol : solution A) : list (mat A) :=
    if String.eqb rk "low_storage_rk4" then [zeros2 (nrows (s_u sol)) (ncols (s_u sol))]
    else map (fun _ => zeros2 (nrows (s_u sol)) (ncols (s_u sol))) (tb_coeffs (rk_choice rk)).

  (** [visits .. k tout touts s sc evs]: the loop is about to be entered (again) with output counter
      k, pending output time tout, remaining output times touts, solution s, scratch variables sc and
      snapshots evs written so far. *)
  Inductive visits (rk : string) (d : dg) (l : limiter) (cfl tf : A) (nout : Z) (sol0 : solution A)
    : nat -> A -> list A -> solution A -> scratch A -> list (event A) -> Prop :=
  | visits_start ev tout touts :
      printer 0 n0 sol0 = Ok ev ->
      slice_from (linspace (s_t sol0) tf (Z.to_nat nout)) 1 = tout :: touts ->
      visits rk d l cfl tf nout sol0 1 tout touts sol0
             {| sc_us := sol0; sc_uk := sol0; sc_K := rk_K0 rk sol0 |} [ev]
  | visits_quiet k tout touts s sc evs s' sc' dt :
      visits rk d l cfl tf nout sol0 k tout touts s sc evs ->
      time_step gamma (rk_inner rk d l) l cfl tf tout s sc = Ok (s', sc', (dt, false, false)) ->
      visits rk d l cfl tf nout sol0 k tout touts s' sc' evs
  | visits_output k tout tout' touts s sc evs s' sc' dt ev :
      visits rk d l cfl tf nout sol0 k tout (tout' :: touts) s sc evs ->
      time_step gamma (rk_inner rk d l) l cfl tf tout s sc = Ok (s', sc', (dt, true, false)) ->
      printer k dt s' = Ok ev ->
      visits rk d l cfl tf nout sol0 (k + 1) tout' touts s' sc' (evs ++ [ev]).
End SpecTime.
