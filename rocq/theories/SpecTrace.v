(** The states at which a run evaluates the right-hand side of the semi-discrete equations. *)
From Coq Require Import ZArith List Bool Arith String.
From Verif Require Import Num Py Ext Basis Solution Limiting Solver RKCoeffs RK SpecTime.
Import ListNotations.
Open Scope list_scope.

Section Trace.
  Context {A : Type} {N : Num A} {L : Libm A}.
  Variable gamma : A.
  (** the arguments of [residual] in the stages of classic_rk, in order (rk.py:89-108) *)
  Fixpoint classic_inputs (d : dg) (l : limiter) (betas : mat A) (dt : A) (k : nat) (cas : list (A * A)) (sc : scratch A) : list (solution A) :=
    match cas with
    | [] => []
    | (c, alpha) :: rest =>
        let uk0 := copy_data_only (sc_uk sc) (sc_us sc) in
        let uk1 := fold_left (fun uk bk => smart_axpy uk (fst bk) (snd bk)) (combine (firstn k (row betas k)) (sc_K sc)) uk0 in
        let uk2 := with_t uk1 (nadd (s_t uk1) (nmul alpha dt)) in
        match (if (0 <? k)%nat then limit gamma l uk2 else Ok uk2) with
        | Raise _ => []
        | Ok uk3 => uk3 ::
            match residual gamma d uk3 with
            | Raise _ => []
            | Ok (uk4, F) => classic_inputs d l betas dt (S k) rest {| sc_us := sc_us sc; sc_uk := uk4; sc_K := lset (sc_K sc) k (mscale dt F) |}
            end
        end
    end.
  (** .. of low_storage_rk4 (rk.py:163-178) *)
  Fixpoint low_storage_inputs (d : dg) (l : limiter) (dt : A) (k : nat) (bgs : list (A * A)) (sc : scratch A) : list (solution A) :=
    match bgs with
    | [] => []
    | (beta, gam) :: rest =>
        let us0 := copy_data_only (sc_uk sc) (sc_us sc) in
        let us1 := smart_axpy us0 beta (hd [] (sc_K sc)) in
        let us2 := with_t us1 (nadd (s_t us1) (nmul beta dt)) in
        match (if (0 <? k)%nat then limit gamma l us2 else Ok us2) with
        | Raise _ => []
        | Ok us3 => us3 ::
            match residual gamma d us3 with
            | Raise _ => []
            | Ok (us4, F) => low_storage_inputs d l dt (S k) rest {| sc_us := sc_us sc; sc_uk := us4; sc_K := [mscale dt F] |}
            end
        end
    end.
  Definition inner_inputs (rk : string) (d : dg) (l : limiter) (dt : A) (sc : scratch A) : list (solution A) :=
    if String.eqb rk "low_storage_rk4" then low_storage_inputs d l dt 0 (combine ls_betas ls_gammas) sc
    else let tb := rk_choice rk in
         classic_inputs d l (map (map ceval) (tb_betas tb)) dt 0 (combine (map ceval (tb_coeffs tb)) (map ceval (tb_alphas tb))) sc.
  (** x is handed to [residual] in some step of the run *)
  Definition evaluated (rk : string) (d : dg) (l : limiter) (cfl tf : A) (nout : Z) (sol0 x : solution A) : Prop :=
    exists k tout touts s sc evs dt o dn,
      visits gamma rk d l cfl tf nout sol0 k tout touts s sc evs /\
      get_next_time_step gamma s tout cfl tf = Ok (dt, o, dn) /\
      In x (inner_inputs rk d l dt (set_us sc s)).
End Trace.
