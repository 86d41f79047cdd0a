(** The states to which a run applies the limiter. *)
From Coq Require Import ZArith List Bool Arith String.
From Verif Require Import Num Py Ext Basis Solution Limiting Solver RKCoeffs RK SpecTime.
Import ListNotations.
Open Scope list_scope.

Section Clip.
  Context {A : Type} {N : Num A} {L : Libm A}.
  Variable gamma : A.
  (** the arguments of [limit] in the stages of classic_rk, in order (rk.py:89-108) *)
  Fixpoint classic_clips (d : dg) (l : limiter) (betas : mat A) (dt : A) (k : nat) (cas : list (A * A)) (sc : scratch A) : list (solution A) :=
    match cas with
    | [] => []
    | (c, alpha) :: rest =>
        let uk0 := copy_data_only (sc_uk sc) (sc_us sc) in
        let uk1 := fold_left (fun uk bk => smart_axpy uk (fst bk) (snd bk)) (combine (firstn k (row betas k)) (sc_K sc)) uk0 in
        let uk2 := with_t uk1 (nadd (s_t uk1) (nmul alpha dt)) in
        (if (0 <? k)%nat then [uk2] else []) ++
        match (if (0 <? k)%nat then limit gamma l uk2 else Ok uk2) with
        | Raise _ => []
        | Ok uk3 =>
            match residual gamma d uk3 with
            | Raise _ => []
            | Ok (uk4, F) => classic_clips d l betas dt (S k) rest {| sc_us := sc_us sc; sc_uk := uk4; sc_K := lset (sc_K sc) k (mscale dt F) |}
            end
        end
    end.
  (** .. of low_storage_rk4 (rk.py:163-178) *)
  Fixpoint low_storage_clips (d : dg) (l : limiter) (dt : A) (k : nat) (bgs : list (A * A)) (sc : scratch A) : list (solution A) :=
    match bgs with
    | [] => []
    | (beta, gam) :: rest =>
        let us0 := copy_data_only (sc_uk sc) (sc_us sc) in
        let us1 := smart_axpy us0 beta (hd [] (sc_K sc)) in
        let us2 := with_t us1 (nadd (s_t us1) (nmul beta dt)) in
        (if (0 <? k)%nat then [us2] else []) ++
        match (if (0 <? k)%nat then limit gamma l us2 else Ok us2) with
        | Raise _ => []
        | Ok us3 =>
            match residual gamma d us3 with
            | Raise _ => []
            | Ok (us4, F) => low_storage_clips d l dt (S k) rest {| sc_us := sc_us sc; sc_uk := us4; sc_K := [mscale dt F] |}
            end
        end
    end.
  Definition inner_clips (rk : string) (d : dg) (l : limiter) (dt : A) (sc : scratch A) : list (solution A) :=
    if String.eqb rk "low_storage_rk4" then low_storage_clips d l dt 0 (combine ls_betas ls_gammas) sc
    else let tb := rk_choice rk in
         classic_clips d l (map (map ceval) (tb_betas tb)) dt 0 (combine (map ceval (tb_coeffs tb)) (map ceval (tb_alphas tb))) sc.
  (** x is handed to [limit] in some step of the run: in a stage, or at the end of the step *)
  Definition clipped (rk : string) (d : dg) (l : limiter) (cfl tf : A) (nout : Z) (sol0 x : solution A) : Prop :=
    exists k tout touts s sc evs dt o dn,
      visits gamma rk d l cfl tf nout sol0 k tout touts s sc evs /\
      get_next_time_step gamma s tout cfl tf = Ok (dt, o, dn) /\
      (In x (inner_clips rk d l dt (set_us sc s)) \/
       exists s1 sc1, rk_inner gamma rk d l dt s (set_us sc s) = Ok (s1, sc1) /\
         apply_bc (with_n (with_t s1 (nadd (s_t s1) dt)) (s_n s1 + 1)%nat) = Ok x).
End Clip.
