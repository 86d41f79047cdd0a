(** dg1d/rk.py: Runge-Kutta time integration *)
From Coq Require Import ZArith List Bool Arith String.
From Verif Require Import Num Py LegNumpy Ext Basis Sensor Enhance Limiting Solution Solver RKCoeffs.
Import ListNotations.
Open Scope list_scope.
Open Scope num_scope.

Section RK.
  Context {A : Type} {N : Num A} {L : Libm A} {X : Ext A}.
  Variable gamma : A.         (* constants.gamma; nothing in rk.py changes it *)

  (** One call of solution.printer(nout, dt): what is written is a function of these (IO.v). *)
  Record event := { ev_nout : nat; ev_dt : A; ev_sol : solution A }.

  (** the columns of the field number [field] printed and loaded, solution.py:144-148:
      u[:, start:end:step] with start = N_F+field, end = -2*N_F+1+field, step = N_F *)
  Definition field_row (NF field : nat) (r : vec A) : vec A :=
    let nf := Z.of_nat NF in
    slice_step r (nf + Z.of_nat field) (-2 * nf + 1 + Z.of_nat field) NF.

  (** printer, solution.py:121-165: the exceptions it can raise.  np.c_ needs as many columns as
      centroids; the percentage of active sensors divides by the number of rows. *)
  Definition printer (nout : nat) (dt : A) (s : solution A) : res event :=
    let shapes_ok :=
      forallb (fun field => forallb (fun r =>
          Nat.eqb (List.length (field_row (s_NF s) field r)) (List.length (s_xc s))) (s_u s))
        (seq 0 (s_NF s)) in
    if negb shapes_ok then Raise ValueError
    else match s_sens s with
         | None => Ok {| ev_nout := nout; ev_dt := dt; ev_sol := s |}
         | Some sn =>
             if negb (Nat.eqb (List.length (slice (sn_sensors sn) 1 (-1))) (List.length (s_xc s)))
             then Raise ValueError
             else if Nat.eqb (List.length (s_xc s)) 0 then Raise ZeroDivisionError
             else Ok {| ev_nout := nout; ev_dt := dt; ev_sol := s |}
         end.

  (** cfl_time_step, rk.py:212-222 *)
  Definition cfl_time_step (s : solution A) (cfl : A) : res A :=
    let! v := max_wave_speed gamma s in
    Ok (s_dx s * cfl / (v * nnat (2 * b_p (s_basis s) + 1))).

  (** sanity_check_dt, rk.py:226-237 (the message's numbers are left out) *)
  Definition sanity_check_dt (dt : A) : res unit :=
    if dt <? lit 1 100000000000000 then Raise (SysExit "Next time step is too small")
    else if nisnan dt then Raise (SysExit "Time step is NaN")
    else Ok tt.

  (** adjust_for_output, rk.py:242-259: (dt, output, done) *)
  Definition adjust_for_output (dt t tf tout : A) : A * bool * bool :=
    if tf - t <? dt then (tf - t, true, true)
    else if tout - t <? dt then (tout - t, true, false)
    else (dt, false, false).

  (** get_next_time_step, rk.py:198-208 *)
  Definition get_next_time_step (s : solution A) (tout cfl tf : A) : res (A * bool * bool) :=
    let! dt := cfl_time_step s cfl in
    let! _ := sanity_check_dt dt in
    Ok (adjust_for_output dt (s_t s) tf tout).

  (** ** the inner loops *)

  (** scratch variables that live across time steps: us, uk (ustar) and the increments *)
  Record scratch := { sc_us : solution A; sc_uk : solution A; sc_K : list (mat A) }.

  Definition lset {Y} (l : list Y) (i : nat) (y : Y) : list Y := firstn i l ++ [y] ++ skipn (S i) l.

  (** inner loop of classic_rk, rk.py:89-108, from stage k on; [cas] are the remaining
      (c, alpha) pairs *)
  Fixpoint classic_stages (d : dg) (l : limiter) (betas : mat A) (dt : A)
           (k : nat) (cas : list (A * A)) (sol : solution A) (sc : scratch)
    : res (solution A * scratch) :=
    match cas with
    | [] => Ok (sol, sc)
    | (c, alpha) :: rest =>
        let uk0 := copy_data_only (sc_uk sc) (sc_us sc) in
        let uk1 := fold_left (fun uk bk => smart_axpy uk (fst bk) (snd bk))
                             (combine (firstn k (row betas k)) (sc_K sc)) uk0 in
        let uk2 := with_t uk1 (s_t uk1 + alpha * dt) in
        let! uk3 := (if (0 <? k)%nat then limit gamma l uk2 else Ok uk2) in
        let! r := residual gamma d uk3 in
        let '(uk4, F) := r in
        let Kk := mscale dt F in
        classic_stages d l betas dt (S k) rest (smart_axpy sol c Kk)
          {| sc_us := sc_us sc; sc_uk := uk4; sc_K := lset (sc_K sc) k Kk |}
    end.

  (** inner loop of low_storage_rk4, rk.py:163-178; du is the single entry of sc_K *)
  Fixpoint low_storage_stages (d : dg) (l : limiter) (dt : A)
           (k : nat) (bgs : list (A * A)) (sol : solution A) (sc : scratch)
    : res (solution A * scratch) :=
    match bgs with
    | [] => Ok (sol, sc)
    | (beta, gam) :: rest =>
        let us0 := copy_data_only (sc_uk sc) (sc_us sc) in
        let us1 := smart_axpy us0 beta (hd [] (sc_K sc)) in
        let us2 := with_t us1 (s_t us1 + beta * dt) in
        let! us3 := (if (0 <? k)%nat then limit gamma l us2 else Ok us2) in
        let! r := residual gamma d us3 in
        let '(us4, F) := r in
        let du := mscale dt F in
        low_storage_stages d l dt (S k) rest (smart_axpy sol gam du)
          {| sc_us := sc_us sc; sc_uk := us4; sc_K := [du] |}
    end.

  (** ** the time loop, common to classic_rk (rk.py:79-124) and low_storage_rk4 (rk.py:153-194):
      the two functions' loops are textually the same apart from the inner loop. *)
  Inductive outcome := Finished (s : solution A) | Failed (e : exn) | OutOfFuel.

  Definition set_us (sc : scratch) (s : solution A) : scratch :=
    {| sc_us := copy_data_only (sc_us sc) s; sc_uk := sc_uk sc; sc_K := sc_K sc |}.

  (** one pass of the loop body up to the output test, rk.py:82-117 / 156-187 *)
  Definition time_step (inner : A -> solution A -> scratch -> res (solution A * scratch))
             (l : limiter) (cfl tf tout : A) (sol : solution A) (sc : scratch)
    : res (solution A * scratch * (A * bool * bool)) :=
    let! r := get_next_time_step sol tout cfl tf in
    let '(dt, output, done) := r in
    let! r1 := inner dt sol (set_us sc sol) in
    let '(sol1, sc1) := r1 in
    let sol2 := with_n (with_t sol1 (s_t sol1 + dt)) (s_n sol1 + 1) in
    let! sol3 := apply_bc sol2 in
    let! sol4 := limit gamma l sol3 in
    Ok (sol4, sc1, (dt, output, done)).

  Fixpoint time_loop (inner : A -> solution A -> scratch -> res (solution A * scratch))
           (l : limiter) (cfl tf : A) (fuel nout : nat) (tout : A) (touts : list A)
           (sol : solution A) (sc : scratch) (evs : list event) : list event * outcome :=
    match fuel with
    | O => (evs, OutOfFuel)
    | S f =>
        match time_step inner l cfl tf tout sol sc with
        | Raise e => (evs, Failed e)
        | Ok (sol', sc', (dt, output, done)) =>
            if output then
              match printer nout dt sol' with
              | Raise e => (evs, Failed e)
              | Ok ev =>
                  if done then (evs ++ [ev], Finished sol')
                  else match touts with
                       | [] => (evs ++ [ev], Failed StopIteration)
                       | tout' :: touts' =>
                           time_loop inner l cfl tf f (nout + 1) tout' touts' sol' sc' (evs ++ [ev])
                       end
              end
            else if done then (evs, Finished sol')
            else time_loop inner l cfl tf f nout tout touts sol' sc' evs
        end
    end.

  (** start-up and loop, rk.py:62-124 / 132-194.  A negative nout makes linspace raise before
      anything is printed; nout <= 1 leaves no output time: StopIteration after snapshot 0. *)
  Definition run_rk (inner : A -> solution A -> scratch -> res (solution A * scratch))
             (K0 : list (mat A)) (l : limiter) (cfl tf : A) (nout : Z) (fuel : nat)
             (sol : solution A) : list event * outcome :=
    if (nout <? 0)%Z then ([], Failed ValueError)
    else
      let touts := slice_from (linspace (s_t sol) tf (Z.to_nat nout)) 1 in
      match printer 0 n0 sol with
      | Raise e => ([], Failed e)
      | Ok ev =>
          match touts with
          | [] => ([ev], Failed StopIteration)
          | tout :: touts' =>
              time_loop inner l cfl tf fuel 1 tout touts' sol
                {| sc_us := sol; sc_uk := sol; sc_K := K0 |} [ev]
          end
      end.

  (** classic_rk, rk.py:58-124 *)
  Definition classic_rk (d : dg) (l : limiter) (coeffs alphas : vec A) (betas : mat A)
             (cfl tf : A) (nout : Z) (fuel : nat) (sol : solution A) : list event * outcome :=
    run_rk (fun dt s sc => classic_stages d l betas dt 0 (combine coeffs alphas) s sc)
           (map (fun _ => zeros2 (nrows (s_u sol)) (ncols (s_u sol))) coeffs)
           l cfl tf nout fuel sol.

  (** low_storage_rk4, rk.py:128-194 *)
  Definition ls_betas : vec A := [n0; nhalf; nhalf; n1].
  Definition ls_gammas : vec A := [lit 1 6; lit 1 3; lit 1 3; lit 1 6].
  Definition low_storage_rk4 (d : dg) (l : limiter) (cfl tf : A) (nout : Z) (fuel : nat)
             (sol : solution A) : list event * outcome :=
    run_rk (fun dt s sc => low_storage_stages d l dt 0 (combine ls_betas ls_gammas) s sc)
           [zeros2 (nrows (s_u sol)) (ncols (s_u sol))]
           l cfl tf nout fuel sol.

  (** integrate, rk.py:19-54 *)
  Definition rk_choice (rk : string) : rk_table :=
    if String.eqb rk "rk3" then rk3_table
    else if String.eqb rk "rk4" then rk4_table
    else if String.eqb rk "rk5" then rk5_table
    else if String.eqb rk "rk6" then rk6_table
    else if String.eqb rk "rk8" then rk8_table
    else if String.eqb rk "rk10" then rk10_table
    else if String.eqb rk "rk12" then rk12_table
    else if String.eqb rk "rk14" then rk14_table
    else rk4_table.
  Definition integrate (rk : string) (d : dg) (l : limiter) (cfl tf : A) (nout : Z) (fuel : nat)
             (sol : solution A) : list event * outcome :=
    if String.eqb rk "low_storage_rk4" then low_storage_rk4 d l cfl tf nout fuel sol
    else let tb := rk_choice rk in
         classic_rk d l (map ceval (tb_coeffs tb)) (map ceval (tb_alphas tb))
                    (map (map ceval) (tb_betas tb)) cfl tf nout fuel sol.
End RK.
Arguments event : clear implicits.
Arguments outcome : clear implicits.
Arguments scratch : clear implicits.
