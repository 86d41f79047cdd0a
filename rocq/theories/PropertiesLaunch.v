(** Properties C51 (runs), C77 and C78: the scripts that start the solver.  Definitions in Launch.v (regressions/regressions.py and
    advection_convergence/run.py); vocabulary in SpecLaunch.v. *)
From Coq Require Import ZArith List Bool Arith String Ascii Lia Floats.SpecFloat.
From Verif Require Import Num Py Lib PyStr Constants LegNumpy Ext Basis Sensor Enhance IC Solution Solver RK IO Deck Main Scripts Launch
  SpecDG SpecIO SpecLaunch ProofsTime2 ProofsWf ProofsIO ProofsMain ProofsLaunch ProofsStudy FloatInst ProofsStageLimit PropertiesIO.
Import ListNotations.
Open Scope string_scope.
Open Scope list_scope.

(** * C77: what a regression test tells *)
(** A test passes exactly when the deck's run stopped, wrote a snapshot 1 of an Euler state, and the numbers of that snapshot are those of the
    gold files up to 1.5e-10.  Nothing is asked of the way the run stopped. *)
Theorem C77_passes : forall A (N : Num A) (L : Libm A) (X : Ext A) fuel (dir : directory), snd (launch fuel dir) = Passed <->
  exists content evs out ev, read_file dir "deck.inp" = Some content /\ main fuel content = (evs, out) /\ out <> OutOfFuel /\
    nth_error evs 1 = Some ev /\ s_euler (ev_sol ev) = true /\ golds_match dir (ev_sol ev).
Proof. intros. apply passes. Qed.
(** For the decks of the repository, which ask for two outputs, a pass means more: the run completed and its final state matches. *)
Theorem C77_two_outputs : forall A (N : Num A) (L : Libm A) (X : Ext A) fuel (dir : directory) content (d : deck A),
  read_file dir "deck.inp" = Some content -> parser content Deck = Ok d -> dk_nout d = 2%Z ->
  snd (launch fuel dir) = Passed <-> exists evs s, main fuel content = (evs, Finished s) /\ s_euler s = true /\ golds_match dir s.
Proof. intros. apply (passes_two fuel dir content d); assumption. Qed.
(** golds printed from a state: the modes and centroids are compared, entry by entry *)
Theorem C77_golds : forall A (N : Num A) (L : Libm A) (X : Ext A) ne ne' (s g : solution A) (dir : directory), wf ne s -> wf ne' g -> s_euler s = true -> s_euler g = true ->
  texts_ok ne s -> texts_ok ne' g -> bc_name_ok (s_bcl s) -> bc_name_ok (s_bcr s) -> bc_name_ok (s_bcl g) -> bc_name_ok (s_bcr g) ->
  (forall f name, nth_error ["rho"; "rhou"; "E"] f = Some name -> read_file dir (name ++ "0000000001.gold")%string = Some (field_file g f)) ->
  golds_match dir s <-> forall f, (f < 3)%nat -> Forall2 (Forall2 (fun x y => almost_equal x y = true)) (field_table s f) (field_table g f).
Proof. intros A N L X. exact golds_state. Qed.
(** Output of earlier runs has no influence on the verdict, nor on what is in the directory afterwards. *)
Theorem C77_stale_files : forall A (N : Num A) (L : Libm A) (X : Ext A) fuel (dir dir' : directory), same_kept dir dir' ->
  snd (launch fuel dir) = snd (launch fuel dir') /\ forall name, read_file (fst (launch fuel dir)) name = read_file (fst (launch fuel dir')) name.
Proof. intros A N L X. exact launch_stale. Qed.
(** A test changes only the files matching *.dat and the log: not its deck, not its golds. *)
Theorem C77_keeps_files : forall A (N : Num A) (L : Libm A) (X : Ext A) fuel (dir : directory) name, ~ dat_file name -> name <> "logfile" ->
  read_file (fst (launch fuel dir)) name = read_file dir name.
Proof. intros A N L X. exact launch_keeps. Qed.
(** A run that stops without a snapshot 1, or one of advection, makes the test end in an error: golds are not reached. *)
Theorem C77_no_snapshot : forall A (N : Num A) (L : Libm A) (X : Ext A) fuel (dir : directory) content evs out,
  read_file dir "deck.inp" = Some content -> main fuel content = (evs, out) -> out <> OutOfFuel ->
  (forall ev, nth_error evs 1 = Some ev -> s_euler (ev_sol ev) = false) -> snd (launch fuel dir) = Error FileNotFound.
Proof. intros A N L X. exact launch_missing. Qed.

(** A shock tube in doubles, with the text of doubles of C49.  Against golds with eleven decimals the test passes for both formulations of RK4, also next
    to the output of an older run, and fails for rk3; an unreadable deck is an error, whatever output an older run has left. *)
#[local] Existing Instance Ext64.
#[local] Existing Instance LibmSF.
Definition tube (cells rk cfl nout : string) : string :=
  write_deck [("PDE system", "euler"); ("RK scheme", rk); ("riemann solver", "rusanov"); ("initial condition", ("scktube " ++ cells ++ " 0.0 1.0 0.0 1.0 0.125 0.0 0.1")%string);
              ("number of outputs", nout); ("final time", "0.2"); ("Courant-Friedrichs-Lewy condition", cfl); ("order", "1")].
Definition tube_files (deck : string) : directory := flat_map (printed_files (A := spec_float)) (fst (main 20 deck)).
Definition tube_golds (deck : string) : directory :=
  map (fun name => ((name ++ "0000000001.gold")%string, match read_file (tube_files deck) (name ++ "0000000001.dat")%string with Some c => c | None => "" end)) ["rho"; "rhou"; "E"].
Definition tube_test (deck : string) (others : directory) : verdict := snd (launch (A := spec_float) 20 (others ++ [("deck.inp", deck)])).
Definition rounded_golds : directory :=
  [("rho0000000001.gold", ("-0.5,0.86990643014,-0.18973774971" ++ nl ++ "0.5,0.25929869649,-0.17374246677" ++ nl)%string);
   ("rhou0000000001.gold", ("-0.5,0.09731128970,0.13470072779" ++ nl ++ "0.5,0.10593770654,-0.15696544067" ++ nl)%string);
   ("E0000000001.gold", ("-0.5,2.15335075072,-0.50751092281" ++ nl ++ "0.5,0.60254602512,-0.48696898838" ++ nl)%string)].
Example C77_verdicts :
  tube_test (tube "2" "rk4" "0.5" "2") (("rho0000000001.dat", "1.0,2.0") :: rounded_golds) = Passed /\
  tube_test (tube "2" "low_storage_rk4" "0.5" "2") rounded_golds = Passed /\
  tube_test (tube "2" "rk3" "0.5" "2") rounded_golds = NotEqual /\
  tube_test "" (tube_files (tube "2" "rk4" "0.5" "2") ++ rounded_golds) = Error FileNotFound.
Proof. repeat split; vm_compute; reflexivity. Qed.
Example C77_two_outputs_used : exists d : deck spec_float, parser (tube "2" "rk4" "0.5" "2") Deck = Ok d /\ dk_nout d = 2%Z /\
  exists evs (s : solution spec_float), main 20 (tube "2" "rk4" "0.5" "2") = (evs, Finished s) /\ s_euler s = true /\ golds_match (rounded_golds ++ [("deck.inp", tube "2" "rk4" "0.5" "2")]) s.
Proof.
  set (c := tube "2" "rk4" "0.5" "2"). assert (E : exists d : deck spec_float, parser c Deck = Ok d /\ dk_nout d = 2%Z) by (eexists; split; vm_compute; reflexivity).
  destruct E as [d [E1 E2]]. exists d. split; [exact E1|]. split; [exact E2|]. apply (C77_two_outputs _ _ _ _ 20 (rounded_golds ++ [("deck.inp", c)]) c d); [vm_compute; reflexivity|exact E1|exact E2|vm_compute; reflexivity].
Qed.
(** With three outputs a test can pass although its run ended with an error, here a time step that is not a number: the return code is not looked at, and
    entries that are NaN on both sides count as equal. *)
Example C77_return_code_ignored : let c := tube "3" "rk4" "0.8" "3" in
  snd (main (A := spec_float) 20 c) = Failed (SysExit "Time step is NaN") /\ tube_test c (tube_golds c) = Passed.
Proof. cbv zeta. split; vm_compute; reflexivity. Qed.
Example C77_stale_used : same_kept [("rho0000000001.dat", "1"); ("deck.inp", "x")] [("deck.inp", "x"); ("E7.dat", "0")] /\ ~ dat_file "deck.inp" /\ ~ dat_file "rho0000000001.gold" /\ dat_file "E7.dat".
Proof.
  split; [|split; [|split]].
  - intros name H. cbn [read_file]. destruct (String.eqb_spec "E7.dat" name) as [<-|_]; [exfalso; apply H; apply is_dat_spec; reflexivity|].
    destruct (String.eqb_spec "rho0000000001.dat" name) as [<-|_]; [exfalso; apply H; apply is_dat_spec; reflexivity|]. destruct (String.eqb "deck.inp" name); reflexivity.
  - intro H. apply is_dat_spec in H. discriminate.
  - intro H. apply is_dat_spec in H. discriminate.
  - apply is_dat_spec. reflexivity.
Qed.

(** * C51: the gas of a run *)
(** A run uses the ratio of specific heats that its initial condition sets, 3 for simplew and 1.4 for all others: it completes in a single step exactly
    when the final time is nearer than the CFL step of snapshot 0 for that gas. *)
Theorem C51_run_gas_partial : forall A (N : Num A) (L : Libm A) (X : Ext A) (d : deck A) fuel evs s, dk_nout d = 2%Z -> run_deck fuel d = (evs, Finished s) ->
  let gas := if match split_ws (dk_ic d) with name :: _ => String.eqb name "simplew" | [] => false end then nofZ 3 else gamma_default in
  exists c ev0, hd_error evs = Some ev0 /\ cfl_time_step gas (ev_sol ev0) (dk_cfl d) = Ok c /\
    (s_n s = Datatypes.S (s_n (ev_sol ev0)) <-> nltb (nsub (dk_finaltime d) (s_t (ev_sol ev0))) c = true).
Proof.
  intros A N L X d fuel evs s H2 H gas. unfold run_deck in H. destruct (setup d) as [[[[s0 g] dgs] l]|e] eqn:E; [|discriminate]. rewrite H2 in H.
  apply run_one_step in H. destruct H as [c [ev0 [K1 [K2 [K3 K4]]]]]. exists c, ev0. rewrite K3. split; [exact K2|]. split; [|exact K4]. replace gas with g; [exact K1|].
  unfold setup in E. destruct (dk_order d <? 0)%Z; [discriminate|]. inv_bind E. destruct x as [s1 g1]. inv_bind E. inv_bind E. inv_bind E. inv_bind E. injection E as _ -> _ _. apply Solution_gamma in Hx. exact Hx.
Qed.
(** a simple wave in doubles: two steps to time 0.2 with its gamma = 3, where gamma = 1.4 would give one *)
Definition steps_taken (o : outcome spec_float) : option nat := match o with Finished s => Some (s_n s) | _ => None end.
Example C51_run_gas_used :
  let d := {| dk_system := "euler"; dk_rk := "rk3"; dk_riemann := "rusanov"; dk_ic := "simplew 4"; dk_nout := 2; dk_finaltime := lit 2 10;
              dk_cfl := lit 1 10; dk_order := 0; dk_limiting := ""; dk_enhance := ""; dk_thresholds := [] |} : deck spec_float in
  steps_taken (snd (run_deck 5 d)) = Some 2%nat /\
  match setup d with Ok (s0, _, dgs, l) => steps_taken (snd (integrate gamma_default (dk_rk d) dgs l (dk_cfl d) (dk_finaltime d) (dk_nout d) 5 s0)) = Some 1%nat | _ => False end.
Proof. cbv zeta. split; vm_compute; reflexivity. Qed.

(** * C78: the convergence study does not start the solver *)
(** run.py, from any directory, any files, any lists of orders and resolutions: whenever it ends normally it has not started the solver once.  The path
    '../dg1d/main.py' is looked up from the run's directory, where it names a file inside the directory of the order, which the script has just removed. *)
Theorem C78_solver_not_started : forall A (N : Num A) (L : Libm A) (X : Ext A) fuel (base : path) orders resolutions t t' started,
  study fuel base orders resolutions t = Ok (t', started) -> started = [].
Proof. intros A N L X fuel base orders resolutions t t' started H. apply study_inv in H. apply H. Qed.
(** It does end normally when the resolutions are distinct ... *)
Theorem C78_study_ends : forall A (N : Num A) (L : Libm A) (X : Ext A) fuel (base : path) orders resolutions t, NoDup resolutions ->
  exists t', study fuel base orders resolutions t = Ok (t', []).
Proof.
  intros A N L X fuel base orders resolutions t H. destruct (study_ok (X := X) base fuel resolutions H orders t) as [[t' st] E]. exists t'. rewrite E.
  apply study_inv in E. destruct E as [-> _]. reflexivity.
Qed.
(** ... and the plotting script then finds no data for any of its orders. *)
Theorem C78_nothing_to_plot : forall A (N : Num A) (L : Libm A) (X : Ext A) fuel (base : path) orders resolutions t t' started,
  study fuel base orders resolutions t = Ok (t', started) ->
  forall order res_, In order orders -> study_error (listing t' (base ++ [show_nat order; show_nat res_])) res_ = Raise FileNotFound.
Proof. intros A N L X fuel base orders resolutions t t' started H order res_ Ho. apply study_inv in H. apply plot_missing. apply (proj1 (proj2 H)). exact Ho. Qed.
(** The script as it stands, in a checkout under /home/dg1d: five decks and five logs are all there is afterwards.  In the same tree the start from
    the script's own directory finds the solver. *)
Definition checkout : tree :=
  {| t_dirs := [[]; ["home"]; ["home"; "dg1d"]; ["home"; "dg1d"; "dg1d"]; ["home"; "dg1d"; "advection_convergence"]];
     t_files := [(["home"; "dg1d"; "dg1d"; "main.py"], "#!/usr/bin/env python3"); (["home"; "dg1d"; "advection_convergence"; "run.py"], "")] |}.
Example C78_checkout : let base := ["home"; "dg1d"; "advection_convergence"] in
  exists t', study (A := spec_float) 20 base [4%nat] [4; 8; 16; 32; 64]%nat checkout = Ok (t', []) /\
    skipn 2 (map fst (t_files t')) = flat_map (fun r => [base ++ ["4"; r; "deck.inp"]; base ++ ["4"; r; "logfile"]]) ["4"; "8"; "16"; "32"; "64"] /\
    snd (start_solver (A := spec_float) 0 checkout base (study_deck 4 4)) = [["home"; "dg1d"; "dg1d"; "main.py"]].
Proof. cbv zeta. eexists. split; [vm_compute; reflexivity|]. split; vm_compute; reflexivity. Qed.

Print Assumptions C77_passes.
Print Assumptions C77_two_outputs.
Print Assumptions C77_golds.
Print Assumptions C77_stale_files.
Print Assumptions C77_keeps_files.
Print Assumptions C77_no_snapshot.
Print Assumptions C77_verdicts.
Print Assumptions C77_two_outputs_used.
Print Assumptions C77_return_code_ignored.
Print Assumptions C77_stale_used.
Print Assumptions C51_run_gas_partial.
Print Assumptions C51_run_gas_used.
Print Assumptions C78_solver_not_started.
Print Assumptions C78_study_ends.
Print Assumptions C78_nothing_to_plot.
Print Assumptions C78_checkout.
