(** The scripts that start the solver: a regression test of regressions/regressions.py and the convergence study
    advection_convergence/run.py.  Processes run to their end one after the other; what they print, the images of the plotting
    scripts and permissions are not modelled. *)
From Coq Require Import ZArith List Bool Arith String Ascii.
From Verif Require Import Num Py PyStr LegNumpy Ext Basis Sensor Enhance IC Solution Solver RK IO Deck Main Scripts.
Import ListNotations.
Open Scope string_scope.
Open Scope list_scope.

Fixpoint ends_with (suf s : string) : bool :=
  (String.eqb suf s || match s with EmptyString => false | String _ r => ends_with suf r end)%bool.

Section Launch.
  Context {A : Type} {N : Num A} {L : Libm A} {X : Ext A}.

  (** glob.glob('*.dat'): names ending in .dat; hidden files do not match a leading star *)
  Definition is_dat (name : string) : bool := (ends_with ".dat" name && negb (is_prefix "." name))%bool.
  (** [os.remove(f) for f in glob.glob(..)], regressions.py:94 *)
  Definition remove_dats (dir : directory) : directory := filter (fun f => negb (is_dat (fst f))) dir.
  (** main.py -d deckname in a directory: the files after the process has ended, and how it ended; a missing deck file is an
      uncaught exception.  Files are written over existing ones. *)
  Definition run_main (fuel : nat) (dir : directory) (deckname : string) : directory * outcome A :=
    match read_file dir deckname with
    | None => (dir, Failed FileNotFound)
    | Some content => let '(evs, out) := main fuel content in (dir ++ flat_map printed_files evs, out)
    end.
  (** what unittest reports of a test; a solver that never ends leaves the test hanging (proc.wait) *)
  Inductive verdict := Passed | NotEqual | Error (e : exn) | Hangs.
  (** launch, regressions.py:90-101, and runcode, :20-41, in the foreground: the return code is not looked at.  The log file is
      opened, hence created, first; its content is left out, as is the plot made after a pass. *)
  Definition launch (fuel : nat) (dir : directory) : directory * verdict :=
    let '(dir1, out) := run_main fuel (remove_dats dir ++ [("logfile", "")]) "deck.inp" in
    match out with
    | OutOfFuel => (dir1, Hangs)
    | _ => (dir1, match compare_with_golds dir1 with Ok true => Passed | Ok false => NotEqual | Raise e => Error e end)
    end.

  (** *** the convergence study *)
  (** absolute paths, as lists of names *)
  Definition path := list string.
  (** a path given as text, from a directory: '..' goes up, '.' and '' stay *)
  Definition resolve (cwd : path) (rel : string) : path :=
    fold_left (fun p c => if String.eqb c ".." then removelast p else if (String.eqb c "." || String.eqb c "")%bool then p else p ++ [c])
              (split_on (Ascii.eqb "/"%char) rel) cwd.
  Fixpoint under (p q : path) : bool :=
    match p, q with
    | [], _ => true
    | a :: p', b :: q' => (String.eqb a b && under p' q')%bool
    | _, [] => false
    end.
  Fixpoint path_eqb (p q : path) : bool :=
    match p, q with [], [] => true | a :: p', b :: q' => (String.eqb a b && path_eqb p' q')%bool | _, _ => false end.
  Record tree := { t_dirs : list path; t_files : list (path * string) }.
  Definition has_dir (t : tree) (p : path) : bool := existsb (path_eqb p) (t_dirs t).
  Definition has_file (t : tree) (p : path) : bool := existsb (fun f => path_eqb p (fst f)) (t_files t).
  (** shutil.rmtree(.., ignore_errors=True) *)
  Definition rmtree (t : tree) (p : path) : tree :=
    {| t_dirs := filter (fun q => negb (under p q)) (t_dirs t); t_files := filter (fun f => negb (under p (fst f))) (t_files t) |}.
  Fixpoint prefixes (p : path) : list path := match p with [] => [[]] | a :: p' => [] :: map (cons a) (prefixes p') end.
  (** os.makedirs *)
  Definition makedirs (t : tree) (p : path) : res tree :=
    if (has_dir t p || has_file t p)%bool then Raise FileExists else Ok {| t_dirs := t_dirs t ++ prefixes p; t_files := t_files t |}.
  Definition write (t : tree) (p : path) (c : string) : tree := {| t_dirs := t_dirs t; t_files := t_files t ++ [(p, c)] |}.
  (** the files of one directory *)
  Definition listing (t : tree) (p : path) : directory :=
    flat_map (fun f => match rev (fst f) with n :: r => if path_eqb (rev r) p then [(n, snd f)] else [] | [] => [] end) (t_files t).
  (** runcode, run.py:26-44, on a deck that has just been written (its path is absolute): the shell looks for codedir + 'main.py'
      from the working directory; when there is no such file it says so on the discarded stderr and returns 127, which the
      script does not look at.  The second component is the program started, if any. *)
  Definition codedir : string := "../dg1d/".
  Definition start_solver (fuel : nat) (t : tree) (cwd : path) (content : string) : tree * list path :=
    let t1 := write t (cwd ++ ["logfile"]) "" in
    let prog := resolve cwd (codedir ++ "main.py") in
    if has_file t1 prog
    then ({| t_dirs := t_dirs t1; t_files := t_files t1 ++ map (fun f => (cwd ++ [fst f], snd f)) (flat_map printed_files (fst (main fuel content))) |}, [prog])
    else (t1, []).
  (** the body of the loops, run.py:72-102; the second component collects the programs started *)
  Fixpoint study_resolutions (fuel : nat) (base : path) (order : nat) (ress : list nat) (t : tree) : res (tree * list path) :=
    match ress with
    | [] => Ok (t, [])
    | r :: rest =>
        let workdir := base ++ [show_nat order; show_nat r] in
        let! t1 := makedirs t workdir in
        let t2 := write t1 (workdir ++ ["deck.inp"]) (study_deck order r) in
        let '(t3, started) := start_solver fuel t2 workdir (study_deck order r) in
        let! q := study_resolutions fuel base order rest t3 in
        Ok (fst q, started ++ snd q)
    end.
  Fixpoint study (fuel : nat) (base : path) (orders ress : list nat) (t : tree) : res (tree * list path) :=
    match orders with
    | [] => Ok (t, [])
    | o :: rest =>
        let! q := study_resolutions fuel base o ress (rmtree t (base ++ [show_nat o])) in
        let! q' := study fuel base rest ress (fst q) in
        Ok (fst q', snd q ++ snd q')
    end.
End Launch.
