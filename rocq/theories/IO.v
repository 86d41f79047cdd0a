(** Snapshot files: printer, loader and format_fnames of dg1d/solution.py *)
From Coq Require Import ZArith List Bool Arith String Ascii.
From Verif Require Import Num Py PyStr LegNumpy Ext Basis Sensor Enhance IC Solution Solver RK.
Import ListNotations.
Open Scope string_scope.
Open Scope list_scope.
Open Scope num_scope.

(** format_fnames, solution.py:223-225 *)
Definition format_fname (step : nat) (field : string) : string :=
  (field ++ show_nat_pad 10 step ++ ".dat")%string.
Definition format_fnames (step : nat) (fields : list string) : list string :=
  map (format_fname step) fields.

Section IO.
  Context {A : Type} {N : Num A} {L : Libm A} {X : Ext A}.

  (** the header as np.savetxt writes it: every line of hline prefixed with "# ",
      solution.py:134-138, 150 *)
  Definition header_line1 (s : solution A) : string :=
    ("# n=" ++ show_nat (s_n s) ++ ", t=" ++ fmt_e18 (s_t s)
     ++ ", bc_l=" ++ txt (s_bcl s) ++ ", bc_r=" ++ txt (s_bcr s) ++ nl)%string.
  Definition header_line2 (Ns : nat) : string :=
    ("# xc" ++ String.concat "" (map (fun i => ", u" ++ show_nat i)%string (seq 0 Ns)) ++ nl)%string.

  (** one data line: '%.18e' values joined by ',' *)
  Definition data_line (vals : list A) : string :=
    (String.concat "," (map fmt_e18 vals) ++ nl)%string.

  (** np.c_[xc, u[:, start:end:step].transpose()], solution.py:144-147 *)
  Definition field_table (s : solution A) (field : nat) : list (list A) :=
    tab (List.length (s_xc s)) (fun e =>
      at1 (s_xc s) e :: map (fun r => at1 (field_row (s_NF s) field r) e) (s_u s)).

  Definition field_file (s : solution A) (field : nat) : string :=
    (header_line1 s ++ header_line2 (s_Ns s)
     ++ String.concat "" (map data_line (field_table s field)))%string.

  (** the sensor file, solution.py:153-165: '%.18e, %.0d' *)
  Definition sensor_file (s : solution A) (sens : list Z) : string :=
    let inner := slice sens 1 (-1) in
    (header_line1 s ++ header_line2 (s_Ns s)
     ++ String.concat "" (tab (List.length (s_xc s)) (fun e =>
          fmt_e18 (at1 (s_xc s) e) ++ ", " ++ show_nat (Z.to_nat (nth e inner 0%Z)) ++ nl)))%string.

  (** the files one call of printer writes, solution.py:121-165 *)
  Definition printed_files (ev : event A) : list (string * string) :=
    let s := ev_sol ev in
    combine (format_fnames (ev_nout ev) (s_fields s))
            (map (field_file s) (seq 0 (List.length (s_fields s))))
    ++ match s_sens s with
       | None => []
       | Some sn => [(format_fname (ev_nout ev) "sensor", sensor_file s (sn_sensors sn))]
       end.

  (** a directory: the last file written under a name wins *)
  Definition directory := list (string * string).
  Fixpoint read_file (d : directory) (name : string) : option string :=
    match d with
    | [] => None
    | (n, c) :: r => match read_file r name with
                     | Some c' => Some c'
                     | None => if String.eqb n name then Some c else None
                     end
    end.

  (** np.loadtxt(fname, delimiter=','): comment text removed, blank lines skipped, every token
      converted with float *)
  Definition is_char (c : ascii) (d : ascii) : bool := Ascii.eqb d c.
  Definition strip_comment (line : string) : string := hd EmptyString (split_on (is_char "#"%char) line).
  Definition parse_row (line : string) : res (list A) :=
    mapM (fun t => match parse_float t with Some v => Ok v | None => Raise ValueError end)
         (split_on (is_char ","%char) line).
  Definition loadtxt (content : string) : res (list (list A)) :=
    mapM parse_row
         (filter (fun l => negb (String.eqb l EmptyString))
                 (map (fun l => rstrip (strip_comment l)) (file_lines content))).

  Definition nth_res {Y} (l : list Y) (i : nat) : res Y :=
    match nth_error l i with Some y => Ok y | None => Raise IndexError end.

  (** l[a:b:s] = v *)
  Definition slice_step_set (l : vec A) (a b : Z) (s : nat) (v : vec A) : vec A :=
    let a' := bound (List.length l) a in
    let b' := bound (List.length l) b in
    tab (List.length l) (fun j =>
      if ((a' <=? j) && (j <? b') && Nat.eqb ((j - a') mod s) 0)%nat%bool
      then at1 v ((j - a') / s) else at1 l j).

  Definition with_loaded (s : solution A) (b : basis A) (n : nat) (t : A) (bl br : pystr) (NE : nat)
             (x xc : vec A) (dx : A) (u : mat A) : solution A :=
    {| s_basis := b; s_icname := s_icname s; s_params := s_params s; s_t := t;
       s_n := n; s_NE := Z.of_nat NE; s_x := x; s_xc := xc; s_dx := dx; s_u := u;
       s_minv := s_minv s; s_euler := s_euler s; s_riemann := s_riemann s; s_bcl := bl;
       s_bcr := br; s_enh := s_enh s; s_sens := s_sens s |}.

  (** store one field, solution.py:209-220 *)
  Definition store_field (NF Ns NE : nat) (dat : list (list A)) (field : nat) (u : mat A)
    : res (mat A) :=
    if (Nat.eqb (List.length dat) NE && forallb (fun r => Nat.eqb (List.length r) (Ns + 1)) dat)%bool
    then Ok (tab (List.length u) (fun n =>
               slice_step_set (row u n) (Z.of_nat NF + Z.of_nat field)
                 (-2 * Z.of_nat NF + 1 + Z.of_nat field) NF
                 (map (fun r => at1 r (n + 1)) dat)))
    else Raise ValueError.

  (** loader, solution.py:168-220.  With a single row NumPy returns a 0-d array, whose len() is a
      TypeError.  A negative n in the header (never written) is rejected here. *)
  Definition loader (dir : directory) (step : nat) (s : solution A) : res (solution A) :=
    let fnames := format_fnames step (s_fields s) in
    let read name := match read_file dir name with Some c => Ok c | None => Raise FileNotFound end in
    let! c0 := read (hd EmptyString fnames) in
    let! rows0 := loadtxt c0 in
    let! xc := mapM (fun r => nth_res r 0) rows0 in
    let lines := file_lines c0 in
    let fields1 := split_on (fun c => is_char "="%char c || is_char ","%char c)%bool (nth 0 lines EmptyString) in
    let! w1 := nth_res fields1 1 in
    let! n := (match parse_int w1 with
               | Some z => if (z <? 0)%Z then Raise ValueError else Ok (Z.to_nat z)
               | None => Raise ValueError end) in
    let! w3 := nth_res fields1 3 in
    let! t := (match parse_float w3 with Some t => Ok t | None => Raise ValueError end) in
    let! w5 := nth_res fields1 5 in
    let! w7 := nth_res fields1 7 in
    let Ns := (List.length (split_on (is_char ","%char) (nth 1 lines EmptyString)) - 1)%nat in
    if Nat.eqb Ns 0 then Raise ValueError                      (* Basis(-1) *)
    else
      let b := Basis (Ns - 1) in
      let NE := List.length xc in
      if Nat.eqb NE 1 then Raise TypeError
      else if Nat.eqb NE 0 then Raise IndexError
      else
        let dx := at1 xc 1 - at1 xc 0 in
        let a := at1 xc 0 - nhalf * dx in
        let bb := at1 xc (NE - 1) + nhalf * dx in
        let u0 := add_ghosts (s_NF s) (zeros2 Ns (NE * s_NF s)) in
        let! u := fold_left (fun acc fn =>
                    let! u := acc in
                    let! c := read (snd fn) in
                    let! dat := loadtxt c in
                    store_field (s_NF s) Ns NE dat (fst fn) u)
                  (combine (seq 0 (List.length fnames)) fnames) (Ok u0) in
        Ok (with_loaded s b n t (pyfresh (rstrip w5)) (pyfresh (rstrip w7)) NE
                        (linspace a bb (NE + 1)) xc (linspace_step a bb (NE + 1)) u).
End IO.
