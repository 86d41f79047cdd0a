(** dg1d/solution.py: the Solution class (its text output and input are in IO.v) *)
From Coq Require Import ZArith List Bool Arith String.
From Verif Require Import Num Py PyStr LegNumpy Ext Basis Constants AdvectionPhysics EulerPhysics
                          Sensor Enhance IC.
Import ListNotations.
Open Scope list_scope.
Open Scope num_scope.

(** self.keywords['riemann'] *)
Inductive riemann_kind := RUpwind | RRusanov | RGodunov | RRoe.

Section Solution.
  Context {A : Type} {N : Num A} {L : Libm A} {X : Ext A}.

  (** attributes of a Solution, solution.py:34-80.  [s_u] is u[mode][column]. *)
  Record solution := {
    s_basis : basis A;
    s_icname : string; s_params : list string;
    s_t : A; s_n : nat; s_NE : Z;
    s_x : vec A; s_xc : vec A; s_dx : A;
    s_u : mat A; s_minv : vec A;
    s_euler : bool;                (* system == 'euler' *)
    s_riemann : riemann_kind;
    s_bcl : pystr; s_bcr : pystr;
    s_enh : option (enhance A);    (* Some: keywords['evaluate_face_solution'] = enhanced_faces *)
    s_sens : option (sensor A)     (* Some: issensing *)
  }.
  (** self.N_F, solution.py:46, 109; self.keywords['fields'], solution.py:89, 105 *)
  Definition s_NF (s : solution) : nat := if s_euler s then 3 else 1.
  Definition s_fields (s : solution) : list string :=
    if s_euler s then ["rho"; "rhou"; "E"]%string else ["u"%string].
  Definition s_Ns (s : solution) : nat := b_Ns (s_basis s).

  Definition with_u (s : solution) (u : mat A) : solution :=
    {| s_basis := s_basis s; s_icname := s_icname s; s_params := s_params s; s_t := s_t s;
       s_n := s_n s; s_NE := s_NE s; s_x := s_x s; s_xc := s_xc s; s_dx := s_dx s; s_u := u;
       s_minv := s_minv s; s_euler := s_euler s; s_riemann := s_riemann s; s_bcl := s_bcl s;
       s_bcr := s_bcr s; s_enh := s_enh s; s_sens := s_sens s |}.
  Definition with_t (s : solution) (t : A) : solution :=
    {| s_basis := s_basis s; s_icname := s_icname s; s_params := s_params s; s_t := t;
       s_n := s_n s; s_NE := s_NE s; s_x := s_x s; s_xc := s_xc s; s_dx := s_dx s; s_u := s_u s;
       s_minv := s_minv s; s_euler := s_euler s; s_riemann := s_riemann s; s_bcl := s_bcl s;
       s_bcr := s_bcr s; s_enh := s_enh s; s_sens := s_sens s |}.
  Definition with_n (s : solution) (n : nat) : solution :=
    {| s_basis := s_basis s; s_icname := s_icname s; s_params := s_params s; s_t := s_t s;
       s_n := n; s_NE := s_NE s; s_x := s_x s; s_xc := s_xc s; s_dx := s_dx s; s_u := s_u s;
       s_minv := s_minv s; s_euler := s_euler s; s_riemann := s_riemann s; s_bcl := s_bcl s;
       s_bcr := s_bcr s; s_enh := s_enh s; s_sens := s_sens s |}.
  Definition with_sens (s : solution) (x : option (sensor A)) : solution :=
    {| s_basis := s_basis s; s_icname := s_icname s; s_params := s_params s; s_t := s_t s;
       s_n := s_n s; s_NE := s_NE s; s_x := s_x s; s_xc := s_xc s; s_dx := s_dx s; s_u := s_u s;
       s_minv := s_minv s; s_euler := s_euler s; s_riemann := s_riemann s; s_bcl := s_bcl s;
       s_bcr := s_bcr s; s_enh := s_enh s; s_sens := x |}.
  Definition with_enh (s : solution) (x : option (enhance A)) : solution :=
    {| s_basis := s_basis s; s_icname := s_icname s; s_params := s_params s; s_t := s_t s;
       s_n := s_n s; s_NE := s_NE s; s_x := s_x s; s_xc := s_xc s; s_dx := s_dx s; s_u := s_u s;
       s_minv := s_minv s; s_euler := s_euler s; s_riemann := s_riemann s; s_bcl := s_bcl s;
       s_bcr := s_bcr s; s_enh := x; s_sens := s_sens s |}.
  Definition with_bc (s : solution) (l r : pystr) : solution :=
    {| s_basis := s_basis s; s_icname := s_icname s; s_params := s_params s; s_t := s_t s;
       s_n := s_n s; s_NE := s_NE s; s_x := s_x s; s_xc := s_xc s; s_dx := s_dx s; s_u := s_u s;
       s_minv := s_minv s; s_euler := s_euler s; s_riemann := s_riemann s; s_bcl := l;
       s_bcr := r; s_enh := s_enh s; s_sens := s_sens s |}.
  Definition with_NE (s : solution) (NE : Z) : solution :=
    {| s_basis := s_basis s; s_icname := s_icname s; s_params := s_params s; s_t := s_t s;
       s_n := s_n s; s_NE := NE; s_x := s_x s; s_xc := s_xc s; s_dx := s_dx s; s_u := s_u s;
       s_minv := s_minv s; s_euler := s_euler s; s_riemann := s_riemann s; s_bcl := s_bcl s;
       s_bcr := s_bcr s; s_enh := s_enh s; s_sens := s_sens s |}.
  Definition with_mesh (s : solution) (x xc : vec A) (dx : A) : solution :=
    {| s_basis := s_basis s; s_icname := s_icname s; s_params := s_params s; s_t := s_t s;
       s_n := s_n s; s_NE := s_NE s; s_x := x; s_xc := xc; s_dx := dx; s_u := s_u s;
       s_minv := s_minv s; s_euler := s_euler s; s_riemann := s_riemann s; s_bcl := s_bcl s;
       s_bcr := s_bcr s; s_enh := s_enh s; s_sens := s_sens s |}.
  Definition with_minv (s : solution) (m : vec A) : solution :=
    {| s_basis := s_basis s; s_icname := s_icname s; s_params := s_params s; s_t := s_t s;
       s_n := s_n s; s_NE := s_NE s; s_x := s_x s; s_xc := s_xc s; s_dx := s_dx s; s_u := s_u s;
       s_minv := m; s_euler := s_euler s; s_riemann := s_riemann s; s_bcl := s_bcl s;
       s_bcr := s_bcr s; s_enh := s_enh s; s_sens := s_sens s |}.

  (** set_manipulation_functions: the Riemann solver, solution.py:83-118 *)
  Definition riemann_choice (euler : bool) (riemann : string) : riemann_kind :=
    if euler then
      if String.eqb riemann "rusanov" then RRusanov
      else if String.eqb riemann "godunov" then RGodunov
      else RRoe
    else RUpwind.

  (** np.c_[zeros, u, zeros]: add_ghosts, solution.py:520-523 *)
  Definition add_ghosts (NF : nat) (u : mat A) : mat A :=
    map (fun r => zeros NF ++ r ++ zeros NF) u.

  (** u[:, j] = c *)
  Definition set_col (u : mat A) (j : nat) (c : vec A) : mat A :=
    tab (List.length u) (fun n =>
      let r := row u n in firstn j r ++ [at1 c n] ++ skipn (S j) r).

  (** populate, solution.py:502-517: projections column by column, stopping at the first exception
      (the columns already written stay written) *)
  Definition populate (b : basis A) (x : vec A) (NE NF : nat) (f : A -> res (list A)) (u0 : mat A)
    : mat A * option exn :=
    fold_left (fun acc j =>
      match acc with
      | (u, Some e) => (u, Some e)
      | (u, None) =>
          let e := (j / NF)%nat in
          match projection b (at1 x e) (at1 x (e + 1)) f (j mod NF) with
          | Ok c => (set_col u j c, None)
          | Raise e => (u, Some e)
          end
      end) (seq 0 (NE * NF)) (u0, None).

  (** element centroids, solution.py:484 *)
  Definition centroids (x : vec A) : vec A :=
    map2 (fun b a => (b + a) * nhalf) (slice_from x 1) (slice_to x (-1)).

  (** setup_common_ic, solution.py:475-499.  Returns the mutated solution together with the
      exception, if one is raised on the way. *)
  Definition setup_common_ic (s : solution) (f : A -> res (list A)) (a b : A)
    : solution * option exn :=
    match nth_error (s_params s) 0 with
    | None => (s, Some IndexError)
    | Some p0 =>
        match parse_int p0 with
        | None => (s, Some ValueError)
        | Some NE =>
            let s1 := with_NE s NE in
            if (NE + 1 <? 0)%Z then (s1, Some ValueError)         (* linspace: num < 0 *)
            else
              let num := Z.to_nat (NE + 1) in
              let x := linspace a b num in
              let s2 := with_mesh s1 x (centroids x) (linspace_step a b num) in
              if (NE <? 0)%Z then (s2, Some ValueError)           (* zeros: negative dimension *)
              else
                let NEn := Z.to_nat NE in
                let u0 := zeros2 (s_Ns s) (NEn * s_NF s) in
                match populate (s_basis s) x NEn (s_NF s) f u0 with
                | (u, Some e) => (with_u s2 u, Some e)
                | (u, None) =>
                    let s3 := with_u s2 (add_ghosts (s_NF s) u) in
                    (with_minv s3 (map (fun m => m * nofZ 2 / s_dx s3) (b_minv (s_basis s))), None)
                end
        end
    end.

  (** self.keywords[self.icname](), solution.py:66: returns the solution, constants.gamma, and the
      exception raised.  [g] is constants.gamma on entry. *)
  Definition run_ic (s : solution) (g : A) : solution * A * option exn :=
    match ic_lookup (s_icname s) (s_params s) g with
    | Raise e => (s, g, Some e)
    | Ok ic =>
        let s1 := with_bc s (pylit (ic_bc ic)) (pylit (ic_bc ic)) in
        let '(s2, e) := setup_common_ic s1 (ic_f ic) (ic_A ic) (ic_B ic) in
        (* shuoshe changes gamma only once f has been evaluated *)
        let g' := if (0 <? s_NE s2)%Z then ic_gamma_after ic else ic_gamma ic in
        (s2, g', e)
    end.

  (** the attributes before the initial condition runs, solution.py:34-62.  np.empty leaves
      scaled_minv and x unspecified; modelled as zeros. *)
  Definition blank_solution (icname : string) (params : list string) (euler : bool)
             (riem : riemann_kind) (order : nat) : solution :=
    let b := Basis order in
    {| s_basis := b; s_icname := icname; s_params := params; s_t := n0; s_n := 0; s_NE := 0;
       s_x := [n0]; s_xc := []; s_dx := n0; s_u := tab (b_Ns b) (fun _ => []);
       s_minv := zeros (b_Ns b); s_euler := euler; s_riemann := riem;
       s_bcl := pylit ""; s_bcr := pylit ""; s_enh := None; s_sens := None |}.

  (** Solution.__init__, solution.py:29-80: the new object and the value of constants.gamma.
      constants.init() (line 56) has set gamma to 1.4 whatever it was before. *)
  Definition Solution (icline system : string) (order : nat) (riemann enhancement : string)
             (thresholds : list A) : res (solution * A) :=
    match split_ws icline with
    | [] => Raise IndexError                                  (* icline.split()[0] *)
    | icname :: params =>
        let euler := String.eqb system "euler" in
        let s0 := blank_solution icname params euler (riemann_choice euler riemann) order in
        match run_ic s0 gamma_default with
        | (_, _, Some (SysExit m)) => Raise (SysExit m)       (* not an Exception *)
        | (s1, g, _) =>                                       (* other exceptions are swallowed *)
            let! s2 := (if String.eqb enhancement "" then Ok s1
                        else let! e := Enhance order enhancement in Ok (with_enh s1 (Some e))) in
            match thresholds with
            | [] => Ok (s2, g)
            | _ => if (s_NE s2 + 2 <? 0)%Z then Raise ValueError    (* np.zeros(N_E+2) *)
                   else Ok (with_sens s2 (Some (Sensor thresholds (Z.to_nat (s_NE s2 + 2)))), g)
            end
        end
    end.

  (** apply_bc on one row, solution.py:526-543.  A source slice of the wrong length makes NumPy
      raise ValueError.  (The "invalid boundary condition" message is not modelled.) *)
  Definition assign_slice (r : vec A) (a b c d : Z) : res (vec A) :=
    let src := slice r c d in
    if Nat.eqb (List.length src) (List.length (slice r a b))
    then Ok (slice_set r a b src) else Raise ValueError.
  Definition bc_left (bc : pystr) (NF : Z) (r : vec A) : res (vec A) :=
    if is_literal bc "periodic" then assign_slice r 0 NF (-2 * NF) (- NF)
    else if is_literal bc "zerograd" then assign_slice r 0 NF NF (2 * NF)
    else Ok r.
  (** u[:, -NF:] = src: the slice is open on the right *)
  Definition assign_tail (r : vec A) (NF c d : Z) : res (vec A) :=
    let src := slice r c d in
    if Nat.eqb (List.length src) (List.length (slice_from r (- NF)))
    then Ok (slice_to r (- NF) ++ src) else Raise ValueError.
  Definition bc_right (bc : pystr) (NF : Z) (r : vec A) : res (vec A) :=
    if is_literal bc "periodic" then assign_tail r NF NF (2 * NF)
    else if is_literal bc "zerograd" then assign_tail r NF (-2 * NF) (- NF)
    else Ok r.
  Definition apply_bc_row (bl br : pystr) (NF : nat) (r : vec A) : res (vec A) :=
    let! r1 := bc_left bl (Z.of_nat NF) r in
    bc_right br (Z.of_nat NF) r1.
  Definition apply_bc (s : solution) : res solution :=
    let! u := mapM (apply_bc_row (s_bcl s) (s_bcr s) (s_NF s)) (s_u s) in
    Ok (with_u s u).

  (** copy_data_only, solution.py:551-553 *)
  Definition copy_data_only (dst src : solution) : solution := with_u dst (s_u src).

  (** smart_axpy, solution.py:556-559 *)
  Definition axpy_mat (u : mat A) (a : A) (x : mat A) : mat A :=
    if lit 1 1000000000000000 <? nabs a then madd u (mscale a x) else u.
  Definition smart_axpy (s : solution) (a : A) (x : mat A) : solution :=
    with_u s (axpy_mat (s_u s) a x).

  (** riemann / interior_flux / max_wave_speed, solution.py:562-574 *)
  Definition riemann (gamma : A) (s : solution) (ul ur : vec A) : res (vec A) :=
    match s_riemann s with
    | RUpwind => riemann_upwinding ul ur
    | RRusanov => riemann_rusanov gamma ul ur
    | RGodunov => riemann_godunov gamma ul ur
    | RRoe => riemann_roe gamma ul ur
    end.
  Definition interior_flux (gamma : A) (s : solution) (ug : mat A) : mat A :=
    if s_euler s then euler_interior_flux gamma ug else adv_interior_flux ug.
  Definition max_wave_speed (gamma : A) (s : solution) : res A :=
    if s_euler s then euler_max_wave_speed gamma (s_u s) else adv_max_wave_speed (s_u s).

  (** collocate, solution.py:577-579 *)
  Definition collocate (s : solution) : mat A := dot (b_phi (s_basis s)) (s_u s).
  (** evaluate_faces / collocate_faces / enhanced_faces, solution.py:582-596 *)
  Definition evaluate_faces (s : solution) : res (mat A) :=
    match s_enh s with
    | None => Ok (dot (b_psi (s_basis s)) (s_u s))
    | Some e => face_value e (s_u s) (s_NF s)
    end.
End Solution.
Arguments solution : clear implicits.
