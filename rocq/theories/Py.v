(** Python and NumPy vocabulary used by the model: exceptions as values, strings with identity,
    slices with negative indices, and dense arrays as lists. *)
From Coq Require Import ZArith List Bool String Ascii Arith Lia.
From Verif Require Import Num.
Import ListNotations.

(** ** Exceptions *)
Inductive exn :=
| SysExit (msg : string)      (* sys.exit: not caught by [except Exception] *)
| ValueError | IndexError | KeyError | TypeError | AttributeError
| UnboundLocalError | StopIteration | LinAlgError | ZeroDivisionError | FileNotFound | FileExists.

Inductive res (X : Type) := Ok (x : X) | Raise (e : exn).
Arguments Ok {X} x.
Arguments Raise {X} e.

Definition rbind {X Y} (r : res X) (f : X -> res Y) : res Y :=
  match r with Ok x => f x | Raise e => Raise e end.
Notation "'let!' x ':=' e 'in' k" := (rbind e (fun x => k))
  (at level 200, x pattern, e at level 100, k at level 200, right associativity).

Fixpoint mapM {X Y} (f : X -> res Y) (l : list X) : res (list Y) :=
  match l with
  | [] => Ok []
  | x :: r => let! y := f x in let! ys := mapM f r in Ok (y :: ys)
  end.

(** ** Strings with identity.
    CPython's [is] compares objects.  String literals of a module are interned, so two equal
    identifier-like literals are the same object; a string produced at run time by parsing
    ([line.rstrip()]) is a fresh object, never identical to a literal. *)
Record pystr := mkstr { txt : string; interned : bool }.
Definition pylit (s : string) : pystr := {| txt := s; interned := true |}.
Definition pyfresh (s : string) : pystr := {| txt := s; interned := false |}.
(** [s is 'literal'] *)
Definition is_literal (s : pystr) (l : string) : bool := (interned s && String.eqb (txt s) l)%bool.

(** ** Slices *)
(** normalisation of a slice bound against a length (CPython PySlice_AdjustIndices, step > 0) *)
Definition bound (len : nat) (i : Z) : nat :=
  if (i <? 0)%Z then Z.to_nat (Z.max 0 (Z.of_nat len + i))
  else Nat.min len (Z.to_nat i).
(** l[a:b] *)
Definition slice {X} (l : list X) (a b : Z) : list X :=
  let a' := bound (List.length l) a in
  let b' := bound (List.length l) b in
  firstn (b' - a') (skipn a' l).
(** l[a:] *)
Definition slice_from {X} (l : list X) (a : Z) : list X := skipn (bound (List.length l) a) l.
(** l[:b] *)
Definition slice_to {X} (l : list X) (b : Z) : list X := firstn (bound (List.length l) b) l.
(** every s-th element starting with the first: l[0::s] for s > 0 *)
Fixpoint every_aux {X} (s : nat) (skip : nat) (l : list X) : list X :=
  match l with
  | [] => []
  | x :: r => match skip with
              | O => x :: every_aux s (s - 1) r
              | S k => every_aux s k r
              end
  end.
(** l[k::s] *)
Definition stride {X} (l : list X) (k s : nat) : list X := every_aux s k l.
(** l[a:b:s] *)
Definition slice_step {X} (l : list X) (a b : Z) (s : nat) : list X := stride (slice l a b) 0 s.
(** l[a:b] = v (same length; a length mismatch raises in NumPy, see [same_length] guards) *)
Definition slice_set {X} (l : list X) (a b : Z) (v : list X) : list X :=
  let a' := bound (List.length l) a in
  let b' := bound (List.length l) b in
  firstn a' l ++ v ++ skipn (Nat.max a' b') l.

(** ** Arrays *)
Definition tab {X} (n : nat) (f : nat -> X) : list X := map f (seq 0 n).

Section Arrays.
  Context {A : Type} {N : Num A}.
  Definition vec := list A.
  Definition mat := list (list A).   (* list of rows *)

  Definition at1 (v : vec) (i : nat) : A := nth i v n0.
  Definition row (m : mat) (i : nat) : vec := nth i m [].
  Definition at2 (m : mat) (i j : nat) : A := at1 (row m i) j.
  Definition nrows (m : mat) : nat := List.length m.
  Definition ncols (m : mat) : nat := List.length (hd [] m).
  Definition tab2 (r c : nat) (f : nat -> nat -> A) : mat := tab r (fun i => tab c (fun j => f i j)).
  Definition col (m : mat) (j : nat) : vec := map (fun r => at1 r j) m.

  (** element-wise binary operation (NumPy broadcasting of equal shapes) *)
  Fixpoint map2 {X Y Z} (f : X -> Y -> Z) (l : list X) (k : list Y) : list Z :=
    match l, k with x :: l', y :: k' => f x y :: map2 f l' k' | _, _ => [] end.

  Definition vadd (x y : vec) : vec := map2 nadd x y.
  Definition vscale (a : A) (x : vec) : vec := map (fun v => nmul a v) x.
  Definition madd (x y : mat) : mat := map2 vadd x y.
  Definition mscale (a : A) (x : mat) : mat := map (vscale a) x.
  Definition vdot (x y : vec) : A := nsum (map2 nmul x y).   (* np.dot of vectors *)
  Definition zeros (n : nat) : vec := tab n (fun _ => n0).
  Definition zeros2 (r c : nat) : mat := tab2 r c (fun _ _ => n0).
  (** v·M for a row vector: sum_k v[k] * M[k,:] ; accumulated row by row *)
  Fixpoint rowcomb (c : nat) (v : vec) (m : mat) : vec :=
    match v, m with
    | x :: v', r :: m' => vadd (vscale x r) (rowcomb c v' m')
    | _, _ => zeros c
    end.
  (** np.dot(M, U) *)
  Definition dot (m u : mat) : mat := map (fun v => rowcomb (ncols u) v u) m.
  (** np.dot(M, v) *)
  Definition dotv (m : mat) (v : vec) : vec := map (fun r => vdot r v) m.

  (** apply a row operation to every row: u[:, slice] *)
  Definition on_rows (f : vec -> vec) (m : mat) : mat := map f m.

  (** np.linspace(a, b, num) for num >= 1: step = (b-a)/(num-1), last point set to b *)
  Definition linspace (a b : A) (num : nat) : vec :=
    match num with
    | O => []
    | S O => [a]
    | S n => let step := ndiv (nsub b a) (nofZ (Z.of_nat n)) in
             tab num (fun i => if Nat.eqb i n then b else nadd (nmul (nofZ (Z.of_nat i)) step) a)
    end.
  (** the step returned by linspace(.., retstep=True); NaN for fewer than two points (written 0/0) *)
  Definition linspace_step (a b : A) (num : nat) : A :=
    if (num <=? 1)%nat then ndiv n0 n0 else ndiv (nsub b a) (nofZ (Z.of_nat (num - 1))).
End Arrays.
Arguments vec : clear implicits.
Arguments mat : clear implicits.
