(** Executable stand-ins for library routines, generic in the number type; used only to build
    concrete instances (FloatInst.v, ExtReal.v), no theorem is about them. *)
From Coq Require Import ZArith List Bool String Ascii.
From Verif Require Import Num Py PyStr LegNumpy Ext.
Import ListNotations.
Open Scope list_scope.

Section GaussJordan.
  Context {A : Type} {N : Num A}.
  (** inverse by Gauss-Jordan elimination with partial pivoting (stand-in for LAPACK) *)
  Fixpoint pick_pivot (c : nat) (best : list A) (others : list (list A)) : list A * list (list A) :=
    match others with
    | [] => (best, [])
    | r :: rs => if nltb (nabs (nth c best n0)) (nabs (nth c r n0))
                 then let '(b, o) := pick_pivot c r rs in (b, best :: o)
                 else let '(b, o) := pick_pivot c best rs in (b, r :: o)
    end.
  Definition eliminate (c : nat) (piv r : list A) : list A :=
    map2 (fun x p => nsub x (nmul (nth c r n0) p)) r piv.
  Fixpoint gj (n c : nat) (done todo : list (list A)) : list (list A) :=
    match n, todo with
    | S n', r :: rs =>
        let '(b, o) := pick_pivot c r rs in
        let p := nth c b n0 in
        let b' := map (fun x => ndiv x p) b in
        gj n' (S c) (map (eliminate c b') done ++ [b']) (map (eliminate c b') o)
    | _, _ => done
    end.
  Definition gj_inv (m : list (list A)) : res (list (list A)) :=
    let n := List.length m in
    let aug := map2 (fun r i => r ++ tab n (fun j => if Nat.eqb i j then n1 else n0)) m (seq 0 n) in
    Ok (map (skipn n) (gj n 0 [] aug)).
  (** interpolation at Gauss nodes by quadrature (stand-in for the least-squares fit) *)
  Definition quad_fit (gauss : nat -> list A * list A) (x y : list A) (p : nat) : list A :=
    let '(xs, ws) := gauss (p + 1)%nat in
    tab (p + 1) (fun n => nmul (ndiv (nnat (2 * n + 1)) (nofZ 2))
      (nsum (map2 (fun xw v => nmul (nmul (snd xw) v) (legval (fst xw) (leg_basis n)))
                  (combine xs ws) y))).
  (** simple decimal literals [-]ddd[.ddd], exact up to the final division *)
  Fixpoint split_dot (s : string) : string * string :=
    match s with
    | EmptyString => (EmptyString, EmptyString)
    | String "." r => (EmptyString, r)
    | String c r => let '(a, b) := split_dot r in (String c a, b)
    end.
  Definition parse_decimal_pos (s : string) : option A :=
    let '(a, b) := split_dot s in
    match digits_val (a ++ b)%string 0 with
    | Some m => Some (ndiv (nofZ m) (nofZ (10 ^ Z.of_nat (String.length b))))
    | None => None
    end.
  Definition parse_decimal (s : string) : option A :=
    match s with
    | String "-" r => option_map nopp (parse_decimal_pos r)
    | _ => parse_decimal_pos s
    end.
End GaussJordan.
