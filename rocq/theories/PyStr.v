(** Python string operations used by deck.py, solution.py and enhance.py (ASCII strings). *)
From Coq Require Import ZArith List Bool String Ascii Arith.
From Verif Require Import Py.
Import ListNotations.
Open Scope string_scope.

(** str.isspace for ASCII characters *)
Definition is_space (c : ascii) : bool :=
  let n := nat_of_ascii c in
  ((9 <=? n) && (n <=? 13) || (28 <=? n) && (n <=? 32))%nat%bool.

Definition newline : ascii := ascii_of_nat 10.
Definition nl : string := String newline EmptyString.

(** s.rstrip() *)
Fixpoint rstrip (s : string) : string :=
  match s with
  | EmptyString => EmptyString
  | String c r =>
      match rstrip r with
      | EmptyString => if is_space c then EmptyString else String c EmptyString
      | r' => String c r'
      end
  end.

(** s.split(): maximal runs of non-space characters.  [word] is the current run. *)
Fixpoint split_ws_aux (s : string) (word : string) : list string :=
  match s with
  | EmptyString => match word with EmptyString => [] | _ => [word] end
  | String c r =>
      if is_space c
      then match word with EmptyString => split_ws_aux r EmptyString
                         | _ => word :: split_ws_aux r EmptyString end
      else split_ws_aux r (word ++ String c EmptyString)
  end.
Definition split_ws (s : string) : list string := split_ws_aux s EmptyString.

(** s.split(sep) / re.split for single-character separators given by a predicate:
    always at least one field *)
Fixpoint split_on (sep : ascii -> bool) (s : string) : list string :=
  match s with
  | EmptyString => [EmptyString]
  | String c r =>
      if sep c then EmptyString :: split_on sep r
      else match split_on sep r with
           | [] => [String c EmptyString]          (* unreachable *)
           | w :: ws => String c w :: ws
           end
  end.

(** sub in s *)
Fixpoint is_prefix (p s : string) : bool :=
  match p, s with
  | EmptyString, _ => true
  | String a p', String b s' => (Ascii.eqb a b && is_prefix p' s')%bool
  | _, EmptyString => false
  end.
Fixpoint contains (sub s : string) : bool :=
  (is_prefix sub s ||
   match s with EmptyString => false | String _ r => contains sub r end)%bool.

(** iterating over a text file: lines, each with its newline (the last may lack it) *)
Fixpoint file_lines (s : string) : list string :=
  match s with
  | EmptyString => []
  | String c r =>
      if Ascii.eqb c newline then String c EmptyString :: file_lines r
      else match file_lines r with
           | [] => [String c EmptyString]
           | l :: ls => String c l :: ls
           end
  end.

(** decimal rendering of a natural number, '{:d}' *)
Definition digit (n : nat) : ascii := ascii_of_nat (48 + n).
Fixpoint show_nat_aux (fuel n : nat) (acc : string) : string :=
  match fuel with
  | O => acc
  | S f => let acc' := String (digit (n mod 10)) acc in
           if (n <? 10)%nat then acc' else show_nat_aux f (n / 10) acc'
  end.
Definition show_nat (n : nat) : string := show_nat_aux (S n) n EmptyString.
(** '{:010d}' *)
Fixpoint zero_pad (k : nat) : string := match k with O => EmptyString | S k' => String "0" (zero_pad k') end.
Definition show_nat_pad (w n : nat) : string :=
  let s := show_nat n in zero_pad (w - String.length s) ++ s.

(** s.lstrip() / s.strip() *)
Fixpoint lstrip (s : string) : string :=
  match s with String c r => if is_space c then lstrip r else s | EmptyString => EmptyString end.
Definition strip (s : string) : string := lstrip (rstrip s).

(** int(s) on ASCII decimal text: surrounding white space, optional sign, digits.
    Simplification: the underscore digit separators Python also accepts are rejected. *)
Definition digit_val (c : ascii) : option Z :=
  let n := nat_of_ascii c in
  if ((48 <=? n) && (n <=? 57))%nat%bool then Some (Z.of_nat (n - 48)) else None.
Fixpoint digits_val (s : string) (acc : Z) : option Z :=
  match s with
  | EmptyString => Some acc
  | String c r => match digit_val c with
                  | Some d => digits_val r (10 * acc + d)%Z
                  | None => None
                  end
  end.
Definition nonempty_digits (s : string) : option Z :=
  match s with EmptyString => None | _ => digits_val s 0%Z end.
Definition parse_int (s : string) : option Z :=
  match strip s with
  | String "+" r => nonempty_digits r
  | String "-" r => option_map Z.opp (nonempty_digits r)
  | t => nonempty_digits t
  end.
