(** Decimal text of binary64 numbers: the format '%.18e' used by Solution.printer (solution.py:134,
    148) and float() used by Solution.loader (solution.py:186, np.loadtxt).  These are C library and
    CPython routines without source in /repo; both round correctly (to nearest, ties to even), and
    that is what is defined here. *)
From Coq Require Import ZArith List Bool Arith String Ascii SpecFloat.
From Verif Require Import Num Py PyStr.
Open Scope string_scope.
Open Scope Z_scope.

(** a/b rounded to the nearest integer, ties to even (a >= 0, b > 0) *)
Definition rne (a b : Z) : Z :=
  let q := a / b in
  let r := a mod b in
  match 2 * r ?= b with
  | Lt => q
  | Gt => q + 1
  | Eq => if Z.even q then q else q + 1
  end.
(** (a/b) * base^k rounded to an integer *)
Definition rne_scaled (base k a b : Z) : Z :=
  if 0 <=? k then rne (a * base ^ k) b else rne a (b * base ^ (- k)).

(** the largest k with 10^k <= q *)
Fixpoint ilog10 (fuel : nat) (q : Z) : Z :=
  match fuel with
  | O => 0
  | S f => if q <? 10 then 0 else 1 + ilog10 f (q / 10)
  end.
Definition log10 (q : Z) : Z := ilog10 (Z.to_nat (Z.log2 q + 1)) q.
(** the E with 10^E <= a/b < 10^(E+1) *)
Definition dec_exp (a b : Z) : Z :=
  if b <=? a then log10 (a / b) else - (log10 ((b - 1) / a) + 1).
(** 19 significant digits: (D, E) stands for D * 10^(E-18), 10^18 <= D < 10^19 *)
Definition sig19 (a b : Z) : Z * Z :=
  let E := dec_exp a b in
  let D := rne_scaled 10 (18 - E) a b in
  if D =? 10 ^ 19 then (10 ^ 18, E + 1) else (D, E).

(** the last k decimal digits of z *)
Fixpoint digits_of (k : nat) (z : Z) (acc : string) : string :=
  match k with
  | O => acc
  | S k' => digits_of k' (z / 10) (String (digit (Z.to_nat (z mod 10))) acc)
  end.
Definition sign_text (s : bool) : string := if s then "-" else "".
(** d.dddddddddddddddddde+dd *)
Definition sci_text (D E : Z) : string :=
  digits_of 1 (D / 10 ^ 18) "" ++ "." ++ digits_of 18 (D mod 10 ^ 18) ""
  ++ "e" ++ (if E <? 0 then "-" else "+") ++ show_nat_pad 2 (Z.to_nat (Z.abs E)).
Definition fmt18 (x : spec_float) : string :=
  match x with
  | S754_zero s => sign_text s ++ sci_text 0 0
  | S754_infinity s => sign_text s ++ "inf"
  | S754_nan => "nan"
  | S754_finite s m e =>
      let '(D, E) := sig19 (if 0 <=? e then Z.pos m * 2 ^ e else Z.pos m) (if 0 <=? e then 1 else 2 ^ (- e)) in
      sign_text s ++ sci_text D E
  end.

(** the k with 2^k <= a/b < 2^(k+1) *)
Definition ratio_log2 (a b : Z) : Z :=
  let k := Z.log2 a - Z.log2 b in
  if (if 0 <=? k then b * 2 ^ k <=? a else b <=? a * 2 ^ (- k)) then k else k - 1.
(** the binary64 number nearest to a/b, ties to even (a >= 0, b > 0) *)
Definition round_ratio (s : bool) (a b : Z) : spec_float :=
  if a =? 0 then S754_zero s
  else
    let e := Z.max (ratio_log2 a b - 52) (-1074) in
    let m := rne_scaled 2 (- e) a b in
    let '(m, e) := if m =? 2 ^ 53 then (2 ^ 52, e + 1) else (m, e) in
    match m with
    | Z.pos p => if 971 <? e then S754_infinity s else S754_finite s p e
    | _ => S754_zero s
    end.

(** the longest prefix of digits *)
Fixpoint take_digits (s : string) : string * string :=
  match s with
  | EmptyString => (EmptyString, EmptyString)
  | String c r => match digit_val c with
                  | Some _ => let '(a, b) := take_digits r in (String c a, b)
                  | None => (EmptyString, s)
                  end
  end.
(** sign and the rest *)
Definition take_sign (s : string) : bool * string :=
  match s with
  | String "-" r => (true, r)
  | String "+" r => (false, r)
  | _ => (false, s)
  end.
(** the exponent part: nothing, or e[+-]digits *)
Definition exponent_of (s : string) : option Z :=
  match s with
  | EmptyString => Some 0
  | String c r =>
      if (Ascii.eqb c "e" || Ascii.eqb c "E")%bool then
        let '(neg, t) := take_sign r in
        match nonempty_digits t with
        | Some v => Some (if neg then - v else v)
        | None => None
        end
      else None
  end.
(** float(s) on text without surrounding blanks.  Simplifications: underscores between digits and
    the upper-case or long spellings of inf and nan are rejected. *)
Definition parse64 (s : string) : option spec_float :=
  let '(neg, t) := take_sign s in
  if String.eqb t "nan" then Some S754_nan
  else if String.eqb t "inf" then Some (S754_infinity neg)
  else
    let '(ip, t1) := take_digits t in
    let '(fp, t2) := match t1 with
                     | String c r => if Ascii.eqb c "." then take_digits r else (EmptyString, t1)
                     | EmptyString => (EmptyString, t1)
                     end in
    match nonempty_digits (ip ++ fp), exponent_of t2 with
    | Some D, Some x =>
        let k := x - Z.of_nat (String.length fp) in
        Some (if 0 <=? k then round_ratio neg (D * 10 ^ k) 1 else round_ratio neg D (10 ^ (- k)))
    | _, _ => None
    end.
