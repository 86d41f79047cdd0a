(** Vocabulary for statements about text files. *)
From Coq Require Import ZArith List Bool Arith String Ascii.
From Verif Require Import Num Py PyStr ProofsStr Ext.
Import ListNotations.

Definition one_line (s : string) : bool := all_chars (fun c => negb (Ascii.eqb c newline)) s.
(** characters with a meaning in snapshot files: , = # and white space *)
Definition plain_char (c : ascii) : bool :=
  negb (Ascii.eqb c ","%char || Ascii.eqb c "="%char || Ascii.eqb c "#"%char || is_space c)%bool.
Definition plain (s : string) : bool := all_chars plain_char s.

Section SpecText.
  Context {A : Type} {N : Num A} {X : Ext A}.
  (** the text of v is one token, and reading it gives v back *)
  Definition text_ok (v : A) : Prop := fmt_e18 v <> EmptyString /\ plain (fmt_e18 v) = true /\ parse_float (fmt_e18 v) = Some v.
End SpecText.

(** ** Deck files *)
Open Scope string_scope.
Definition text_names : list string :=
  [ "PDE system"; "RK scheme"; "riemann solver"; "initial condition"; "limiting"; "enhancement" ].
Definition int_names : list string := [ "number of outputs"; "order" ].
Definition float_names : list string := [ "final time"; "Courant-Friedrichs-Lewy condition" ].
Definition deck_names : list string := text_names ++ int_names ++ float_names ++ [ "sensor thresholds" ].
(** the last value given for h *)
Fixpoint last_value (h : string) (defs : list (string * string)) : option string :=
  match defs with
  | [] => None
  | (k, v) :: r => match last_value h r with
                   | Some w => Some w
                   | None => if String.eqb k h then Some v else None
                   end
  end.
(** s contains none of the headings the parser looks for *)
Definition no_heading (s : string) : Prop := forall n, In n deck_names -> contains ("#" ++ n) s = false.
(** a definition: on one line each; the name is one of the eleven, or neither the line it is
    written on nor its value contains one of the headings *)
Definition def_ok (d : string * string) : Prop :=
  one_line (fst d) = true /\ one_line (snd d) = true /\
  (In (fst d) deck_names \/ (no_heading ("#" ++ fst d) /\ no_heading (snd d))).
(** x is the value read for h: from the last definition of h, or the default *)
Definition given {Y} (defs : list (string * string)) (h : string) (rd : string -> option Y) (dflt x : Y) : Prop :=
  match last_value h defs with Some v => rd v = Some x | None => x = dflt end.
Fixpoint read_all {Y} (rd : string -> option Y) (ws : list string) : option (list Y) :=
  match ws with
  | [] => Some []
  | w :: r => match rd w, read_all rd r with Some y, Some ys => Some (y :: ys) | _, _ => None end
  end.
Definition is_some {Y} (o : option Y) : bool := match o with Some _ => true | None => false end.
