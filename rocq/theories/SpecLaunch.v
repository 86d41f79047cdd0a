(** What a regression test is about, without the functions of the model that decide it. *)
From Coq Require Import ZArith List Bool Arith String.
From Verif Require Import Num Py PyStr LegNumpy Ext Basis Solution IO Scripts.
Import ListNotations.
Open Scope string_scope.
Open Scope list_scope.

(** the names that the pattern *.dat matches *)
Definition dat_file (name : string) : Prop := (exists stem, name = (stem ++ ".dat")%string) /\ ~ exists r, name = ("." ++ r)%string.
Section Golds.
  Context {A : Type} {N : Num A} {L : Libm A} {X : Ext A}.
  (** the numbers of the three files of a state and of the three gold files, entry by entry *)
  Definition golds_match (dir : directory) (s : solution A) : Prop :=
    forall f name, nth_error ["rho"; "rhou"; "E"] f = Some name ->
    exists t gold g, loadtxt (field_file s f) = Ok t /\ read_file dir (name ++ "0000000001.gold")%string = Some gold /\ loadtxt gold = Ok g /\
      Forall2 (Forall2 (fun x y => almost_equal x y = true)) t g.
  (** the files of a directory, other than those matching *.dat *)
  Definition same_kept (dir dir' : directory) : Prop := forall name, ~ dat_file name -> read_file dir name = read_file dir' name.
End Golds.
