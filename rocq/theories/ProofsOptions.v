(** Proofs about option strings. *)
From Coq Require Import ZArith List Bool Arith String Lia.
From Verif Require Import Num Py PyStr Lib Constants LegNumpy Ext Basis EulerPhysics AdvectionPhysics Solution ProofsTime2.
Import ListNotations.

Section Opt.
  Context {A : Type} {N : Num A} {L : Libm A} {X : Ext A}.
  (** the flux function and the number of fields follow from the option strings *)
  Lemma solution_solver icline sys order r enh (th : list A) s g : Solution icline sys order r enh th = Ok (s, g) ->
    s_NF s = (if String.eqb sys "euler" then 3 else 1) /\
    forall gamma ul ur, riemann gamma s ul ur =
      if String.eqb sys "euler"
      then if String.eqb r "rusanov" then riemann_rusanov gamma ul ur
           else if String.eqb r "godunov" then riemann_godunov gamma ul ur
           else riemann_roe gamma ul ur
      else Ok ul.
  Proof.
    intro H. destruct (solution_meta _ _ _ _ _ _ _ _ H) as [E1 E2]. split; [unfold s_NF; rewrite E1; reflexivity|].
    intros gamma ul ur. unfold riemann. rewrite E2. unfold riemann_choice.
    destruct (String.eqb sys "euler"); [|reflexivity]. destruct (String.eqb r "rusanov"); [reflexivity|]. destruct (String.eqb r "godunov"); reflexivity.
  Qed.
End Opt.
