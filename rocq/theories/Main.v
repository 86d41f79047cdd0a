(** dg1d/main.py: a whole run, from the deck file's text to the snapshots and the final state *)
From Coq Require Import ZArith List Bool Arith String.
From Verif Require Import Num Py PyStr LegNumpy Ext Basis Sensor Enhance Limiting IC Solution Solver
                          RKCoeffs RK IO Deck.
Import ListNotations.
Open Scope list_scope.

Section Main.
  Context {A : Type} {N : Num A} {L : Libm A} {X : Ext A}.

  (** main.py:66-76: build the solution, apply the boundary conditions, build the DG solver and the
      limiter, limit.  A negative order makes leggauss raise ValueError. *)
  Definition setup (d : deck A) : res (solution A * A * dg * limiter (A:=A)) :=
    if (dk_order d <? 0)%Z then Raise ValueError
    else
      let! sg := Solution (dk_ic d) (dk_system d) (Z.to_nat (dk_order d)) (dk_riemann d)
                          (dk_enhance d) (dk_thresholds d) in
      let '(s0, g) := sg in
      let! s1 := apply_bc s0 in
      let! dgs := DG s1 in
      let! l := Limiter (dk_limiting d) s1 in
      let! s2 := limit g l s1 in
      Ok (s2, g, dgs, l).

  (** main.py:62-81 without the command line, the version string and the timer *)
  Definition run_deck (fuel : nat) (d : deck A) : list (event A) * outcome A :=
    match setup d with
    | Raise e => ([], Failed e)
    | Ok (s, g, dgs, l) =>
        integrate g (dk_rk d) dgs l (dk_cfl d) (dk_finaltime d) (dk_nout d) fuel s
    end.
  Definition main (fuel : nat) (content : string) : list (event A) * outcome A :=
    match parser content Deck with
    | Raise e => ([], Failed e)
    | Ok d => run_deck fuel d
    end.
End Main.
