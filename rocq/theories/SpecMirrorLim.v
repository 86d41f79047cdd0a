(** When the flags of the troubled-cell sensor do not depend on the orientation of the axis. *)
From Coq Require Import ZArith List Bool Arith String Reals.
From Verif Require Import Num Py Ext Basis Sensor EulerPhysics Solution SpecDG SpecEuler SpecLimit SpecMirror.
Import ListNotations.
Open Scope R_scope.

(** positive density and pressure of all cell averages; at every interface the pressure jump is below the shock threshold, or the
    compression test has the same answer for the pair of averages and for its mirror image *)
Definition orientation_free (gamma : R) (ne : nat) (s : solution R) : Prop :=
  (forall e, (e < ne + 2)%nat -> admissible gamma (state3 s e)) /\
  forall th t1, thresholds s = Some th -> nth_error th 1 = Some t1 -> forall i, (i <= ne)%nat ->
    shock_value gamma (state3 s i) (state3 s (i + 1)) <= t1 \/
    shock_compressive gamma (mirror (state3 s (i + 1))) (mirror (state3 s i)) = shock_compressive gamma (state3 s i) (state3 s (i + 1)).
