(** Vocabulary for statements about limiting: minmod, Taylor series, three neighbouring cells. *)
From Coq Require Import ZArith List Bool Arith Reals.
From Verif Require Import Num Py RealLib SpecPoly.
Import ListNotations.
Open Scope R_scope.

(** 0 if the signs differ, else the argument of smaller magnitude *)
Definition minmod (a b : R) : R :=
  if Rle_dec (a * b) 0 then 0 else if Rle_dec (Rabs a) (Rabs b) then a else b.

(** Taylor series with coefficients a_n: sum of a_n x^n / n! *)
Definition taylor (a : list R) (x : R) : R := Rsum (length a) (fun n => nth n a 0 * (x ^ n / INR (fact n))).

(** average of a cell polynomial over its reference cell [-1,1] *)
Definition average (c : list R) (v : R) : Prop := integral (legseries c) (-1) 1 (2 * v).

(** three adjacent cells of equal width carry the restrictions of one polynomial: in the
    coordinates of the middle cell the left one covers [-3,-1] and the right one [1,3] *)
Definition one_polynomial (ul uc ur : list R) : Prop :=
  forall x, legseries ul (x + 2) = legseries uc x /\ legseries ur (x - 2) = legseries uc x.

(** ** Sensors *)
From Verif Require Import LegNumpy Ext Basis EulerPhysics Sensor Enhance Solution Solver SpecDG.
Section SpecSens.
  Context {A : Type} {N : Num A} {L : Libm A}.
  Open Scope nat_scope.
  (** average of field f in cell e, and the conserved averages of cell e *)
  Definition cell_mean (s : solution A) (e f : nat) : A := at1 (modes s e f) 0.
  Definition state3 (s : solution A) (e : nat) : A * A * A := (cell_mean s e 0, cell_mean s e 1, cell_mean s e 2).
  (** interface e (between cells e and e+1) exceeds a threshold *)
  Definition jump_at (s : solution A) (t : A) (e : nat) : bool := nltb t (adv_sensor_value (cell_mean s e 0) (cell_mean s (e + 1) 0)).
  Definition contact_at (gamma : A) (s : solution A) (t : A) (e : nat) : bool := nltb t (contact_value gamma (state3 s e) (state3 s (e + 1))).
  Definition shock_at (gamma : A) (s : solution A) (t : A) (e : nat) : bool :=
    (nltb t (shock_value gamma (state3 s e) (state3 s (e + 1))) && shock_compressive gamma (state3 s e) (state3 s (e + 1)))%bool.
  (** one of the two interfaces of cell e (e-1 and e; there are interfaces 0..ne) satisfies P *)
  Definition near (ne : nat) (P : nat -> bool) (e : nat) : bool := ((1 <=? e) && P (e - 1) || (e <=? ne) && P e)%bool.
  (** the limiter acts on interior cells whose sensor is set *)
  Definition limited (ne : nat) (sens : list Z) (e : nat) : bool :=
    ((1 <=? e) && (e <=? ne) && negb (nth e sens 0 =? 0)%Z)%bool.
  (** number of thresholds the system needs *)
  Definition needed (s : solution A) : nat := if s_euler s then 2 else 1.
  (** thresholds the solution was given *)
  Definition thresholds (s : solution A) : option (list A) := option_map sn_thresholds (s_sens s).
  (** the solution has enough thresholds, all of them in a given range *)
  Definition quiet (s : solution A) (bound : A -> Prop) : Prop :=
    exists sn, s_sens s = Some sn /\ needed s <= List.length (sn_thresholds sn) /\ Forall bound (sn_thresholds sn).
End SpecSens.
