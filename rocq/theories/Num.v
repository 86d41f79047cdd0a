(** Number types the model runs on.

    The Python code computes with NumPy float64.  Every model function is written once,
    over the class [Num] below (the IEEE operations the code uses), and instantiated at
    - [R]           exact real arithmetic (simplification: no rounding, no NaN/inf);
    - [spec_float]  IEEE binary64 as specified in Coq's standard library;
    - [float]       hardware doubles, used only for running tests (see Tests*.v);
    - [Q]           exact rationals, used only to evaluate concrete witnesses. *)
From Coq Require Import ZArith Reals QArith Qabs List Bool.
From Coq Require Import Floats.SpecFloat.
Import ListNotations.

Class Num (A : Type) := {
  nofZ  : Z -> A;
  nadd  : A -> A -> A;
  nsub  : A -> A -> A;
  nmul  : A -> A -> A;
  ndiv  : A -> A -> A;
  nopp  : A -> A;
  nabs  : A -> A;          (* np.fabs / abs *)
  nsqrt : A -> A;          (* np.sqrt *)
  nltb  : A -> A -> bool;  (* <  (false when an argument is NaN) *)
  nleb  : A -> A -> bool;  (* <= (false when an argument is NaN) *)
  nisnan : A -> bool       (* np.isnan *)
}.

(** libm functions; only initial conditions and the Godunov solver use them. *)
Class Libm (A : Type) := {
  npow : A -> A -> A;      (* x ** y *)
  nsin : A -> A;
  ncos : A -> A;
  ntanh : A -> A;
  npi : A
}.

Declare Scope num_scope.
Delimit Scope num_scope with num.
Infix "+" := nadd : num_scope.
Infix "-" := nsub : num_scope.
Infix "*" := nmul : num_scope.
Infix "/" := ndiv : num_scope.
Notation "- x" := (nopp x) : num_scope.
Infix "<?" := nltb : num_scope.
Infix "<=?" := nleb : num_scope.

Section Derived.
  Context {A : Type} {N : Num A}.
  Definition n0 : A := nofZ 0.
  Definition n1 : A := nofZ 1.
  Definition n2 : A := nofZ 2.
  (** a decimal literal such as 0.5 or 1e-15, written as a quotient of two integers that are
      exact doubles, so that at binary64 the quotient is the correctly rounded literal *)
  Definition lit (n d : Z) : A := ndiv (nofZ n) (nofZ d).
  Definition nhalf : A := lit 1 2.
  (** np.maximum: NaN propagates *)
  Definition npmaximum (a b : A) : A :=
    if nisnan a then a else if nisnan b then b else if nltb a b then b else a.
  (** np.max over a non-empty vector (left fold of maximum); [None]: NumPy raises ValueError *)
  Definition npmax (l : list A) : option A :=
    match l with [] => None | x :: r => Some (fold_left npmaximum r x) end.
  (** np.sum and the sums inside np.dot (evaluation order simplified: from the last term) *)
  Fixpoint nsum (l : list A) : A :=
    match l with [] => n0 | x :: r => nadd x (nsum r) end.
  (** x**n for a natural exponent (CPython/NumPy integer powers; evaluation order simplified) *)
  Fixpoint npown (x : A) (n : nat) : A :=
    match n with O => n1 | S k => nmul x (npown x k) end.
End Derived.

(** Exact arithmetic. *)
Definition Rltb (x y : R) : bool := if Rlt_dec x y then true else false.
Definition Rleb (x y : R) : bool := if Rle_dec x y then true else false.
#[global] Instance NumR : Num R := {|
  nofZ := IZR; nadd := Rplus; nsub := Rminus; nmul := Rmult; ndiv := Rdiv; nopp := Ropp;
  nabs := Rabs; nsqrt := R_sqrt.sqrt; nltb := Rltb; nleb := Rleb; nisnan := fun _ => false |}.
(** x ** y is exp(y ln x) for x > 0; 0 otherwise (theorems only use positive bases). *)
Definition Rpow (x y : R) : R := if Rlt_dec 0 x then Rpower x y else 0%R.
#[global] Instance LibmR : Libm R := {|
  npow := Rpow; nsin := Rtrigo_def.sin; ncos := Rtrigo_def.cos; ntanh := tanh; npi := PI |}.

(** IEEE binary64 (standard-library specification). *)
Definition prec64 : Z := 53%Z.
Definition emax64 : Z := 1024%Z.
Definition sf64_ofZ (z : Z) : spec_float := binary_normalize prec64 emax64 z 0 false.
#[global] Instance NumSF : Num spec_float := {|
  nofZ := sf64_ofZ; nadd := SFadd prec64 emax64; nsub := SFsub prec64 emax64; nmul := SFmul prec64 emax64;
  ndiv := SFdiv prec64 emax64;
  nopp := SFopp; nabs := SFabs; nsqrt := SFsqrt prec64 emax64; nltb := SFltb; nleb := SFleb;
  nisnan := fun x => match x with S754_nan => true | _ => false end |}.

(** Exact rationals, for evaluating witnesses without square roots ([nsqrt] is unusable). *)
Definition Qltb (x y : Q) : bool := negb (Qle_bool y x).
#[global] Instance NumQ : Num Q := {|
  nofZ := inject_Z; nadd := fun x y => Qred (Qplus x y); nsub := fun x y => Qred (Qminus x y);
  nmul := fun x y => Qred (Qmult x y); ndiv := fun x y => Qred (Qdiv x y);
  nopp := Qopp; nabs := Qabs; nsqrt := fun x => x; nltb := Qltb; nleb := Qle_bool;
  nisnan := fun _ => false |}.
