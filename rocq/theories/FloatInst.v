(** Hardware doubles, for running the model on the repository's own test cases (Tests*.v).
    Theorems do not depend on this file; some examples of theorems about doubles use it. *)
From Coq Require Import ZArith List Bool String Ascii Floats Uint63.
From Verif Require Import Num Py PyStr LegNumpy Ext Standins FloatText.
Import ListNotations.
Open Scope list_scope.

Definition f_ofpos (z : Z) : float :=
  if (z <? 4611686018427387904)%Z then PrimFloat.of_uint63 (Uint63.of_Z z)
  else SF2Prim (sf64_ofZ z).
Definition f_ofZ (z : Z) : float :=
  if (z <? 0)%Z then PrimFloat.opp (f_ofpos (- z)) else f_ofpos z.
#[global] Instance NumF : Num float := {|
  nofZ := f_ofZ; nadd := PrimFloat.add; nsub := PrimFloat.sub; nmul := PrimFloat.mul;
  ndiv := PrimFloat.div; nopp := PrimFloat.opp; nabs := PrimFloat.abs; nsqrt := PrimFloat.sqrt;
  nltb := PrimFloat.ltb; nleb := PrimFloat.leb; nisnan := PrimFloat.is_nan |}.

Open Scope float_scope.
(** numpy.polynomial.legendre.leggauss(1..4) *)
Definition gaussF (n : nat) : list float * list float :=
  match n with
  | 1%nat => ([0], [2])
  | 2%nat => ([-0x1.279a74590331cp-1; 0x1.279a74590331cp-1], [1; 1])
  | 3%nat => ([-0x1.8c97ef43f7248p-1; 0; 0x1.8c97ef43f7248p-1],
              [0x1.1c71c71c71c72p-1; 0x1.c71c71c71c71cp-1; 0x1.1c71c71c71c72p-1])
  | 4%nat => ([-0x1.b8e6dbcf63985p-1; -0x1.5c23fd9dd3dfcp-2; 0x1.5c23fd9dd3dfcp-2; 0x1.b8e6dbcf63985p-1],
              [0x1.64340f7e7b66bp-2; 0x1.4de5f840c24cap-1; 0x1.4de5f840c24cap-1; 0x1.64340f7e7b66bp-2])
  | _ => ([], [])
  end.
#[global] Instance ExtF : Ext float := {|
  leggauss := gaussF; linv := gj_inv; legfit := quad_fit gaussF;
  parse_float := fun s => option_map SF2Prim (parse64 s); fmt_e18 := fun x => fmt18 (Prim2SF x) |}.
(** the regression runs use no transcendental function *)
#[global] Instance LibmF : Libm float := {|
  npow := fun x _ => x; nsin := fun x => x; ncos := fun x => x; ntanh := fun x => x; npi := 3 |}.
