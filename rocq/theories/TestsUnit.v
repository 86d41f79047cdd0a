(** The repository's unit tests (tests/test_*.py), run on the model at hardware doubles with the tolerances of the tests.
    These are checks of the reading of the code, not proofs; no theorem depends on this file. *)
From Coq Require Import ZArith List Bool Arith String Floats Uint63.
From Verif Require Import Num Py PyStr LegNumpy Ext Standins Constants Basis Enhance Sensor Limiting AdvectionPhysics EulerPhysics IC Solution Solver RKCoeffs RK FloatText FloatInst.
Import ListNotations.
Open Scope list_scope.
Open Scope float_scope.

(** sin, exp, log by series; accurate to a few units in the last place on the arguments used here *)
Fixpoint sin_series (n : nat) (k x2 term acc : float) : float :=
  match n with O => acc | S m => let term := - term * x2 / (k * (k + 1)) in sin_series m (k + 2) x2 term (acc + term) end.
Definition sinT (x : float) : float := sin_series 30 2 (x * x) x x.
Fixpoint atanh_series (n : nat) (k z2 pw acc : float) : float :=
  match n with O => acc | S m => let pw := pw * z2 in atanh_series m (k + 2) z2 pw (acc + pw / k) end.
Definition ln2 : float := 0x1.62e42fefa39efp-1.
Definition logT (x : float) : float :=
  let '(m, e) := frshiftexp x in
  let z := (m - 1) / (m + 1) in
  2 * atanh_series 40 3 (z * z) z z + f_ofZ (Uint63.to_Z e - 2101)%Z * ln2.
Fixpoint exp_series (n : nat) (k x term acc : float) : float :=
  match n with O => acc | S m => let term := term * x / k in exp_series m (k + 1) x term (acc + term) end.
Fixpoint squarings (n : nat) (y : float) : float := match n with O => y | S m => squarings m (y * y) end.
Definition expT (x : float) : float := squarings 4 (exp_series 30 1 (x / 16) 1 1).
Definition gaussT (n : nat) : list float * list float :=
  match n with
  | 5%nat => ([-0x1.cff6ce0533a69p-1; -0x1.13b23fd99b705p-1; 0; 0x1.13b23fd99b705p-1; 0x1.cff6ce0533a69p-1],
              [0x1.e539ec36e0389p-3; 0x1.ea1da25ae415bp-2; 0x1.23456789abcdfp-1; 0x1.ea1da25ae415bp-2; 0x1.e539ec36e0389p-3])
  | _ => gaussF n
  end.
Definition ExtT : Ext float := {| leggauss := gaussT; linv := gj_inv; legfit := quad_fit gaussT;
  parse_float := fun s => option_map SF2Prim (parse64 s); fmt_e18 := fun x => fmt18 (Prim2SF x) |}.
Definition LibmT : Libm float := {| npow := fun x y => expT (y * logT x); nsin := sinT; ncos := fun x => sinT (x + 0x1.921fb54442d18p+0);
  ntanh := fun x => let e := expT (2 * x) in (e - 1) / (e + 1); npi := 0x1.921fb54442d18p+1 |}.
#[local] Existing Instance ExtT | 0.
#[local] Existing Instance LibmT | 0.

(** npt.assert_array_almost_equal: same shape and |a - b| < 1.5 * 10^-d *)
Definition eps (d : nat) : float := 1.5 / f_ofZ (10 ^ Z.of_nat d)%Z.
Definition near (d : nat) (a b : float) : bool := PrimFloat.ltb (abs (a - b)) (eps d).
Fixpoint nearv (d : nat) (a b : list float) : bool :=
  match a, b with [], [] => true | x :: a, y :: b => (near d x y && nearv d a b)%bool | _, _ => false end.
Fixpoint nearm (d : nat) (a b : mat float) : bool :=
  match a, b with [], [] => true | x :: a, y :: b => (nearv d x y && nearm d a b)%bool | _, _ => false end.
Definition on {Y} (r : res Y) (p : Y -> bool) : bool := match r with Ok y => p y | Raise _ => false end.
(** 1.0 * np.arange(a, a + r*c).reshape(r, c) *)
Definition arange (a : Z) (r c : nat) : mat float := tab2 r c (fun i j => f_ofZ (a + Z.of_nat (i * c + j))%Z).

(** expected values, copied from the tests *)
Definition x_phi : mat float :=
  [[0x1.0000000000000p+0; (-0x1.b8e6dbd2e0486p-1); 0x1.3983cad8df5d5p-1; (-0x1.380f97f884b69p-2)]; [0x1.0000000000000p+0; (-0x1.5c23fda4f5b21p-2); (-0x1.4e754c8843dbdp-2); 0x1.a59c065b63d3ep-2]; [0x1.0000000000000p+0; 0x1.5c23fda4f5b21p-2; (-0x1.4e754c8843dbdp-2); (-0x1.a59c065b63d3ep-2)]; [0x1.0000000000000p+0; 0x1.b8e6dbd2e0486p-1; 0x1.3983cad8df5d5p-1; 0x1.380f97f884b69p-2]].
Definition x_dphi_w : mat float :=
  [[0; 0; 0; 0]; [0x1.64340f7c1edf7p-2; 0x1.4de5f841f0905p-1; 0x1.4de5f841f0905p-1; 0x1.64340f7c1edf7p-2]; [(-0x1.cc1c0670dd62cp-1); (-0x1.548eab06b1fe7p-1); 0x1.548eab06b1fe7p-1; 0x1.cc1c0670dd62cp-1]; [0x1.69b1e8c1862dfp+0; (-0x1.a6c7a30618b7ap-2); (-0x1.a6c7a30618b7ap-2); 0x1.69b1e8c1862dfp+0]].
Definition x_psi : mat float :=
  [[0x1.0000000000000p+0; (-0x1.0000000000000p+0); 0x1.0000000000000p+0; (-0x1.0000000000000p+0)]; [0x1.0000000000000p+0; 0x1.0000000000000p+0; 0x1.0000000000000p+0; 0x1.0000000000000p+0]].
Definition x_m : list float := [0x1.0000000000000p+1; 0x1.5555555555555p-1; 0x1.999999999999ap-2; 0x1.2492492492492p-2].
Definition x_minv : list float := [0x1.0000000000000p-1; 0x1.8000000000000p+0; 0x1.4000000000000p+1; 0x1.c000000000000p+1].
Definition x_proj0 : list float := [0x1.5555555555555p-2; 0; 0x1.5555555555555p-1; 0].
Definition x_proj1 : list float := [0x1.983c8a1efd464p-4; 0x1.972573570fb15p-4; (-0x1.5cb1a24815a2cp-12); (-0x1.161aa7d8c2eb7p-14)].
Definition x_shift : list float := [0x1.6000000000000p+2; 0x1.8000000000000p+2; 0x1.8000000000000p+0].
Definition x_hr1 : mat float :=
  [[0x1.1c22d618d0dc5p+0; 0x1.1c22d618d0dc5p+0; 0x1.8708b58634371p+1; 0x1.c7ba53ce5e476p-1; 0x1.c7ba53ce5e476p-1; 0x1.78f74a79cbc8fp+1; 0x1.a4f321cb2be2ep-1; 0x1.a4f321cb2be2ep-1; 0x1.749e64442243dp+1; 0x1.0000000000000p+0; 0x1.0000000000000p+0; 0x1.8000000000000p+1; 0x1.2d866f1a6a0e9p+0; 0x1.2d866f1a6a0e9p+0; 0x1.8b619bbbddbc3p+1; 0x1.1c22d618d0dc5p+0; 0x1.1c22d618d0dc5p+0; 0x1.8708b58634371p+1; 0x1.c7ba53ce5e476p-1; 0x1.c7ba53ce5e476p-1; 0x1.78f74a79cbc8fp+1]; [(-0x1.16398d6a6147cp-5); (-0x1.16398d6a6147cp-5); (-0x1.163992c8c5005p-6); (-0x1.16398d6a6147cp-5); (-0x1.16398d6a6147cp-5); (-0x1.163992c8c5005p-6); 0; 0; 0; 0x1.6c33777bb7867p-4; 0x1.6c33777bb7867p-4; 0x1.6c337a2ae962bp-5; 0; 0; 0; (-0x1.16398d6a6147cp-5); (-0x1.16398d6a6147cp-5); (-0x1.163992c8c5005p-6); (-0x1.16398d6a6147cp-5); (-0x1.16398d6a6147cp-5); (-0x1.163992c8c5005p-6)]].
Definition x_hr2 : mat float :=
  [[0x1.1c273aac79454p+0; 0x1.1c273aac79454p+0; 0x1.8709cea06189ep+1; 0x1.c7b18ab83b817p-1; 0x1.c7b18ab83b817p-1; 0x1.78f6315f9e762p+1; 0x1.a4e4eab6fec07p-1; 0x1.a4e4eab6fec07p-1; 0x1.749c9d5a187a5p+1; 0x1.0000000000000p+0; 0x1.0000000000000p+0; 0x1.8000000000000p+1; 0x1.2d8d8a979e16dp+0; 0x1.2d8d8a979e16dp+0; 0x1.8b6362a5e785bp+1; 0x1.1c273aac79454p+0; 0x1.1c273aac79454p+0; 0x1.8709cea06189ep+1; 0x1.c7b18ab83b817p-1; 0x1.c7b18ab83b817p-1; 0x1.78f6315f9e762p+1]; [(-0x1.16650017a477dp-5); (-0x1.16650017a477dp-5); (-0x1.16650017a477dp-6); (-0x1.16650017a477dp-5); (-0x1.16650017a477dp-5); (-0x1.16650017a477dp-6); 0x1.fb220dbb91507p-8; 0x1.fb220dbb91507p-8; 0x1.fb220dc690106p-9; 0x1.6c6c552404fe2p-4; 0x1.6c6c552404fe2p-4; 0x1.6c6c551d25c63p-5; 0x1.fb220dbb91507p-8; 0x1.fb220dbb91507p-8; 0x1.fb220dc690106p-9; (-0x1.16650017a477dp-5); (-0x1.16650017a477dp-5); (-0x1.16650017a477dp-6); (-0x1.16650017a477dp-5); (-0x1.16650017a477dp-5); (-0x1.16650017a477dp-6)]; [(-0x1.fffffffb29c00p-57); (-0x1.fffffffb29c00p-57); (-0x1.1aaaaab8c2933p-53); 0; 0; 0; 0x1.c7b70279f1a26p-7; 0x1.c7b70279f1a26p-7; 0x1.c7b70263f4228p-8; 0; 0; 0; (-0x1.c7b70279f1a26p-7); (-0x1.c7b70279f1a26p-7); (-0x1.c7b70263f4228p-8); (-0x1.fffffffb29c00p-57); (-0x1.fffffffb29c00p-57); (-0x1.1aaaaab8c2933p-53); 0; 0; 0]].
Definition x_hr3 : mat float :=
  [[0x1.1c2736d0a1989p+0; 0x1.1c2736d0a1989p+0; 0x1.8709cdb428662p+1; 0x1.c7b1925625c8ep-1; 0x1.c7b1925625c8ep-1; 0x1.78f6324bd799ep+1; 0x1.a4e4f710174f5p-1; 0x1.a4e4f710174f5p-1; 0x1.749c9edca4863p+1; 0x1.0000000000000p+0; 0x1.0000000000000p+0; 0x1.8000000000000p+1; 0x1.2d8d848d6de74p+0; 0x1.2d8d848d6de74p+0; 0x1.8b6361235b79dp+1; 0x1.1c2736d0a1989p+0; 0x1.1c2736d0a1989p+0; 0x1.8709cdb428662p+1; 0x1.c7b1925625c8ep-1; 0x1.c7b1925625c8ep-1; 0x1.78f6324bd799ep+1]; [(-0x1.dc592c27617f0p-5); (-0x1.dc592c27617f0p-5); (-0x1.dc592c351feefp-6); (-0x1.dc592c27617f0p-5); (-0x1.dc592c27617f0p-5); (-0x1.dc592c351feefp-6); 0x1.b1c2ad949943dp-8; 0x1.b1c2ad949943dp-8; 0x1.b1c2ad949943dp-9; 0x1.da0d70785a7c2p-4; 0x1.da0d70785a7c2p-4; 0x1.da0d7093d75bfp-5; 0x1.b1c2ad949943dp-8; 0x1.b1c2ad949943dp-8; 0x1.b1c2ad949943dp-9; (-0x1.dc592c27617f0p-5); (-0x1.dc592c27617f0p-5); (-0x1.dc592c351feefp-6); (-0x1.dc592c27617f0p-5); (-0x1.dc592c27617f0p-5); (-0x1.dc592c351feefp-6)]; [(-0x1.308b918dc361fp-8); (-0x1.308b918dc361fp-8); (-0x1.308b9182c4a20p-9); 0x1.308b918dc361fp-8; 0x1.308b918dc361fp-8; 0x1.308b9182c4a20p-9; 0x1.bb7c4014029b8p-7; 0x1.bb7c4014029b8p-7; 0x1.bb7c4014029b8p-8; 0x1.2b565d9de486ep-54; 0x1.2b565d9de486ep-54; 0x1.f580421155377p-53; (-0x1.bb7c4014029b8p-7); (-0x1.bb7c4014029b8p-7); (-0x1.bb7c4014029b8p-8); (-0x1.308b918dc361fp-8); (-0x1.308b918dc361fp-8); (-0x1.308b9182c4a20p-9); 0x1.308b918dc361fp-8; 0x1.308b918dc361fp-8; 0x1.308b9182c4a20p-9]; [0x1.e745b5af9f031p-11; 0x1.e745b5af9f031p-11; 0x1.e745b5af9f031p-12; 0x1.e745b5af9f031p-11; 0x1.e745b5af9f031p-11; 0x1.e745b5af9f031p-12; (-0x1.cead85ff82587p-60); (-0x1.cead85ff82587p-60); (-0x1.cead85f59b0b5p-61); (-0x1.3eec825155ec7p-9); (-0x1.3eec825155ec7p-9); (-0x1.3eec825155ec7p-10); (-0x1.cead85ff82587p-60); (-0x1.cead85ff82587p-60); (-0x1.cead85f59b0b5p-61); 0x1.e745b5af9f031p-11; 0x1.e745b5af9f031p-11; 0x1.e745b5af9f031p-12; 0x1.e745b5af9f031p-11; 0x1.e745b5af9f031p-11; 0x1.e745b5af9f031p-12]].
Definition x_l2m : list float := [(-0x1.0000000000000p+0); (-0x1.c000000000000p+1); 0x1.8000000000000p+2; 0x1.6800000000000p+5].
Definition x_m2l : list float := [0; 0x1.0000000000000p+0; 0x1.0000000000000p+1; 0x1.8000000000000p+1].
Definition x_lm1a : list float := [0x1.8000000000000p+1; 0x1.0000000000000p+0].
Definition x_lm1b : list float := [(-0x1.0000000000000p+0); 0].
Definition x_lm1c : list float := [(-0x1.8000000000000p+1); (-0x1.0000000000000p-1)].
Definition x_lm2a : list float := [(-0x1.8000000000000p-1); 0; 0x1.0000000000000p-1].
Definition x_lm2b : list float := [0x1.8000000000000p+0; 0; 0].
Definition x_lm3 : list float := [(-0x1.871c71d0a7cdcp-1); 0; 0x1.2aaaaa8e0896dp-1; (-0x1.0000000000000p-1)].
Definition x_Al : mat float :=
  [[0x1.0000000000000p+0; 0; 0]; [0; 0x1.0000000000000p+0; 0]; [0; 0x1.0000000000000p+0; 0x1.8000000000000p+2]].
Definition x_Ar : mat float :=
  [[0x1.0000000000000p+0; 0; 0]; [0; 0x1.0000000000000p+0; 0]; [0; 0x1.0000000000000p+0; (-0x1.8000000000000p+2)]].
Definition x_aL : list float := [0x1.8c00000000000p-1; 0x1.5c00000000000p-1; 0x1.c000000000000p-2].
Definition x_aR : list float := [0x1.d000000000000p-3; (-0x1.1000000000000p-3); 0].
Definition x_bL : list float := [0x1.d000000000000p-3; 0x1.1000000000000p-3; 0].
Definition x_bR : list float := [0x1.8c00000000000p-1; (-0x1.5c00000000000p-1); 0x1.c000000000000p-2].
Definition x_face : mat float :=
  [[0; 0x1.6800000000000p+1; 0x1.5f00000000000p+2; 0x1.0500000000000p+3; 0x1.5a80000000000p+3]; [0x1.d800000000000p+1; 0x1.3480000000000p+3; 0x1.f300000000000p+3; 0x1.58c0000000000p+4; 0]].
Definition x_coll : mat float :=
  [[0x1.64ece19530d43p-4; 0x1.f2e02a77a2cedp-1; 0x1.07b4d991006dep-1; (-0x1.4fe5672278fbcp-1); (-0x1.d74d3918d05b7p-1); 0x1.64ece19530d43p-4; 0x1.f2e02a77a2cedp-1; 0x1.07b4d991006dep-1; (-0x1.4fe5672278fbcp-1); (-0x1.d74d3918d05b7p-1)]; [0x1.9c965cf92a4dep-2; 0x1.fd6a10141f46cp-1; 0x1.b22aae5466b49p-3; (-0x1.ba54f4f9e78d1p-1); (-0x1.7deaf52be68dcp-1); 0x1.9c965cf92a4dep-2; 0x1.fd6a10141f46cp-1; 0x1.b22aae5466b49p-3; (-0x1.ba54f4f9e78d1p-1); (-0x1.7deaf52be68dcp-1)]; [0x1.7deaf52be68dcp-1; 0x1.ba54f4f9e78d1p-1; (-0x1.b22aae5466b49p-3); (-0x1.fd6a10141f46cp-1); (-0x1.9c965cf92a4dep-2); 0x1.7deaf52be68dcp-1; 0x1.ba54f4f9e78d1p-1; (-0x1.b22aae5466b49p-3); (-0x1.fd6a10141f46cp-1); (-0x1.9c965cf92a4dep-2)]; [0x1.d74d3918d05b7p-1; 0x1.4fe5672278fbcp-1; (-0x1.07b4d991006dep-1); (-0x1.f2e02a77a2cedp-1); (-0x1.64ece19530d43p-4); 0x1.d74d3918d05b7p-1; 0x1.4fe5672278fbcp-1; (-0x1.07b4d991006dep-1); (-0x1.f2e02a77a2cedp-1); (-0x1.64ece19530d43p-4)]].
Definition x_cface : mat float :=
  [[(-0x1.709addc841b26p-11); 0x1.e634e72c385c0p-1; 0x1.2cda29f159e3cp-1; (-0x1.2c450f5c47065p-1); (-0x1.e66ddb0b0f38fp-1); (-0x1.709addc841b26p-11); 0x1.e634e72c385c0p-1; 0x1.2cda29f159e3cp-1; (-0x1.2c450f5c47065p-1); (-0x1.e66ddb0b0f38fp-1)]; [0x1.e66ddb0b0f38fp-1; 0x1.2c450f5c47065p-1; (-0x1.2cda29f159e3cp-1); (-0x1.e634e72c385c0p-1); 0x1.709addc841b26p-11; 0x1.e66ddb0b0f38fp-1; 0x1.2c450f5c47065p-1; (-0x1.2cda29f159e3cp-1); (-0x1.e634e72c385c0p-1); 0x1.709addc841b26p-11]].
Definition x_icu : mat float :=
  [[0; 0x1.d7fb81c10accbp-4; 0x1.955561dc3e03fp-1; 0]; [0; 0x1.e5c31da17b904p-6; 0x1.55542b2572ab4p-2; 0]; [0; 0x1.c290afbb191b3p-3; (-0x1.0374957e2bffep-3); 0]; [0; (-0x1.ec5b8866ec484p-9); (-0x1.2356dcb09a921p-7); 0]].
Definition x_icx : list float := [(-0x1.0000000000000p+0); 0; 0x1.0000000000000p+0].
Definition x_icxc : list float := [(-0x1.0000000000000p-1); 0x1.0000000000000p-1].
Definition x_icm : list float := [0x1.0000000000000p+0; 0x1.8000000000000p+1; 0x1.4000000000000p+2; 0x1.c000000000000p+2].
Definition x_addf : mat float :=
  [[0; 0; 0x1.0000000000000p+0; 0x1.0000000000000p+1; 0x1.8000000000000p+1; 0x1.4000000000000p+2]; [0x1.8000000000000p+2; 0x1.8000000000000p+2; 0x1.4000000000000p+2; 0x1.0000000000000p+2; 0x1.8000000000000p+1; 0x1.6000000000000p+3]; [0x1.8000000000000p+3; 0x1.8000000000000p+3; 0x1.a000000000000p+3; 0x1.c000000000000p+3; 0x1.e000000000000p+3; 0x1.1000000000000p+4]; [0x1.2000000000000p+4; 0x1.2000000000000p+4; 0x1.1000000000000p+4; 0x1.0000000000000p+4; 0x1.e000000000000p+3; 0x1.7000000000000p+4]].
Definition x_mul : mat float :=
  [[0; 0; 0; 0; 0]; [0x1.4000000000000p+2; 0x1.8000000000000p+2; 0x1.c000000000000p+2; 0x1.0000000000000p+3; 0x1.2000000000000p+3]; [0x1.4000000000000p+4; 0x1.6000000000000p+4; 0x1.8000000000000p+4; 0x1.a000000000000p+4; 0x1.c000000000000p+4]; [0x1.6800000000000p+5; 0x1.8000000000000p+5; 0x1.9800000000000p+5; 0x1.b000000000000p+5; 0x1.c800000000000p+5]; [0x1.4000000000000p+6; 0x1.5000000000000p+6; 0x1.6000000000000p+6; 0x1.7000000000000p+6; 0x1.8000000000000p+6]].
Definition x_speed : float := 0x1.5fc9536ae48f0p+1.
Definition x_rus : list float := [0x1.090a55f80dd20p-1; 0x1.199999999999ap-1; 0x1.54c4256385c42p+0; 0x1.38852afbf0eb8p+0; 0x1.8e6383edd4bd0p+0; 0x1.eeae5507fb3e5p+1; 0; (-0x1.18bee7452bd5bp+0); 0; 0; 0x1.f40147ae147aep+8; 0x1.6d647fcf3dc05p+15; 0x1.4292ec0b92968p+5; 0x1.dfd4a411f8501p+11; 0x1.bfc85db0bbf51p+15; 0x1.e4a52f7c52e28p-3; 0x1.0000000000000p+0; 0].
Definition x_god : list float := [0x1.94e165931c679p-2; 0x1.56f4d4bb0c8e8p-1; 0x1.276f00b08058dp+0; 0x1.9f352cb2c50f9p-1; 0x1.8b66aee545579p+0; 0x1.80624753be8ccp+1; 0; 0x1.f077b19b8abeep-10; 0; 0x1.68a1d629081d3p+3; 0x1.54e04a71f99a4p+9; 0x1.07e2ab282ed18p+15; 0x1.d647c9d74f06dp+6; 0x1.599f2c3d6862cp+11; 0x1.a75ccd4972b66p+15; 0; 0x1.0000000000000p+0; 0].
Definition x_roe : list float := [0x1.90094d693ae74p-2; 0x1.199999999999ap-1; 0x1.4bbef0e0e624ep+0; 0x1.c43e32eb63b59p-1; 0x1.7b4830f2836e2p+0; 0x1.9c290379442a2p+1; 0; (-0x1.e28f5c28f5c29p+1); 0; 0x1.871f6dc2a62d5p+4; 0x1.613cffed8b893p+8; 0x1.4e36f6117720dp+15; 0x1.92c4cf40f0602p+6; 0x1.5fc313d5d58a1p+11; 0x1.8e6ce9c886163p+15; 0; 0x1.0000000000000p+0; 0].
Definition x_flux : mat float :=
  [[0x1.0000000000000p+1; 0x1.199999999999ap+2; 0x1.b333333333333p+2; 0x1.4000000000000p+2; 0x1.d99999999999ap+2; 0x1.1e00000000000p+3; 0x1.0000000000000p+3; 0x1.5d41d41af4cdfp+3; 0x1.89ed311b55f1dp+3; 0x1.6000000000000p+3; 0x1.cf5c28f5c28f6p+3; 0x1.fa2d0e5604189p+3]; [0x1.c000000000000p+3; 0x1.20fc0fc09256ep+4; 0x1.35e3859b8ae07p+4; 0x1.1000000000000p+4; 0x1.5a66666666666p+4; 0x1.6efcccccccccdp+4; 0x1.4000000000000p+4; 0x1.93dfa9c3de3bbp+4; 0x1.a83e6789a7084p+4; 0x1.7000000000000p+4; 0x1.cd61bed715d0fp+4; 0x1.e197e84eb36c5p+4]; [0x1.a000000000000p+4; 0x1.0374bc6a7ef9ep+5; 0x1.0d805e5f30e80p+5; 0x1.d000000000000p+4; 0x1.203a83a86b998p+5; 0x1.2a39fde97a579p+5; 0x1.0000000000000p+5; 0x1.3d01a6cfe301cp+5; 0x1.46f750d32c377p+5; 0x1.1800000000000p+5; 0x1.59c9c9c98d274p+5; 0x1.63b75d0264894p+5]].
(** * tests/test_basis.py *)
Example test_evaluate_basis_gauss : (nearm 9 (b_phi (Basis 3)) x_phi && nearm 9 (b_dphi_w (Basis 3)) x_dphi_w)%bool = true.
Proof. vm_compute. reflexivity. Qed.
Example test_evaluate_basis_edges : nearm 13 (b_psi (Basis 3)) x_psi = true.
Proof. vm_compute. reflexivity. Qed.
Example test_mass_matrix : (nearv 13 (b_m (Basis 3)) x_m && nearv 13 (b_minv (Basis 3)) x_minv)%bool = true.
Proof. vm_compute. reflexivity. Qed.
Example test_projection0 : on (projection (Basis 3) (-1) 1 (fun x => Ok [x * x]) 0) (fun c => nearv 13 c x_proj0) = true.
Proof. vm_compute. reflexivity. Qed.
Example test_projection1 : on (projection (Basis 3) 0 0x1.999999999999ap-3 (fun x => Ok [sinT x]) 0) (fun c => nearv 7 c x_proj1) = true.
Proof. vm_compute. reflexivity. Qed.
(** the test converts the shifted series to powers of x: c0 - c2/2, c1, 3/2 c2 *)
Example test_shift_legendre_polynomial : (let c := shift_legendre (leg_basis 2) 2 in nearv 13 [at1 c 0 - at1 c 2 / 2; at1 c 1; 1.5 * at1 c 2] x_shift) = true.
Proof. vm_compute. reflexivity. Qed.
Example test_integrate_legendre_product : near 7 (integrate_legendre_product (leg_basis 2) (shift_legendre (leg_basis 2) 2)) 0x1.999999999999ap-2 = true.
Proof. vm_compute. reflexivity. Qed.

(** * tests/test_limiting.py *)
Definition limited (p : nat) : res (mat float) :=
  let! sg := Solution "entrpyw 5" "euler" p "" "" [-1; -1] in let '(s0, g) := sg in
  let! s := apply_bc s0 in let! l := Limiter "adaptive_hr" s in let! s := limit g l s in Ok (s_u s).
Example test_hr1_limiting_procedure : on (limited 1) (fun u => nearm 6 u x_hr1) = true. Proof. vm_compute. reflexivity. Qed.
Example test_hr2_limiting_procedure : on (limited 2) (fun u => nearm 6 u x_hr2) = true. Proof. vm_compute. reflexivity. Qed.
Example test_hr3_limiting_procedure : on (limited 3) (fun u => nearm 6 u x_hr3) = true. Proof. vm_compute. reflexivity. Qed.
Example test_legendre_to_monomial : on (hr_init (Basis 3)) (fun h => nearv 6 (dotv (h_L2M h) [0; 1; 2; 3]) x_l2m) = true. Proof. vm_compute. reflexivity. Qed.
Example test_monomial_to_legendre : on (hr_init (Basis 3)) (fun h => nearv 6 (dotv (h_M2L h) x_l2m) x_m2l) = true. Proof. vm_compute. reflexivity. Qed.
Example test_limit_monomial_p1 : (on (limit_monomial [3; 4] [1; 2] [5; 6]) (fun a => nearv 6 a x_lm1a) &&
  on (limit_monomial [-1; 3] [0; -3] [2; 1]) (fun a => nearv 6 a x_lm1b) && on (limit_monomial [-3; 3] [-1; -3] [-4; 1]) (fun a => nearv 6 a x_lm1c))%bool = true.
Proof. vm_compute. reflexivity. Qed.
Example test_limit_monomial_p2 : (on (limit_monomial [-1; 5; 2] [1; 2; 3] [0; 6; 3]) (fun a => nearv 6 a x_lm2a) &&
  on (limit_monomial [1; 2; 3] [0; 6; 3] [-1; 5; 2]) (fun a => nearv 6 a x_lm2b))%bool = true.
Proof. vm_compute. reflexivity. Qed.
Example test_limit_monomial_p3 : on (limit_monomial [-1; 5; 2; 7] [1; 2; 3; 1] [0; 6; 1; 2]) (fun a => nearv 6 a x_lm3) = true.
Proof. vm_compute. reflexivity. Qed.
(** npt.assert_equal: exact *)
Fixpoint eqv (a b : list float) : bool := match a, b with [], [] => true | x :: a, y :: b => (PrimFloat.eqb x y && eqv a b)%bool | _, _ => false end.
Example test_integrate_monomial_derivative :
  (eqv (map (integrate_monomial_derivative 1) (seq 1 5)) [2; 0; 1 / 3; 0; 1 / 60] && eqv (map (integrate_monomial_derivative 2) (seq 2 4)) [2; 0; 1 / 3; 0])%bool = true.
Proof. vm_compute. reflexivity. Qed.
Example test_integrate_monomial_derivative_bounds :
  (eqv (map (fun n => integrate_monomial_derivative_bounds 1 n (-3) (-1)) (seq 1 5)) [2; -4; 13 / 3; -10 / 3; 121 / 60] &&
   eqv (map (fun n => integrate_monomial_derivative_bounds 2 n 1 3) (seq 2 4)) [2; 4; 13 / 3; 10 / 3])%bool = true.
Proof. vm_compute. reflexivity. Qed.
Example test_scalar_minmod : eqv [scalar_minmod (-1) 0.5; scalar_minmod 0x1.6666666666666p-1 0.5; scalar_minmod 0x1.6666666666666p-1 (-0.5); scalar_minmod (-0x1.6666666666666p-1) (-0x1.999999999999ap-3)]
  [0; 0.5; 0; -0x1.999999999999ap-3] = true.
Proof. vm_compute. reflexivity. Qed.

(** * tests/test_enhance.py *)
Example test_enhancement_matrices : on (enhancement_matrices 1 [1%nat]) (fun r => let '(Al, _, Ar, _) := r in (nearm 13 Al x_Al && nearm 13 Ar x_Ar)%bool) = true.
Proof. vm_compute. reflexivity. Qed.
Example test_left_enhancement_vectors : on (let! r := enhancement_matrices 2 [0; 1]%nat in let '(_, Ai, _, Bi) := r in left_enhancement_vectors Ai Bi 2 [0; 1]%nat (b_psi (Basis 4)))
  (fun r => let '(aL, aR, bL, bR) := r in (nearv 7 aL x_aL && nearv 7 aR x_aR && nearv 7 bL x_bL && nearv 7 bR x_bR)%bool) = true.
Proof. vm_compute. reflexivity. Qed.
Example test_face_value : on (let! e := Enhance 2 "icb 0 1" in face_value e (tab2 3 5 (fun i j => f_ofZ (Z.of_nat (3 * j + i) + 1)%Z)) 1) (fun u => nearm 7 u x_face) = true.
Proof. vm_compute. reflexivity. Qed.

(** * tests/test_sensors.py *)
Definition zs (a b : list Z) : bool := if list_eq_dec Z.eq_dec a b then true else false.
Example test_sensing_advection : on (let! sg := Solution "sinewave 10" "advection" 3 "" "" [] in sensing (A:=float) 0x1.6666666666666p+0 false (Sensor [0x1.d70a3d70a3d71p-2] 12) (s_u (fst sg)) 1)
  (fun sn => zs (sn_sensors sn) [0; 0; 1; 1; 1; 1; 1; 1; 1; 1; 0; 0]%Z) = true.
Proof. vm_compute. reflexivity. Qed.
Definition shock_case : mat float :=
  let gamma := 0x1.6666666666666p+0 in let pratio := 20 in
  let Ms := PrimFloat.sqrt ((gamma + 1) / (2 * gamma) * pratio + (gamma - 1) / (2 * gamma)) in
  let c1 := PrimFloat.sqrt (gamma * 1 / 2) in
  let s2 := (2 * (gamma + 1) * Ms * Ms / ((gamma - 1) * Ms * Ms + 2), (1 / Ms) * c1 * (2 * (Ms * Ms - 1)) / (gamma + 1), pratio * 1) in
  let s1 := (2, 1, 1) in let s0 := (1, 1, 1) in
  let cons (s : float * float * float) := let '(rho, u, p) := s in [rho; rho * u; 0.5 * rho * u * u + p / (gamma - 1)] in
  let r := flat_map cons [s2; s2; s2; s2; s1; s1; s1; s1; s1; s1; s1; s0; s0; s0] in
  [r; zeros 42; zeros 42; zeros 42].
Example test_sensing_euler : on (sensing 0x1.6666666666666p+0 true (Sensor [0x1.999999999999ap-4; 0x1.999999999999ap-2] 14) shock_case 3)
  (fun sn => zs (sn_sensors sn) [0; 0; 0; 2; 2; 0; 0; 0; 0; 0; 1; 1; 0; 0]%Z) = true.
Proof. vm_compute. reflexivity. Qed.

(** * tests/test_solution.py *)
Definition inner (r : list float) : list float := slice r 1 (-1).
Definition sine10 : res (solution float) := let! sg := Solution "sinewave 10" "advection" 3 "" "" [] in Ok (fst sg).
Example test_collocate : on sine10 (fun s => nearm 7 (map inner (collocate s)) x_coll) = true. Proof. vm_compute. reflexivity. Qed.
Example test_collocate_faces : on (let! s := sine10 in evaluate_faces s) (fun u => nearm 7 (map inner u) x_cface) = true. Proof. vm_compute. reflexivity. Qed.
Example test_ictest : on (Solution "ictest 2" "advection" 3 "" "" []) (fun sg => let s := fst sg in
  (nearm 7 (s_u s) x_icu && nearv 7 (s_x s) x_icx && nearv 7 (s_xc s) x_icxc && nearv 7 (s_minv s) x_icm)%bool) = true.
Proof. vm_compute. reflexivity. Qed.

(** * tests/test_dg.py: 4 by 6 arrays, so Q has 4 columns *)
Example test_add_interior_face_fluxes : on (add_interior_face_fluxes {| dg_rows := 4; dg_cols := 4 |} 1 (arange 0 4 6) (map f_ofZ [0; 1; 2; 3; 4]%Z)) (fun F => nearm 13 F x_addf) = true.
Proof. vm_compute. reflexivity. Qed.
Example test_inverse_mass_matrix_multiply : on (inverse_mass_matrix_multiply (map f_ofZ [0; 1; 2; 3; 4]%Z) (arange 0 5 5)) (fun F => nearm 13 F x_mul) = true.
Proof. vm_compute. reflexivity. Qed.

(** * tests/test_rk.py *)
Example test_adjust_for_output0 : (let '(dt, o, d) := adjust_for_output 0x1.999999999999ap-4 1 2 1.5 in PrimFloat.eqb dt 0x1.999999999999ap-4 && negb o && negb d)%bool = true.
Proof. vm_compute. reflexivity. Qed.
Example test_adjust_for_output1 : (let '(dt, o, d) := adjust_for_output 0x1.999999999999ap-4 1 2 0x1.028f5c28f5c29p+0 in near 7 dt 0x1.47ae147ae147bp-7 && o && negb d)%bool = true.
Proof. vm_compute. reflexivity. Qed.
Example test_adjust_for_output2 : (let '(dt, o, d) := adjust_for_output 0x1.999999999999ap-4 1 0x1.004189374bc6ap+0 0x1.199999999999ap+0 in near 7 dt 0x1.0624dd2f1a9fcp-10 && o && d)%bool = true.
Proof. vm_compute. reflexivity. Qed.

(** * tests/test_euler_physics.py *)
Definition gam : float := 0x1.6666666666666p+0.
Definition ptoc (s : float * float * float) : list float := let '(rho, u, p) := s in [rho; rho * u; p / (gam - 1) + 0.5 * rho * u * u].
Definition ul : list float := flat_map ptoc [((0x1.0000000000000p+0), 0, (0x1.0000000000000p+0)); ((0x1.0000000000000p+0), (0x1.8000000000000p-1), (0x1.0000000000000p+0)); ((0x1.0000000000000p+0), (-0x1.0000000000000p+1), (0x1.999999999999ap-2)); ((0x1.0000000000000p+0), 0, (0x1.f400000000000p+9)); ((0x1.7ff38c5436b90p+2), (0x1.398f5c28f5c29p+4), (0x1.cce4dd2f1a9fcp+8)); ((0x1.6666666666666p+0), 0, (0x1.0000000000000p+0))].
Definition ur : list float := flat_map ptoc [((0x1.0000000000000p-3), 0, (0x1.999999999999ap-4)); ((0x1.0000000000000p-3), 0, (0x1.999999999999ap-4)); ((0x1.0000000000000p+0), (0x1.0000000000000p+1), (0x1.999999999999ap-2)); ((0x1.0000000000000p+0), 0, (0x1.47ae147ae147bp-7)); ((0x1.7f83cf2cf95d5p+2), (-0x1.8c90abb44e50cp+2), (0x1.70c28f5c28f5cp+5)); ((0x1.0000000000000p+0), 0, (0x1.0000000000000p+0))].
Example test_max_wave_speed : on (euler_max_wave_speed gam (arange 1 3 12)) (fun m => near 7 m x_speed) = true. Proof. vm_compute. reflexivity. Qed.
Example test_riemann_rusanov : on (riemann_rusanov gam ul ur) (fun F => nearv 6 F x_rus) = true. Proof. vm_compute. reflexivity. Qed.
Example test_riemann_godunov : on (riemann_godunov gam ul ur) (fun F => nearv 6 F x_god) = true. Proof. vm_compute. reflexivity. Qed.
Example test_riemann_roe : on (riemann_roe gam ul ur) (fun F => nearv 6 F x_roe) = true. Proof. vm_compute. reflexivity. Qed.
Example test_interior_flux : nearm 7 (euler_interior_flux gam (arange 1 3 12)) x_flux = true. Proof. vm_compute. reflexivity. Qed.
