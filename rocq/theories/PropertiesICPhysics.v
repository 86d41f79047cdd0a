(** Properties C79 (what the built-in initial conditions are) and C80 (whether they fit the boundary conditions set with them).
    [ic_lookup name params g] is what the initial condition [name] hands over when constants.gamma is g; [is_flow ic rho v p] (SpecIC)
    says that its function returns density, momentum and energy of the flow with density rho, velocity v and pressure p. *)
From Coq Require Import ZArith List Bool Arith String Reals Lra.
From Verif Require Import Num Py PyStr Ext Constants IC SpecEuler SpecIC ProofsICPhysics ExtReal PropertiesIC.
Import ListNotations.
Open Scope list_scope.
Open Scope R_scope.

(** simplew: gamma = 3; gas at rest with sound speed 1 in the middle, outer flow of speed 2/3 away from it, joined on the right by a
    continuous wave of the first family (constant entropy, constant v + 2c/(gamma-1), v - c not decreasing: a rarefaction) and on the
    left by its mirror image *)
Theorem C79_simplew : forall (X : Ext R) params g ic, ic_lookup (A:=R) "simplew" params g = Ok ic ->
  ic_gamma_after ic = 3 /\ exists rho v p, is_flow ic rho v p /\ continuity rho /\ continuity v /\ continuity p /\
    (forall x, rho (- x) = rho x /\ v (- x) = - v x /\ p (- x) = p x) /\
    (forall x, Rabs x <= 1 / 2 -> rho x = 3 /\ v x = 0 /\ p x = 1) /\
    (forall x, 3 / 2 <= x -> v x = 2 / 3) /\
    (forall x, 0 <= x -> same_isentrope 3 (rho 0) (p 0) (rho x) (p x) /\ same_invariant 3 (rho 0) (v 0) (p 0) (rho x) (v x) (p x)) /\
    (forall x y, 0 <= x -> x <= y -> v x <= v y /\ v x - sound_of 3 (rho x) (p x) <= v y - sound_of 3 (rho y) (p y)) /\
    (forall x, 1 / 2 < x -> 0 < v x).
Proof. exact @simplew_waves. Qed.
(** entrpyw: a sine wave of density in a flow of velocity 1 and pressure 1, for whatever gas is in force *)
Theorem C79_entrpyw : forall (X : Ext R) params g ic, ic_lookup (A:=R) "entrpyw" params g = Ok ic ->
  ic_gamma_after ic = g /\ is_flow ic (fun x => 1 + sin (PI * x) / 5) (fun _ => 1) (fun _ => 1).
Proof. exact @entrpyw_flow. Qed.
(** acsticw: gas at rest with sound speed 1; the bump of the pressure equals the bump of the density (times the squared sound speed 1),
    lies between 0 and 1/10000, is highest at 0 and zero at 1 *)
Theorem C79_acsticw : forall (X : Ext R) params g ic, 0 < g -> ic_lookup (A:=R) "acsticw" params g = Ok ic ->
  exists rho v p, is_flow ic rho v p /\ ic_gamma_after ic = g /\ sound_of g 1 (/ g) = 1 /\
    (forall x, v x = 0 /\ p x - / g = rho x - 1 /\ 1 <= rho x <= 1 + 1 / 10000 /\ rho (- x) = rho x) /\ rho 0 = 1 + 1 / 10000 /\ rho 1 = 1.
Proof. exact @acsticw_wave. Qed.
(** the bump of acsticw *)
Theorem C79_acsticw_shape : forall (X : Ext R) params g ic, ic_lookup (A:=R) "acsticw" params g = Ok ic ->
  ic_gamma_after ic = g /\ is_flow ic (fun x => 1 + cos (PI * x / 2) ^ 8 / 10000) (fun _ => 0) (fun x => / g + cos (PI * x / 2) ^ 8 / 10000).
Proof. exact @acsticw_flow. Qed.
(** scktube: gamma = 1.4 and the two given states on the two sides of the given point *)
Theorem C79_scktube : forall (X : Ext R) params g ic, ic_lookup (A:=R) "scktube" params g = Ok ic ->
  ic_gamma_after ic = 14 / 10 /\ List.length params = 8%nat /\ exists xd rl vl pl rr vr pr,
    given params 1 xd /\ given params 2 rl /\ given params 3 vl /\ given params 4 pl /\ given params 5 rr /\ given params 6 vr /\ given params 7 pr /\
    exists rho v p, is_flow ic rho v p /\
      (forall x, x < xd -> rho x = rl /\ v x = vl /\ p x = pl) /\ (forall x, xd <= x -> rho x = rr /\ v x = vr /\ p x = pr).
Proof. exact @scktube_flow. Qed.
(** shuoshe: gamma = 1.4; left of x = 1, up to one millionth, the state behind a shock that runs at Mach 3 into gas of density 1 and
    pressure 1 at rest; to the right gas at rest of pressure 1 whose density is a sine wave about 1 *)
Theorem C79_shuoshe : forall (X : Ext R) params g ic, ic_lookup (A:=R) "shuoshe" params g = Ok ic ->
  ic_gamma_after ic = 14 / 10 /\ exists rho v p, is_flow ic rho v p /\
    (exists r u q, rankine_hugoniot (14 / 10) (3 * sound_of (14 / 10) 1 1) 1 0 1 r u q /\
      forall x, x < 1 -> Rabs (rho x - r) <= 1 / 1000000 /\ Rabs (v x - u) <= 1 / 1000000 /\ Rabs (p x - q) <= 1 / 1000000) /\
    (forall x, 1 <= x -> rho x = 1 + sin (5 * (x - 5)) / 5 /\ v x = 0 /\ p x = 1).
Proof. exact @shuoshe_flow. Qed.
(** sinewave: two full odd waves of amplitude 1 over the interval of length 2 *)
Theorem C79_sinewave : forall (X : Ext R) params g ic, ic_lookup (A:=R) "sinewave" params g = Ok ic ->
  exists y : R -> R, (forall x, ic_f ic x = Ok [y x]) /\ (forall x, y (x + 1 / 2) = - y x) /\ (forall x, y (- x) = - y x) /\
    (forall x, -1 <= y x <= 1) /\ y (1 / 4) = 1.
Proof. exact @sinewave_wave. Qed.

(** every initial condition with periodic boundaries except ictest repeats itself after the length of its interval *)
Theorem C80_periodic : forall (X : Ext R) name params g ic, ic_lookup (A:=R) name params g = Ok ic -> ic_bc ic = "periodic"%string ->
  name <> "ictest"%string -> ic_A ic < ic_B ic /\ forall x, ic_f ic (x + (ic_B ic - ic_A ic)) = ic_f ic x.
Proof. exact @periodic_fits. Qed.
(** ictest is declared periodic but jumps between the two ends *)
Theorem C80_ictest_jumps : forall (X : Ext R) params g ic, ic_lookup (A:=R) "ictest" params g = Ok ic ->
  ic_bc ic = "periodic"%string /\ exists y : R -> R, (forall x, ic_f ic x = Ok [y x]) /\ y (ic_A ic) < 1 - 1 / 8 < y (ic_B ic).
Proof. exact @ictest_jumps. Qed.
(** with zero-gradient boundaries the flow is constant near the ends: simplew ... *)
Theorem C80_simplew_ends : forall (X : Ext R) params g ic, ic_lookup (A:=R) "simplew" params g = Ok ic ->
  ic_bc ic = "zerograd"%string /\ (forall x, x <= ic_A ic + 5 / 2 -> ic_f ic x = ic_f ic (ic_A ic)) /\
  (forall x, ic_B ic - 5 / 2 <= x -> ic_f ic x = ic_f ic (ic_B ic)).
Proof. exact @simplew_ends. Qed.
(** ... scktube ... *)
Theorem C80_scktube_ends : forall (X : Ext R) params g ic xd, ic_lookup (A:=R) "scktube" params g = Ok ic -> given params 1 xd ->
  ic_bc ic = "zerograd"%string /\ ic_A ic < ic_B ic /\ (forall x y, x < xd -> y < xd -> ic_f ic x = ic_f ic y) /\
  (forall x y, xd <= x -> xd <= y -> ic_f ic x = ic_f ic y).
Proof. exact @scktube_ends. Qed.
(** ... and the left end of shuoshe, but not its right end, where the slope of the density is cos 25 *)
Theorem C80_shuoshe_ends : forall (X : Ext R) params g ic, ic_lookup (A:=R) "shuoshe" params g = Ok ic ->
  ic_bc ic = "zerograd"%string /\ (forall x y, x < ic_A ic + 1 -> y < ic_A ic + 1 -> ic_f ic x = ic_f ic y) /\
  exists rho v p, is_flow ic rho v p /\ derivable_pt_lim rho (ic_B ic) (cos 25) /\ 0 < cos 25.
Proof. exact @shuoshe_ends. Qed.

(** all these names are known, with any parameters and gas (scktube: Sod's problem) *)
Example C79_names : forall name params g, In name ["simplew"; "entrpyw"; "acsticw"; "shuoshe"; "sinewave"; "ictest"]%string ->
  exists ic, @ic_lookup R NumR LibmR ExtReal name params g = Ok ic.
Proof. intros name params g H. cbn [In] in H. destruct H as [<-|[<-|[<-|[<-|[<-|[<-|[]]]]]]]; eexists; reflexivity. Qed.
Example C79_sod : (exists ic, @ic_lookup R NumR LibmR ExtReal "scktube" sod_params gamma_default = Ok ic) /\
  exists xd, @given ExtReal sod_params 1 xd /\ -1 < xd < 1.
Proof.
  split; [exact sod_lookup|]. exists (IZR 0 / IZR 10). split; [|lra]. apply float_given. exact (proj1 sod_float).
Qed.

Print Assumptions C79_simplew.
Print Assumptions C79_entrpyw.
Print Assumptions C79_acsticw.
Print Assumptions C79_acsticw_shape.
Print Assumptions C79_scktube.
Print Assumptions C79_shuoshe.
Print Assumptions C79_sinewave.
Print Assumptions C80_periodic.
Print Assumptions C80_ictest_jumps.
Print Assumptions C80_simplew_ends.
Print Assumptions C80_scktube_ends.
Print Assumptions C80_shuoshe_ends.
Print Assumptions C79_names.
Print Assumptions C79_sod.
