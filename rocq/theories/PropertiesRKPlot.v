(** C82: what rk_stability.py draws: values of the amplification factor, in both half-planes; the drawn rectangle holds the whole stability
    region of rk3, rk4 and rk5, and misses parts of it for the other five methods; where undamped waves stay bounded. *)
From Coq Require Import ZArith List Bool Arith String Lia Reals Lra.
From Verif Require Import Num Py LegNumpy Ext Basis Enhance Solution Solver Lib RealLib RKCoeffs RK SpecDG SpecTime ProofsTime SpecRK Analysis AnalysisPlot SpecAnalysis SpecRKPlot
  ProofsRK ProofsRKOrder ProofsRKTables ProofsMonotone ProofsDet ProofsAnalysis ProofsRKPlot PropertiesAnalysis.
Import ListNotations.
Open Scope list_scope.
Open Scope R_scope.

(** 200 by 200 sample points in each half-plane, each with the modulus of the amplification factor there *)
Theorem C82_drawn : forall det method, det_ok det -> let (up, down) := rk_contours det method in
  List.length up = (200 * 200)%nat /\ List.length down = (200 * 200)%nat /\
  forall z s, (In (z, s) up <-> s = factor det method z /\ grid z) /\ (In (z, s) down <-> s = factor det method z /\ grid (fst z, - snd z)).
Proof. exact drawn. Qed.
Print Assumptions C82_drawn.

Theorem C82_inside : forall z, grid z -> rectangle z /\ rectangle (fst z, - snd z).
Proof. exact inside_both. Qed.
Print Assumptions C82_inside.

(** the coefficients of every option of the solver are drawn *)
Theorem C82_methods : forall rk, exists m, In m rk_methods /\ rk_choice m = rk_choice rk.
Proof. exact all_drawn. Qed.
Print Assumptions C82_methods.

(** any unknown name stands for rk4 *)
Theorem C82_whole_region : forall det method z, det_ok det -> ~ In method ["rk6"; "rk8"; "rk10"; "rk12"; "rk14"]%string ->
  factor det method z <= 1 -> rectangle z.
Proof. exact whole_region. Qed.
Print Assumptions C82_whole_region.

Theorem C82_islands : forall det method, det_ok det -> In method ["rk6"; "rk8"; "rk10"; "rk12"; "rk14"]%string ->
  exists z, factor det method z = 0 /\ ~ rectangle z.
Proof. exact islands. Qed.
Print Assumptions C82_islands.

Theorem C82_undamped : forall det y, det_ok det ->
  (factor det "rk3" (0, y) <= 1 <-> y * y <= 3) /\ (factor det "rk4" (0, y) <= 1 <-> y * y <= 8) /\
  (factor det "rk5" (0, y) <= 1 <-> y = 0) /\ (factor det "rk6" (0, y) <= 1 <-> y = 0).
Proof. exact undamped. Qed.
Print Assumptions C82_undamped.

(** the hypothesis is met by the cofactor expansion; a point of the region of rk4 *)
Example C82_witness : det_ok laplace_mat /\ factor laplace_mat "rk4" (Ropp 1, 0) <= 1.
Proof. split; [exact C58_witness|exact (inside _ C58_witness)]. Qed.
