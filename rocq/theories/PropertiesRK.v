(** Properties C07-C10: the Runge-Kutta schemes. *)
From Coq Require Import ZArith List Bool Arith String Reals Lra Lia.
From Coq Require Import Floats.SpecFloat.
From Verif Require Import Num Py PyStr Lib RealLib Constants LegNumpy Ext Basis Sensor Enhance Limiting EulerPhysics Solution Solver
  RKCoeffs RK IO Deck Main SpecTime ProofsTime SpecDG SpecRK ProofsDG ProofsWf ProofsCons ProofsSol ProofsRun ProofsRK ProofsRKLin
  ProofsRKOrder ProofsRKTables ProofsRKInt ExtReal Witness PropertiesRun ProofsStageLimit.
Import ListNotations.
Open Scope list_scope.
Open Scope R_scope.

(** C07: same snapshots, same outcome, same number of steps (fuel), for every limiter, deck and starting solution; exact and binary64 *)
Theorem C07_low_storage : forall (gamma : R) d l cfl tf nout fuel sol,
  integrate gamma "low_storage_rk4" d l cfl tf nout fuel sol = integrate gamma "rk4" d l cfl tf nout fuel sol.
Proof. exact @ls_integrate_R. Qed.
Theorem C07_low_storage_float : forall (L : Libm spec_float) (gamma : spec_float) d l cfl tf nout fuel sol,
  integrate gamma "low_storage_rk4" d l cfl tf nout fuel sol = integrate gamma "rk4" d l cfl tf nout fuel sol.
Proof. exact @ls_integrate_SF. Qed.
(** any other arithmetic needs these three facts *)
Theorem C07_low_storage_any : forall (A : Type) (N : Num A) (L : Libm A) (gamma : A),
  nltb (lit 1 1000000000000000) (nabs (n0 : A)) = false -> (lit 0 1 : A) = n0 -> (lit 1 1 : A) = n1 ->
  forall d l cfl tf nout fuel sol,
  integrate gamma "low_storage_rk4" d l cfl tf nout fuel sol = integrate gamma "rk4" d l cfl tf nout fuel sol.
Proof. exact @ls_integrate. Qed.
(** the option selects different code, and the runs do something: three snapshots, in binary64 *)
Example C07_witness :
  let d rk := {| dk_system := "advection"; dk_rk := rk; dk_riemann := ""; dk_ic := "ictest 3"; dk_nout := 3; dk_finaltime := n1;
              dk_cfl := n1; dk_order := 1; dk_limiting := "adaptive_hr"; dk_enhance := ""; dk_thresholds := [lit 1 1000] |} in
  exists evs s, @run_deck _ _ LibmSF ExtSF 20 (d "low_storage_rk4"%string) = (evs, Finished s) /\ List.length evs = 3%nat /\
    @run_deck _ _ LibmSF ExtSF 20 (d "rk4"%string) = (evs, Finished s).
Proof. cbv zeta. do 2 eexists. split; [vm_compute; reflexivity|]. split; vm_compute; reflexivity. Qed.

(** C08 *)
Theorem C08_step : forall (X : Ext R) gamma ne (sol0 : solution R) d rk cfl tf nout k tout touts s sc evs s' sc' dt o dn,
  wf ne sol0 -> wf_dg ne sol0 d ->
  visits gamma rk d None cfl tf nout sol0 k tout touts s sc evs ->
  time_step gamma (rk_inner gamma rk d None) None cfl tf tout s sc = Ok (s', sc', (dt, o, dn)) ->
  (exists u', butcher_step (rk_choice rk) (rhs_of gamma d sol0) dt (s_Ns sol0) ((ne + 2) * s_NF sol0) (s_u s) u' /\
    (forall e f n, (e < ne + 2)%nat -> (f < s_NF sol0)%nat -> (n < s_Ns sol0)%nat ->
       at2 (s_u s') n (e * s_NF sol0 + f) = at2 u' n (src_cell (s_bcl sol0) (s_bcr sol0) ne e * s_NF sol0 + f))) /\
  s_t s' = s_t s + dt /\ s_n s' = (s_n s + 1)%nat.
Proof. intros X gamma ne sol0 d rk cfl tf nout k tout touts s sc evs s' sc' dt o dn W D. apply (step_butcher gamma ne sol0 d W D rk). Qed.
(** the tables: square, strictly lower triangular, and no coefficient that smart_axpy would skip *)
Theorem C08_tables : forall tb, In tb all_tables ->
  (1 <= stages tb)%nat /\ List.length (tb_alphas tb) = stages tb /\ List.length (tb_betas tb) = stages tb /\
  (forall i j, (i < stages tb)%nat -> (i <= j)%nat -> coef tb i j = 0) /\
  (forall i, weight tb i = 0 \/ 1 / 1000000000000000 < Rabs (weight tb i)) /\
  (forall i j, coef tb i j = 0 \/ 1 / 1000000000000000 < Rabs (coef tb i j)).
Proof.
  intros tb H. destruct (table_sound tb H) as [A1 A2 A3 A4 A5 A6 A7]. split; [exact A1|]. split; [exact A2|]. split; [exact A3|].
  split; [exact A7|]. split; [exact A5|exact A6].
Qed.
Theorem C08_choices : forall rk, In (rk_choice rk) all_tables.
Proof. exact rk_choice_known. Qed.
Example C08_names : map stages (map rk_choice ["rk3"; "rk4"; "low_storage_rk4"; "rk5"; "rk6"; "rk8"; "rk10"; "rk12"; "rk14"; "nonsense"]%string)
                    = [3; 4; 4; 6; 7; 13; 17; 25; 35; 4]%nat.
Proof. reflexivity. Qed.

(** C09: any linear right-hand side *)
Theorem C09_linear : forall r c LL, linear_on r c LL -> forall tb (Res : mat R -> mat R -> Prop) dt u u',
  (forall U F, shape r c U -> shape r c F -> Res U F -> same_on r c (at2 F) (LL (at2 U))) ->
  butcher_step tb Res dt r c u u' ->
  forall n j, (n < r)%nat -> (j < c)%nat ->
  at2 u' n j = Rsum (S (stages tb)) (fun k => growth tb k * dt ^ k * power LL k (at2 u) n j).
Proof. intros r c LL HL tb Res dt u u' HR B n j Hn Hj. apply (butcher_taylor r c LL HL tb Res dt u HR u' B n j Hn Hj). Qed.
Theorem C09_taylor : forall j,
  ((j <= 3)%nat -> growth (rk_choice "rk3") j = / INR (fact j)) /\ ((j <= 4)%nat -> growth (rk_choice "rk4") j = / INR (fact j)) /\
  ((j <= 5)%nat -> growth (rk_choice "rk5") j = / INR (fact j)) /\ ((j <= 6)%nat -> growth (rk_choice "rk6") j = / INR (fact j)) /\
  ((j <= 8)%nat -> Rabs (growth (rk_choice "rk8") j - / INR (fact j)) <= / IZR (10 ^ 17)) /\
  ((j <= 10)%nat -> Rabs (growth (rk_choice "rk10") j - / INR (fact j)) <= / IZR (10 ^ 26)) /\
  ((j <= 12)%nat -> Rabs (growth (rk_choice "rk12") j - / INR (fact j)) <= / IZR (10 ^ 26)) /\
  ((j <= 14)%nat -> Rabs (growth (rk_choice "rk14") j - / INR (fact j)) <= / IZR (10 ^ 24)).
Proof.
  intro j. destruct (exact_growths j) as [A1 [A2 [A3 A4]]].
  split; [exact A1|]. split; [exact A2|]. split; [exact A3|]. split; [exact A4|]. split; [apply rk8_growth|]. split; [apply rk10_growth|].
  split; [apply rk12_growth|apply rk14_growth].
Qed.
(** rk3-rk6: the Taylor polynomial of exp(dt L) up to the order, plus higher powers of dt *)
Theorem C09_taylor_step : forall r c LL, linear_on r c LL -> forall rk p (Res : mat R -> mat R -> Prop) dt u u', let tb := rk_choice rk in
  In (rk, p) [("rk3"%string, 3%nat); ("rk4"%string, 4%nat); ("rk5"%string, 5%nat); ("rk6"%string, 6%nat)] ->
  (forall U F, shape r c U -> shape r c F -> Res U F -> same_on r c (at2 F) (LL (at2 U))) ->
  butcher_step tb Res dt r c u u' ->
  forall n j, (n < r)%nat -> (j < c)%nat ->
  at2 u' n j = Rsum (S p) (fun k => dt ^ k / INR (fact k) * power LL k (at2 u) n j)
             + Rsum (stages tb - p) (fun k => growth tb (S p + k) * dt ^ (S p + k) * power LL (S p + k) (at2 u) n j).
Proof.
  intros r c LL HL rk p Res dt u u' tb Hp HR B n j Hn Hj. rewrite (butcher_taylor r c LL HL tb Res dt u HR u' B n j Hn Hj).
  assert (E : (p <= stages tb)%nat /\ forall k, (k <= p)%nat -> growth tb k = / INR (fact k)).
  { destruct Hp as [Hp|[Hp|[Hp|[Hp|[]]]]]; injection Hp as <- <-; (split; [apply Nat.leb_le; reflexivity|]); intros k Hk; destruct (exact_growths k) as [A1 [A2 [A3 A4]]]; auto. }
  destruct E as [Lp E]. replace (S (stages tb)) with (S p + (stages tb - p))%nat by lia. rewrite Rsum_app. f_equal.
  apply Rsum_ext. intros k Hk. rewrite E by lia. unfold Rdiv. ring.
Qed.
(** upwind advection is such a right-hand side, so a step of an advection run is this polynomial in the operator *)
Theorem C09_advection_linear : forall gamma ne (s : solution R) d, wf ne s -> wf_dg ne s d -> s_euler s = false ->
  linear_on (s_Ns s) ((ne + 2) * s_NF s) (adv_op ne s) /\
  forall U F, shape (s_Ns s) ((ne + 2) * s_NF s) U -> rhs_of gamma d s U F -> same_on (s_Ns s) ((ne + 2) * s_NF s) (at2 F) (adv_op ne s (at2 U)).
Proof. intros gamma ne s d W D E. split; [apply adv_linear; exact W|]. intros U F. apply (adv_rhs gamma ne s d W D E). Qed.
Theorem C09_advection_step : forall gamma ne sol0 d rk cfl tf nout k tout touts s sc evs s' sc' dt o dn,
  wf ne sol0 -> wf_dg ne sol0 d -> s_euler sol0 = false ->
  visits gamma rk d None cfl tf nout sol0 k tout touts s sc evs ->
  time_step gamma (rk_inner gamma rk d None) None cfl tf tout s sc = Ok (s', sc', (dt, o, dn)) ->
  forall e f n, (e < ne + 2)%nat -> (f < s_NF sol0)%nat -> (n < s_Ns sol0)%nat ->
    at2 (s_u s') n (e * s_NF sol0 + f) =
    Rsum (S (stages (rk_choice rk))) (fun i => growth (rk_choice rk) i * dt ^ i *
      power (adv_op ne sol0) i (at2 (s_u s)) n (src_cell (s_bcl sol0) (s_bcr sol0) ne e * s_NF sol0 + f)).
Proof. exact adv_step. Qed.
(** every order and RK option has steps as in C08_step and C09_advection_step *)
Example C08_C09_witness : forall p rk, exists s d tout touts ev s1 sc1 r,
  wf 8 s /\ wf_dg 8 s d /\ s_euler s = false /\
  let sc := {| sc_us := s; sc_uk := s; sc_K := rk_K0 rk s |} in
  visits gamma_default rk d None (4 * INR (2 * p + 1)) 10 3 s 1 tout touts s sc [ev] /\
  time_step gamma_default (rk_inner gamma_default rk d None) None (4 * INR (2 * p + 1)) 10 tout s sc = Ok (s1, sc1, r).
Proof.
  intros p rk. destruct (C01_C05_witness p rk) as [s [d [F [evs [s' [B [Hd [_ H]]]]]]]]. specialize (H F (Nat.le_refl _)).
  apply finished_first_step in H. destruct H as [tout [touts [ev [s1 [sc1 [r [V T]]]]]]].
  pose proof (md_wf _ _ (bl_made _ _ _ _ _ _ _ B)) as W.
  exists s, d, tout, touts, ev, s1, sc1, r. split; [exact W|]. split; [apply DG_wf; assumption|]. split; [exact (bl_euler _ _ _ _ _ _ _ B)|].
  split; assumption.
Qed.

(** C10: all rooted trees up to the order *)
Theorem C10_exact : order_conditions (rk_choice "rk3") 3 0 /\ order_conditions (rk_choice "rk4") 4 0 /\ order_conditions (rk_choice "rk5") 5 0 /\ order_conditions (rk_choice "rk6") 6 0.
Proof. exact (conj rk3_order (conj rk4_order (conj rk5_order rk6_order))). Qed.
Theorem C10_rounded : order_conditions (rk_choice "rk8") 8 (/ IZR (10 ^ 17)) /\ order_conditions (rk_choice "rk10") 10 (/ IZR (10 ^ 14)) /\ order_conditions (rk_choice "rk12") 12 (/ IZR (10 ^ 13)) /\
  order_conditions (rk_choice "rk14") 14 (/ IZR (10 ^ 9)).
Proof. exact (conj rk8_order (conj rk10_order (conj rk12_order rk14_order))). Qed.
Theorem C10_row_sums : forall rk i, let tb := rk_choice rk in (i < stages tb)%nat ->
  (In rk ["rk3"; "rk4"; "rk5"; "rk6"]%string -> Rsum (stages tb) (coef tb i) = abscissa tb i) /\
  (rk = "rk8"%string -> Rabs (Rsum (stages tb) (coef tb i) - abscissa tb i) <= / IZR (10 ^ 16)) /\
  (In rk ["rk10"; "rk12"; "rk14"]%string -> Rabs (Rsum (stages tb) (coef tb i) - abscissa tb i) <= / IZR (10 ^ 27)).
Proof.
  intros rk i tb Hi. split; [intro H; apply exact_row_sums; [|exact Hi]|split; [intros ->; apply rk8_rows; exact Hi|intro H; apply high_rows; [|exact Hi]]].
  - destruct H as [<- |[<- |[<- |[<- |[]]]]]; cbn; tauto.
  - destruct H as [<- |[<- |[<- |[]]]]; cbn; tauto.
Qed.
(** the conditions do not hold beyond the order: the tall tree with 5 nodes *)
Example C10_sharp : ~ order_conditions rk4_table 5 (1 / 121).
Proof.
  intro H. assert (T : sound_table rk4_table) by (apply table_sound; known).
  specialize (H (tall 4)). rewrite tall_nodes, tall_weight, tall_density in H by exact T. specialize (H (Nat.le_refl 5)).
  cbn [growth] in H. rewrite (Rsum_0 (stages rk4_table)) in H.
  - change (IZR (zfact 5)) with 120 in H. rewrite Rabs_left in H by lra. lra.
  - intros i Hi. change (stages rk4_table) with 4%nat in Hi. rewrite stage_sum_0 by lia. ring.
Qed.

Print Assumptions C07_low_storage.
Print Assumptions C07_low_storage_float.
Print Assumptions C07_low_storage_any.
Print Assumptions C08_step.
Print Assumptions C08_tables.
Print Assumptions C08_choices.
Print Assumptions C08_C09_witness.
Print Assumptions C09_linear.
Print Assumptions C09_taylor.
Print Assumptions C09_taylor_step.
Print Assumptions C09_advection_linear.
Print Assumptions C09_advection_step.
Print Assumptions C10_exact.
Print Assumptions C10_rounded.
Print Assumptions C10_row_sums.
Print Assumptions C10_sharp.
