(** Property C65: order-0 advection converges at first order.  [gauss_ok] and [legfit_ok] are the contracts of numpy's leggauss and legfit. *)
From Coq Require Import ZArith List Bool Arith String Lia Reals Lra.
From Verif Require Import Num Py PyStr Lib RealLib Constants LegNumpy Ext Basis Enhance Sensor Solution Solver RKCoeffs RK IO Deck Main SpecDG SpecTime SpecPoly SpecRK SpecUniform SpecMonotone SpecConverge
  ProofsDG ProofsCons ProofsWf ProofsSol ProofsAdv ProofsRun ProofsMonotone ProofsConverge ProofsConverge2 ExtReal Witness.
Import ListNotations.
Open Scope list_scope.
Open Scope R_scope.

(** C65: any periodic profile f with a Lipschitz derivative (constant K), sampled at the cell centres up to eps: at every snapshot and at the end the
    cell averages are within eps + K/2 dx t of the profile moved by t *)
Theorem C65_first_order : forall (X : Ext R) ne (sol0 : solution R), made ne sol0 -> s_euler sol0 = false -> s_enh sol0 = None -> b_p (s_basis sol0) = 0%nat ->
  s_bcl sol0 = pylit "periodic" -> bc_known (s_bcr sol0) ->
  forall f g K A eps, smooth_wave f g K (INR ne * s_dx sol0) -> (forall e, (1 <= e <= ne)%nat -> Rabs (average sol0 e - f (centre A (s_dx sol0) e)) <= eps) ->
  forall gamma d rk cfl tf nout, wf_dg ne sol0 d -> In rk ["rk3"; "rk4"; "low_storage_rk4"; "rk5"]%string -> cfl <= 1 -> (2 <= nout)%Z -> s_t sol0 <= tf ->
  forall fuel evs out, integrate gamma rk d None cfl tf nout fuel sol0 = (evs, out) ->
  forall s, (exists ev, In ev evs /\ s = ev_sol ev) \/ out = Finished s ->
  forall e, (1 <= e <= ne)%nat -> Rabs (average s e - f (centre A (s_dx sol0) e - (s_t s - s_t sol0))) <= eps + K / 2 * s_dx sol0 * (s_t s - s_t sol0).
Proof. exact @run_converges. Qed.
(** whole runs from a deck for the sine wave: the error at time t is at most 4 pi^2 t / (number of cells) *)
Theorem C65_sinewave : forall (X : Ext R), gauss_ok -> legfit_ok -> forall (d : deck R) t rest ne,
  split_ws (dk_ic d) = "sinewave"%string :: t :: rest -> parse_int t = Some (Z.of_nat ne) -> (1 <= ne)%nat ->
  dk_system d <> "euler"%string -> dk_order d = 0%Z -> dk_enhance d = ""%string -> dk_limiting d <> "adaptive_hr"%string ->
  In (dk_rk d) ["rk3"; "rk4"; "low_storage_rk4"; "rk5"]%string -> dk_cfl d <= 1 -> (2 <= dk_nout d)%Z -> 0 <= dk_finaltime d ->
  forall fuel evs out, run_deck fuel d = (evs, out) ->
  forall s, (exists ev, In ev evs /\ s = ev_sol ev) \/ out = Finished s ->
  forall e, (1 <= e <= ne)%nat -> Rabs (average s e - sin (2 * PI * (centre (-1) (2 / INR ne) e - s_t s))) <= 4 * (PI * PI) * s_t s / INR ne.
Proof. exact @sine_converges. Qed.
(** ... and they reach the final time *)
Theorem C65_completes : forall (X : Ext R), gauss_ok -> legfit_ok -> forall (d : deck R) t rest ne,
  split_ws (dk_ic d) = "sinewave"%string :: t :: rest -> parse_int t = Some (Z.of_nat ne) -> (1 <= ne)%nat ->
  dk_system d <> "euler"%string -> dk_order d = 0%Z -> dk_enhance d = ""%string -> dk_thresholds d = [] -> dk_limiting d <> "adaptive_hr"%string ->
  1 / 100000000000000 <= 2 * dk_cfl d / INR ne -> (2 <= dk_nout d)%Z -> 0 <= dk_finaltime d ->
  exists F evs s, s_t s = dk_finaltime d /\ forall fuel, (F <= fuel)%nat -> run_deck fuel d = (evs, Finished s).
Proof. exact @sine_completes. Qed.
(** any accuracy up to any time is reached by refining the grid *)
Theorem C65_refinement : forall (X : Ext R), gauss_ok -> legfit_ok -> forall T eps, 0 < eps -> exists N, forall (d : deck R) t rest ne, (N <= ne)%nat ->
  split_ws (dk_ic d) = "sinewave"%string :: t :: rest -> parse_int t = Some (Z.of_nat ne) -> (1 <= ne)%nat ->
  dk_system d <> "euler"%string -> dk_order d = 0%Z -> dk_enhance d = ""%string -> dk_limiting d <> "adaptive_hr"%string ->
  In (dk_rk d) ["rk3"; "rk4"; "low_storage_rk4"; "rk5"]%string -> dk_cfl d <= 1 -> (2 <= dk_nout d)%Z -> 0 <= dk_finaltime d ->
  forall fuel evs out, run_deck fuel d = (evs, out) ->
  forall s, (exists ev, In ev evs /\ s = ev_sol ev) \/ out = Finished s -> s_t s <= T ->
  forall e, (1 <= e <= ne)%nat -> Rabs (average s e - sin (2 * PI * (centre (-1) (2 / INR ne) e - s_t s))) <= eps.
Proof. exact @sine_limit. Qed.

(** the deck of the convergence study at order 0 with rk4, 80 cells: it runs to t = 8 *)
Definition study : deck R := {| dk_system := "advection"; dk_rk := "rk4"; dk_riemann := "roe"; dk_ic := "sinewave 80"; dk_nout := 11; dk_finaltime := 8; dk_cfl := 1 / 2;
  dk_order := 0; dk_limiting := ""; dk_thresholds := []; dk_enhance := "" |}.
Example C65_witness : exists F evs s, @run_deck R NumR LibmR ExtReal F study = (evs, Finished s) /\ s_t s = 8 /\
  forall e, (1 <= e <= 80)%nat -> Rabs (average s e - sin (2 * PI * centre (-1) (1 / 40) e)) <= 4 * (PI * PI) / 10.
Proof.
  assert (E80 : INR 80 = 80) by (rewrite INR_IZR_INZ; reflexivity).
  destruct (C65_completes ExtReal ExtReal_gauss ExtReal_fit study "80" [] 80 eq_refl eq_refl ltac:(lia) ltac:(discriminate) eq_refl eq_refl eq_refl ltac:(discriminate)) as [F [evs [s [Ht HF]]]];
    [rewrite E80; cbn [dk_cfl study]; lra|cbn; lia|cbn [dk_finaltime study]; lra|].
  exists F, evs, s. split; [exact (HF F (le_n F))|]. cbn [dk_finaltime study] in Ht. split; [exact Ht|]. intros e He.
  pose proof (C65_sinewave ExtReal ExtReal_gauss ExtReal_fit study "80" [] 80 eq_refl eq_refl ltac:(lia) ltac:(discriminate) eq_refl eq_refl ltac:(discriminate)
    ltac:(cbn; auto) ltac:(cbn [dk_cfl study]; lra) ltac:(cbn; lia) ltac:(cbn [dk_finaltime study]; lra) F evs (Finished s) (HF F (le_n F)) s (or_intror eq_refl) e He) as Q.
  rewrite Ht, E80 in Q. replace (2 / 80) with (1 / 40) in Q by lra.
  replace (2 * PI * centre (-1) (1 / 40) e) with (2 * PI * (centre (-1) (1 / 40) e - 8) + 2 * INR 8 * PI) by (cbn [INR]; ring). rewrite sin_period. lra.
Qed.

Print Assumptions C65_first_order.
Print Assumptions C65_sinewave.
Print Assumptions C65_completes.
Print Assumptions C65_refinement.
