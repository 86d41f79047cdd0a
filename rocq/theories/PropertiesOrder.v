(** Property C74: advection runs with rk3 converge in L2 at order min(p+1, 3).  [gauss_ok] and [legfit_ok] are the contracts of numpy's leggauss and legfit. *)
From Coq Require Import ZArith List Bool Arith String Lia Reals Lra.
From Verif Require Import Num Py PyStr Lib RealLib Constants LegNumpy Ext Basis Enhance Sensor Solution Solver RKCoeffs RK IO Deck Main SpecDG SpecTime SpecPoly SpecRK SpecUniform SpecMonotone SpecConverge SpecL2 SpecOrder
  ProofsDG ProofsCons ProofsWf ProofsSol ProofsAdv ProofsRun ProofsMonotone ProofsL2Run ProofsOrderRun ProofsOrderIC ExtReal Witness.
Import ListNotations.
Open Scope list_scope.
Open Scope R_scope.

(** C74: any smooth periodic profile, any initial state: at every snapshot and at the end the L2 distance from the profile moved by the elapsed time is at most
    the initial distance plus twice the projection error plus the elapsed time times the truncation error *)
Theorem C74_error_bound : forall (X : Ext R), gauss_ok -> forall ne (sol0 : solution R), made ne sol0 -> s_euler sol0 = false -> s_enh sol0 = None -> is_literal (s_bcl sol0) "periodic" = true ->
  forall F B a, smooth_profile F B (INR ne * s_dx sol0) ->
  forall gamma d cfl tf nout, wf_dg ne sol0 d -> (2 <= nout)%Z -> s_t sol0 <= tf -> cfl <= cfl_max (b_p (s_basis sol0)) ->
  forall fuel evs out, integrate gamma "rk3" d None cfl tf nout fuel sol0 = (evs, out) -> forall E0, l2err ne a sol0 (F 0%nat) E0 ->
  forall s, (exists ev, In ev evs /\ s = ev_sol ev) \/ out = Finished s ->
  s_t sol0 <= s_t s /\ exists E, l2err ne a s (fun x => F 0%nat (x - (s_t s - s_t sol0))) E /\
    sqrt E <= sqrt E0 + sqrt (INR ne * s_dx sol0) *
      (2 * proj_size (b_p (s_basis sol0)) (s_dx sol0 / 2) B + (s_t s - s_t sol0) * sqrt (INR (S (b_p (s_basis sol0)))) * trunc_size (b_p (s_basis sol0)) (s_dx sol0 / 2) B).
Proof. intros X G ne sol0 M Ha He Hl F B a HS gamma d cfl tf nout D Hn Ht Hc. apply (@run_error X); try assumption. exact (cfl_max_le _ _ Hc). Qed.
(** whole runs from a deck for the sine wave, at every polynomial order p: the L2 error at time t is at most
    C (1+t) / (number of cells)^min(p+1,3), where C = rate_const p depends on p only *)
Theorem C74_sinewave_rate : forall (X : Ext R), gauss_ok -> legfit_ok -> forall (d : deck R) t rest ne p,
  split_ws (dk_ic d) = "sinewave"%string :: t :: rest -> parse_int t = Some (Z.of_nat ne) -> (1 <= ne)%nat ->
  dk_system d <> "euler"%string -> dk_order d = Z.of_nat p -> dk_enhance d = ""%string -> dk_limiting d <> "adaptive_hr"%string ->
  dk_rk d = "rk3"%string -> dk_cfl d <= cfl_max p -> (2 <= dk_nout d)%Z -> 0 <= dk_finaltime d ->
  forall fuel evs out, run_deck fuel d = (evs, out) ->
  forall s, (exists ev, In ev evs /\ s = ev_sol ev) \/ out = Finished s ->
  exists E, l2err ne (-1) s (fun x => sin (2 * PI * (x - s_t s))) E /\ sqrt E <= rate_const p * (1 + s_t s) * (/ INR ne) ^ Nat.min (p + 1) 3.
Proof.
  intros X G FT d t rest ne p Hs Hp Hne Hsys Ho Hen Hlim Hk Hc Hn Ht fuel evs out HR s Hst.
  destruct (@sine_order X G FT d t rest ne p Hs Hp Hne Hsys Ho Hen Hlim Hk Hc Hn Ht fuel evs out HR s Hst) as [T0 [E [HE Q]]].
  exists E. split; [exact HE|]. eapply Rle_trans; [exact Q|]. rewrite Nat.add_1_r. apply size_rate; [|assumption..]. intro k. apply pow_le. pose proof PI_RGT_0. lra.
Qed.
(** ... and such runs reach the final time *)
Theorem C74_completes : forall (X : Ext R), gauss_ok -> legfit_ok -> forall (d : deck R) t rest ne p,
  split_ws (dk_ic d) = "sinewave"%string :: t :: rest -> parse_int t = Some (Z.of_nat ne) -> (1 <= ne)%nat ->
  dk_system d <> "euler"%string -> dk_order d = Z.of_nat p -> dk_enhance d = ""%string -> dk_thresholds d = [] -> dk_limiting d <> "adaptive_hr"%string ->
  1 / 100000000000000 <= 2 / INR ne * dk_cfl d / INR (2 * p + 1) -> (2 <= dk_nout d)%Z -> 0 <= dk_finaltime d ->
  exists F evs s, s_t s = dk_finaltime d /\ forall fuel, (F <= fuel)%nat -> run_deck fuel d = (evs, Finished s).
Proof. exact @sine_completes_p. Qed.

(** order 2, 80 cells, rk3, to t = 8: the run completes and its error against the initial sine is at most 9 rate_const 2 / 80^3 *)
Definition study3 : deck R := {| dk_system := "advection"; dk_rk := "rk3"; dk_riemann := "roe"; dk_ic := "sinewave 80"; dk_nout := 11; dk_finaltime := 8; dk_cfl := 1 / 4;
  dk_order := 2; dk_limiting := ""; dk_thresholds := []; dk_enhance := "" |}.
Example C74_witness : exists F evs s E, @run_deck R NumR LibmR ExtReal F study3 = (evs, Finished s) /\ s_t s = 8 /\
  l2err 80 (-1) s (fun x => sin (2 * PI * (x - 8))) E /\ sqrt E <= rate_const 2 * 9 * (/ 80) ^ 3.
Proof.
  assert (E80 : INR 80 = 80) by (rewrite INR_IZR_INZ; reflexivity).
  destruct (C74_completes ExtReal ExtReal_gauss ExtReal_fit study3 "80" [] 80 2 eq_refl eq_refl ltac:(lia) ltac:(discriminate) eq_refl eq_refl eq_refl ltac:(discriminate)) as [F [evs [s [Ht HF]]]];
    [rewrite E80; cbn [dk_cfl study3 Nat.mul Nat.add INR]; lra|cbn; lia|cbn [dk_finaltime study3]; lra|].
  destruct (C74_sinewave_rate ExtReal ExtReal_gauss ExtReal_fit study3 "80"%string [] 80%nat 2%nat eq_refl eq_refl ltac:(lia) ltac:(discriminate) eq_refl eq_refl ltac:(discriminate) eq_refl
    ltac:(unfold cfl_max; cbn [dk_cfl study3 Nat.mul Nat.add INR]; lra) ltac:(cbn; lia) ltac:(cbn [dk_finaltime study3]; lra) F evs (Finished s) (HF F (le_n F)) s (or_intror eq_refl)) as [E [HE Q]].
  exists F, evs, s, E. cbn [dk_finaltime study3] in Ht. split; [exact (HF F (le_n F))|]. split; [exact Ht|]. rewrite Ht in HE, Q. rewrite E80 in Q. cbn [Nat.add Nat.min] in Q. split; [exact HE|]. replace (1 + 8) with 9 in Q by ring. exact Q.
Qed.
Print Assumptions C74_error_bound.
Print Assumptions C74_sinewave_rate.
Print Assumptions C74_completes.
