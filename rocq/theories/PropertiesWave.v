(** Property C75: Euler runs with rk3 carry smooth density waves with the flow and converge at order min(p+1, 3).  [gauss_ok], [inv_ok] and [legfit_ok] are the contracts of numpy's
    leggauss, linalg.inv and legfit. *)
From Coq Require Import ZArith List Bool Arith String Lia Reals Lra.
From Verif Require Import Num Py PyStr Lib RealLib Constants LegNumpy Ext Basis Enhance Sensor Solution Solver RKCoeffs RK IO Deck Main
  SpecDG SpecTime SpecPoly SpecRK SpecUniform SpecTrace SpecMonotone SpecConverge SpecEuler SpecContact SpecL2 SpecOrder
  ProofsDG ProofsCons ProofsWf ProofsSol ProofsAdv ProofsRun ProofsMonotone ProofsL2Run ProofsOrderRun ProofsOrderIC ProofsWaveRun ProofsWaveIC ExtReal Witness.
Import ListNotations.
Open Scope list_scope.
Open Scope R_scope.

(** C75: uniform velocity v and pressure pr, density near a smooth periodic profile that stays above lo; if the grid is fine enough for [sag_size] to be below lo, then at every snapshot and
    at the end velocity and pressure are still v and pr, the density is at least lo - sag_size everywhere, and its L2 distance from the profile moved by v times the elapsed time
    is at most the initial distance plus twice the projection error plus the distance travelled times the truncation error *)
Theorem C75_error_bound : forall (X : Ext R) (gamma : R), 1 < gamma -> gauss_ok -> inv_ok -> forall v pr, 0 <= v -> 0 < pr -> forall ne (sol0 : solution R) d,
  made ne sol0 -> wf_dg ne sol0 d -> s_enh sol0 = None -> is_literal (s_bcl sol0) "periodic" = true -> bc_known (s_bcr sol0) -> s_euler sol0 = true ->
  s_riemann sol0 = RRoe \/ s_riemann sol0 = RGodunov -> uniform_vp gamma ne v pr sol0 -> apply_bc sol0 = Ok sol0 ->
  forall F B a, smooth_profile F B (INR ne * s_dx sol0) -> forall lo, (forall x, lo <= F 0%nat x) -> forall E0, l2err ne a sol0 (F 0%nat) E0 ->
  forall cfl tf nout, (2 <= nout)%Z -> s_t sol0 <= tf -> cfl <= cfl_max (b_p (s_basis sol0)) ->
  let p := b_p (s_basis sol0) in let h := s_dx sol0 in let sag := sag_size p ne (h / 2) B (drift_size p ne h B E0 (v * (tf - s_t sol0))) in sag < lo ->
  forall fuel evs out, integrate gamma "rk3" d None cfl tf nout fuel sol0 = (evs, out) ->
  forall s, (exists ev, In ev evs /\ s = ev_sol ev) \/ out = Finished s ->
  s_t sol0 <= s_t s <= tf /\ uniform_vp gamma ne v pr s /\ (forall e xi, (1 <= e <= ne)%nat -> -1 <= xi <= 1 -> lo - sag <= legseries (modes s e 0) xi) /\
  exists E, l2err ne a s (fun x => F 0%nat (x - v * (s_t s - s_t sol0))) E /\
    sqrt E <= sqrt E0 + sqrt (INR ne * h) * (2 * proj_size p (h / 2) B + v * (s_t s - s_t sol0) * sqrt (INR (S p)) * trunc_size p (h / 2) B).
Proof.
  intros X gamma Hg G IV v pr Hv Hp ne sol0 d M D He Hl Hb Eu HR U B0 F B a HS lo Hlo E0 H0 cfl tf nout Hn Ht Hc p h sag Hs.
  pose proof (cfl_max_le _ _ Hc) as Q. rewrite Nat.add_1_r in Q. apply (wave_run gamma Hg G IV v pr Hv Hp ne sol0 d M D He Hl Hb Eu HR U B0 F B a HS lo Hlo E0 H0 cfl tf nout Hn Ht Q Hs).
Qed.
(** whole runs from a deck for the entropy wave, at every polynomial order p, with any Riemann solver but Rusanov's: velocity and pressure stay 1, the density stays above 4/5 - entropy_gap,
    and its L2 error at time t is at most C (1+t) / (number of cells)^min(p+1,3), where C = rate_of entropy_B p depends on p only *)
Theorem C75_entropy_rate : forall (X : Ext R), gauss_ok -> legfit_ok -> inv_ok -> forall (d : deck R) t rest ne p,
  split_ws (dk_ic d) = "entrpyw"%string :: t :: rest -> parse_int t = Some (Z.of_nat ne) -> (1 <= ne)%nat ->
  dk_system d = "euler"%string -> dk_riemann d <> "rusanov"%string -> dk_order d = Z.of_nat p -> dk_enhance d = ""%string -> dk_limiting d <> "adaptive_hr"%string ->
  dk_rk d = "rk3"%string -> dk_cfl d <= cfl_max p -> (2 <= dk_nout d)%Z -> 0 <= dk_finaltime d -> entropy_gap p ne (dk_finaltime d) < 4 / 5 ->
  forall fuel evs out, run_deck fuel d = (evs, out) ->
  forall s, (exists ev, In ev evs /\ s = ev_sol ev) \/ out = Finished s ->
  uniform_vp (14 / 10) ne 1 1 s /\ (forall e xi, (1 <= e <= ne)%nat -> -1 <= xi <= 1 -> 4 / 5 - entropy_gap p ne (dk_finaltime d) <= legseries (modes s e 0) xi) /\
  exists E, l2err ne (-1) s (fun x => 1 + / 5 * sin (PI * (x - s_t s))) E /\ sqrt E <= rate_of entropy_B p * (1 + s_t s) * (/ INR ne) ^ Nat.min (p + 1) 3.
Proof.
  intros X G FT IV d t rest ne p Hs Hp Hne Hsys Hrs Ho Hen Hlim Hk Hc Hn Ht Hgap fuel evs out HR s Hst.
  destruct (@entropy_order X G FT IV d t rest ne p Hs Hp Hne Hsys Hrs Ho Hen Hlim Hk Hc Hn Ht Hgap fuel evs out HR s Hst) as [T0 [U [Lo [E [HE Q]]]]].
  split; [exact U|]. split; [exact Lo|]. exists E. split; [exact HE|]. eapply Rle_trans; [exact Q|]. rewrite Nat.add_1_r. apply size_rate; [exact entropy_B_pos|assumption..].
Qed.
(** every grid with more cells than a number depending on p and the final time only is fine enough *)
Theorem C75_fine_grids : forall p ne T, (1 <= ne)%nat -> 0 <= T -> 5 / 4 * gap_const p * (1 + T) < sqrt (INR ne) -> entropy_gap p ne T < 4 / 5.
Proof.
  intros p ne T Hne HT H. assert (S : 0 < sqrt (INR ne)) by (apply sqrt_lt_R0, lt_0_INR; lia). eapply Rle_lt_trans; [apply gap_rate; assumption|].
  apply Rmult_lt_reg_r with (sqrt (INR ne)); [exact S|]. unfold Rdiv at 1. rewrite Rmult_assoc, Rinv_l, Rmult_1_r by lra. lra.
Qed.
(** ... and such runs reach the final time *)
Theorem C75_completes : forall (X : Ext R), gauss_ok -> legfit_ok -> inv_ok -> forall (d : deck R) t rest ne p,
  split_ws (dk_ic d) = "entrpyw"%string :: t :: rest -> parse_int t = Some (Z.of_nat ne) -> (1 <= ne)%nat ->
  dk_system d = "euler"%string -> dk_riemann d <> "rusanov"%string -> dk_order d = Z.of_nat p -> dk_enhance d = ""%string -> dk_limiting d <> "adaptive_hr"%string ->
  dk_rk d = "rk3"%string -> dk_cfl d <= cfl_max p -> (2 <= dk_nout d)%Z -> 0 <= dk_finaltime d -> entropy_gap p ne (dk_finaltime d) < 4 / 5 -> dk_thresholds d = [] ->
  1 / 100000000000000 <= 2 / INR ne * dk_cfl d / ((1 + sqrt (14 / 10 / (4 / 5 - entropy_gap p ne (dk_finaltime d)))) * INR (2 * p + 1)) ->
  exists F evs s, s_t s = dk_finaltime d /\ forall fuel, (F <= fuel)%nat -> run_deck fuel d = (evs, Finished s).
Proof. exact @entropy_completes. Qed.

(** order 3, 100 cells, rk3, one period: the gap is below 7/10, the run completes and its error is at most 3 (rate_of entropy_B 3) / 100^3 *)
Lemma gap_100 : entropy_gap 3 100 2 < 7 / 10.
Proof.
  assert (B : forall k, entropy_B (S k) <= / 5 * 4 ^ S k).
  { intro k. cbn [entropy_B]. apply Rmult_le_compat_l; [lra|]. apply pow_incr. pose proof PI_RGT_0. pose proof PI_4. lra. }
  pose proof (B 0%nat) as B1. pose proof (B 1%nat) as B2. pose proof (B 3%nat) as B4. pose proof (B 4%nat) as B5. pose proof (B 5%nat) as B6. pose proof (B 6%nat) as B7.
  assert (E100 : INR 100 = 100) by (rewrite INR_IZR_INZ; reflexivity). assert (E4 : INR 4 = 4) by (rewrite INR_IZR_INZ; reflexivity).
  assert (S100 : sqrt 100 = 10) by (replace 100 with (10 * 10) by ring; apply sqrt_square; lra). assert (S4 : sqrt 4 = 2) by (replace 4 with (2 * 2) by ring; apply sqrt_square; lra).
  assert (S400 : sqrt (100 * 4) = 20) by (replace (100 * 4) with (20 * 20) by ring; apply sqrt_square; lra).
  assert (F4 : INR (fact 4) = 24) by (rewrite INR_IZR_INZ; reflexivity).
  unfold entropy_gap, sag_size, interp_size, proj_size, trunc_size, taylor_size. rewrite E100, E4, S100, S4, S400, F4. cbn [Nat.add]. cbn [pow] in *.
  set (b1 := entropy_B 1) in *. set (b2 := entropy_B 2) in *. set (b4 := entropy_B 4) in *. set (b5 := entropy_B 5) in *. set (b6 := entropy_B 6) in *. set (b7 := entropy_B 7) in *. clearbody b1 b2 b4 b5 b6 b7. lra.
Qed.
Definition study4 (r : string) : deck R := {| dk_system := "euler"; dk_rk := "rk3"; dk_riemann := r; dk_ic := "entrpyw 100"; dk_nout := 11; dk_finaltime := 2; dk_cfl := 1 / 5;
  dk_order := 3; dk_limiting := ""; dk_thresholds := []; dk_enhance := "" |}.
Example C75_witness : forall r, In r ["roe"; "godunov"]%string -> exists F evs s E, @run_deck R NumR LibmR ExtReal F (study4 r) = (evs, Finished s) /\ s_t s = 2 /\
  uniform_vp (14 / 10) 100 1 1 s /\ l2err 100 (-1) s (fun x => 1 + / 5 * sin (PI * (x - 2))) E /\ sqrt E <= rate_of entropy_B 3 * 3 * (/ 100) ^ 3.
Proof.
  intros r Hr. assert (Hrs : r <> "rusanov"%string) by (destruct Hr as [<-|[<-|[]]]; discriminate). clear Hr.
  assert (E100 : INR 100 = 100) by (rewrite INR_IZR_INZ; reflexivity). pose proof gap_100 as Gp.
  assert (Hc : dk_cfl (study4 r) <= cfl_max 3) by (unfold cfl_max; cbn [dk_cfl study4 Nat.mul Nat.add INR]; lra).
  destruct (C75_completes ExtReal ExtReal_gauss ExtReal_fit ExtReal_inv (study4 r) "100" [] 100 3 eq_refl eq_refl ltac:(lia) eq_refl Hrs eq_refl eq_refl ltac:(discriminate) eq_refl Hc ltac:(cbn; lia)
    ltac:(cbn [dk_finaltime study4]; lra) ltac:(cbn [dk_finaltime study4]; lra) eq_refl) as [F [evs [s [Ht HF]]]].
  { cbn [dk_finaltime dk_cfl study4]. rewrite E100. set (gp := entropy_gap 3 100 2) in *. assert (Z : sqrt (14 / 10 / (4 / 5 - gp)) <= 4).
    { assert (W : 1 / 10 < 4 / 5 - gp) by lra. set (w := 4 / 5 - gp) in *. clearbody w. rewrite <- (sqrt_square 4) by lra. apply sqrt_le_1_alt. apply Rmult_le_reg_r with w; [lra|]. replace (14 / 10 / w * w) with (14 / 10) by (field; lra). lra. }
    pose proof (sqrt_pos (14 / 10 / (4 / 5 - gp))) as Z0. set (z := sqrt (14 / 10 / (4 / 5 - gp))) in *. clearbody z.
    apply Rle_trans with (2 / 100 * (1 / 5) / ((1 + 4) * INR (2 * 3 + 1))); [cbn [Nat.mul Nat.add INR]; lra|]. unfold Rdiv. apply Rmult_le_compat_l; [lra|].
    assert (0 < INR (2 * 3 + 1)) by (apply lt_0_INR; lia). apply Rinv_le_contravar; [apply Rmult_lt_0_compat; lra|]. apply Rmult_le_compat_r; lra. }
  destruct (C75_entropy_rate ExtReal ExtReal_gauss ExtReal_fit ExtReal_inv (study4 r) "100" [] 100%nat 3%nat eq_refl eq_refl ltac:(lia) eq_refl Hrs eq_refl eq_refl ltac:(discriminate) eq_refl Hc ltac:(cbn; lia)
    ltac:(cbn [dk_finaltime study4]; lra) ltac:(cbn [dk_finaltime study4]; lra) F evs (Finished s) (HF F (le_n F)) s (or_intror eq_refl)) as [U [_ [E [HE Q]]]].
  exists F, evs, s, E. cbn [dk_finaltime study4] in Ht. split; [exact (HF F (le_n F))|]. split; [exact Ht|]. split; [exact U|]. rewrite Ht in HE, Q. rewrite E100 in Q. cbn [Nat.add Nat.min] in Q. split; [exact HE|]. replace (1 + 2) with 3 in Q by ring. exact Q.
Qed.
Print Assumptions C75_error_bound.
Print Assumptions C75_entropy_rate.
Print Assumptions C75_fine_grids.
Print Assumptions C75_completes.
