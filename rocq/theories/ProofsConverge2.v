(** The convergence bound for decks of the sine wave. *)
From Coq Require Import ZArith List Bool Arith String Lia Reals Lra Psatz.
From Verif Require Import Num Py PyStr Lib RealLib Constants LegNumpy Ext Basis Sensor Enhance Limiting AdvectionPhysics IC Solution Solver RKCoeffs RK IO Deck Main
  SpecDG SpecMonotone SpecTime SpecPoly SpecRK SpecUniform SpecConverge
  ProofsDG ProofsCons ProofsWf ProofsSol ProofsIC ProofsMain ProofsIC2 ProofsPoly ProofsBasis ProofsRun ProofsMonotone ProofsConverge.
Import ListNotations.
Open Scope list_scope.
Open Scope R_scope.

(** * sin(2 pi x) *)
Lemma cos_lip a b : Rabs (cos a - cos b) <= Rabs (a - b).
Proof.
  assert (Q : forall a b, a < b -> Rabs (cos b - cos a) <= Rabs (b - a)).
  { intros x y H. destruct (MVT_cor2 cos (fun c => - sin c) x y H) as [c [E _]]; [intros; apply derivable_pt_lim_cos|].
    rewrite E, Rabs_mult. rewrite <- (Rmult_1_l (Rabs (y - x))) at 2. apply Rmult_le_compat_r; [apply Rabs_pos|].
    rewrite Rabs_Ropp. apply Rabs_le. pose proof (SIN_bound c). lra. }
  destruct (Rtotal_order a b) as [H|[->|H]].
  - rewrite Rabs_minus_sym, (Rabs_minus_sym a). apply Q. exact H.
  - rewrite !Rminus_diag_eq by reflexivity. lra.
  - apply Q. exact H.
Qed.
Lemma sine_smooth : smooth_wave (fun x => sin (2 * PI * x)) (fun x => 2 * PI * cos (2 * PI * x)) (4 * (PI * PI)) 2.
Proof.
  pose proof PI_RGT_0 as P. split; [|split].
  - intro x. replace (2 * PI * cos (2 * PI * x)) with (cos (2 * PI * x) * (0 * x + 2 * PI * 1)) by ring.
    apply (derivable_pt_lim_comp (fun x => 2 * PI * x) sin); [|apply derivable_pt_lim_sin].
    apply (derivable_pt_lim_mult (fun _ => 2 * PI) (fun x => x)); [apply derivable_pt_lim_const|apply derivable_pt_lim_id].
  - intros x y. replace (2 * PI * cos (2 * PI * x) - 2 * PI * cos (2 * PI * y)) with (2 * PI * (cos (2 * PI * x) - cos (2 * PI * y))) by ring.
    rewrite Rabs_mult, (Rabs_right (2 * PI)) by lra. pose proof (cos_lip (2 * PI * x) (2 * PI * y)) as H.
    replace (2 * PI * x - 2 * PI * y) with (2 * PI * (x - y)) in H by ring. rewrite Rabs_mult, (Rabs_right (2 * PI)) in H by lra.
    replace (4 * (PI * PI) * Rabs (x - y)) with (2 * PI * (2 * PI * Rabs (x - y))) by ring. apply Rmult_le_compat_l; lra.
  - intro x. replace (2 * PI * (x + 2)) with (2 * PI * x + 2 * INR 2 * PI) by (cbn [INR]; ring). apply sin_period.
Qed.

Section Sine.
  Context {X : Ext R}.
  Hypothesis G : gauss_ok.
  Hypothesis FT : legfit_ok.
  (** the one-point rule has its node in the middle and weight 2 *)
  Lemma one_point : at1 (b_w (Basis (A:=R) 0)) 0 = 2 /\ at1 (b_x (Basis (A:=R) 0)) 0 = 0.
  Proof.
    assert (W : at1 (b_w (Basis (A:=R) 0)) 0 = 2).
    { pose proof (G_exact G 0 (fun _ => 1) 2) as H. cbn [Nat.add Rsum] in H. rewrite Rplus_0_l, Rmult_1_r in H. apply H.
      - apply (is_poly_le 0); [lia|]. apply is_poly_const.
      - exists (fun x => x). split; [intro; apply derivable_pt_lim_id|lra]. }
    split; [exact W|].
    pose proof (G_exact G 0 (fun x => x) 0) as H. cbn [Nat.add Rsum] in H. rewrite Rplus_0_l, W in H.
    assert (2 * at1 (b_x (Basis (A:=R) 0)) 0 = 0); [|lra]. apply H.
    - apply (is_poly_le 1); [lia|]. apply is_poly_id.
    - exists (fun x => x * x * / 2). split; [|field]. intro x. replace x with ((1 * x + x * 1) * / 2 + (x * x) * 0) at 2 by field.
      apply (derivable_pt_lim_mult (fun x => x * x) (fun _ => / 2)); [|apply derivable_pt_lim_const]. apply (derivable_pt_lim_mult (fun x => x) (fun x => x)); apply derivable_pt_lim_id.
  Qed.
  Lemma at1_linspace a b n i : (1 <= n)%nat -> (i <= n)%nat -> at1 (linspace a b (n + 1)) i = a + INR i * ((b - a) / INR n).
  Proof.
    intros Hn Hi. destruct n as [|n]; [lia|]. replace (S n + 1)%nat with (S (S n)) by lia. cbn [linspace]. rewrite at1_tab by lia.
    assert (0 < INR (S n)) by (apply lt_0_INR; lia). numR. rewrite <- !INR_IZR_INZ. destruct (Nat.eqb_spec i (S n)) as [->|].
    - field. lra.
    - ring.
  Qed.
  Lemma sine_setup (d : deck R) t rest ne s g dgs l : split_ws (dk_ic d) = "sinewave"%string :: t :: rest -> parse_int t = Some (Z.of_nat ne) -> (1 <= ne)%nat ->
    dk_system d <> "euler"%string -> dk_order d = 0%Z -> dk_enhance d = ""%string -> dk_limiting d <> "adaptive_hr"%string -> setup d = Ok (s, g, dgs, l) ->
    l = None /\ made ne s /\ s_euler s = false /\ s_enh s = None /\ b_p (s_basis s) = 0%nat /\ s_bcl s = pylit "periodic" /\ s_bcr s = pylit "periodic" /\
    s_t s = 0 /\ s_dx s = 2 / INR ne /\ wf_dg ne s dgs /\ apply_bc s = Ok s /\ forall e, (1 <= e <= ne)%nat -> average s e = sin (2 * PI * centre (-1) (2 / INR ne) e).
  Proof.
    intros Hs Hp Hne Hsys Ho Hen Hlim H. unfold setup in H. rewrite Ho in H. change (0 <? 0)%Z with false in H. cbv iota in H. change (Z.to_nat 0) with 0%nat in H.
    inv_bind H. destruct x as [s0 g0]. inv_bind H. inv_bind H. inv_bind H. inv_bind H. apply Ok_inj in H. injection H as <- <- <- <-.
    rename Hx into H0, x into s1, Hx0 into E1. unfold Limiter in Hx2. apply String.eqb_neq in Hlim. rewrite Hlim in Hx2. apply Ok_inj in Hx2. subst x1.
    cbn [limit] in Hx3. apply Ok_inj in Hx3. subst x2. split; [reflexivity|]. rewrite Hen in H0.
    apply String.eqb_neq in Hsys.
    set (ic := {| ic_A := nofZ (-1); ic_B := n1; ic_bc := "periodic"; ic_gamma := gamma_default; ic_gamma_after := gamma_default; ic_f := f_sinewave |} : ic_spec R).
    assert (Hl : ic_lookup (A:=R) "sinewave" (t :: rest) gamma_default = Ok ic) by reflexivity.
    assert (Hic : ic_succeeds (A:=R) (dk_ic d) (dk_system d) 0 (dk_riemann d)).
    { eapply ic_ok; [exact Hs|exact Hl|reflexivity|exact Hp|]. rewrite Hsys. cbn. lia. }
    assert (EN : s_NE s0 = Z.of_nat ne /\ s_enh s0 = None /\ s_euler s0 = false /\ s_basis s0 = Basis 0).
    { pose proof (Solution_Ok _ _ _ _ _ _ _ _ Hic H0) as [nm [ps [s1' [en [K1 [K2 [K3 K4]]]]]]]. rewrite Hs in K1. injection K1 as <- <-.
      apply run_ic_Ok in K2. destruct K2 as [ic' [NE [u [p0 [L1 [L2 [L3 [L4 _]]]]]]]]. cbn [s_params blank_solution nth_error] in L2. injection L2 as <-. rewrite Hp in L3. injection L3 as L3.
      cbn [String.eqb] in K3. unfold ic_state in L4. subst s1'. rewrite K4. split; [cbn; lia|]. split; [exact K3|]. split; [exact Hsys|reflexivity]. }
    destruct EN as [EN [Een [Eeu Eb]]].
    assert (HNE : (1 <= s_NE s0)%Z) by lia.
    assert (M0 : made ne s0).
    { rewrite <- (Nat2Z.id ne), <- EN. apply (Solution_made _ _ _ _ _ _ _ _ (fun n Hn => gr_lx _ _ _ (G n Hn)) Hic H0 HNE). unfold enh_lengths. rewrite Een. exact I. }
    destruct (constructed_nodes G FT _ _ _ _ _ _ _ _ _ _ _ Hs Hl Hic H0 HNE) as [_ [Edx [Ebl [Ebr [Et Hm]]]]].
    rewrite EN, Nat2Z.id in Edx, Hm. cbn [ic_A ic_B ic_bc ic] in Edx, Hm, Ebl, Ebr.
    assert (Edx' : s_dx s0 = 2 / INR ne).
    { rewrite Edx. unfold linspace_step. destruct (Nat.leb_spec (ne + 1) 1); [lia|]. numR. rewrite INR_IZR_INZ. replace (ne + 1 - 1)%nat with ne by lia. f_equal. lra. }
    pose proof (md_wf _ _ M0) as W0. pose proof (wf_bc _ _ _ W0 E1) as W1. pose proof (similar_bc _ _ E1) as S1. pose proof (made_similar _ _ _ M0 S1 W1) as M1.
    split; [exact M1|].
    destruct (apply_bc_modes ne s0 W0) as [s1' [E1' [S1' [_ Mo]]]]. rewrite E1 in E1'. apply Ok_inj in E1'. subst s1'.
    pose proof (apply_bc_eq ne s0 W0) as Eu. rewrite E1 in Eu. apply Ok_inj in Eu. subst s1. cbn [with_u s_euler s_enh s_basis s_bcl s_bcr s_t s_dx].
    split; [exact Eeu|]. split; [exact Een|]. split; [rewrite Eb; apply b_p_Basis'|]. split; [exact Ebl|]. split; [exact Ebr|]. split; [exact Et|]. split; [exact Edx'|].
    split; [exact (DG_wf _ _ _ W1 Hx1)|]. split; [exact (apply_bc_idem _ _ _ W0 E1)|].
    intros e He. assert (NF : s_NF s0 = 1%nat) by (unfold s_NF; rewrite Eeu; reflexivity).
    unfold average. rewrite Mo by lia. rewrite src_cell_interior by lia.
    rewrite (Hm e 0%nat (fun x => sin (2 * PI * x)) He ltac:(lia)).
    2:{ intro x. eexists. split; [reflexivity|]. reflexivity. }
    destruct one_point as [O1 O2]. cbn [Nat.add Rsum]. unfold node_at. rewrite O1, O2. numR.
    rewrite !at1_linspace by lia. replace (e - 1 + 1)%nat with e by lia. rewrite minus_INR by lia. cbn [INR]. unfold centre.
    assert (0 < INR ne) by (apply lt_0_INR; lia).
    match goal with |- / 2 * (0 + 2 * sin (2 * PI * ?a)) = sin (2 * PI * ?b) => replace a with b by (field; lra) end. lra.
  Qed.
  Theorem sine_converges (d : deck R) t rest ne : split_ws (dk_ic d) = "sinewave"%string :: t :: rest -> parse_int t = Some (Z.of_nat ne) -> (1 <= ne)%nat ->
    dk_system d <> "euler"%string -> dk_order d = 0%Z -> dk_enhance d = ""%string -> dk_limiting d <> "adaptive_hr"%string ->
    In (dk_rk d) ["rk3"; "rk4"; "low_storage_rk4"; "rk5"]%string -> dk_cfl d <= 1 -> (2 <= dk_nout d)%Z -> 0 <= dk_finaltime d ->
    forall fuel evs out, run_deck fuel d = (evs, out) ->
    forall s, (exists ev, In ev evs /\ s = ev_sol ev) \/ out = Finished s ->
    forall e, (1 <= e <= ne)%nat -> Rabs (average s e - sin (2 * PI * (centre (-1) (2 / INR ne) e - s_t s))) <= 4 * (PI * PI) * s_t s / INR ne.
  Proof.
    intros Hs Hp Hne Hsys Ho Hen Hlim Hk Hc Hn Ht fuel evs out HR s Hst e He.
    unfold run_deck in HR. destruct (setup d) as [[[[s0 g] dgs] l]|ex] eqn:HS.
    2:{ injection HR as <- <-. destruct Hst as [[ev [[] _]]|HF]; discriminate HF. }
    destruct (sine_setup d t rest ne s0 g dgs l Hs Hp Hne Hsys Ho Hen Hlim HS) as [-> [M [Ha [Hn0 [Hb [Hl [Hr [T0 [Dx [D [_ Av]]]]]]]]]]].
    assert (P : 0 < INR ne) by (apply lt_0_INR; lia).
    assert (HF : smooth_wave (fun x => sin (2 * PI * x)) (fun x => 2 * PI * cos (2 * PI * x)) (4 * (PI * PI)) (INR ne * s_dx s0)).
    { rewrite Dx. replace (INR ne * (2 / INR ne)) with 2 by (field; lra). exact sine_smooth. }
    pose proof (run_converges ne s0 M Ha Hn0 Hb Hl ltac:(left; rewrite Hr; reflexivity) _ _ _ (-1) 0 HF) as Q.
    specialize (Q ltac:(intros e0 He0; rewrite Av by exact He0; rewrite Dx, Rminus_diag_eq, Rabs_R0 by reflexivity; lra)).
    specialize (Q g dgs (dk_rk d) (dk_cfl d) (dk_finaltime d) (dk_nout d) D Hk Hc Hn ltac:(rewrite T0; exact Ht) fuel evs out HR s Hst e He).
    cbn beta in Q. rewrite T0, Dx, Rminus_0_r, Rplus_0_l in Q. eapply Rle_trans; [exact Q|]. right. field. lra.
  Qed.
  (** such decks run to the end *)
  Theorem sine_completes (d : deck R) t rest ne : split_ws (dk_ic d) = "sinewave"%string :: t :: rest -> parse_int t = Some (Z.of_nat ne) -> (1 <= ne)%nat ->
    dk_system d <> "euler"%string -> dk_order d = 0%Z -> dk_enhance d = ""%string -> dk_thresholds d = [] -> dk_limiting d <> "adaptive_hr"%string ->
    1 / 100000000000000 <= 2 * dk_cfl d / INR ne -> (2 <= dk_nout d)%Z -> 0 <= dk_finaltime d ->
    exists F evs s, s_t s = dk_finaltime d /\ forall fuel, (F <= fuel)%nat -> run_deck fuel d = (evs, Finished s).
  Proof.
    intros Hs Hp Hne Hsys Ho Hen Hth Hlim Hc Hn Ht.
    assert (HS : exists s g dgs l, setup d = Ok (s, g, dgs, l)).
    { assert (Hl : exists ic, ic_lookup (A:=R) "sinewave" (t :: rest) gamma_default = Ok ic) by (eexists; reflexivity). destruct Hl as [ic Hl].
      apply String.eqb_neq in Hsys. apply String.eqb_neq in Hlim.
      assert (Hf : ((if String.eqb (dk_system d) "euler" then 3 else 1) <= ic_fields "sinewave")%nat) by (rewrite Hsys; cbn; lia).
      pose proof (ic_ok (dk_ic d) (dk_system d) 0 (dk_riemann d) _ _ _ _ _ Hs Hl eq_refl Hp Hf) as Hic.
      destruct (Solution_ok (dk_ic d) (dk_system d) 0 (dk_riemann d) _ _ _ _ _ Hs Hl eq_refl Hp Hf) as [s0 [E0 EN]].
      assert (W0 : wf ne s0).
      { rewrite <- (Nat2Z.id ne), <- EN. apply (md_wf _ _ (Solution_made _ _ _ _ _ _ _ _ (fun n Hn => gr_lx _ _ _ (G n Hn)) Hic E0 ltac:(lia) ltac:(pose proof (Solution_Ok _ _ _ _ _ _ _ _ Hic E0) as [nm [ps [s1' [en [K1 [K2 [K3 K4]]]]]]]; cbn [String.eqb] in K3; subst en; rewrite K4; exact I))). }
      destruct (apply_bc_modes ne s0 W0) as [s1 [E1 [_ [W1 _]]]]. destruct (DG_total ne s1 W1) as [dgs Hd].
      unfold setup. rewrite Ho, Hen, Hth. change (0 <? 0)%Z with false. cbv iota. change (Z.to_nat 0) with 0%nat. rewrite E0. cbn [rbind]. rewrite E1. cbn [rbind]. rewrite Hd. cbn [rbind].
      unfold Limiter. rewrite Hlim. cbn [rbind limit]. eauto. }
    destruct HS as [s0 [g [dgs [l HS]]]].
    destruct (sine_setup d t rest ne s0 g dgs l Hs Hp Hne Hsys Ho Hen Hlim HS) as [-> [M [Ha [Hn0 [Hb [Hl [Hr [T0 [Dx [D _]]]]]]]]]].
    destruct (advection_completes g ne s0 dgs (dk_rk d) (dk_cfl d) (dk_finaltime d) (dk_nout d) (md_wf _ _ M) D Ha Hn ltac:(rewrite T0; exact Ht)) as [F [evs [s [E H]]]].
    { rewrite Hb, Dx. cbn [Nat.mul Nat.add INR]. replace (2 / INR ne * dk_cfl d / 1) with (2 * dk_cfl d / INR ne) by (field; apply not_0_INR; lia). exact Hc. }
    exists F, evs, s. split; [exact E|]. intros fuel Hf. unfold run_deck. rewrite HS. apply H. exact Hf.
  Qed.
  (** refinement: any accuracy is reached with enough cells *)
  Theorem sine_limit : forall T eps, 0 < eps -> exists N, forall (d : deck R) t rest ne, (N <= ne)%nat ->
    split_ws (dk_ic d) = "sinewave"%string :: t :: rest -> parse_int t = Some (Z.of_nat ne) -> (1 <= ne)%nat ->
    dk_system d <> "euler"%string -> dk_order d = 0%Z -> dk_enhance d = ""%string -> dk_limiting d <> "adaptive_hr"%string ->
    In (dk_rk d) ["rk3"; "rk4"; "low_storage_rk4"; "rk5"]%string -> dk_cfl d <= 1 -> (2 <= dk_nout d)%Z -> 0 <= dk_finaltime d ->
    forall fuel evs out, run_deck fuel d = (evs, out) ->
    forall s, (exists ev, In ev evs /\ s = ev_sol ev) \/ out = Finished s -> s_t s <= T ->
    forall e, (1 <= e <= ne)%nat -> Rabs (average s e - sin (2 * PI * (centre (-1) (2 / INR ne) e - s_t s))) <= eps.
  Proof.
    intros T eps He. assert (U : forall a, exists N, INR N > a).
    { intro a. exists (Z.to_nat (up a)). destruct (archimed a) as [U _]. rewrite INR_IZR_INZ. destruct (Z_le_gt_dec 0 (up a)) as [Hz|Hz]; [rewrite Z2Nat.id by exact Hz; exact U|].
      replace (Z.to_nat (up a)) with 0%nat by lia. cbn [Z.of_nat]. assert (IZR (up a) <= IZR 0) by (apply IZR_le; lia). lra. }
    destruct (U (4 * (PI * PI) * T / eps)) as [N HN]. exists N.
    intros d t rest ne Hge Hs Hp Hne Hsys Ho Hen Hlim Hk Hc Hn Ht fuel evs out HR s Hst HT e Hee.
    eapply Rle_trans; [exact (sine_converges d t rest ne Hs Hp Hne Hsys Ho Hen Hlim Hk Hc Hn Ht fuel evs out HR s Hst e Hee)|].
    assert (P : 0 < INR ne) by (apply lt_0_INR; lia). apply le_INR in Hge.
    assert (B : 4 * (PI * PI) * T < INR N * eps). { apply (Rmult_lt_compat_r eps) in HN; [|exact He]. replace (4 * (PI * PI) * T / eps * eps) with (4 * (PI * PI) * T) in HN by (field; lra). lra. }
    pose proof PI_RGT_0 as PP. apply (Rmult_le_reg_r (INR ne)); [exact P|]. replace (4 * (PI * PI) * s_t s / INR ne * INR ne) with (4 * (PI * PI) * s_t s) by (field; lra).
    assert (4 * (PI * PI) * s_t s <= 4 * (PI * PI) * T) by (apply Rmult_le_compat_l; [nra|exact HT]). nra.
  Qed.
End Sine.
