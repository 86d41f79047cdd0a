(** Interpolation error of the initial data, and the convergence rate for decks of the sine wave. *)
From Coq Require Import ZArith List Bool Arith String Lia Reals Lra Psatz FunctionalExtensionality.
From Verif Require Import Num Py PyStr Lib RealLib Constants LegNumpy Ext Basis Sensor Enhance Limiting AdvectionPhysics IC Solution Solver RKCoeffs RK IO Deck Main
  SpecDG SpecMonotone SpecTime SpecPoly SpecRK SpecUniform SpecConverge SpecL2 SpecOrder
  ProofsDG ProofsCons ProofsWf ProofsSol ProofsIC ProofsMain ProofsIC2 ProofsPoly ProofsLeg ProofsGauss ProofsBasis ProofsAdv ProofsRun ProofsMonotone ProofsConverge ProofsConverge2
  ProofsL2 ProofsL2Run ProofsRadau ProofsOrder ProofsOrderRun.
Import ListNotations.
Open Scope list_scope.
Open Scope R_scope.

(** * sin(2 pi x) and its derivatives *)
Definition sine_F (k : nat) (x : R) : R := (2 * PI) ^ k * sin (2 * PI * x + INR k * (PI / 2)).
Lemma sine_profile : smooth_profile sine_F sine_B 2.
Proof.
  pose proof PI_RGT_0 as P. split; [|split].
  - intros k x. unfold sine_F. apply (dlim_eq _ _ ((2 * PI) ^ k * (2 * PI * cos (2 * PI * x + INR k * (PI / 2))))).
    + rewrite cos_sin, S_INR. cbn [pow]. replace (PI / 2 + (2 * PI * x + INR k * (PI / 2))) with (2 * PI * x + (INR k + 1) * (PI / 2)) by field. ring.
    + apply dlim_scal. apply (dlim_affine sin). apply derivable_pt_lim_sin.
  - intros k x. unfold sine_F, sine_B. rewrite Rabs_mult, (Rabs_right ((2 * PI) ^ k)) by (apply Rle_ge, pow_le; lra). rewrite <- (Rmult_1_r ((2 * PI) ^ k)) at 2.
    apply Rmult_le_compat_l; [apply pow_le; lra|]. apply Rabs_le. pose proof (SIN_bound (2 * PI * x + INR k * (PI / 2))). lra.
  - intro x. unfold sine_F. cbn [pow INR]. f_equal. replace (2 * PI * (x + 2) + 0 * (PI / 2)) with (2 * PI * x + 0 * (PI / 2) + 2 * INR 2 * PI) by (cbn [INR]; ring). apply sin_period.
Qed.
Lemma sine_F0 x : sine_F 0 x = sin (2 * PI * x).
Proof. unfold sine_F. cbn [pow INR]. rewrite Rmult_1_l. f_equal. ring. Qed.

Section IC.
  Context {X : Ext R}.
  Hypothesis G : gauss_ok.
  Hypothesis FT : legfit_ok.
  (** interpolation at the Gauss nodes *)
  Lemma interp_close p c (g q : R -> R) E : List.length c = (p + 1)%nat -> is_poly p q ->
    (forall i, (i <= p)%nat -> legseries c (at1 (b_x (Basis p)) i) = g (at1 (b_x (Basis p)) i)) ->
    (forall x, -1 <= x <= 1 -> Rabs (g x - q x) <= E) -> forall x, -1 <= x <= 1 -> Rabs (legseries c x - g x) <= (1 + INR (S p) * INR (S p)) * E.
  Proof.
    intros Lc Hq Hi HE x Hx. set (dd := fun x => legseries c x - q x).
    assert (Pd : is_poly p dd) by (apply is_poly_minus; [apply legseries_poly'; lia|exact Hq]).
    destruct (poly_legseries p dd Pd) as [cd [Ld Ed]].
    assert (Hin : forall i, (i <= p)%nat -> -1 <= at1 (b_x (Basis p)) i <= 1) by (intros i Hip; pose proof (gr_in _ _ _ (G_rule G p) i ltac:(lia)) as Q; unfold at1; numR; lra).
    assert (W2 : Rsum (p + 1) (fun i => at1 (b_w (Basis p)) i) = 2).
    { pose proof (G_exact G p (fun _ => 1) 2) as Q. rewrite (Rsum_ext (p + 1) _ (fun i => at1 (b_w (Basis p)) i)) in Q by (intros; ring). apply Q.
      - apply (is_poly_le 0); [lia|]. apply is_poly_const.
      - exists (fun x => x). split; [intro; apply derivable_pt_lim_id|lra]. }
    assert (HE0 : 0 <= E) by (eapply Rle_trans; [apply Rabs_pos|apply (HE 0); lra]).
    assert (Bc : forall n, (n <= p)%nat -> Rabs (nth n cd 0) <= (2 * INR n + 1) * E).
    { intros n Hn. pose proof (G_exact G p (fun y => legseries cd y * LegP n y) _ ltac:(apply (is_poly_le (p + n)); [lia|]; apply is_poly_mult; [apply legseries_poly'; lia|apply LegP_poly]) (nint_series_P cd n)) as Q.
      assert (Q1 : Rabs (nth n cd 0 * (2 / (2 * INR n + 1))) <= 2 * E).
      { rewrite <- Q. eapply Rle_trans; [apply ProofsMonotone.Rsum_abs|]. rewrite <- W2, <- Rsum_scale_r. apply Rsum_le. intros i Hi'.
        pose proof (weight_pos G FT p i ltac:(lia)) as Wp. rewrite Rabs_mult, (Rabs_right (at1 (b_w (Basis p)) i)) by lra. apply Rmult_le_compat_l; [lra|].
        rewrite Rabs_mult, <- (Rmult_1_r E). apply Rmult_le_compat; try apply Rabs_pos; [|apply LegP_bound, Hin; lia].
        rewrite <- Ed. unfold dd. rewrite Hi by lia. apply HE, Hin. lia. }
      pose proof (w_pos n) as Wn. rewrite Rabs_mult, (Rabs_right (2 / (2 * INR n + 1))) in Q1 by (apply Rle_ge, Rlt_le, Rdiv_lt_0_compat; lra).
      apply Rmult_le_reg_r with (2 / (2 * INR n + 1)); [apply Rdiv_lt_0_compat; lra|]. replace ((2 * INR n + 1) * E * (2 / (2 * INR n + 1))) with (2 * E) by (field; lra). exact Q1. }
    assert (Bd : Rabs (dd x) <= INR (S p) * INR (S p) * E).
    { rewrite Ed. unfold legseries. rewrite Ld. eapply Rle_trans; [apply ProofsMonotone.Rsum_abs|]. rewrite <- odd_sum, <- Rsum_scale_r. apply Rsum_le. intros n Hn.
      rewrite Rabs_mult, <- (Rmult_1_r ((2 * INR n + 1) * E)). apply Rmult_le_compat; try apply Rabs_pos; [apply Bc; lia|apply LegP_bound; exact Hx]. }
    replace (legseries c x - g x) with (dd x - (g x - q x)) by (unfold dd; ring). eapply Rle_trans; [apply Rabs_triang|]. rewrite Rabs_Ropp. pose proof (HE x Hx). lra.
  Qed.
  (** all coefficients of a constructed solution *)
  Lemma constructed_interp icline system order riem enh th s g name params ic : split_ws icline = name :: params ->
    ic_lookup (A:=R) name params gamma_default = Ok ic -> ic_succeeds icline system order riem ->
    Solution icline system order riem enh th = Ok (s, g) -> (1 <= s_NE s)%Z ->
    let x := linspace (ic_A ic) (ic_B ic) (Z.to_nat (s_NE s) + 1) in forall e f fc, (1 <= e <= Z.to_nat (s_NE s))%nat -> (f < s_NF s)%nat ->
    (forall x, exists fx, ic_f ic x = Ok fx /\ nth_error fx f = Some (fc x)) ->
    List.length (modes s e f) = (order + 1)%nat /\ forall i, (i <= order)%nat -> legseries (modes s e f) (at1 (b_x (Basis order)) i) = fc (node_at order (at1 x (e - 1)) (at1 x (e - 1 + 1)) i).
  Proof.
    intros Hs Hl Hic H HNE. apply Solution_Ok in H; [|exact Hic]. destruct H as [nm [ps [s1 [en [K1 [K2 [_ K4]]]]]]].
    rewrite Hs in K1. injection K1 as <- <-. apply run_ic_Ok in K2. destruct K2 as [ic' [NE [u [p0 [L1 [_ [_ [L4 [L5 [L6 L7]]]]]]]]]].
    cbn [s_icname s_params blank_solution] in L1. rewrite Hl in L1. apply Ok_inj in L1. subst ic'. unfold ic_state in L4. subst s1.
    assert (EN : s_NE s = Z.of_nat NE) by (subst s; reflexivity). rewrite EN in *. rewrite Nat2Z.id. cbv zeta. set (x := linspace (ic_A ic) (ic_B ic) (NE + 1)) in *.
    intros e f fc He Hf Hfc. assert (ENF : s_NF s = s_NF (blank_solution (A:=R) name params (String.eqb system "euler") (riemann_choice (String.eqb system "euler") riem) order)) by (subst s; reflexivity).
    set (s0 := blank_solution name params (String.eqb system "euler") (riemann_choice (String.eqb system "euler") riem) order) in *.
    destruct (L7 (e - 1)%nat f ltac:(lia) ltac:(rewrite <- ENF; exact Hf)) as [v [P1 P2]].
    destruct (projection_ok G FT order (at1 x (e - 1)) (at1 x (e - 1 + 1)) (ic_f ic) f fc Hfc) as [c [C1 [C2 C3]]].
    change (s_basis s0) with (Basis (A:=R) order) in P1. rewrite C1 in P1. apply Ok_inj in P1. subst v.
    assert (Em : modes s e f = c).
    { unfold modes. replace (s_u s) with (add_ghosts (s_NF s0) u) by (subst s; reflexivity). rewrite ENF.
      rewrite (col_add_ghosts (s_Ns s0) (s_NF s0) NE) by (try exact L6; try lia; rewrite <- ENF; exact Hf). rewrite P2.
      apply (nth_ext _ _ 0 0); [rewrite length_tab, C2; unfold s0; apply blank_Ns|]. intros n Hn. rewrite length_tab in Hn. rewrite nth_tab by exact Hn. reflexivity. }
    rewrite Em. split; [exact C2|exact C3].
  Qed.
  Lemma sine_setup_p (d : deck R) t rest ne p s g dgs l : split_ws (dk_ic d) = "sinewave"%string :: t :: rest -> parse_int t = Some (Z.of_nat ne) -> (1 <= ne)%nat ->
    dk_system d <> "euler"%string -> dk_order d = Z.of_nat p -> dk_enhance d = ""%string -> dk_limiting d <> "adaptive_hr"%string -> setup d = Ok (s, g, dgs, l) ->
    l = None /\ made ne s /\ s_euler s = false /\ s_enh s = None /\ b_p (s_basis s) = p /\ s_bcl s = pylit "periodic" /\ s_bcr s = pylit "periodic" /\
    s_t s = 0 /\ s_dx s = 2 / INR ne /\ wf_dg ne s dgs /\
    forall e, (1 <= e <= ne)%nat -> forall i, (i <= p)%nat -> legseries (modes s e 0) (at1 (b_x (Basis p)) i) = sin (2 * PI * (centre (-1) (2 / INR ne) e + / INR ne * at1 (b_x (Basis p)) i)).
  Proof.
    intros Hs Hp Hne Hsys Ho Hen Hlim H. unfold setup in H. rewrite Ho in H. destruct (Z.ltb_spec (Z.of_nat p) 0) as [Hneg|_]; [lia|]. rewrite Nat2Z.id in H.
    inv_bind H. destruct x as [s0 g0]. inv_bind H. inv_bind H. inv_bind H. inv_bind H. apply Ok_inj in H. injection H as <- <- <- <-.
    rename Hx into H0, x into s1, Hx0 into E1. unfold Limiter in Hx2. apply String.eqb_neq in Hlim. rewrite Hlim in Hx2. apply Ok_inj in Hx2. subst x1.
    cbn [limit] in Hx3. apply Ok_inj in Hx3. subst x2. split; [reflexivity|]. rewrite Hen in H0.
    apply String.eqb_neq in Hsys.
    set (ic := {| ic_A := nofZ (-1); ic_B := n1; ic_bc := "periodic"; ic_gamma := gamma_default; ic_gamma_after := gamma_default; ic_f := f_sinewave |} : ic_spec R).
    assert (Hl : ic_lookup (A:=R) "sinewave" (t :: rest) gamma_default = Ok ic) by reflexivity.
    assert (Hic : ic_succeeds (A:=R) (dk_ic d) (dk_system d) p (dk_riemann d)).
    { eapply ic_ok; [exact Hs|exact Hl|reflexivity|exact Hp|]. rewrite Hsys. cbn. lia. }
    assert (EN : s_NE s0 = Z.of_nat ne /\ s_enh s0 = None /\ s_euler s0 = false /\ s_basis s0 = Basis p).
    { pose proof (Solution_Ok _ _ _ _ _ _ _ _ Hic H0) as [nm [ps [s1' [en [K1 [K2 [K3 K4]]]]]]]. rewrite Hs in K1. injection K1 as <- <-.
      apply run_ic_Ok in K2. destruct K2 as [ic' [NE [u [p0 [L1 [L2 [L3 [L4 _]]]]]]]]. cbn [s_params blank_solution nth_error] in L2. injection L2 as <-. rewrite Hp in L3. injection L3 as L3.
      cbn [String.eqb] in K3. unfold ic_state in L4. subst s1'. rewrite K4. split; [cbn; lia|]. split; [exact K3|]. split; [exact Hsys|reflexivity]. }
    destruct EN as [EN [Een [Eeu Eb]]].
    assert (HNE : (1 <= s_NE s0)%Z) by lia.
    assert (M0 : made ne s0).
    { rewrite <- (Nat2Z.id ne), <- EN. apply (Solution_made _ _ _ _ _ _ _ _ (fun n Hn => gr_lx _ _ _ (G n Hn)) Hic H0 HNE). unfold enh_lengths. rewrite Een. exact I. }
    destruct (constructed_nodes G FT _ _ _ _ _ _ _ _ _ _ _ Hs Hl Hic H0 HNE) as [_ [Edx [Ebl [Ebr [Et _]]]]].
    pose proof (constructed_interp _ _ _ _ _ _ _ _ _ _ _ Hs Hl Hic H0 HNE) as Hm. cbv zeta in Hm.
    rewrite EN, Nat2Z.id in Edx, Hm. cbn [ic_A ic_B ic_bc ic] in Edx, Hm, Ebl, Ebr.
    assert (Edx' : s_dx s0 = 2 / INR ne).
    { rewrite Edx. unfold linspace_step. destruct (Nat.leb_spec (ne + 1) 1); [lia|]. numR. rewrite INR_IZR_INZ. replace (ne + 1 - 1)%nat with ne by lia. f_equal. lra. }
    pose proof (md_wf _ _ M0) as W0. pose proof (wf_bc _ _ _ W0 E1) as W1. pose proof (similar_bc _ _ E1) as S1. pose proof (made_similar _ _ _ M0 S1 W1) as M1.
    split; [exact M1|].
    destruct (apply_bc_modes ne s0 W0) as [s1' [E1' [S1' [_ Mo]]]]. rewrite E1 in E1'. apply Ok_inj in E1'. subst s1'.
    pose proof (apply_bc_eq ne s0 W0) as Eu. rewrite E1 in Eu. apply Ok_inj in Eu. subst s1. cbn [with_u s_euler s_enh s_basis s_bcl s_bcr s_t s_dx].
    split; [exact Eeu|]. split; [exact Een|]. split; [rewrite Eb; apply b_p_Basis'|]. split; [exact Ebl|]. split; [exact Ebr|]. split; [exact Et|]. split; [exact Edx'|].
    split; [exact (DG_wf _ _ _ W1 Hx1)|].
    intros e He i Hi. assert (NF : s_NF s0 = 1%nat) by (unfold s_NF; rewrite Eeu; reflexivity).
    rewrite Mo by lia. rewrite src_cell_interior by lia.
    destruct (Hm e 0%nat (fun x => sin (2 * PI * x)) He ltac:(lia)) as [_ Hv].
    { intro x. eexists. split; [reflexivity|]. reflexivity. }
    rewrite (Hv i Hi). unfold node_at. numR. rewrite !at1_linspace by lia. replace (e - 1 + 1)%nat with e by lia. rewrite minus_INR by lia. cbn [INR]. unfold centre.
    assert (0 < INR ne) by (apply lt_0_INR; lia). do 2 f_equal. field. lra.
  Qed.
  (** pointwise error of the initial data *)
  Lemma sine_initial ne p s : (1 <= ne)%nat -> wf ne s -> s_NF s = 1%nat -> s_Ns s = (p + 1)%nat -> (forall e, (1 <= e <= ne)%nat -> forall i, (i <= p)%nat -> legseries (modes s e 0) (at1 (b_x (Basis p)) i) = sin (2 * PI * (centre (-1) (2 / INR ne) e + / INR ne * at1 (b_x (Basis p)) i))) ->
    forall e x, (1 <= e <= ne)%nat -> -1 <= x <= 1 -> Rabs (legseries (modes s e 0) x - sine_F 0 (centre (-1) (2 / INR ne) e + / INR ne * x)) <= interp_size p (/ INR ne) sine_B.
  Proof.
    intros Hne W NF Ns H e x He Hx. destruct sine_profile as [HF [HB _]]. assert (Hn : 0 < INR ne) by (apply lt_0_INR; lia). set (h := 2 / INR ne) in *.
    assert (Hh : 0 < h) by (apply Rdiv_lt_0_compat; lra). assert (Eh : h / 2 = / INR ne) by (unfold h; field; lra).
    apply (interp_close p (modes s e 0) (fun y => sine_F 0 (centre (-1) h e + / INR ne * y)) (near p h (-1) sine_F 0 e 0 1)).
    - rewrite (length_modes ne s e 0 W). exact Ns.
    - apply near_poly.
    - intros i Hi. rewrite H by assumption. rewrite sine_F0. reflexivity.
    - intros y Hy. pose proof (near_close p h (-1) Hh sine_F sine_B HF HB 0 e 0 1 y ltac:(apply Rabs_R1) Hy) as Q. cbn [clin cellg cnear cf] in Q.
      unfold cellx in Q. rewrite Rminus_0_r, Eh in Q. unfold cap in Q. rewrite Eh in Q. unfold taylor_size.
      replace (sine_F 0 (centre (-1) h e + / INR ne * y) - near p h (-1) sine_F 0 e 0 1 y) with (1 * sine_F 0 (centre (-1) h e + / INR ne * y) + -1 * near p h (-1) sine_F 0 e 0 1 y) by ring. exact Q.
    - exact Hx.
  Qed.
  (** explicit error of a run *)
  Definition all_size (B : nat -> R) (p ne : nat) (t : R) : R :=
    sqrt 2 * (interp_size p (/ INR ne) B + 2 * proj_size p (/ INR ne) B + t * sqrt (INR (S p)) * trunc_size p (/ INR ne) B).
  Theorem sine_order (d : deck R) t rest ne p : split_ws (dk_ic d) = "sinewave"%string :: t :: rest -> parse_int t = Some (Z.of_nat ne) -> (1 <= ne)%nat ->
    dk_system d <> "euler"%string -> dk_order d = Z.of_nat p -> dk_enhance d = ""%string -> dk_limiting d <> "adaptive_hr"%string ->
    dk_rk d = "rk3"%string -> dk_cfl d <= cfl_max p -> (2 <= dk_nout d)%Z -> 0 <= dk_finaltime d ->
    forall fuel evs out, run_deck fuel d = (evs, out) ->
    forall s, (exists ev, In ev evs /\ s = ev_sol ev) \/ out = Finished s ->
    0 <= s_t s /\ exists E, l2err ne (-1) s (fun x => sin (2 * PI * (x - s_t s))) E /\ sqrt E <= all_size sine_B p ne (s_t s).
  Proof.
    intros Hs Hp Hne Hsys Ho Hen Hlim Hk Hc Hn Ht fuel evs out HR s Hst.
    unfold run_deck in HR. destruct (setup d) as [[[[s0 g] dgs] l]|ex] eqn:HS.
    2:{ injection HR as <- <-. destruct Hst as [[ev [[] _]]|HF]; discriminate HF. }
    destruct (sine_setup_p d t rest ne p s0 g dgs l Hs Hp Hne Hsys Ho Hen Hlim HS) as [-> [M [Ha [Hn0 [Hb [Hl [Hr [T0 [Dx [D Iv]]]]]]]]]].
    assert (P : 0 < INR ne) by (apply lt_0_INR; lia).
    assert (EL : INR ne * s_dx s0 = 2) by (rewrite Dx; field; lra).
    assert (Eh : s_dx s0 / 2 = / INR ne) by (rewrite Dx; field; lra).
    assert (SP : smooth_profile sine_F sine_B (INR ne * s_dx s0)) by (rewrite EL; exact sine_profile).
    assert (Bl : is_literal (s_bcl s0) "periodic" = true) by (rewrite Hl; reflexivity).
    assert (W00 : Wf ne s0 s0) by (split; [apply M|apply similar_refl]).
    set (E0 := tot ne (s_dx s0) (cerr ne s0 sine_F sine_B (-1) SP s0 0)).
    assert (H0 : l2err ne (-1) s0 (sine_F 0) E0).
    { pose proof (err_is ne s0 M Ha sine_F sine_B (-1) SP s0 0 W00) as Q. replace (sine_F 0) with (fun x => sine_F 0 (x - 0)) by (apply functional_extensionality; intro x; rewrite Rminus_0_r; reflexivity). exact Q. }
    assert (B0 : sqrt E0 <= sqrt 2 * interp_size p (/ INR ne) sine_B).
    { rewrite <- EL. apply tot_flat; [apply M| |exact Hne]. intros e x Hee Hx.
      pose proof (sine_initial ne p s0 Hne (md_wf _ _ M) (adv_NF s0 Ha) ltac:(unfold s_Ns, b_Ns; rewrite Hb; reflexivity) Iv e x Hee Hx) as Q.
      cbn [cerr clin csol cser cwave cellg cf]. destruct (cell_modes ne s0 M Ha s0 e W00 Hee) as [Lm Em].
      unfold legseries in Q. rewrite Lm in Q. unfold s_Ns, b_Ns in Q. rewrite Nat.add_1_r in Q.
      rewrite (Rsum_ext _ (fun i => nth i (modes s0 e 0) 0 * LegP i x) (fun n => at2 (s_u s0) n e * LegP n x)) in Q by (intros n Hn'; rewrite Em by (unfold s_Ns, b_Ns; lia); reflexivity).
      unfold cellx. rewrite Rminus_0_r, Eh, Dx.
      match goal with |- Rabs (?a + -1 * (1 * ?b)) <= _ => replace (a + -1 * (1 * b)) with (a - b) by ring end. exact Q. }
    rewrite Hk in HR.
    destruct (run_error G ne s0 M Ha Hn0 Bl sine_F sine_B (-1) SP g dgs (dk_cfl d) (dk_finaltime d) (dk_nout d) D Hn ltac:(rewrite T0; exact Ht) ltac:(unfold s_Ns, b_Ns; rewrite Hb; apply cfl_max_le; exact Hc) fuel evs out HR E0 H0 s Hst) as [Lt [E [HE Q]]].
    split; [lra|]. exists E. rewrite T0, Rminus_0_r in HE, Q. split.
    - replace (fun x => sin (2 * PI * (x - s_t s))) with (fun x => sine_F 0 (x - s_t s)) by (apply functional_extensionality; intro x; apply sine_F0). exact HE.
    - rewrite EL, Eh, Hb in Q. unfold all_size. rewrite !Rmult_plus_distr_l in *. lra.
  Qed.
  (** the rate: between first and third order *)
  Lemma pow_le_min r n m : 0 <= r <= 1 -> (m <= n)%nat -> r ^ n <= r ^ m.
  Proof.
    intros Hr H. replace n with (m + (n - m))%nat by lia. rewrite pow_add. rewrite <- (Rmult_1_r (r ^ m)) at 2. apply Rmult_le_compat_l; [apply pow_le; lra|].
    rewrite <- (pow1 (n - m)). apply pow_incr. exact Hr.
  Qed.
  Lemma size_rate (B : nat -> R) p ne t : (forall k, 0 <= B k) -> (1 <= ne)%nat -> 0 <= t -> all_size B p ne t <= rate_of B p * (1 + t) * (/ INR ne) ^ Nat.min (S p) 3.
  Proof.
    intros PB Hne Ht. unfold all_size. assert (Hr : 0 <= / INR ne <= 1).
    { split; [apply Rlt_le, Rinv_0_lt_compat, lt_0_INR; lia|]. rewrite <- Rinv_1. apply Rinv_le_contravar; [lra|]. apply (le_INR 1). exact Hne. }
    set (r := / INR ne) in *. clearbody r. set (m := Nat.min (S p) 3). set (w := r ^ m). assert (Hw : 0 <= w) by (apply pow_le; lra).
    assert (T1 : forall k, 0 <= taylor_size p 1 B k).
    { intro k. unfold taylor_size. apply Rmult_le_pos; [apply PB|]. apply Rmult_le_pos; [apply pow_le; lra|apply Rlt_le, Rinv_0_lt_compat, INR_fact_lt_0]. }
    assert (Tr : forall k, taylor_size p r B k <= taylor_size p 1 B k * w).
    { intro k. unfold taylor_size. rewrite pow1, Rmult_assoc. apply Rmult_le_compat_l; [apply PB|]. unfold Rdiv. rewrite Rmult_1_l, Rmult_comm. apply Rmult_le_compat_l; [apply Rlt_le, Rinv_0_lt_compat, INR_fact_lt_0|].
      apply pow_le_min; [exact Hr|unfold m; lia]. }
    assert (T0 : forall k, 0 <= taylor_size p r B k).
    { intro k. unfold taylor_size. apply Rmult_le_pos; [apply PB|]. apply Rmult_le_pos; [apply pow_le; lra|apply Rlt_le, Rinv_0_lt_compat, INR_fact_lt_0]. }
    assert (K1 : 0 <= 1 + INR (S p) * INR (S p)) by (pose proof (pos_INR (S p)); nra).
    assert (K2 : 0 <= 1 + INR (S p) * (1 + INR (S p) * INR (S p))) by (pose proof (pos_INR (S p)); nra).
    assert (I1 : interp_size p r B <= interp_size p 1 B * w) by (unfold interp_size; rewrite Rmult_assoc; apply Rmult_le_compat_l; [exact K1|apply Tr]).
    assert (I2 : proj_size p r B <= proj_size p 1 B * w) by (unfold proj_size; rewrite Rmult_assoc; apply Rmult_le_compat_l; [exact K2|apply Tr]).
    assert (I3 : trunc_size p r B <= trunc_size p 1 B * w).
    { unfold trunc_size. rewrite (Rmult_assoc (1 + INR (S p) * INR (S p)) _ w). apply Rmult_le_compat_l; [exact K1|].
      pose proof (Tr 1%nat). pose proof (Tr 2%nat) as Q2. pose proof (Tr 3%nat) as Q3. pose proof (T0 2%nat) as P2. pose proof (T0 3%nat) as P3.
      assert (R3 : r ^ 3 <= w) by (apply pow_le_min; [exact Hr|unfold m; lia]). pose proof (PB 4%nat) as P4.
      assert (A2 : 2 / 3 * r * taylor_size p r B 2 <= 2 / 3 * 1 * (taylor_size p 1 B 2 * w)) by (apply Rmult_le_compat; lra).
      assert (A3 : / 6 * (r * r) * taylor_size p r B 3 <= / 6 * (1 * 1) * (taylor_size p 1 B 3 * w)) by (apply Rmult_le_compat; try lra; [apply Rmult_le_pos; [lra|nra]|apply Rmult_le_compat_l; [lra|nra]]).
      assert (A4 : B 4%nat * (r ^ 3 / 24) <= B 4%nat * (w / 24)) by (apply Rmult_le_compat_l; [lra|apply Rmult_le_compat_r; lra]).
      rewrite pow1. lra. }
    assert (J1 : 0 <= interp_size p 1 B) by (apply Rmult_le_pos; [exact K1|apply T1]). assert (J2 : 0 <= proj_size p 1 B) by (apply Rmult_le_pos; [exact K2|apply T1]).
    assert (J3 : 0 <= trunc_size p 1 B).
    { apply Rmult_le_pos; [exact K1|]. pose proof (T1 1%nat). pose proof (T1 2%nat). pose proof (T1 3%nat). pose proof (PB 4%nat). rewrite pow1. lra. }
    unfold rate_of. pose proof (sqrt_pos 2) as S2. pose proof (sqrt_pos (INR (S p))) as SP. rewrite !Rmult_assoc. apply Rmult_le_compat_l; [exact S2|].
    set (i1 := interp_size p 1 B) in *. set (i2 := proj_size p 1 B) in *. set (i3 := trunc_size p 1 B) in *. set (q := sqrt (INR (S p))) in *.
    assert (A5 : t * (q * trunc_size p r B) <= t * (q * (i3 * w))) by (apply Rmult_le_compat_l; [exact Ht|]; apply Rmult_le_compat_l; [exact SP|exact I3]).
    clearbody i1 i2 i3 q w. apply Rle_trans with (i1 * w + 2 * (i2 * w) + t * (q * (i3 * w))); [clear - I1 I2 A5; lra|].
    assert (0 <= t * (i1 * w)) by (apply Rmult_le_pos; [exact Ht|apply Rmult_le_pos; assumption]). assert (0 <= t * (i2 * w)) by (apply Rmult_le_pos; [exact Ht|apply Rmult_le_pos; assumption]).
    assert (0 <= q * (i3 * w)) by (apply Rmult_le_pos; [exact SP|apply Rmult_le_pos; assumption]).
    replace ((i1 + (2 * i2 + q * i3)) * ((1 + t) * w)) with (i1 * w + 2 * (i2 * w) + t * (q * (i3 * w)) + (t * (i1 * w) + 2 * (t * (i2 * w)) + q * (i3 * w))) by ring. lra.
  Qed.
  (** such decks run to the end *)
  Theorem sine_completes_p (d : deck R) t rest ne p : split_ws (dk_ic d) = "sinewave"%string :: t :: rest -> parse_int t = Some (Z.of_nat ne) -> (1 <= ne)%nat ->
    dk_system d <> "euler"%string -> dk_order d = Z.of_nat p -> dk_enhance d = ""%string -> dk_thresholds d = [] -> dk_limiting d <> "adaptive_hr"%string ->
    1 / 100000000000000 <= 2 / INR ne * dk_cfl d / INR (2 * p + 1) -> (2 <= dk_nout d)%Z -> 0 <= dk_finaltime d ->
    exists F evs s, s_t s = dk_finaltime d /\ forall fuel, (F <= fuel)%nat -> run_deck fuel d = (evs, Finished s).
  Proof.
    intros Hs Hp Hne Hsys Ho Hen Hth Hlim Hc Hn Ht.
    assert (HS : exists s g dgs l, setup d = Ok (s, g, dgs, l)).
    { assert (Hl : exists ic, ic_lookup (A:=R) "sinewave" (t :: rest) gamma_default = Ok ic) by (eexists; reflexivity). destruct Hl as [ic Hl].
      apply String.eqb_neq in Hsys. apply String.eqb_neq in Hlim.
      assert (Hf : ((if String.eqb (dk_system d) "euler" then 3 else 1) <= ic_fields "sinewave")%nat) by (rewrite Hsys; cbn; lia).
      pose proof (ic_ok (dk_ic d) (dk_system d) p (dk_riemann d) _ _ _ _ _ Hs Hl eq_refl Hp Hf) as Hic.
      destruct (Solution_ok (dk_ic d) (dk_system d) p (dk_riemann d) _ _ _ _ _ Hs Hl eq_refl Hp Hf) as [s0 [E0 EN]].
      assert (W0 : wf ne s0).
      { rewrite <- (Nat2Z.id ne), <- EN. apply (md_wf _ _ (Solution_made _ _ _ _ _ _ _ _ (fun n Hn => gr_lx _ _ _ (G n Hn)) Hic E0 ltac:(lia) ltac:(pose proof (Solution_Ok _ _ _ _ _ _ _ _ Hic E0) as [nm [ps [s1' [en [K1 [K2 [K3 K4]]]]]]]; cbn [String.eqb] in K3; subst en; rewrite K4; exact I))). }
      destruct (apply_bc_modes ne s0 W0) as [s1 [E1 [_ [W1 _]]]]. destruct (DG_total ne s1 W1) as [dgs Hd].
      unfold setup. rewrite Ho, Hen, Hth. destruct (Z.ltb_spec (Z.of_nat p) 0) as [Hneg|_]; [lia|]. rewrite Nat2Z.id. rewrite E0. cbn [rbind]. rewrite E1. cbn [rbind]. rewrite Hd. cbn [rbind].
      unfold Limiter. rewrite Hlim. cbn [rbind limit]. eauto. }
    destruct HS as [s0 [g [dgs [l HS]]]].
    destruct (sine_setup_p d t rest ne p s0 g dgs l Hs Hp Hne Hsys Ho Hen Hlim HS) as [-> [M [Ha [Hn0 [Hb [Hl [Hr [T0 [Dx [D _]]]]]]]]]].
    destruct (advection_completes g ne s0 dgs (dk_rk d) (dk_cfl d) (dk_finaltime d) (dk_nout d) (md_wf _ _ M) D Ha Hn ltac:(rewrite T0; exact Ht)) as [F [evs [s [E H]]]].
    { rewrite Hb, Dx. exact Hc. }
    exists F, evs, s. split; [exact E|]. intros fuel Hf. unfold run_deck. rewrite HS. apply H. exact Hf.
  Qed.
End IC.
