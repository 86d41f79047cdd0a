(** Decks of the entropy wave: initial data, size of the dip below the profile, convergence rate and completion. *)
From Coq Require Import ZArith List Bool Arith String Lia Reals Lra Psatz FunctionalExtensionality.
From Verif Require Import Num Py PyStr Lib RealLib Constants LegNumpy Ext Basis Sensor Enhance Limiting EulerPhysics AdvectionPhysics IC Solution Solver RKCoeffs RK IO Deck Main
  SpecDG SpecMonotone SpecTime SpecPoly SpecRK SpecUniform SpecConverge SpecEuler SpecContact SpecL2 SpecOrder
  ProofsDG ProofsCons ProofsWf ProofsSol ProofsIC ProofsMain ProofsIC2 ProofsPoly ProofsLeg ProofsGauss ProofsBasis ProofsAdv ProofsRun ProofsMonotone ProofsConverge ProofsConverge2
  ProofsTime ProofsLimRun ProofsUniform ProofsContact ProofsEntropy ProofsL2 ProofsL2Run ProofsRadau ProofsOrder ProofsOrderRun ProofsOrderIC ProofsWave ProofsWaveRun.
Import ListNotations.
Open Scope list_scope.
Open Scope R_scope.

(** * 1 + sin(pi x) / 5 and its derivatives *)
Definition entropy_F (k : nat) (x : R) : R := match k with O => 1 + / 5 * sin (PI * x) | S _ => / 5 * (PI ^ k * sin (PI * x + INR k * (PI / 2))) end.
Lemma entropy_profile : smooth_profile entropy_F entropy_B 2.
Proof.
  pose proof PI_RGT_0 as P.
  assert (D : forall k x, derivable_pt_lim (fun x => PI ^ k * sin (PI * x + INR k * (PI / 2))) x (PI ^ S k * sin (PI * x + INR (S k) * (PI / 2)))).
  { intros k x. apply (dlim_eq _ _ (PI ^ k * (PI * cos (PI * x + INR k * (PI / 2))))).
    - rewrite cos_sin, S_INR. cbn [pow]. replace (PI / 2 + (PI * x + INR k * (PI / 2))) with (PI * x + (INR k + 1) * (PI / 2)) by field. ring.
    - apply dlim_scal. apply (dlim_affine sin). apply derivable_pt_lim_sin. }
  split; [|split].
  - intros k x. destruct k.
    + cbn [entropy_F]. apply (dlim_eq _ _ (0 + / 5 * (PI ^ 1 * sin (PI * x + INR 1 * (PI / 2))))); [ring|]. apply derivable_pt_lim_plus; [apply derivable_pt_lim_const|]. apply dlim_scal.
      assert (E : (fun x : R => sin (PI * x)) = (fun x => PI ^ 0 * sin (PI * x + INR 0 * (PI / 2)))) by (apply functional_extensionality; intro y; cbn [pow INR]; rewrite Rmult_1_l; f_equal; ring). rewrite E. apply D.
    + cbn [entropy_F]. apply dlim_scal. apply D.
  - intros k x. destruct k.
    + cbn [entropy_F entropy_B]. apply Rabs_le. pose proof (SIN_bound (PI * x)). lra.
    + unfold entropy_F, entropy_B. rewrite Rabs_mult, (Rabs_right (/ 5)) by lra. apply Rmult_le_compat_l; [lra|]. rewrite Rabs_mult, (Rabs_right (PI ^ S k)) by (apply Rle_ge, pow_le; lra).
      rewrite <- (Rmult_1_r (PI ^ S k)) at 2. apply Rmult_le_compat_l; [apply pow_le; lra|]. apply Rabs_le. pose proof (SIN_bound (PI * x + INR (S k) * (PI / 2))). lra.
  - intro x. cbn [entropy_F]. f_equal. f_equal. replace (PI * (x + 2)) with (PI * x + 2 * INR 1 * PI) by (cbn [INR]; ring). apply sin_period.
Qed.
Lemma entropy_low x : 4 / 5 <= entropy_F 0 x.
Proof. cbn [entropy_F]. pose proof (SIN_bound (PI * x)). lra. Qed.
Lemma entropy_B_pos k : 0 <= entropy_B k.
Proof. destruct k; cbn [entropy_B]; [lra|]. apply Rmult_le_pos; [lra|]. apply pow_le. pose proof PI_RGT_0. lra. Qed.

(** * sizes shrink with the cells *)
Section Sizes.
  Variable B : nat -> R.
  Hypothesis PB : forall k, 0 <= B k.
  Variables (p : nat) (r : R).
  Hypothesis Hr : 0 <= r <= 1.
  Lemma taylor_pos q k : 0 <= q -> 0 <= taylor_size p q B k.
  Proof. intro Hq. unfold taylor_size. apply Rmult_le_pos; [apply PB|]. apply Rmult_le_pos; [apply pow_le; exact Hq|apply Rlt_le, Rinv_0_lt_compat, INR_fact_lt_0]. Qed.
  Lemma taylor_shrinks k : taylor_size p r B k <= taylor_size p 1 B k * r.
  Proof.
    unfold taylor_size. rewrite pow1, Rmult_assoc. apply Rmult_le_compat_l; [apply PB|]. unfold Rdiv. rewrite Rmult_1_l, Rmult_comm. apply Rmult_le_compat_l; [apply Rlt_le, Rinv_0_lt_compat, INR_fact_lt_0|].
    rewrite <- (pow_1 r) at 2. apply pow_le_min; [exact Hr|lia].
  Qed.
  Let K1 : 0 <= 1 + INR (S p) * INR (S p). Proof. pose proof (pos_INR (S p)); nra. Qed.
  Let K2 : 0 <= 1 + INR (S p) * (1 + INR (S p) * INR (S p)). Proof. pose proof (pos_INR (S p)); nra. Qed.
  Lemma interp_shrinks : interp_size p r B <= interp_size p 1 B * r.
  Proof. unfold interp_size; rewrite Rmult_assoc; apply Rmult_le_compat_l; [exact K1|apply taylor_shrinks]. Qed.
  Lemma proj_shrinks : proj_size p r B <= proj_size p 1 B * r.
  Proof. unfold proj_size; rewrite Rmult_assoc; apply Rmult_le_compat_l; [exact K2|apply taylor_shrinks]. Qed.
  Lemma interp_pos q : 0 <= q -> 0 <= interp_size p q B.
  Proof. intro. apply Rmult_le_pos; [exact K1|apply taylor_pos; assumption]. Qed.
  Lemma proj_pos q : 0 <= q -> 0 <= proj_size p q B.
  Proof. intro. apply Rmult_le_pos; [exact K2|apply taylor_pos; assumption]. Qed.
  Lemma trunc_pos q : 0 <= q -> 0 <= trunc_size p q B.
  Proof.
    intro Hq. apply Rmult_le_pos; [exact K1|]. pose proof (taylor_pos q 1 Hq). pose proof (taylor_pos q 2 Hq). pose proof (taylor_pos q 3 Hq). pose proof (PB 4%nat).
    assert (0 <= 2 / 3 * q * taylor_size p q B 2) by (apply Rmult_le_pos; [lra|assumption]). assert (0 <= / 6 * (q * q) * taylor_size p q B 3) by (apply Rmult_le_pos; [nra|assumption]).
    assert (0 <= B 4%nat * (q ^ 3 / 24)) by (apply Rmult_le_pos; [assumption|]; pose proof (pow_le q 3 Hq); lra). lra.
  Qed.
  Lemma trunc_shrinks : trunc_size p r B <= trunc_size p 1 B * r.
  Proof.
    unfold trunc_size. rewrite (Rmult_assoc (1 + INR (S p) * INR (S p)) _ r). apply Rmult_le_compat_l; [exact K1|].
    pose proof (taylor_shrinks 1) as Q1. pose proof (taylor_shrinks 2) as Q2. pose proof (taylor_shrinks 3) as Q3. pose proof (taylor_pos r 2 ltac:(lra)) as P2. pose proof (taylor_pos r 3 ltac:(lra)) as P3.
    assert (R3 : r ^ 3 <= r) by (rewrite <- (pow_1 r) at 2; apply pow_le_min; [exact Hr|lia]). pose proof (PB 4%nat) as P4.
    assert (A2 : 2 / 3 * r * taylor_size p r B 2 <= 2 / 3 * 1 * (taylor_size p 1 B 2 * r)) by (apply Rmult_le_compat; lra).
    assert (A3 : / 6 * (r * r) * taylor_size p r B 3 <= / 6 * (1 * 1) * (taylor_size p 1 B 3 * r)) by (apply Rmult_le_compat; try lra; [apply Rmult_le_pos; [lra|nra]|apply Rmult_le_compat_l; [lra|nra]]).
    assert (A4 : B 4%nat * (r ^ 3 / 24) <= B 4%nat * (r / 24)) by (apply Rmult_le_compat_l; [lra|apply Rmult_le_compat_r; lra]).
    rewrite pow1. lra.
  Qed.
End Sizes.
Lemma sag_le p ne r B Y Y' : Y <= Y' -> sag_size p ne r B Y <= sag_size p ne r B Y'.
Proof. intro H. unfold sag_size. apply Rplus_le_compat_l. apply Rmult_le_compat_l; [apply pos_INR|]. lra. Qed.
Lemma gap_rate p ne T : (1 <= ne)%nat -> 0 <= T -> entropy_gap p ne T <= gap_const p * (1 + T) / sqrt (INR ne).
Proof.
  intros Hne HT. assert (Hn : 1 <= INR ne) by (apply (le_INR 1); exact Hne). set (y := sqrt (INR ne)). assert (Hy : 1 <= y) by (unfold y; rewrite <- sqrt_1; apply sqrt_le_1_alt; exact Hn).
  assert (Ey : INR ne = y * y) by (unfold y; symmetry; apply sqrt_sqrt; lra).
  set (r := / INR ne). set (z := / y). assert (Hz : 0 < z <= 1) by (split; [apply Rinv_0_lt_compat; lra|unfold z; rewrite <- Rinv_1; apply Rinv_le_contravar; lra]).
  assert (Er : r = z * z) by (unfold r, z; rewrite Ey; field; lra). assert (Yr : y * r = z) by (rewrite Er; unfold z; field; lra).
  assert (Hr : 0 <= r <= 1) by (rewrite Er; split; nra). assert (Rz : r <= z) by (rewrite Er; nra).
  pose proof entropy_B_pos as PB. unfold entropy_gap, sag_size, gap_const. fold r y. rewrite (sqrt_mult_alt (INR ne)) by lra. fold y.
  set (q := sqrt (INR (S p))). assert (Hq : 0 <= q) by apply sqrt_pos. set (N := INR (S p)). assert (HN : 0 <= N) by apply pos_INR.
  pose proof (interp_shrinks _ PB p r Hr) as I1. pose proof (proj_shrinks _ PB p r Hr) as I2. pose proof (trunc_shrinks _ PB p r Hr) as I3.
  pose proof (interp_pos _ PB p 1 ltac:(lra)) as J1. pose proof (proj_pos _ PB p 1 ltac:(lra)) as J2. pose proof (trunc_pos _ PB p 1 ltac:(lra)) as J3.
  pose proof (taylor_shrinks _ PB p r Hr 1) as T1. pose proof (taylor_shrinks _ PB p r Hr 2) as T2. pose proof (taylor_pos _ PB p 1 1 ltac:(lra)) as U1. pose proof (taylor_pos _ PB p 1 2 ltac:(lra)) as U2.
  pose proof (taylor_pos _ PB p r 1 ltac:(lra)) as V1. pose proof (taylor_pos _ PB p r 2 ltac:(lra)) as V2.
  pose proof (PB 1%nat) as B1. pose proof (PB 2%nat) as B2.
  set (i1 := interp_size p 1 entropy_B) in *. set (i2 := proj_size p 1 entropy_B) in *. set (i3 := trunc_size p 1 entropy_B) in *. set (b1 := entropy_B 1) in *. set (b2 := entropy_B 2) in *.
  set (t1 := taylor_size p 1 entropy_B 1) in *. set (t2 := taylor_size p 1 entropy_B 2) in *. set (s1 := taylor_size p r entropy_B 1) in *. set (s2 := taylor_size p r entropy_B 2) in *.
  set (a1 := interp_size p r entropy_B) in *. set (a2 := proj_size p r entropy_B) in *. set (a3 := trunc_size p r entropy_B) in *.
  clearbody i1 i2 i3 b1 b2 t1 t2 s1 s2 a1 a2 a3 q N. unfold Rdiv. fold z. clearbody r z y. clear PB Ey Hn.
  assert (S1 : s1 <= t1) by nra. assert (S2 : s2 <= t2) by nra.
  assert (E1 : a2 <= i2 * z) by (eapply Rle_trans; [exact I2|apply Rmult_le_compat_l; assumption]).
  assert (E2 : y * (a1 + a2 + T * q * a3) <= (i1 + i2 + q * i3) * (1 + T) * z).
  { apply Rle_trans with (y * ((i1 + i2 + T * q * i3) * r)).
    - apply Rmult_le_compat_l; [lra|]. assert (T * q * a3 <= T * q * (i3 * r)) by (apply Rmult_le_compat_l; [apply Rmult_le_pos; assumption|exact I3]). lra.
    - replace (y * ((i1 + i2 + T * q * i3) * r)) with ((i1 + i2 + T * q * i3) * (y * r)) by ring. rewrite Yr. apply Rmult_le_compat_r; [lra|]. assert (0 <= q * i3) by (apply Rmult_le_pos; assumption). assert (0 <= T * (i1 + i2)) by (apply Rmult_le_pos; lra). lra. }
  assert (E3 : r * (b1 + s1) <= (b1 + t1) * z) by (apply Rle_trans with (r * (b1 + t1)); [apply Rmult_le_compat_l; lra|rewrite Rmult_comm; apply Rmult_le_compat_l; lra]).
  assert (E4 : r * r * (b2 + s2) <= (b2 + t2) * z).
  { assert (r * r <= z) by nra. apply Rle_trans with (z * (b2 + s2)); [apply Rmult_le_compat_r; lra|]. rewrite Rmult_comm. apply Rmult_le_compat_r; lra. }
  assert (E5 : r * (y * q * s1) <= q * t1 * z).
  { replace (r * (y * q * s1)) with (y * r * (q * s1)) by ring. rewrite Yr, Rmult_comm. apply Rmult_le_compat_r; [lra|]. apply Rmult_le_compat_l; assumption. }
  set (U := b1 + t1 + (b2 + t2) + q * t1). assert (HU : 0 <= U) by (unfold U; assert (0 <= q * t1) by (apply Rmult_le_pos; assumption); lra).
  assert (E6 : (1 + N * N) * (r * (b1 + s1) + r * r * (b2 + s2) + r * (y * q * s1)) <= (1 + N * N) * U * z).
  { rewrite (Rmult_assoc (1 + N * N) U z). apply Rmult_le_compat_l; [nra|]. unfold U. lra. }
  set (W := (1 + N * N) * U) in *. assert (HW : 0 <= W) by (apply Rmult_le_pos; [nra|exact HU]). assert (Tz : 0 <= T * z) by (apply Rmult_le_pos; lra).
  assert (E7 : W * z <= W * ((1 + T) * z)) by (apply Rmult_le_compat_l; [exact HW|lra]).
  assert (E8 : i2 * z <= i2 * ((1 + T) * z)) by (apply Rmult_le_compat_l; [exact J2|lra]).
  replace ((i2 + N * (3 * (i1 + i2 + q * i3) + W)) * (1 + T) * z) with (i2 * ((1 + T) * z) + N * (3 * ((i1 + i2 + q * i3) * (1 + T) * z) + W * ((1 + T) * z))) by ring.
  apply Rplus_le_compat; [lra|]. apply Rmult_le_compat_l; [exact HN|]. lra.
Qed.

Section IC.
  Context {X : Ext R}.
  Hypothesis G : gauss_ok.
  Hypothesis FT : legfit_ok.
  Lemma nodes_unique p f g : is_poly p f -> is_poly p g -> (forall i, (i <= p)%nat -> f (at1 (b_x (Basis p)) i) = g (at1 (b_x (Basis p)) i)) -> forall x, f x = g x.
  Proof.
    intros Hf Hg H. apply (poly_eq_nodes p f g (b_x (Basis p)) Hf Hg (gr_nodup _ _ _ (G_rule G p))); [rewrite (G_len G); lia|].
    intros x Hx. apply (In_nth _ _ 0) in Hx. destruct Hx as [i [Hi <-]]. rewrite (G_len G) in Hi. apply (H i). lia.
  Qed.
  Definition node_x (p ne e i : nat) : R := centre (-1) (2 / INR ne) e + / INR ne * at1 (b_x (Basis p)) i.
  Lemma entropy_setup (d : deck R) t rest ne p s g dgs l : split_ws (dk_ic d) = "entrpyw"%string :: t :: rest -> parse_int t = Some (Z.of_nat ne) -> (1 <= ne)%nat ->
    dk_system d = "euler"%string -> dk_riemann d <> "rusanov"%string -> dk_order d = Z.of_nat p -> dk_enhance d = ""%string -> dk_limiting d <> "adaptive_hr"%string -> setup d = Ok (s, g, dgs, l) ->
    l = None /\ g = 14 / 10 /\ made ne s /\ s_euler s = true /\ (s_riemann s = RRoe \/ s_riemann s = RGodunov) /\ s_enh s = None /\ b_p (s_basis s) = p /\ s_bcl s = pylit "periodic" /\ s_bcr s = pylit "periodic" /\
    s_t s = 0 /\ s_dx s = 2 / INR ne /\ wf_dg ne s dgs /\ apply_bc s = Ok s /\ uniform_vp (14 / 10) ne 1 1 s /\
    forall e, (1 <= e <= ne)%nat -> forall i, (i <= p)%nat -> legseries (modes s e 0) (at1 (b_x (Basis p)) i) = entropy_F 0 (node_x p ne e i).
  Proof.
    intros Hs Hp Hne Hsys Hrs Ho Hen Hlim H. unfold setup in H. rewrite Ho in H. destruct (Z.ltb_spec (Z.of_nat p) 0) as [Hneg|_]; [lia|]. rewrite Nat2Z.id in H.
    inv_bind H. destruct x as [s0 g0]. inv_bind H. inv_bind H. inv_bind H. inv_bind H. apply Ok_inj in H. injection H as <- <- <- <-.
    rename Hx into H0, x into s1, Hx0 into E1. unfold Limiter in Hx2. apply String.eqb_neq in Hlim. rewrite Hlim in Hx2. apply Ok_inj in Hx2. subst x1.
    cbn [limit] in Hx3. apply Ok_inj in Hx3. subst x2. split; [reflexivity|]. rewrite Hen, Hsys in H0.
    set (ic := {| ic_A := nofZ (-1); ic_B := n1; ic_bc := "periodic"; ic_gamma := gamma_default; ic_gamma_after := gamma_default; ic_f := f_entrpyw gamma_default |} : ic_spec R).
    assert (Hl : ic_lookup (A:=R) "entrpyw" (t :: rest) gamma_default = Ok ic) by reflexivity.
    assert (Hic : ic_succeeds (A:=R) (dk_ic d) "euler" p (dk_riemann d)).
    { eapply ic_ok; [exact Hs|exact Hl|reflexivity|exact Hp|]. cbn. lia. }
    assert (EN : s_NE s0 = Z.of_nat ne /\ s_enh s0 = None /\ s_euler s0 = true /\ s_basis s0 = Basis p /\ s_riemann s0 = riemann_choice true (dk_riemann d)).
    { pose proof (Solution_Ok _ _ _ _ _ _ _ _ Hic H0) as [nm [ps [s1' [en [K1 [K2 [K3 K4]]]]]]]. rewrite Hs in K1. injection K1 as <- <-.
      apply run_ic_Ok in K2. destruct K2 as [ic' [NE [u [p0 [L1 [L2 [L3 [L4 _]]]]]]]]. cbn [s_params blank_solution nth_error] in L2. injection L2 as <-. rewrite Hp in L3. injection L3 as L3.
      cbn [String.eqb] in K3. unfold ic_state in L4. subst s1'. rewrite K4. split; [cbn; lia|]. split; [exact K3|]. split; [reflexivity|]. split; reflexivity. }
    destruct EN as [EN [Een [Eeu [Eb Eri]]]].
    assert (HNE : (1 <= s_NE s0)%Z) by lia.
    assert (M0 : made ne s0).
    { rewrite <- (Nat2Z.id ne), <- EN. apply (Solution_made _ _ _ _ _ _ _ _ (fun n Hn => gr_lx _ _ _ (G n Hn)) Hic H0 HNE). unfold enh_lengths. rewrite Een. exact I. }
    destruct (constructed_nodes G FT _ _ _ _ _ _ _ _ _ _ _ Hs Hl Hic H0 HNE) as [Eg [Edx [Ebl [Ebr [Et _]]]]].
    pose proof (constructed_interp G FT _ _ _ _ _ _ _ _ _ _ _ Hs Hl Hic H0 HNE) as Hm. cbv zeta in Hm.
    rewrite EN, Nat2Z.id in Edx, Hm. cbn [ic_A ic_B ic_bc ic_gamma_after ic] in Edx, Hm, Ebl, Ebr, Eg.
    assert (Eg' : g0 = 14 / 10) by (rewrite Eg; unfold gamma_default; numR; lra).
    split; [exact Eg'|].
    assert (Edx' : s_dx s0 = 2 / INR ne).
    { rewrite Edx. unfold linspace_step. destruct (Nat.leb_spec (ne + 1) 1); [lia|]. numR. rewrite INR_IZR_INZ. replace (ne + 1 - 1)%nat with ne by lia. f_equal. lra. }
    pose proof (md_wf _ _ M0) as W0. pose proof (wf_bc _ _ _ W0 E1) as W1. pose proof (similar_bc _ _ E1) as S1. pose proof (made_similar _ _ _ M0 S1 W1) as M1.
    split; [exact M1|]. pose proof (apply_bc_idem _ _ _ W0 E1) as Bi.
    destruct (apply_bc_modes ne s0 W0) as [s1' [E1' [S1' [_ Mo]]]]. rewrite E1 in E1'. apply Ok_inj in E1'. subst s1'.
    pose proof (apply_bc_eq ne s0 W0) as Eu. rewrite E1 in Eu. apply Ok_inj in Eu.
    assert (Ns1 : s_Ns s1 = (p + 1)%nat) by (unfold s_Ns, b_Ns; rewrite (similar_basis _ _ S1), Eb, b_p_Basis'; reflexivity).
    assert (NF : s_NF s0 = 3%nat) by (unfold s_NF; rewrite Eeu; reflexivity).
    assert (Q : s_euler s1 = true /\ s_riemann s1 = riemann_choice true (dk_riemann d) /\ s_enh s1 = None /\ s_basis s1 = Basis p /\ s_bcl s1 = pylit "periodic" /\ s_bcr s1 = pylit "periodic" /\ s_t s1 = 0 /\ s_dx s1 = 2 / INR ne).
    { subst s1. cbn [with_u s_euler s_riemann s_enh s_basis s_bcl s_bcr s_t s_dx]. repeat split; assumption. }
    clear Eu. destruct Q as [Q1 [Q2 [Q3 [Q4 [Q5 [Q6 [Q7 Q8]]]]]]]. split; [exact Q1|]. split.
    { rewrite Q2. unfold riemann_choice. apply String.eqb_neq in Hrs. rewrite Hrs. destruct (String.eqb (dk_riemann d) "godunov"); [right|left]; reflexivity. }
    split; [exact Q3|]. split; [rewrite Q4; apply b_p_Basis'|]. split; [exact Q5|]. split; [exact Q6|]. split; [exact Q7|]. split; [exact Q8|].
    split; [exact (DG_wf _ _ _ W1 Hx1)|]. split; [exact Bi|].
    assert (Iv : forall e f fc, (1 <= e <= ne)%nat -> (f < 3)%nat -> (forall x, exists fx, f_entrpyw (A:=R) gamma_default x = Ok fx /\ nth_error fx f = Some (fc x)) ->
      forall i, (i <= p)%nat -> legseries (modes s1 e f) (at1 (b_x (Basis p)) i) = fc (node_x p ne e i)).
    { intros e f fc He Hf Hfc i Hi. rewrite Mo by (rewrite ?NF; lia). rewrite src_cell_interior by lia.
      destruct (Hm e f fc He ltac:(lia) Hfc) as [_ Hv].
      rewrite (Hv i Hi). unfold node_at, node_x. numR. rewrite !at1_linspace by lia. replace (e - 1 + 1)%nat with e by lia. rewrite minus_INR by lia. cbn [INR]. unfold centre.
      assert (0 < INR ne) by (apply lt_0_INR; lia). f_equal. field. lra. }
    assert (I0 : forall e, (1 <= e <= ne)%nat -> forall i, (i <= p)%nat -> legseries (modes s1 e 0) (at1 (b_x (Basis p)) i) = entropy_F 0 (node_x p ne e i)).
    { intros e He. apply (Iv e 0%nat (entropy_F 0) He); [lia|]. intro x. eexists. split; [reflexivity|]. cbn [nth_error]. f_equal. cbn [entropy_F]. numR. cbn [nsin npi LibmR]. lra. }
    assert (I1 : forall e, (1 <= e <= ne)%nat -> forall i, (i <= p)%nat -> legseries (modes s1 e 1) (at1 (b_x (Basis p)) i) = entropy_F 0 (node_x p ne e i)).
    { intros e He. apply (Iv e 1%nat (entropy_F 0) He); [lia|]. intro x. eexists. split; [reflexivity|]. cbn [nth_error]. f_equal. cbn [entropy_F]. numR. cbn [nsin npi LibmR]. lra. }
    assert (I2 : forall e, (1 <= e <= ne)%nat -> forall i, (i <= p)%nat -> legseries (modes s1 e 2) (at1 (b_x (Basis p)) i) = SpecEuler.energy (14 / 10) (entropy_F 0 (node_x p ne e i)) 1 1).
    { intros e He. apply (Iv e 2%nat (fun x => SpecEuler.energy (14 / 10) (entropy_F 0 x) 1 1) He); [lia|]. intro x. eexists. split; [reflexivity|]. cbn [nth_error]. f_equal. unfold SpecEuler.energy, gamma_default. cbn [entropy_F]. numR. cbn [nsin npi LibmR]. lra. }
    assert (Pm : forall e f, is_poly p (legseries (modes s1 e f))) by (intros e f; apply legseries_poly'; rewrite (length_modes ne s1 e f W1), Ns1; lia).
    split; [|exact I0]. intros e x He. split.
    - apply (nodes_unique p (legseries (modes s1 e 1)) (fun x => legseries (modes s1 e 0) x * 1)); [apply Pm| |intros i Hi; rewrite (I0 e He i Hi), (I1 e He i Hi); ring].
      replace (fun x => legseries (modes s1 e 0) x * 1) with (legseries (modes s1 e 0)) by (apply functional_extensionality; intro; ring). apply Pm.
    - apply (nodes_unique p (legseries (modes s1 e 2)) (fun x => SpecEuler.energy (14 / 10) (legseries (modes s1 e 0) x) 1 1)); [apply Pm| |intros i Hi; rewrite (I0 e He i Hi), (I2 e He i Hi); reflexivity].
      unfold SpecEuler.energy. apply (is_poly_ext p (fun x => 5 / 2 + / 2 * legseries (modes s1 e 0) x)); [intro; lra|]. apply is_poly_plus; [apply (is_poly_le 0); [lia|]; apply is_poly_const|]. apply is_poly_scal. apply Pm.
  Qed.
  (** any profile, interpolated at the nodes *)
  Lemma interp_initial ne p s (F : nat -> R -> R) (B : nat -> R) : (1 <= ne)%nat -> wf ne s -> s_Ns s = (p + 1)%nat -> smooth_profile F B 2 ->
    (forall e, (1 <= e <= ne)%nat -> forall i, (i <= p)%nat -> legseries (modes s e 0) (at1 (b_x (Basis p)) i) = F 0%nat (node_x p ne e i)) ->
    forall e x, (1 <= e <= ne)%nat -> -1 <= x <= 1 -> Rabs (legseries (modes s e 0) x - F 0%nat (centre (-1) (2 / INR ne) e + / INR ne * x)) <= interp_size p (/ INR ne) B.
  Proof.
    intros Hne W Ns [HF [HB _]] H e x He Hx. assert (Hn : 0 < INR ne) by (apply lt_0_INR; lia). unfold node_x in H. set (h := 2 / INR ne) in *.
    assert (Hh : 0 < h) by (apply Rdiv_lt_0_compat; lra). assert (Eh : h / 2 = / INR ne) by (unfold h; field; lra).
    apply (interp_close G FT p (modes s e 0) (fun y => F 0%nat (centre (-1) h e + / INR ne * y)) (near p h (-1) F 0 e 0 1)).
    - rewrite (length_modes ne s e 0 W). exact Ns.
    - apply near_poly.
    - intros i Hi. apply H; assumption.
    - intros y Hy. pose proof (near_close p h (-1) Hh F B HF HB 0 e 0 1 y ltac:(apply Rabs_R1) Hy) as Q. cbn [clin cellg cnear cf] in Q.
      unfold cellx in Q. rewrite Rminus_0_r, Eh in Q. unfold cap in Q. rewrite Eh in Q. unfold taylor_size.
      replace (F 0%nat (centre (-1) h e + / INR ne * y) - near p h (-1) F 0 e 0 1 y) with (1 * F 0%nat (centre (-1) h e + / INR ne * y) + -1 * near p h (-1) F 0 e 0 1 y) by ring. exact Q.
    - exact Hx.
  Qed.
  Hypothesis IV : inv_ok.
  Section Deck.
    Variables (d : deck R) (t : string) (rest : list string) (ne p : nat).
    Hypothesis Hs : split_ws (dk_ic d) = "entrpyw"%string :: t :: rest.
    Hypothesis Hp : parse_int t = Some (Z.of_nat ne).
    Hypothesis Hne : (1 <= ne)%nat.
    Hypothesis Hsys : dk_system d = "euler"%string.
    Hypothesis Hrs : dk_riemann d <> "rusanov"%string.
    Hypothesis Ho : dk_order d = Z.of_nat p.
    Hypothesis Hen : dk_enhance d = ""%string.
    Hypothesis Hlim : dk_limiting d <> "adaptive_hr"%string.
    Hypothesis Hk : dk_rk d = "rk3"%string.
    Hypothesis Hc : dk_cfl d <= cfl_max p.
    Hypothesis Hn : (2 <= dk_nout d)%Z.
    Hypothesis Ht : 0 <= dk_finaltime d.
    Hypothesis Hgap : entropy_gap p ne (dk_finaltime d) < 4 / 5.
    Section Start.
      Variables (s0 : solution R) (g : R) (dgs : dg) (l : @limiter R).
      Hypothesis HS : setup d = Ok (s0, g, dgs, l).
      Let a0 := density_of ne s0.
      Lemma start : l = None /\ g = 14 / 10 /\ made ne s0 /\ s_euler s0 = true /\ (s_riemann s0 = RRoe \/ s_riemann s0 = RGodunov) /\ s_enh s0 = None /\ b_p (s_basis s0) = p /\
        s_bcl s0 = pylit "periodic" /\ s_bcr s0 = pylit "periodic" /\ s_t s0 = 0 /\ s_dx s0 = 2 / INR ne /\ wf_dg ne s0 dgs /\ apply_bc s0 = Ok s0 /\ uniform_vp (14 / 10) ne 1 1 s0 /\
        smooth_profile entropy_F entropy_B (INR ne * s_dx s0) /\
        exists E0, l2err ne (-1) s0 (entropy_F 0) E0 /\ sqrt E0 <= sqrt 2 * interp_size p (/ INR ne) entropy_B /\
          sag_size p ne (/ INR ne) entropy_B (drift_size p ne (s_dx s0) entropy_B E0 (1 * (dk_finaltime d - s_t s0))) <= entropy_gap p ne (dk_finaltime d).
      Proof.
        destruct (entropy_setup d t rest ne p s0 g dgs l Hs Hp Hne Hsys Hrs Ho Hen Hlim HS) as [-> [Eg [M [Eu [Hr [Ee [Eb [Bl [Br [T0 [Dx [D [Bi [U Iv]]]]]]]]]]]]]].
        assert (P : 0 < INR ne) by (apply lt_0_INR; lia).
        assert (EL : INR ne * s_dx s0 = 2) by (rewrite Dx; field; lra).
        assert (Eh : s_dx s0 / 2 = / INR ne) by (rewrite Dx; field; lra).
        assert (SP : smooth_profile entropy_F entropy_B (INR ne * s_dx s0)) by (rewrite EL; exact entropy_profile).
        do 14 (split; [first [reflexivity|assumption]|]). split; [exact SP|].
        assert (Ma0 : made ne a0) by (apply density_made; exact M). assert (W00 : Wf ne a0 a0) by (split; [apply Ma0|apply similar_refl]).
        assert (Dm : forall e, (1 <= e <= ne)%nat -> modes a0 e 0 = modes s0 e 0) by (intros e He; apply (dens_modes ne s0 M Eu s0 e); [apply Wf_0; apply M|lia]).
        set (E0 := tot ne (s_dx s0) (cerr ne a0 entropy_F entropy_B (-1) SP a0 0)). exists E0.
        assert (B0 : sqrt E0 <= sqrt 2 * interp_size p (/ INR ne) entropy_B).
        { rewrite <- EL. apply tot_flat; [apply M| |exact Hne]. intros e x Hee Hx.
          assert (Ns : s_Ns s0 = (p + 1)%nat) by (unfold s_Ns, b_Ns; rewrite Eb; reflexivity).
          pose proof (interp_initial ne p s0 entropy_F entropy_B Hne (md_wf _ _ M) Ns entropy_profile Iv e x Hee Hx) as Q.
          cbn [cerr clin csol cser cwave cellg cf]. destruct (cell_modes ne a0 Ma0 eq_refl a0 e W00 Hee) as [Lm Em]. rewrite Dm in Lm, Em by exact Hee.
          unfold legseries in Q. rewrite Lm in Q. change (s_Ns a0) with (s_Ns s0) in *. unfold s_Ns, b_Ns in Q. rewrite Nat.add_1_r in Q.
          rewrite (Rsum_ext _ (fun i => nth i (modes s0 e 0) 0 * LegP i x) (fun n => at2 (s_u a0) n e * LegP n x)) in Q by (intros n Hn'; rewrite Em by (unfold s_Ns, b_Ns; lia); reflexivity).
          change (s_basis a0) with (s_basis s0). change (s_dx a0) with (s_dx s0). unfold cellx. rewrite Rminus_0_r, Eh, Dx.
          match goal with |- Rabs (?a + -1 * (1 * ?b)) <= _ => replace (a + -1 * (1 * b)) with (a - b) by ring end. exact Q. }
        split; [|split; [exact B0|]].
        - destruct (err_is ne a0 Ma0 eq_refl entropy_F entropy_B (-1) SP a0 0 W00) as [w [Hw Ew]]. exists w. split; [|exact Ew]. intros e He. specialize (Hw e He). rewrite Dm in Hw by exact He.
          match type of Hw with integral ?f _ _ _ => match goal with |- integral ?g _ _ _ => replace g with f; [exact Hw|] end end.
          apply functional_extensionality. intro x. rewrite Rminus_0_r. reflexivity.
        - unfold entropy_gap. apply sag_le. unfold drift_size. rewrite Eh, T0, Rminus_0_r, Rmult_1_l, (sqrt_mult_alt (INR ne)) by lra.
          assert (Hh : 0 < s_dx s0) by apply M. assert (Sh : 0 < sqrt (s_dx s0)) by (apply sqrt_lt_R0; exact Hh).
          assert (sqrt E0 / sqrt (s_dx s0) <= sqrt (INR ne) * interp_size p (/ INR ne) entropy_B).
          { apply Rmult_le_reg_r with (sqrt (s_dx s0)); [exact Sh|]. unfold Rdiv. rewrite Rmult_assoc, Rinv_l, Rmult_1_r by lra. rewrite <- EL, sqrt_mult_alt in B0 by lra. lra. }
          lra.
      Qed.
    End Start.
    Theorem entropy_order : forall fuel evs out, run_deck fuel d = (evs, out) ->
      forall s, (exists ev, In ev evs /\ s = ev_sol ev) \/ out = Finished s ->
      0 <= s_t s /\ uniform_vp (14 / 10) ne 1 1 s /\ (forall e xi, (1 <= e <= ne)%nat -> -1 <= xi <= 1 -> 4 / 5 - entropy_gap p ne (dk_finaltime d) <= legseries (modes s e 0) xi) /\
      exists E, l2err ne (-1) s (fun x => 1 + / 5 * sin (PI * (x - s_t s))) E /\ sqrt E <= all_size entropy_B p ne (s_t s).
    Proof.
      intros fuel evs out HR s Hst. unfold run_deck in HR. destruct (setup d) as [[[[s0 g] dgs] l]|ex] eqn:HS.
      2:{ injection HR as <- <-. destruct Hst as [[ev [[] _]]|HF]; discriminate HF. }
      destruct (start s0 g dgs l HS) as [-> [-> [M [Eu [Hr [Ee [Eb [Bl [Br [T0 [Dx [D [Bi [U [SP [E0 [H0 [B0 Q0]]]]]]]]]]]]]]]]]].
      assert (P : 0 < INR ne) by (apply lt_0_INR; lia). assert (EL : INR ne * s_dx s0 = 2) by (rewrite Dx; field; lra). assert (Eh : s_dx s0 / 2 = / INR ne) by (rewrite Dx; field; lra).
      rewrite Hk in HR.
      destruct (wave_run (14 / 10) ltac:(lra) G IV 1 1 ltac:(lra) ltac:(lra) ne s0 dgs M D Ee ltac:(rewrite Bl; reflexivity) ltac:(rewrite Br; left; reflexivity) Eu Hr U Bi entropy_F entropy_B (-1) SP (4 / 5) entropy_low E0 H0
        (dk_cfl d) (dk_finaltime d) (dk_nout d) Hn ltac:(rewrite T0; exact Ht) ltac:(rewrite Eb; pose proof (cfl_max_le _ _ Hc) as Q; rewrite Nat.add_1_r in Q; exact Q) ltac:(rewrite Eb, Eh; lra) fuel evs out HR s Hst) as [Lt [Us [Lo [E [HE Q]]]]].
      rewrite T0, Rminus_0_r in *. split; [lra|]. split; [exact Us|]. split.
      - intros e xi He Hx. specialize (Lo e xi He Hx). rewrite Eb, Eh in Lo. lra.
      - exists E. split; [rewrite Rmult_1_l in HE; exact HE|]. rewrite EL, Eh, Eb, Rmult_1_l in Q. unfold all_size. rewrite !Rmult_plus_distr_l in *. lra.
    Qed.
    Theorem entropy_completes : dk_thresholds d = [] ->
      1 / 100000000000000 <= 2 / INR ne * dk_cfl d / ((1 + sqrt (14 / 10 / (4 / 5 - entropy_gap p ne (dk_finaltime d)))) * INR (2 * p + 1)) ->
      exists F evs s, s_t s = dk_finaltime d /\ forall fuel, (F <= fuel)%nat -> run_deck fuel d = (evs, Finished s).
    Proof.
      intros Hth Hd.
      assert (HS : exists s g dgs l, setup d = Ok (s, g, dgs, l)).
      { assert (Hl : exists ic, ic_lookup (A:=R) "entrpyw" (t :: rest) gamma_default = Ok ic) by (eexists; reflexivity). destruct Hl as [ic Hl].
        apply String.eqb_neq in Hlim. pose proof (String.eqb_refl (dk_system d)) as Hsy. rewrite Hsys in Hsy at 2.
        assert (Hf : ((if String.eqb (dk_system d) "euler" then 3 else 1) <= ic_fields "entrpyw")%nat) by (rewrite Hsy; cbn; lia).
        pose proof (ic_ok (dk_ic d) (dk_system d) p (dk_riemann d) _ _ _ _ _ Hs Hl eq_refl Hp Hf) as Hic.
        destruct (Solution_ok (dk_ic d) (dk_system d) p (dk_riemann d) _ _ _ _ _ Hs Hl eq_refl Hp Hf) as [s0 [E0 EN]].
        assert (W0 : wf ne s0).
        { rewrite <- (Nat2Z.id ne), <- EN. apply (md_wf _ _ (Solution_made _ _ _ _ _ _ _ _ (fun n Hn => gr_lx _ _ _ (G n Hn)) Hic E0 ltac:(lia) ltac:(pose proof (Solution_Ok _ _ _ _ _ _ _ _ Hic E0) as [nm [ps [s1' [en [K1 [K2 [K3 K4]]]]]]]; cbn [String.eqb] in K3; subst en; rewrite K4; exact I))). }
        destruct (apply_bc_modes ne s0 W0) as [s1 [E1 [_ [W1 _]]]]. destruct (DG_total ne s1 W1) as [dgs Hdg].
        unfold setup. rewrite Ho, Hen, Hth. destruct (Z.ltb_spec (Z.of_nat p) 0) as [Hneg|_]; [lia|]. rewrite Nat2Z.id. rewrite E0. cbn [rbind]. rewrite E1. cbn [rbind]. rewrite Hdg. cbn [rbind].
        unfold Limiter. rewrite Hlim. cbn [rbind limit]. eauto. }
      destruct HS as [s0 [g [dgs [l HS]]]].
      destruct (start s0 g dgs l HS) as [-> [-> [M [Eu [Hr [Ee [Eb [Bl [Br [T0 [Dx [D [Bi [U [SP [E0 [H0 [B0 Q0]]]]]]]]]]]]]]]]]].
      assert (P : 0 < INR ne) by (apply lt_0_INR; lia). assert (Eh : s_dx s0 / 2 = / INR ne) by (rewrite Dx; field; lra).
      destruct (wave_completes (14 / 10) ltac:(lra) G IV 1 1 ltac:(lra) ltac:(lra) ne s0 dgs M D Ee ltac:(rewrite Bl; reflexivity) ltac:(rewrite Br; left; reflexivity) Eu Hr U Bi entropy_F entropy_B (-1) SP (4 / 5) entropy_low E0 H0
        (dk_cfl d) (dk_finaltime d) (dk_nout d) Hn ltac:(rewrite T0; exact Ht) ltac:(rewrite Eb; pose proof (cfl_max_le _ _ Hc) as Q; rewrite Nat.add_1_r in Q; exact Q) ltac:(rewrite Eb, Eh; lra)) as [F [evs [s [E H]]]].
      - rewrite Eb, Eh. eapply Rle_trans; [exact Hd|]. rewrite Dx in Q0 |- *. set (sg := sag_size _ _ _ _ _) in *. set (gp := entropy_gap p ne (dk_finaltime d)) in *.
        assert (Hq : 0 < INR (2 * p + 1)) by (apply lt_0_INR; lia).
        assert (Z : sqrt (14 / 10 * 1 / (4 / 5 - sg)) <= sqrt (14 / 10 / (4 / 5 - gp))).
        { apply sqrt_le_1_alt. rewrite Rmult_1_r. unfold Rdiv at 1 3. apply Rmult_le_compat_l; [lra|]. apply Rinv_le_contravar; lra. }
        pose proof (sqrt_pos (14 / 10 * 1 / (4 / 5 - sg))) as S1. set (z1 := sqrt (14 / 10 * 1 / (4 / 5 - sg))) in *. set (z2 := sqrt (14 / 10 / (4 / 5 - gp))) in *.
        set (q := INR (2 * p + 1)) in *. set (hc := 2 / INR ne * dk_cfl d) in *. clearbody z1 z2 q hc.
        assert (Z2 : 0 < (1 + z2) * q) by (apply Rmult_lt_0_compat; lra).
        assert (Hp0 : 0 < hc). { apply Rmult_lt_reg_r with (/ ((1 + z2) * q)); [apply Rinv_0_lt_compat; exact Z2|]. unfold Rdiv in Hd. lra. }
        unfold Rdiv. apply Rmult_le_compat_l; [lra|]. apply Rinv_le_contravar; [apply Rmult_lt_0_compat; lra|]. apply Rmult_le_compat_r; lra.
      - exists F, evs, s. split; [exact E|]. intros fuel Hf. unfold run_deck. rewrite HS, Hk. apply H. exact Hf.
    Qed.
  End Deck.
End IC.
