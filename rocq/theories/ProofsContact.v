(** Flows of uniform velocity and pressure. *)
From Coq Require Import ZArith List Bool Arith String Lia Reals Lra.
From Verif Require Import Num Py PyStr Lib RealLib LegNumpy Ext Basis Constants Sensor Enhance Limiting AdvectionPhysics EulerPhysics
  IC Solution Solver RKCoeffs RK SpecTime ProofsTime SpecDG SpecPoly SpecEuler SpecLimit SpecEnh SpecUniform SpecTrace SpecContact ProofsPoly ProofsLeg ProofsGauss ProofsDG ProofsDG2 ProofsWf ProofsCons
  ProofsSol ProofsBasis ProofsAdv ProofsRiemann ProofsGodunov ProofsEnh ProofsEnh2 ProofsLim ProofsLimRun ProofsShift ProofsRun ProofsTime2 ProofsUniform ProofsTrace ProofsSteady.
Import ListNotations.
Open Scope list_scope.
Open Scope R_scope.

(** ** numerical fluxes between states of equal velocity and pressure *)
Section Flux.
  Variable g : R.
  Hypothesis Hg : 1 < g.
  Definition upwind (v rl rr : R) : R := if Rle_dec 0 v then rl else rr.
  Definition advected (q v p : R) : st := (q, q * v + p, q * (v * v / 2) + g / (g - 1) * p * v).
  Lemma eflux_advected r v p : eflux g r v p = advected (r * v) v p.
  Proof. unfold eflux, advected, energy. st3; field; lra. Qed.
  Lemma rusanov_same rl rr v p : 0 < rl -> 0 < rr -> exists q, rusanov1 g (cons g rl v p) (cons g rr v p) = advected q v p.
  Proof.
    intros Hl Hr. rewrite rusanov_prim by assumption. set (S := Rmax _ _). exists ((rl * v + rr * v - S * (rr - rl)) / 2).
    unfold st_minus, st_scale, st_plus, eflux, cons, advected, energy. st3; field; lra.
  Qed.
  Lemma roe_same rl rr v p : 0 < rl -> 0 < rr -> 0 < p -> roe1 g (cons g rl v p) (cons g rr v p) = eflux g (upwind v rl rr) v p.
  Proof.
    intros. rewrite roe_prim by assumption.
    pose proof (ah_pos g Hg rl v p rr v p ltac:(assumption) ltac:(assumption) ltac:(assumption) ltac:(assumption)) as Ha.
    unfold roe_combine, roe_dV0, roe_dV1, roe_dV2.
    set (a := sqrt ((g - 1) * _)) in *. assert (HT : 0 <= sqrt (rr / rl)) by apply sqrt_pos.
    replace ((v + sqrt (rr / rl) * v) / (1 + sqrt (rr / rl))) with v by (field; lra).
    match goal with |- context [Efix ?a ?b ?c] => generalize (Efix a b c); intro w0 end.
    match goal with |- context [Efix ?a ?b ?c] => generalize (Efix a b c); intro w2 end.
    set (H' := (enthalpy _ _ _ _ + _) / _). clearbody H'.
    unfold st_plus, st_scale, st_minus, eflux, energy. clearbody a. unfold upwind.
    destruct (Rle_dec 0 v) as [K|K]; [rewrite Rabs_pos_eq by exact K|rewrite Rabs_left by lra]; st3; field; repeat split; lra.
  Qed.
  Lemma godunov_same rl rr v p : 0 < rl -> 0 < rr -> 0 < p -> godunov1 g (cons g rl v p) (cons g rr v p) = Ok (eflux g (upwind v rl rr) v p).
  Proof.
    intros Hl Hr Hp. pose proof (sound_pos g Hg rl p Hl Hp) as Ha. pose proof (sound_pos g Hg rr p Hr Hp) as Hb. unfold upwind.
    destruct (Rle_lt_dec (sound_of g rl p) v) as [K|K].
    - rewrite godunov_prim by assumption. destruct (Rle_dec _ v); [|lra]. destruct (Rle_dec 0 v); [reflexivity|lra].
    - destruct (Rle_lt_dec v (- sound_of g rr p)) as [K'|K'].
      + rewrite godunov_prim by assumption. destruct (Rle_dec _ v); [lra|]. destruct (Rle_dec v _); [|lra]. destruct (Rle_dec 0 v); [lra|reflexivity].
      + rewrite godunov_contact_any by (try assumption; lra). destruct (Rle_dec 0 v); reflexivity.
  Qed.
  Lemma num_flux_vp (s : solution R) cl cr rl rr v p : s_euler s = true -> (s_riemann s = RUpwind <-> s_euler s = false) -> 0 < rl -> 0 < rr -> 0 < p ->
    (at1 cl 0, at1 cl 1, at1 cl 2) = cons g rl v p -> (at1 cr 0, at1 cr 1, at1 cr 2) = cons g rr v p ->
    exists q, num_flux g s cl cr = Ok [q; q * v + p; q * (v * v / 2) + g / (g - 1) * p * v] /\
              (s_riemann s = RRoe \/ s_riemann s = RGodunov -> q = upwind v rl rr * v).
  Proof.
    intros Eu K Hl Hr Hp El Er. unfold num_flux. rewrite El, Er. destruct (s_riemann s).
    - destruct K as [K _]. rewrite (K eq_refl) in Eu. discriminate.
    - destruct (rusanov_same rl rr v p Hl Hr) as [q ->]. exists q. split; [reflexivity|intros [E|E]; discriminate].
    - rewrite godunov_same by assumption. rewrite eflux_advected. cbn [rbind]. eexists. split; [reflexivity|reflexivity].
    - rewrite roe_same by assumption. rewrite eflux_advected. eexists. split; [reflexivity|reflexivity].
  Qed.
End Flux.

(** ** faces and volume terms of affinely related fields *)
Section Affine.
  Context {X : Ext R}.
  Hypothesis G : gauss_ok.
  Hypothesis IV : inv_ok.
  Implicit Types s : solution R.
  Definition unit0 (n : nat) : R := match n with O => 1 | S _ => 0 end.
  (** b = k a + c, as modes *)
  Definition affine (Ns : nat) (k c : R) (a b : list R) : Prop :=
    List.length a = Ns /\ List.length b = Ns /\ forall n, (n < Ns)%nat -> at1 b n = at1 a n * k + c * unit0 n.
  Lemma vdot_affine Ns k c a b w : affine Ns k c a b -> List.length w = Ns -> (0 < Ns)%nat -> vdot w b = vdot w a * k + c * at1 w 0.
  Proof.
    intros [L1 [L2 H]] L3 Hp. rewrite !(vdot_R _ _ Ns) by assumption. destruct Ns as [|m]; [lia|].
    rewrite (Rsum_ext _ (fun i => at1 w i * at1 b i) (fun i => at1 w i * at1 a i * k + at1 w i * (c * unit0 i))) by (intros i Hi; rewrite H by exact Hi; ring).
    rewrite Rsum_plus, Rsum_scale_r. f_equal. rewrite Rsum_S_l. rewrite Rsum_0; [cbn [unit0]; ring|]. intros i _. cbn [unit0]. ring.
  Qed.
  Lemma legseries_affine Ns k c a b x : affine Ns k c a b -> (0 < Ns)%nat -> legseries b x = legseries a x * k + c.
  Proof.
    intros H Hp. pose proof H as [L1 [L2 _]].
    assert (E : forall l, List.length l = Ns -> vdot (tab Ns (fun i => LegP i x)) l = legseries l x).
    { intros l Hl. apply (series_dot _ l Ns); [apply length_tab|exact Hl|]. intros i Hi. rewrite at1_tab by exact Hi. reflexivity. }
    rewrite <- (E b L2), <- (E a L1). rewrite (vdot_affine Ns k c a b) by (assumption || apply length_tab). rewrite at1_tab by exact Hp. rewrite LegP_0. ring.
  Qed.
  Lemma affine_legseries Ns k c a b : List.length a = Ns -> List.length b = Ns -> (0 < Ns)%nat -> (forall x, legseries b x = legseries a x * k + c) -> affine Ns k c a b.
  Proof.
    intros L1 L2 Hp H. split; [exact L1|]. split; [exact L2|]. set (b' := tab Ns (fun n => at1 a n * k + c * unit0 n)).
    assert (HA : affine Ns k c a b').
    { split; [exact L1|]. split; [apply length_tab|]. intros n Hn. unfold b'. rewrite at1_tab by exact Hn. reflexivity. }
    assert (E : b = b').
    { apply legseries_inj; [unfold b'; rewrite length_tab; exact L2|]. intro x. rewrite H. symmetry. apply (legseries_affine Ns); assumption. }
    rewrite E. apply HA.
  Qed.
  (** the state of constant c *)
  Definition flat_u (s : solution R) ne (c : R) : mat R := tab2 (s_Ns s) ((ne + 2) * s_NF s) (fun n _ => c * unit0 n).
  Lemma flat_all ne c s : wf ne s -> uniform_all ne (fun _ => c) (with_u s (flat_u s ne c)).
  Proof.
    intro W. assert (W' : wf ne (with_u s (flat_u s ne c))) by (apply wf_with_u; [exact W|apply shape_tab2]).
    intros e f He Hf. change (s_basis (with_u s (flat_u s ne c))) with (s_basis s).
    apply (vec_ext (s_Ns s)); [apply (length_modes ne _ e f W')|rewrite length_cmodes, Ns_p; lia|].
    intros n Hn. change (at1 (modes (with_u s (flat_u s ne c)) e f) n = at1 (cmodes (b_p (s_basis s)) c) n).
    rewrite (modes_at ne _ e f n W' He Hf Hn), at1_cmodes. change (s_NF (with_u s (flat_u s ne c))) with (s_NF s) in *.
    cbn [s_u with_u]. unfold flat_u. rewrite at2_tab2 by (try exact Hn; apply cell_index; assumption). destruct n; cbn [unit0]; ring.
  Qed.
  Lemma at1_dot0 (w : list R) p c : List.length w = (p + 1)%nat -> vdot w (cmodes p c) = at1 w 0 * c.
  Proof.
    intro L. rewrite (vdot_R _ _ (p + 1)) by (exact L || apply length_cmodes). replace (p + 1)%nat with (S p) by lia. rewrite Rsum_S_l, at1_cmodes.
    rewrite Rsum_0; [ring|]. intros i _. rewrite at1_cmodes. ring.
  Qed.
  (** the weights of the averages in the interface values add up to one *)
  Lemma face_weights ne s : made ne s -> enh_sound s ->
    match s_enh s with
    | None => at1 (row (b_psi (s_basis s)) 1) 0 = 1 /\ at1 (row (b_psi (s_basis s)) 0) 0 = 1
    | Some en => at1 (e_alphaL en) 0 + at1 (e_alphaR en) 0 = 1 /\ at1 (e_betaL en) 0 + at1 (e_betaR en) 0 = 1
    end.
  Proof.
    intros M HE. pose proof (md_wf _ _ M) as W. set (s1 := with_u s (flat_u s ne 1)).
    assert (W1 : wf ne s1) by (apply wf_with_u; [exact W|apply shape_tab2]).
    assert (M1 : made ne s1) by (eapply made_similar; [exact M|apply similar_with_u|exact W1]).
    assert (NFp : (0 < s_NF s)%nat) by (unfold s_NF; destruct (s_euler s); lia).
    pose proof (flat_all ne 1 s W) as U. fold s1 in U.
    destruct (faces_uniform IV ne (fun _ => 1) s1 M1 HE U 0 0 (Nat.le_0_l _) NFp) as [F1 F2].
    unfold face_minus, face_plus in F1, F2. change (s_enh s1) with (s_enh s) in *. change (s_basis s1) with (s_basis s) in *.
    rewrite (U 0%nat 0%nat), (U (0 + 1)%nat 0%nat) in F1, F2 by (exact NFp || lia). change (s_basis s1) with (s_basis s) in *.
    pose proof (wf_enh _ _ W) as WE. pose proof (Ns_p s) as Np. destruct (s_enh s) as [en|].
    - destruct WE as [A1 [A2 [A3 A4]]]. rewrite !at1_dot0 in F1, F2 by (rewrite <- Np; assumption). numR. split; lra.
    - pose proof (wf_psi _ _ W) as WP. rewrite !at1_dot0 in F1, F2 by (rewrite <- Np; apply (shape_row 2); [exact WP|lia]). lra.
  Qed.
  Lemma face_affine ne s k c U e f f' : made ne s -> enh_sound s ->
    (forall e', (e' = e \/ e' = e + 1)%nat -> affine (s_Ns s) k c (U e' f) (U e' f')) ->
    face_minus s U e f' = face_minus s U e f * k + c /\ face_plus s U e f' = face_plus s U e f * k + c.
  Proof.
    intros M HE H. pose proof (md_wf _ _ M) as W. pose proof (face_weights ne s M HE) as FW. unfold face_minus, face_plus.
    pose proof (wf_enh _ _ W) as WE. pose proof (H e (or_introl eq_refl)) as H1. pose proof (H (e + 1)%nat (or_intror eq_refl)) as H2.
    pose proof (Ns_pos s) as Np. destruct (s_enh s) as [en|].
    - destruct WE as [A1 [A2 [A3 A4]]].
      rewrite (vdot_affine _ _ _ _ _ (e_alphaL en) H1 A1 Np), (vdot_affine _ _ _ _ _ (e_alphaR en) H2 A2 Np).
      rewrite (vdot_affine _ _ _ _ _ (e_betaL en) H1 A3 Np), (vdot_affine _ _ _ _ _ (e_betaR en) H2 A4 Np). destruct FW as [F1 F2]. numR. split.
      + replace c with (c * (at1 (e_alphaL en) 0 + at1 (e_alphaR en) 0)) at 3 by (rewrite F1; ring). ring.
      + replace c with (c * (at1 (e_betaL en) 0 + at1 (e_betaR en) 0)) at 3 by (rewrite F2; ring). ring.
    - pose proof (wf_psi _ _ W) as WP. destruct FW as [F1 F2].
      rewrite (vdot_affine _ _ _ _ _ (row (b_psi (s_basis s)) 1) H1) by (exact Np || (apply (shape_row 2); [exact WP|lia])).
      rewrite (vdot_affine _ _ _ _ _ (row (b_psi (s_basis s)) 0) H2) by (exact Np || (apply (shape_row 2); [exact WP|lia])).
      rewrite F1, F2. split; ring.
  Qed.
  (** quadrature of P_n' *)
  Lemma dphi_one p n : (n <= p)%nat -> vdot (row (b_dphi_w (Basis p)) n) (tab (p + 1) (fun _ => 1)) = 1 - LegP n (-1).
  Proof.
    intro Hn. rewrite <- (dphi_exact G p n (fun _ => 1) (1 - LegP n (-1)) Hn).
    - f_equal. apply (list_ext 0); [rewrite length_tab, map_length; symmetry; apply (G_len G)|].
      rewrite length_tab. intros i Hi. rewrite nth_tab by exact Hi. rewrite nth_indep with (d' := (fun _ => 1) 0) by (rewrite map_length, (G_len G); exact Hi).
      rewrite (map_nth (fun _ => 1) (b_x (Basis p)) 0). reflexivity.
    - apply is_poly_const.
    - apply (nint_ext (fun x => 1 * dLegP n x)); [intro; ring|].
      pose proof (nint_deriv (LegP n) (dLegP n) (-1) 1 (LegP_deriv n)) as Q. rewrite LegP_at1 in Q.
      pose proof (nint_scal 1 _ _ _ _ Q) as Q'. rewrite Rmult_1_l in Q'. exact Q'.
  Qed.
End Affine.

Section Flow.
  Context {X : Ext R}.
  Variable gamma : R.
  Hypothesis Hg : 1 < gamma.
  Hypothesis G : gauss_ok.
  Hypothesis IV : inv_ok.
  Variables v p : R.
  Hypothesis Hp : 0 < p.
  Implicit Types s : solution R.

  Definition cellwise (Ns : nat) (U : nat -> list R) : Prop :=
    affine Ns v 0 (U 0%nat) (U 1%nat) /\ affine Ns (v * v / 2) (p / (gamma - 1)) (U 0%nat) (U 2%nat).
  Lemma uniform_vp_cellwise ne s : wf ne s -> uniform_vp gamma ne v p s <-> forall e, (1 <= e <= ne)%nat -> cellwise (s_Ns s) (modes s e).
  Proof.
    intro W. unfold uniform_vp. pose proof (Ns_pos s) as Np. split.
    - intros H e He. split; apply affine_legseries; try (apply (length_modes ne); exact W); try exact Np; intro x; destruct (H e x He) as [H1 H2].
      + rewrite H1. ring.
      + rewrite H2. unfold energy. field. lra.
    - intros H e x He. destruct (H e He) as [H1 H2]. rewrite (legseries_affine _ _ _ _ _ x H1 Np), (legseries_affine _ _ _ _ _ x H2 Np). split; [ring|].
      unfold energy. field. lra.
  Qed.

  (** the averages of the ghost cells do not change *)
  Lemma ghost_mean_0 ne s q e f : made ne s -> (e = 0 \/ e = ne + 1)%nat -> (f < s_NF s)%nat -> at2 (residual_mat gamma ne s q) 0 (e * s_NF s + f) = 0.
  Proof.
    intros M He Hf. assert (He2 : (e < ne + 2)%nat) by (clear - He; lia). unfold residual_mat. rewrite at2_tab2 by (first [apply Ns_pos|apply cell_index; assumption]).
    destruct (divmod_idx (s_NF s) e f Hf) as [-> ->].
    replace ((1 <=? e) && (e <=? ne))%nat%bool with false by (symmetry; destruct (Nat.leb_spec 1 e); destruct (Nat.leb_spec e ne); try reflexivity; lia).
    apply (minv_ghost_0 gamma ne s e f 0%nat M eq_refl).
  Qed.

  (** the density seen by the scheme *)
  Definition rho_node s e k : R := legseries (modes s e 0) (at1 (b_x (s_basis s)) k).
  Definition rho_face ne s e : R := upwind v (rho_minus ne s e) (rho_plus ne s e).
  Definition rho_rate ne s n e : R :=
    (vdot (row (b_dphi_w (s_basis s)) n) (tab (b_NG (s_basis s)) (rho_node s e)) - face_term n (rho_face ne s (e - 1)) (rho_face ne s e)) * at1 (s_minv s) n.

  Lemma residual_vp ne s d : made ne s -> wf_dg ne s d -> enh_sound s -> bc_known (s_bcl s) -> bc_known (s_bcr s) -> s_euler s = true ->
    (forall e, (1 <= e <= ne)%nat -> cellwise (s_Ns s) (modes s e)) -> dense ne s ->
    exists s1 F, residual gamma d s = Ok (s1, F) /\ similar s s1 /\ made ne s1 /\
      (forall e f, (e < ne + 2)%nat -> (f < 3)%nat -> modes s1 e f = filled ne s e f) /\
      (forall n e, (n < s_Ns s)%nat -> (1 <= e <= ne)%nat -> at2 F n (e * 3 + 1) = at2 F n (e * 3 + 0) * v /\ at2 F n (e * 3 + 2) = at2 F n (e * 3 + 0) * (v * v / 2)) /\
      (forall e f, (e = 0 \/ e = ne + 1)%nat -> (f < 3)%nat -> at2 F 0 (e * 3 + f) = 0) /\
      (s_riemann s = RRoe \/ s_riemann s = RGodunov -> forall n e, (n < s_Ns s)%nat -> (1 <= e <= ne)%nat -> at2 F n (e * 3 + 0) = rho_rate ne s n e * v).
  Proof.
    intros M D HE Bl Br Eu C HD. pose proof (md_wf _ _ M) as W. pose proof (Ns_pos s) as Np.
    assert (NF3 : s_NF s = 3%nat) by (unfold s_NF; rewrite Eu; reflexivity).
    set (s1 := with_u s (bc_u ne s)).
    assert (W1 : wf ne s1) by (apply wf_apply_bc; exact W).
    assert (S1 : similar s s1) by apply similar_with_u.
    assert (M1 : made ne s1) by (eapply made_similar; eassumption).
    assert (FM : forall e f, (e < ne + 2)%nat -> (f < 3)%nat -> modes s1 e f = filled ne s e f).
    { intros e f He Hf. unfold s1. rewrite (modes_bc ne s) by (try assumption; rewrite NF3; exact Hf). reflexivity. }
    assert (FC : forall e, (e < ne + 2)%nat -> cellwise (s_Ns s) (filled ne s e)).
    { intros e He. unfold filled. apply C. apply src_interior; try assumption. apply (wf_ne _ _ W). }
    destruct HD as [HN HF].
    assert (Q : forall e, exists q, (e <= ne)%nat -> iface_flux gamma s1 (modes s1) e = Ok [q; q * v + p; q * (v * v / 2) + gamma / (gamma - 1) * p * v] /\
              (s_riemann s = RRoe \/ s_riemann s = RGodunov -> q = rho_face ne s e * v)).
    { intro e. destruct (Nat.le_gt_cases e ne) as [He|He]; [|exists 0; lia]. unfold iface_flux. change (s_NF s1) with (s_NF s). rewrite NF3.
      rewrite (tab_ext 3 (face_minus s1 (modes s1) e) (face_minus s (filled ne s) e)).
      2:{ intros f Hf. unfold face_minus. change (s_enh s1) with (s_enh s). change (s_basis s1) with (s_basis s). rewrite !FM by (exact Hf || lia). reflexivity. }
      rewrite (tab_ext 3 (face_plus s1 (modes s1) e) (face_plus s (filled ne s) e)).
      2:{ intros f Hf. unfold face_plus. change (s_enh s1) with (s_enh s). change (s_basis s1) with (s_basis s). rewrite !FM by (exact Hf || lia). reflexivity. }
      destruct (HF e He) as [P1 P2]. unfold rho_minus in P1. unfold rho_plus in P2.
      destruct (face_affine IV ne s v 0 (filled ne s) e 0 1 M HE) as [V1 V2]; [intros e' He'; apply (FC e'); lia|].
      destruct (face_affine IV ne s (v * v / 2) (p / (gamma - 1)) (filled ne s) e 0 2 M HE) as [V3 V4]; [intros e' He'; apply (FC e'); lia|].
      destruct (num_flux_vp gamma Hg s1 (tab 3 (face_minus s (filled ne s) e)) (tab 3 (face_plus s (filled ne s) e))
                  (face_minus s (filled ne s) e 0) (face_plus s (filled ne s) e 0) v p Eu (wf_kind _ _ W1) P1 P2 Hp) as [q [K1 K2]].
      - rewrite !at1_tab by lia. rewrite V1, V3. unfold cons, energy. st3; field; lra.
      - rewrite !at1_tab by lia. rewrite V2, V4. unfold cons, energy. st3; field; lra.
      - exists q. intros _. split; [exact K1|]. intro R. apply K2. exact R. }
    assert (Q' : exists q : nat -> R, forall e, (e <= ne)%nat -> iface_flux gamma s1 (modes s1) e = Ok [q e; q e * v + p; q e * (v * v / 2) + gamma / (gamma - 1) * p * v] /\
              (s_riemann s = RRoe \/ s_riemann s = RGodunov -> q e = rho_face ne s e * v)).
    { exists (fun e => match iface_flux gamma s1 (modes s1) e with Ok l => at1 l 0 | Raise _ => 0 end). intros e He. destruct (Q e) as [q K]. specialize (K He).
      destruct K as [K1 K2]. rewrite K1. split; [reflexivity|exact K2]. }
    destruct Q' as [q HQ]. clear Q.
    set (qq := fun e => [q e; q e * v + p; q e * (v * v / 2) + gamma / (gamma - 1) * p * v]).
    exists s1, (residual_mat gamma ne s1 qq).
    split.
    { apply (residual_char gamma ne s d); [exact W|exact D|]. split; [apply apply_bc_eq; exact W|]. exists qq. split; [|reflexivity]. intros e He. apply HQ. exact He. }
    split; [exact S1|]. split; [exact M1|]. split; [exact FM|].
    (* node states *)
    assert (NS : forall e k, (1 <= e <= ne)%nat -> (k < b_NG (s_basis s))%nat ->
              phys_flux gamma s1 (node_state s1 (modes s1) e k) = [rho_node s e k * v; rho_node s e k * v * v + p; rho_node s e k * v * (v * v / 2) + gamma / (gamma - 1) * p * v]).
    { intros e k He Hk. unfold phys_flux. change (s_euler s1) with (s_euler s). rewrite Eu. unfold node_state. change (s_NF s1) with (s_NF s). rewrite NF3.
      assert (HC : cellwise (s_Ns s) (modes s1 e)).
      { split; rewrite !FM by lia; apply (FC e); lia. }
      assert (ER : vdot (row (b_phi (s_basis s1)) k) (modes s1 e 0) = rho_node s e k).
      { change (s_basis s1) with (s_basis s). unfold rho_node. rewrite FM by lia. unfold filled. replace (src_cell (s_bcl s) (s_bcr s) ne e) with e.
        2:{ unfold src_cell. destruct (Nat.eqb_spec e 0); [lia|]. destruct (Nat.eqb_spec e (ne + 1)); [lia|reflexivity]. }
        assert (Lm : List.length (modes s e 0) = (b_p (s_basis s) + 1)%nat) by (rewrite (length_modes ne s e 0 W); apply Ns_p).
        unfold b_NG in Hk. rewrite (md_basis _ _ M) in Hk |- *. apply phi_row; [exact Hk|]. rewrite (md_basis _ _ M), b_p_Basis in Lm. exact Lm. }
      destruct HC as [C1 C2]. change (s_basis s1) with (s_basis s) in *.
      assert (Lr : List.length (row (b_phi (s_basis s)) k) = s_Ns s) by (apply (shape_row (b_NG (s_basis s))); [apply (wf_phi _ _ W)|exact Hk]).
      rewrite !at1_tab by lia. rewrite (vdot_affine _ _ _ _ _ _ C1 Lr Np), (vdot_affine _ _ _ _ _ _ C2 Lr Np), ER.
      assert (E0 : at1 (row (b_phi (s_basis s)) k) 0 = 1).
      { unfold b_NG in Hk. rewrite (md_basis _ _ M) in Hk |- *. pose proof (phi_entry (b_p (s_basis s)) k 0 Hk (Nat.le_0_l _)) as E. unfold at2 in E. rewrite E. apply LegP_0. }
      rewrite E0. pose proof (HN e k He Hk) as HR. fold (rho_node s e k) in HR.
      replace (rho_node s e k, rho_node s e k * v + 0 * 1, rho_node s e k * (v * v / 2) + p / (gamma - 1) * 1) with (cons gamma (rho_node s e k) v p) by (unfold cons, energy; st3; field; lra).
      rewrite flux1_prim by assumption. rewrite eflux_advected by exact Hg. unfold advected. reflexivity. }
    set (vol := fun n e => vdot (row (b_dphi_w (s_basis s)) n) (tab (b_NG (s_basis s)) (rho_node s e))).
    assert (VT : forall n e, (n < s_Ns s)%nat -> (1 <= e <= ne)%nat ->
              volume_term gamma s1 (modes s1) n e 0 = vol n e * v /\
              volume_term gamma s1 (modes s1) n e 1 = vol n e * v * v + p * (1 - LegP n (-1)) /\
              volume_term gamma s1 (modes s1) n e 2 = vol n e * v * (v * v / 2) + gamma / (gamma - 1) * p * v * (1 - LegP n (-1))).
    { intros n e Hn He. unfold volume_term. change (s_basis s1) with (s_basis s). set (NG := b_NG (s_basis s)) in *.
      assert (Lr : List.length (row (b_dphi_w (s_basis s)) n) = NG) by (apply (shape_row (s_Ns s)); [apply (wf_dphi _ _ W)|exact Hn]).
      assert (ONE : vdot (row (b_dphi_w (s_basis s)) n) (tab NG (fun _ => 1)) = 1 - LegP n (-1)).
      { unfold NG, b_NG. rewrite (md_basis _ _ M). rewrite (G_len G). apply (dphi_one G). rewrite Ns_p in Hn. lia. }
      assert (AX : forall a b, vdot (row (b_dphi_w (s_basis s)) n) (tab NG (fun k => rho_node s e k * a + b)) = vol n e * a + b * (1 - LegP n (-1))).
      { intros a b. unfold vol. rewrite <- ONE. rewrite !(vdot_R _ _ NG) by (exact Lr || apply length_tab). rewrite <- Rsum_scale_r, <- Rsum_scale, <- Rsum_plus.
        apply Rsum_ext. intros k Hk. rewrite !at1_tab by exact Hk. ring. }
      repeat split.
      - rewrite (tab_ext NG _ (fun k => rho_node s e k * v + 0)); [rewrite AX; ring|]. intros k Hk. rewrite (NS e k He Hk). unfold at1. cbn [nth]. ring.
      - rewrite (tab_ext NG _ (fun k => rho_node s e k * (v * v) + p)); [rewrite AX; ring|]. intros k Hk. rewrite (NS e k He Hk). unfold at1. cbn [nth]. ring.
      - rewrite (tab_ext NG _ (fun k => rho_node s e k * (v * (v * v / 2)) + gamma / (gamma - 1) * p * v)); [rewrite AX; ring|]. intros k Hk. rewrite (NS e k He Hk). unfold at1. cbn [nth]. ring. }
    assert (RI : forall n e f, (n < s_Ns s)%nat -> (1 <= e <= ne)%nat -> (f < 3)%nat ->
              at2 (residual_mat gamma ne s1 qq) n (e * 3 + f) = residual_of gamma s1 (modes s1) (qq (e - 1)%nat) (qq e) n e f).
    { intros n e f Hn He Hf. pose proof (residual_interior gamma ne s1 qq n e f W1 Hn He) as E. change (s_NF s1) with (s_NF s) in E. rewrite NF3 in E. apply E. exact Hf. }
    split.
    { intros n e Hn He. rewrite !RI by (assumption || lia). unfold residual_of. destruct (VT n e Hn He) as [-> [-> ->]]. rewrite <- odd_even_sign.
      unfold face_term, qq, at1. cbn [nth]. change (s_minv s1) with (s_minv s). numR. destruct (Nat.even n); split; ring. }
    split.
    { intros e f He Hf. pose proof (ghost_mean_0 ne s1 qq e f M1 He) as E. change (s_NF s1) with (s_NF s) in E. rewrite NF3 in E. apply E. exact Hf. }
    intros R n e Hn He. rewrite RI by (assumption || lia). unfold residual_of. destruct (VT n e Hn He) as [-> _]. unfold rho_rate. fold (vol n e).
    unfold qq, at1 at 1 2. cbn [nth]. rewrite (proj2 (HQ (e - 1)%nat ltac:(lia)) R), (proj2 (HQ e ltac:(lia)) R). change (s_minv s1) with (s_minv s).
    unfold face_term. numR. destruct (Nat.even n); ring.
  Qed.
End Flow.

(** ** runs *)
Section FlowRun.
  Context {X : Ext R}.
  Variable gamma : R.
  Hypothesis Hg : 1 < gamma.
  Hypothesis G : gauss_ok.
  Hypothesis IV : inv_ok.
  Variables v p : R.
  Hypothesis Hp : 0 < p.
  Implicit Types s : solution R.
  Variables (ne : nat) (sol0 : solution R) (d : dg).
  Hypothesis M0 : made ne sol0.
  Hypothesis D0 : wf_dg ne sol0 d.
  Hypothesis HE : enh_sound sol0.
  Hypothesis Bl : bc_known (s_bcl sol0).
  Hypothesis Br : bc_known (s_bcr sol0).
  Hypothesis Eu : s_euler sol0 = true.
  Hypothesis U0 : uniform_vp gamma ne v p sol0.
  Let W0 := md_wf _ _ M0.
  Let NF3 : s_NF sol0 = 3%nat. Proof. unfold s_NF. rewrite Eu. reflexivity. Qed.

  Definition linked (c : R) (K : mat R) : Prop := forall n e, (n < s_Ns sol0)%nat -> (1 <= e <= ne)%nat ->
    at2 K n (e * 3 + 1) = at2 K n (e * 3 + 0) * v /\ at2 K n (e * 3 + 2) = at2 K n (e * 3 + 0) * (v * v / 2) + c * unit0 n.
  Definition Vp s := Wf ne sol0 s /\ linked (p / (gamma - 1)) (s_u s).
  Definition VpK (K : mat R) := WfK ne sol0 K /\ linked 0 K.

  Lemma idx3 e f : (1 <= e <= ne)%nat -> (f < 3)%nat -> (e * 3 + f < (ne + 2) * 3)%nat. Proof. nia. Qed.
  Lemma linked_cells s : Wf ne sol0 s -> linked (p / (gamma - 1)) (s_u s) <-> forall e, (1 <= e <= ne)%nat -> cellwise gamma v p (s_Ns s) (modes s e).
  Proof.
    intros [W S]. pose proof (similar_NF _ _ S) as Sf. rewrite NF3 in Sf. rewrite (similar_Ns _ _ S).
    assert (E : forall n e f, (n < s_Ns sol0)%nat -> (1 <= e <= ne)%nat -> (f < 3)%nat -> at1 (modes s e f) n = at2 (s_u s) n (e * 3 + f)).
    { intros n e f Hn He Hf. rewrite (modes_at ne s e f n W); [rewrite Sf; reflexivity|lia|rewrite Sf; exact Hf|rewrite (similar_Ns _ _ S); exact Hn]. }
    assert (Lm : forall e f, List.length (modes s e f) = s_Ns sol0) by (intros; rewrite (length_modes ne s _ _ W); apply similar_Ns; exact S). split.
    - intros H e He. split; (split; [apply Lm|]); (split; [apply Lm|]); intros n Hn; rewrite !E by (assumption || lia); destruct (H n e Hn He) as [H1 H2]; [rewrite H1; ring|exact H2].
    - intros H n e Hn He. destruct (H e He) as [[_ [_ H1]] [_ [_ H2]]]. specialize (H1 n Hn). specialize (H2 n Hn). rewrite !E in H1, H2 by (assumption || lia).
      split; [rewrite H1; ring|exact H2].
  Qed.
  Lemma Vp_cells s : Vp s -> forall e, (1 <= e <= ne)%nat -> cellwise gamma v p (s_Ns s) (modes s e).
  Proof. intros [H1 H2]. apply linked_cells; assumption. Qed.
  Lemma Vp_uniform s : Vp s -> uniform_vp gamma ne v p s.
  Proof. intro H. apply (uniform_vp_cellwise gamma Hg v p ne s); [apply H|]. apply Vp_cells. exact H. Qed.
  Lemma Vp_u s s' : Vp s -> Wf ne sol0 s' -> s_u s' = s_u s -> Vp s'.
  Proof. intros [_ H] H' E. split; [exact H'|]. rewrite E. exact H. Qed.
  Lemma Vp_copy s s' : Vp s -> Vp s' -> Vp (copy_data_only s s').
  Proof. intros [H _] H'. apply (Vp_u s'); [exact H'|apply Wf_copy; [exact H|apply H']|reflexivity]. Qed.
  Lemma Vp_t s t : Vp s -> Vp (with_t s t).
  Proof. intro H. apply (Vp_u s); [exact H|apply Wf_t; apply H|reflexivity]. Qed.
  Lemma Vp_clock s t n : Vp s -> Vp (with_n (with_t s t) n).
  Proof. intro H. apply (Vp_u s); [exact H|apply Wf_n, Wf_t; apply H|reflexivity]. Qed.
  Lemma VpK_mscale a K : VpK K -> VpK (mscale a K).
  Proof.
    intros [H1 H2]. split; [apply shape_mscale; exact H1|]. unfold WfK in H1. rewrite NF3 in H1. intros n e Hn He.
    rewrite !(at2_mscale (s_Ns sol0) ((ne + 2) * 3) a K n _ H1 Hn) by (apply idx3; [exact He|lia]). destruct (H2 n e Hn He) as [-> ->]. numR. split; ring.
  Qed.
  Lemma Vp_axpy s a K : Vp s -> VpK K -> Vp (smart_axpy s a K).
  Proof.
    intros [H1 H2] HK. split; [apply Wf_axpy; [exact H1|apply HK]|]. cbn [s_u smart_axpy with_u]. unfold axpy_mat.
    destruct (nltb _ _); [|exact H2]. destruct (VpK_mscale a K HK) as [K1 K2]. unfold WfK in K1. rewrite NF3 in K1.
    assert (Sh : shape (s_Ns sol0) ((ne + 2) * 3) (s_u s)).
    { destruct H1 as [W S]. pose proof (wf_u _ _ W) as Q. rewrite (similar_Ns _ _ S), (similar_NF _ _ S), NF3 in Q. exact Q. }
    intros n e Hn He. rewrite !(at2_madd (s_Ns sol0) ((ne + 2) * 3) (s_u s) (mscale a K) n _ Sh K1 Hn) by (apply idx3; [exact He|lia]).
    destruct (H2 n e Hn He) as [-> ->]. destruct (K2 n e Hn He) as [-> ->]. numR. split; ring.
  Qed.
  Lemma Vp_src s s' : Vp s -> Wf ne sol0 s' -> (forall e f, (e < ne + 2)%nat -> (f < 3)%nat -> modes s' e f = filled ne s e f) -> Vp s'.
  Proof.
    intros H H' E. split; [exact H'|]. apply (linked_cells s' H'). intros e He. pose proof (Vp_cells s H e He) as C.
    assert (Q : forall f, (f < 3)%nat -> modes s' e f = modes s e f).
    { intros f Hf. rewrite E by (exact Hf || lia). unfold filled, src_cell. destruct (Nat.eqb_spec e 0); [lia|]. destruct (Nat.eqb_spec e (ne + 1)); [lia|reflexivity]. }
    destruct H' as [_ S']. destruct H as [[_ S] _]. rewrite (similar_Ns _ _ S'), <- (similar_Ns _ _ S). unfold cellwise in *. rewrite !Q by lia. exact C.
  Qed.
  Lemma Vp_bc s s' : Vp s -> apply_bc s = Ok s' -> Vp s'.
  Proof.
    intros H E. pose proof H as [[W S] _]. apply (Vp_src s); [exact H|eapply Wf_bc; [exact (conj W S)|exact E]|].
    intros e f He Hf. rewrite (apply_bc_eq _ _ W) in E. apply Ok_inj in E. subst s'. apply (modes_bc ne s); [exact W|exact He|rewrite (similar_NF _ _ S), NF3; exact Hf].
  Qed.
  Lemma Vp_lim s s' : Vp s -> limit gamma None s = Ok s' -> Vp s'.
  Proof. intros H E. apply Ok_inj in E. subst s'. exact H. Qed.
  Lemma Vp_res dt s s' F : dense ne s -> Vp s -> residual gamma d s = Ok (s', F) -> Vp s' /\ VpK (mscale dt F).
  Proof.
    intros HD H E. pose proof H as [[W S] _]. pose proof (Wf_dg ne sol0 d D0 s (conj W S)) as D.
    destruct (residual_vp gamma Hg G IV v p Hp ne s d) as [s1 [F1 [E1 [S1 [M1 [FM [L1 _]]]]]]].
    - eapply made_similar; eassumption. - exact D.
    - destruct S as [t [n [sn [u [-> _]]]]]. exact HE. - destruct S as [t [n [sn [u [-> _]]]]]. exact Bl. - destruct S as [t [n [sn [u [-> _]]]]]. exact Br.
    - rewrite (similar_euler _ _ S). exact Eu. - apply Vp_cells. exact H. - exact HD.
    - rewrite E in E1. apply Ok_inj in E1. injection E1 as <- <-. destruct (wf_residual gamma _ _ _ _ _ W D E) as [_ R3].
      rewrite (similar_NF _ _ S), (similar_Ns _ _ S) in R3. split.
      + apply (Vp_src s); [exact H|exact (conj (md_wf _ _ M1) (similar_trans _ _ _ S S1))|exact FM].
      + apply VpK_mscale. split; [exact R3|]. rewrite (similar_Ns _ _ S) in L1. intros n e Hn He. destruct (L1 n e Hn He) as [Q1 Q2]. split; [exact Q1|]. rewrite Q2. ring.
  Qed.
  Lemma Vp_0 : Vp sol0.
  Proof.
    assert (H : Wf ne sol0 sol0) by (apply Wf_0; exact W0). split; [exact H|]. apply (linked_cells sol0 H). apply (uniform_vp_cellwise gamma Hg v p ne sol0 W0). exact U0.
  Qed.
  Lemma VpK_0 : VpK (zeros2 (nrows (s_u sol0)) (ncols (s_u sol0))).
  Proof.
    split; [apply WfK_0; exact W0|]. intros n e Hn He. pose proof (wf_u _ _ W0) as U. rewrite (shape_ncols _ _ _ U (Ns_pos _)), NF3.
    assert (Hn' : (n < nrows (s_u sol0))%nat) by (unfold nrows; destruct U as [E _]; refine (eq_ind_r (fun k => (n < k)%nat) Hn E)).
    unfold zeros2. rewrite !at2_tab2 by (first [exact Hn'|apply idx3; [exact He|lia]]). numR. split; ring.
  Qed.
  Lemma vp_run rk cfl tf nout fuel evs out : (forall x, evaluated gamma rk d None cfl tf nout sol0 x -> dense ne x) ->
    integrate gamma rk d None cfl tf nout fuel sol0 = (evs, out) ->
    forall s, (exists ev, In ev evs /\ s = ev_sol ev) \/ out = Finished s -> similar sol0 s /\ uniform_vp gamma ne v p s.
  Proof.
    intros HD H s Hs. apply (integrate_good gamma Vp Vp VpK (dense ne) d None) in H.
    - destruct H as [H1 H2]. rewrite Forall_forall in H1. assert (U : Vp s) by (destruct Hs as [[ev [Hi ->]]|Hs]; auto). split; [apply U|apply Vp_uniform; exact U].
    - exact Vp_copy. - exact Vp_copy. - exact Vp_axpy. - exact Vp_axpy. - exact Vp_t. - exact Vp_lim. - exact Vp_res.
    - exact Vp_clock. - exact Vp_bc. - exact Vp_lim. - exact HD. - exact Vp_0. - exact Vp_0. - exact VpK_0.
  Qed.
End FlowRun.

(** ** contact discontinuities at rest *)
Lemma similar_static (s s' : solution R) : similar s s' -> s_bcl s' = s_bcl s /\ s_bcr s' = s_bcr s /\ s_enh s' = s_enh s /\ s_riemann s' = s_riemann s.
Proof. intros [t [n [sn [u [-> _]]]]]. repeat split. Qed.
Lemma dense_ext ne (s s' : solution R) : (1 <= ne)%nat -> bc_known (s_bcl s) -> bc_known (s_bcr s) -> similar s s' ->
  (forall e, (1 <= e <= ne)%nat -> modes s' e 0 = modes s e 0) -> dense ne s -> dense ne s'.
Proof.
  intros Hn Bl Br S E [D1 D2]. destruct (similar_static _ _ S) as [E1 [E2 [E3 _]]]. split.
  - intros e g He Hk. rewrite (similar_basis _ _ S) in Hk |- *. rewrite E by exact He. apply D1; assumption.
  - intros e He. destruct (D2 e He) as [P1 P2]. unfold rho_minus, rho_plus, face_minus, face_plus, filled in *. rewrite E1, E2, E3, (similar_basis _ _ S).
    rewrite !E by (apply src_interior; try assumption; lia). split; assumption.
Qed.
Section Rest.
  Context {X : Ext R}.
  Variable gamma : R.
  Hypothesis Hg : 1 < gamma.
  Hypothesis G : gauss_ok.
  Hypothesis IV : inv_ok.
  Variable p : R.
  Hypothesis Hp : 0 < p.
  Variables (ne : nat) (sol0 : solution R) (d : dg).
  Hypothesis M0 : made ne sol0.
  Hypothesis D0 : wf_dg ne sol0 d.
  Hypothesis HE : enh_sound sol0.
  Hypothesis Bl : bc_known (s_bcl sol0).
  Hypothesis Br : bc_known (s_bcr sol0).
  Hypothesis Eu : s_euler sol0 = true.
  Hypothesis U0 : uniform_vp gamma ne 0 p sol0.
  Hypothesis HD : dense ne sol0.
  Let W0 := md_wf _ _ M0.
  Let NF3 : s_NF sol0 = 3%nat. Proof. unfold s_NF. rewrite Eu. reflexivity. Qed.

  Lemma rest_residual (s : solution R) : Wf ne sol0 s -> (forall e f, (1 <= e <= ne)%nat -> (f < s_NF sol0)%nat -> modes s e f = modes sol0 e f) ->
    exists s1 F, residual gamma d s = Ok (s1, F) /\
      (forall n e, (n < s_Ns sol0)%nat -> (1 <= e <= ne)%nat -> at2 F n (e * 3 + 1) = 0 /\ at2 F n (e * 3 + 2) = 0) /\
      (forall e f, (e = 0 \/ e = ne + 1)%nat -> (f < 3)%nat -> at2 F 0 (e * 3 + f) = 0) /\
      (s_riemann sol0 = RRoe \/ s_riemann sol0 = RGodunov -> forall n e, (n < s_Ns sol0)%nat -> (1 <= e <= ne)%nat -> at2 F n (e * 3 + 0) = 0).
  Proof.
    intros HW Hm. pose proof HW as [W S]. destruct (similar_static _ _ S) as [E1 [E2 [E3 E4]]].
    assert (Hne : (1 <= ne)%nat) by (pose proof (wf_ne _ _ W0); assumption).
    destruct (residual_vp gamma Hg G IV 0 p Hp ne s d) as [s1 [F [R1 [_ [_ [_ [R2 [R3 R4]]]]]]]].
    - eapply made_similar; eassumption. - apply (Wf_dg ne sol0 d D0 s HW).
    - unfold enh_sound. rewrite E3, (similar_basis _ _ S). exact HE. - rewrite E1. exact Bl. - rewrite E2. exact Br. - rewrite (similar_euler _ _ S). exact Eu.
    - apply (uniform_vp_cellwise gamma Hg 0 p ne s W). intros e x He. rewrite !Hm by (try exact He; rewrite NF3; lia). apply U0. exact He.
    - apply (dense_ext ne sol0 s Hne Bl Br S); [|exact HD]. intros e He. apply Hm; [exact He|rewrite NF3; lia].
    - exists s1, F. split; [exact R1|]. rewrite (similar_Ns _ _ S) in *. split; [|split; [exact R3|]].
      + intros n e Hn He. destruct (R2 n e Hn He) as [-> ->]. split; [ring|field].
      + rewrite E4 in R4. intros R n e Hn He. rewrite (R4 R n e Hn He). ring.
  Qed.
  Lemma rest_steady : s_riemann sol0 = RRoe \/ s_riemann sol0 = RGodunov ->
    forall s, Wf ne sol0 s -> (forall e f, (1 <= e <= ne)%nat -> (f < s_NF sol0)%nat -> modes s e f = modes sol0 e f) ->
    exists s' F, residual gamma d s = Ok (s', F) /\
      (forall n e f, (n < s_Ns sol0)%nat -> (e < ne + 2)%nat -> (f < s_NF sol0)%nat -> (1 <= e <= ne)%nat \/ n = 0%nat -> at2 F n (e * s_NF sol0 + f) = 0).
  Proof.
    intros HR s HW Hm. destruct (rest_residual s HW Hm) as [s1 [F [R1 [R2 [R3 R4]]]]]. exists s1, F. split; [exact R1|]. specialize (R4 HR).
    intros n e f Hn He Hf Hc. rewrite NF3 in *.
    destruct (Nat.le_gt_cases 1 e) as [L1|L1]; [destruct (Nat.le_gt_cases e ne) as [L2|L2]|].
    - destruct (R2 n e Hn (conj L1 L2)) as [Q1 Q2]. destruct f as [|[|[|f]]]; [apply R4; [exact Hn|split; assumption]|exact Q1|exact Q2|lia].
    - destruct Hc as [Hc| ->]; [lia|]. apply R3; [lia|exact Hf].
    - destruct Hc as [Hc| ->]; [lia|]. apply R3; [lia|exact Hf].
  Qed.
  Lemma rest_run : s_riemann sol0 = RRoe \/ s_riemann sol0 = RGodunov -> apply_bc sol0 = Ok sol0 ->
    forall rk cfl tf nout fuel evs out, integrate gamma rk d None cfl tf nout fuel sol0 = (evs, out) ->
    forall s, (exists ev, In ev evs /\ s = ev_sol ev) \/ out = Finished s ->
    similar sol0 s /\ forall e f, (1 <= e <= ne)%nat -> (f < 3)%nat -> modes s e f = modes sol0 e f.
  Proof.
    intros HR B0 rk cfl tf nout fuel evs out H s Hs.
    pose proof (steady_run gamma ne sol0 d W0 D0 Bl Br B0 (rest_steady HR) rk cfl tf nout fuel evs out H s Hs) as Q. rewrite NF3 in Q. exact Q.
  Qed.
  Lemma rest_completes : s_riemann sol0 = RRoe \/ s_riemann sol0 = RGodunov -> apply_bc sol0 = Ok sol0 ->
    forall rk cfl tf nout w, (2 <= nout)%Z -> s_t sol0 <= tf -> max_wave_speed gamma sol0 = Ok w ->
    1 / 100000000000000 <= s_dx sol0 * cfl / (w * INR (2 * b_p (s_basis sol0) + 1)) ->
    exists F evs s, s_t s = tf /\ forall fuel, (F <= fuel)%nat -> integrate gamma rk d None cfl tf nout fuel sol0 = (evs, Finished s).
  Proof. intros HR B0. exact (steady_completes gamma ne sol0 d W0 D0 Bl Br B0 (rest_steady HR)). Qed.
  Lemma rest_evaluated : s_riemann sol0 = RRoe \/ s_riemann sol0 = RGodunov -> apply_bc sol0 = Ok sol0 ->
    forall rk cfl tf nout x, evaluated gamma rk d None cfl tf nout sol0 x -> dense ne x.
  Proof.
    intros HR B0 rk cfl tf nout x Hx. pose proof (Fix_evaluated gamma ne sol0 d W0 D0 Bl Br B0 (rest_steady HR) rk cfl tf nout x Hx) as Fx.
    pose proof Fx as [[_ S] _]. eapply (dense_ext ne sol0 x (wf_ne _ _ W0) Bl Br S); [|exact HD]. intros e He. apply (Fix_modes ne sol0 W0 x e 0 Fx He). rewrite NF3. lia.
  Qed.
  (** rusanov: the average of a cell with a jump at exactly one of its two interfaces changes *)
  Lemma rest_rusanov : s_riemann sol0 = RRusanov -> forall s1 F, residual gamma d sol0 = Ok (s1, F) ->
    forall e, (1 <= e <= ne)%nat ->
    (rho_minus ne sol0 (e - 1) = rho_plus ne sol0 (e - 1) /\ rho_minus ne sol0 e <> rho_plus ne sol0 e) \/
    (rho_minus ne sol0 (e - 1) <> rho_plus ne sol0 (e - 1) /\ rho_minus ne sol0 e = rho_plus ne sol0 e) -> at2 F 0 (e * 3 + 0) <> 0.
  Proof.
    intros HR s1 F H e He Hj. pose proof (md_dx _ _ M0) as Hd. apply (residual_char gamma ne sol0 d s1 F W0 D0) in H. destruct H as [Hb [q [Hq ->]]].
    rewrite (apply_bc_eq _ _ W0) in Hb. apply Ok_inj in Hb. subst s1. set (s1 := with_u sol0 (bc_u ne sol0)) in *.
    assert (W1 : wf ne s1) by (apply wf_apply_bc; exact W0).
    assert (M1 : made ne s1) by (eapply made_similar; [exact M0|apply similar_with_u|exact W1]).
    pose proof (mean_residual gamma ne s1 q e 0 M1 He) as E. change (s_NF s1) with (s_NF sol0) in E. rewrite NF3 in E. rewrite E by lia. clear E. change (s_dx s1) with (s_dx sol0).
    assert (FM : forall e f, (e < ne + 2)%nat -> (f < 3)%nat -> modes s1 e f = filled ne sol0 e f).
    { intros e' f He' Hf. unfold s1. rewrite (modes_bc ne sol0) by (try assumption; rewrite NF3; exact Hf). reflexivity. }
    assert (Q : forall e', (e' <= ne)%nat -> at1 (q e') 0 = 0 <-> rho_minus ne sol0 e' = rho_plus ne sol0 e').
    { intros e' He'. specialize (Hq e' He'). unfold iface_flux in Hq. change (s_NF s1) with (s_NF sol0) in Hq. rewrite NF3 in Hq.
      rewrite (tab_ext 3 (face_minus s1 (modes s1) e') (face_minus sol0 (filled ne sol0) e')) in Hq.
      2:{ intros f Hf. unfold face_minus. change (s_enh s1) with (s_enh sol0). change (s_basis s1) with (s_basis sol0). rewrite !FM by (exact Hf || lia). reflexivity. }
      rewrite (tab_ext 3 (face_plus s1 (modes s1) e') (face_plus sol0 (filled ne sol0) e')) in Hq.
      2:{ intros f Hf. unfold face_plus. change (s_enh s1) with (s_enh sol0). change (s_basis s1) with (s_basis sol0). rewrite !FM by (exact Hf || lia). reflexivity. }
      destruct HD as [_ HF]. destruct (HF e' He') as [P1 P2].
      pose proof (proj1 (uniform_vp_cellwise gamma Hg 0 p ne sol0 W0) U0) as C.
      assert (FC : forall e, (e < ne + 2)%nat -> cellwise gamma 0 p (s_Ns sol0) (filled ne sol0 e)).
      { intros e1 He1. unfold filled. apply C. apply src_interior; try assumption. apply (wf_ne _ _ W0). }
      destruct (face_affine IV ne sol0 0 0 (filled ne sol0) e' 0 1 M0 HE) as [V1 V2]; [intros e1 He1; apply (FC e1); lia|].
      destruct (face_affine IV ne sol0 (0 * 0 / 2) (p / (gamma - 1)) (filled ne sol0) e' 0 2 M0 HE) as [V3 V4]; [intros e1 He1; apply (FC e1); lia|].
      unfold num_flux in Hq. change (s_riemann s1) with (s_riemann sol0) in Hq. rewrite HR in Hq. rewrite !at1_tab in Hq by lia.
      fold (rho_minus ne sol0 e') in *. fold (rho_plus ne sol0 e') in *. rewrite V1, V2, V3, V4 in Hq.
      replace (rho_minus ne sol0 e', rho_minus ne sol0 e' * 0 + 0, rho_minus ne sol0 e' * (0 * 0 / 2) + p / (gamma - 1)) with (cons gamma (rho_minus ne sol0 e') 0 p) in Hq by (unfold cons, energy; st3; field; lra).
      replace (rho_plus ne sol0 e', rho_plus ne sol0 e' * 0 + 0, rho_plus ne sol0 e' * (0 * 0 / 2) + p / (gamma - 1)) with (cons gamma (rho_plus ne sol0 e') 0 p) in Hq by (unfold cons, energy; st3; field; lra).
      pose proof (rusanov_contact gamma Hg _ _ p P1 P2 Hp) as RC.
      destruct (rusanov1 gamma (cons gamma (rho_minus ne sol0 e') 0 p) (cons gamma (rho_plus ne sol0 e') 0 p)) as [[a b] c] eqn:ER. cbn [fst] in RC.
      apply Ok_inj in Hq. rewrite <- Hq. unfold at1. cbn [nth]. split; [exact RC|]. intro Q.
      rewrite Q in ER. rewrite rusanov_consistent in ER by assumption. unfold eflux in ER. injection ER as <- _ _. ring. }
    destruct Hj as [[J1 J2]|[J1 J2]]; rewrite <- (Q (e - 1)%nat) in J1 by lia; rewrite <- (Q e) in J2 by lia.
    - rewrite J1. intro E. apply J2. apply (Rmult_eq_reg_r (/ s_dx sol0)); [|apply Rinv_neq_0_compat; lra]. unfold Rdiv in E. lra.
    - rewrite J2. intro E. apply J1. apply (Rmult_eq_reg_r (/ s_dx sol0)); [|apply Rinv_neq_0_compat; lra]. unfold Rdiv in E. lra.
  Qed.
End Rest.
