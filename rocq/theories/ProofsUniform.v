(** C14: a uniform flow stays uniform.  The ghost cells' higher modes are polluted inside an RK step (only the volume term is computed
    there), but their averages are not, and they are refreshed before they are read. *)
From Coq Require Import ZArith List Bool Arith String Lia Reals Lra FunctionalExtensionality.
From Verif Require Import Num Py PyStr Lib RealLib LegNumpy Ext Basis Constants Sensor Enhance Limiting AdvectionPhysics EulerPhysics
  IC Solution Solver RKCoeffs RK SpecTime ProofsTime SpecDG SpecPoly SpecEuler SpecLimit SpecEnh SpecUniform ProofsPoly ProofsLeg ProofsGauss ProofsDG ProofsDG2 ProofsWf ProofsCons
  ProofsSol ProofsBasis ProofsAdv ProofsRiemann ProofsGodunov ProofsEnh ProofsEnh2 ProofsLim ProofsLimRun ProofsShift ProofsRun ProofsTime2.
Import ListNotations.
Open Scope list_scope.
Open Scope R_scope.

Lemma length_cmodes p c : List.length (cmodes p c) = (p + 1)%nat.
Proof. unfold cmodes. cbn [List.length]. rewrite repeat_length. lia. Qed.
Lemma at1_cmodes p c n : at1 (cmodes p c) n = match n with O => c | S _ => 0 end.
Proof. unfold at1, cmodes. destruct n as [|n]; [reflexivity|]. cbn [nth]. change (n0 (A:=R)) with 0. apply nth_repeat. Qed.
Lemma legseries_cmodes p c x : legseries (cmodes p c) x = c.
Proof.
  rewrite <- (series_dot (tab (p + 1) (fun i => LegP i x)) (cmodes p c) (p + 1)); [|apply length_tab|apply length_cmodes|intros i Hi; unfold at1; rewrite nth_tab by exact Hi; reflexivity].
  rewrite (vdot_R _ _ (p + 1)) by (apply length_tab || apply length_cmodes). replace (p + 1)%nat with (S p) by lia. rewrite Rsum_S_l.
  rewrite at1_cmodes. unfold at1. rewrite nth_tab by lia. rewrite LegP_0. rewrite Rsum_0; [ring|].
  intros i Hi. fold (at1 (cmodes p c) (S i)). rewrite at1_cmodes. ring.
Qed.
Lemma src_interior bl br ne e : bc_known bl -> bc_known br -> (1 <= ne)%nat -> (e < ne + 2)%nat -> (1 <= src_cell bl br ne e <= ne)%nat.
Proof.
  intros Hl Hr Hn He. unfold src_cell. destruct (Nat.eqb_spec e 0); [destruct Hl as [-> | ->]; [lia|destruct (is_literal bl "periodic"); lia]|].
  destruct (Nat.eqb_spec e (ne + 1)); [destruct Hr as [-> | ->]; [lia|destruct (is_literal br "periodic"); lia]|lia].
Qed.

Section Uniform.
  Context {X : Ext R}.
  Variable gamma : R.
  Hypothesis G : gauss_ok.
  Hypothesis IV : inv_ok.
  Implicit Types s : solution R.

  Lemma enh_exact p modes d a x v : reconstructed_value p modes d (cmodes p a) (cmodes p a) x v -> v = a.
  Proof.
    intros [q [_ [U <-]]]. rewrite <- (U (cmodes (p + List.length modes) a)); [apply legseries_cmodes|].
    split; [rewrite length_cmodes; lia|]. split.
    - intros m _ w. rewrite (functional_extensionality _ _ (fun x => f_equal (Rmult (LegP m x)) (eq_trans (legseries_cmodes (p + List.length modes) a x) (eq_sym (legseries_cmodes p a x))))). tauto.
    - intros m _ w. rewrite (functional_extensionality _ _ (fun x => f_equal (Rmult (LegP m x)) (eq_trans (legseries_cmodes (p + List.length modes) a (x + d)) (eq_sym (legseries_cmodes p a x))))). tauto.
  Qed.
  Lemma faces_uniform ne c s : made ne s -> enh_sound s -> uniform_all ne c s -> forall e f, (e <= ne)%nat -> (f < s_NF s)%nat ->
    face_minus s (modes s) e f = c f /\ face_plus s (modes s) e f = c f.
  Proof.
    intros M HE U e f He Hf. unfold enh_sound in HE. destruct (s_enh s) as [en|] eqn:Ee.
    - destruct HE as [mthd [HE [ND HB]]]. destruct (evaluate_faces_Ok ne s (md_wf _ _ M)) as [uf [E [_ [_ V]]]].
      destruct (V e f He Hf) as [V1 V2].
      destruct (enhanced_faces IV ne s mthd en uf M Ee HE ND HB E e f He Hf) as [K1 K2]. rewrite V1 in K1. rewrite V2 in K2.
      rewrite (U e f), (U (e + 1)%nat f) in K1, K2 by (exact Hf || lia). split; eapply enh_exact; eassumption.
    - unfold face_minus, face_plus. rewrite Ee. rewrite (U e f), (U (e + 1)%nat f) by (exact Hf || lia). rewrite (md_basis _ _ M).
      rewrite b_p_Basis. rewrite psi_right, psi_left by apply length_cmodes. rewrite !legseries_cmodes. split; reflexivity.
  Qed.
  Lemma num_flux_same s (cs : list R) : (s_riemann s = RUpwind <-> s_euler s = false) -> good_state gamma (fun f => at1 cs f) s ->
    num_flux gamma s cs cs = Ok (phys_flux gamma s cs).
  Proof.
    intros K H. unfold num_flux, phys_flux. unfold good_state in H. destruct (s_euler s) eqn:Eu.
    - destruct (H eq_refl) as [Hg [rho [v [p [Hr [Hp E]]]]]]. rewrite E, flux1_prim by assumption.
      destruct (s_riemann s).
      + destruct K as [K _]. discriminate (K eq_refl).
      + rewrite rusanov_consistent by assumption. reflexivity.
      + rewrite godunov_consistent by assumption. reflexivity.
      + rewrite roe_consistent by assumption. reflexivity.
    - rewrite (proj2 K eq_refl). reflexivity.
  Qed.
  Lemma volume_uniform ne c s n e f : made ne s -> (forall f, (f < s_NF s)%nat -> modes s e f = cmodes (b_p (s_basis s)) (c f)) -> (n < s_Ns s)%nat ->
    volume_term gamma s (modes s) n e f = at1 (phys_flux gamma s (tab (s_NF s) c)) f * (1 - LegP n (-1)).
  Proof.
    intros M U Hn. unfold volume_term. set (p := b_p (s_basis s)) in *. set (Fc := at1 (phys_flux gamma s (tab (s_NF s) c)) f).
    rewrite <- (dphi_exact G p n (fun _ => Fc) (Fc * (1 - LegP n (-1)))).
    - rewrite (md_basis _ _ M). fold p. f_equal.
      apply (list_ext 0); [rewrite length_tab, map_length; reflexivity|].
      rewrite length_tab. intros g Hg. unfold b_NG in Hg. rewrite nth_tab by exact Hg.
      rewrite nth_indep with (d' := (fun _ => Fc) 0) by (rewrite map_length; exact Hg). rewrite (map_nth (fun _ => Fc) (b_x (Basis p)) 0).
      unfold Fc. f_equal. f_equal. unfold node_state. apply tab_ext. intros f' Hf'. rewrite U by exact Hf'.
      rewrite (md_basis _ _ M). fold p. rewrite phi_row by (exact Hg || apply length_cmodes). apply legseries_cmodes.
    - unfold s_Ns, b_Ns in Hn. fold p in Hn. lia.
    - apply is_poly_const.
    - apply (nint_ext (fun x => Fc * dLegP n x)); [intro; ring|]. apply nint_scal.
      pose proof (nint_deriv (LegP n) (dLegP n) (-1) 1 (LegP_deriv n)) as Q. rewrite LegP_at1 in Q. exact Q.
  Qed.
  Lemma minv_ghost_0 ne s e f n : made ne s -> n = 0%nat -> volume_term gamma s (modes s) n e f * at1 (s_minv s) n = 0.
  Proof. intros M ->. rewrite (volume_0 gamma ne s (modes s) e f M). ring. Qed.

  (** the residual of a uniform flow: ghost cells refreshed, interior entries zero, averages of the ghost cells zero *)
  Lemma residual_uniform ne c s d : made ne s -> wf_dg ne s d -> enh_sound s -> bc_known (s_bcl s) -> bc_known (s_bcr s) ->
    good_state gamma c s -> uniform ne c s ->
    exists s1 F, residual gamma d s = Ok (s1, F) /\ similar s s1 /\ made ne s1 /\ uniform_all ne c s1 /\
      (forall n e f, (n < s_Ns s)%nat -> (1 <= e <= ne)%nat -> (f < s_NF s)%nat -> at2 F n (e * s_NF s + f) = 0) /\
      (forall e f, (e < ne + 2)%nat -> (f < s_NF s)%nat -> at2 F 0 (e * s_NF s + f) = 0).
  Proof.
    intros M D HE Bl Br Hc U. pose proof (md_wf _ _ M) as W.
    set (s1 := with_u s (bc_u ne s)).
    assert (W1 : wf ne s1) by (apply wf_apply_bc; exact W).
    assert (S1 : similar s s1) by apply similar_with_u.
    assert (M1 : made ne s1) by (eapply made_similar; eassumption).
    assert (U1 : uniform_all ne c s1).
    { intros e f He Hf. unfold s1. rewrite (modes_bc ne s) by assumption. apply U; [|exact Hf]. apply src_interior; try assumption. apply (wf_ne _ _ W). }
    set (Fc := phys_flux gamma s1 (tab (s_NF s1) c)).
    assert (Hq : forall e, (e <= ne)%nat -> iface_flux gamma s1 (modes s1) e = Ok Fc).
    { intros e He. unfold iface_flux.
      rewrite (tab_ext (s_NF s1) (face_minus s1 (modes s1) e) c) by (intros f Hf; apply (faces_uniform ne c s1 M1 HE U1 e f He Hf)).
      rewrite (tab_ext (s_NF s1) (face_plus s1 (modes s1) e) c) by (intros f Hf; apply (faces_uniform ne c s1 M1 HE U1 e f He Hf)).
      apply num_flux_same; [apply (wf_kind _ _ W1)|]. unfold good_state. intro Eu. destruct (Hc Eu) as [Hg Ha]. split; [exact Hg|].
      assert (NF3 : s_NF s1 = 3%nat) by (unfold s_NF; rewrite Eu; reflexivity). rewrite NF3, !at1_tab by lia. exact Ha. }
    exists s1, (residual_mat gamma ne s1 (fun _ => Fc)).
    assert (HR : residual gamma d s = Ok (s1, residual_mat gamma ne s1 (fun _ => Fc))).
    { apply (residual_char gamma ne s d); [exact W|exact D|]. split; [apply apply_bc_eq; exact W|]. exists (fun _ => Fc). split; [exact Hq|reflexivity]. }
    assert (E0 : forall n e f, (n < s_Ns s)%nat -> (1 <= e <= ne)%nat -> (f < s_NF s)%nat -> at2 (residual_mat gamma ne s1 (fun _ => Fc)) n (e * s_NF s + f) = 0).
    { intros n e f Hn He Hf. change (s_NF s) with (s_NF s1). rewrite (residual_interior gamma ne s1) by assumption. unfold residual_of.
      rewrite (volume_uniform ne c) by (first [exact M1|exact Hn|intros f' Hf'; apply U1; [lia|exact Hf']]). fold Fc. rewrite <- odd_even_sign. unfold face_term.
      numR. destruct (Nat.even n); ring. }
    assert (E1 : forall e f, (e < ne + 2)%nat -> (f < s_NF s)%nat -> at2 (residual_mat gamma ne s1 (fun _ => Fc)) 0 (e * s_NF s + f) = 0).
    { intros e f He Hf. destruct (Nat.le_gt_cases 1 e) as [L1|L1]; [destruct (Nat.le_gt_cases e ne) as [L2|L2]|].
      1: { apply E0; [apply Ns_pos|lia|exact Hf]. }
      all: unfold residual_mat; rewrite at2_tab2 by (first [apply Ns_pos|apply cell_index; assumption]); change (s_NF s) with (s_NF s1).
      all: destruct (divmod_idx (s_NF s1) e f Hf) as [-> ->].
      all: replace ((1 <=? e) && (e <=? ne))%nat%bool with false by (symmetry; destruct (Nat.leb_spec 1 e); destruct (Nat.leb_spec e ne); try reflexivity; lia).
      all: apply (minv_ghost_0 ne s1 e f 0%nat M1 eq_refl). }
    exact (conj HR (conj S1 (conj M1 (conj U1 (conj E0 E1))))).
  Qed.

  (** ** runs *)
  Section Run.
    Variables (ne : nat) (c : nat -> R) (sol0 : solution R) (d : dg) (l : limiter (A:=R)).
    Hypothesis M0 : made ne sol0.
    Hypothesis D0 : wf_dg ne sol0 d.
    Hypothesis HE : enh_sound sol0.
    Hypothesis Bl : bc_known (s_bcl sol0).
    Hypothesis Br : bc_known (s_bcr sol0).
    Hypothesis Hc : good_state gamma c sol0.
    Hypothesis U0 : uniform_all ne c sol0.
    Hypothesis HL : match l with None => True | Some h => maps_ok (b_p (s_basis sol0)) h /\ quiet sol0 (fun t => 0 <= t) end.
    Let W0 := md_wf _ _ M0.

    (** entries that stay put: everything in the interior, the averages in the ghost cells *)
    Definition pinned (n e : nat) : Prop := (1 <= e <= ne)%nat \/ n = 0%nat.
    Definition target (n f : nat) : R := match n with O => c f | S _ => 0 end.
    Definition Uni s := Wf ne sol0 s /\ forall n e f, (n < s_Ns sol0)%nat -> (e < ne + 2)%nat -> (f < s_NF sol0)%nat -> pinned n e ->
      at2 (s_u s) n (e * s_NF sol0 + f) = target n f.
    Definition UniK (K : mat R) := WfK ne sol0 K /\ forall n e f, (n < s_Ns sol0)%nat -> (e < ne + 2)%nat -> (f < s_NF sol0)%nat -> pinned n e ->
      at2 K n (e * s_NF sol0 + f) = 0.

    Lemma Uni_modes s e f : Uni s -> (1 <= e <= ne)%nat -> (f < s_NF sol0)%nat -> modes s e f = cmodes (b_p (s_basis sol0)) (c f).
    Proof.
      intros [[W S] H] He Hf. apply (vec_ext (s_Ns sol0)).
      - rewrite (length_modes ne s e f W). apply similar_Ns. exact S.
      - rewrite length_cmodes, Ns_p. lia.
      - intros n Hn. change (at1 (modes s e f) n = at1 (cmodes (b_p (s_basis sol0)) (c f)) n).
        rewrite (modes_at ne s e f n W), at1_cmodes; [|lia|rewrite (similar_NF _ _ S); exact Hf|rewrite (similar_Ns _ _ S); exact Hn].
        rewrite (similar_NF _ _ S). apply H; [exact Hn|lia|exact Hf|left; exact He].
    Qed.
    Lemma Uni_mean s e f : Uni s -> (e < ne + 2)%nat -> (f < s_NF sol0)%nat -> cell_mean s e f = c f.
    Proof.
      intros [[W S] H] He Hf. unfold cell_mean. rewrite (modes_at ne s e f 0 W); [|exact He|rewrite (similar_NF _ _ S); exact Hf|apply Ns_pos].
      rewrite (similar_NF _ _ S). apply (H 0%nat); [apply Ns_pos|exact He|exact Hf|right; reflexivity].
    Qed.
    Lemma Uni_uniform s : Uni s -> uniform ne c s.
    Proof.
      intros H e f He Hf. pose proof H as [[_ S] _]. rewrite (similar_NF _ _ S) in Hf. rewrite (similar_basis _ _ S). apply Uni_modes; assumption.
    Qed.
    (** a state whose cells are copies of interior cells of a uniform one *)
    Lemma Uni_src s s' : Uni s -> Wf ne sol0 s' ->
      (forall e f, (e < ne + 2)%nat -> (f < s_NF sol0)%nat -> modes s' e f = modes s (src_cell (s_bcl s) (s_bcr s) ne e) f) -> Uni s'.
    Proof.
      intros H [W' S'] E. split; [exact (conj W' S')|]. intros n e f Hn He Hf _. pose proof H as [[W S] _].
      rewrite <- (similar_NF _ _ S') at 1. rewrite <- (modes_at ne s' e f n W'); [|exact He|rewrite (similar_NF _ _ S'); exact Hf|rewrite (similar_Ns _ _ S'); exact Hn].
      rewrite E by assumption.
      assert (Hs : (1 <= src_cell (s_bcl s) (s_bcr s) ne e <= ne)%nat).
      { apply src_interior; [| |apply (wf_ne _ _ W)|exact He]; destruct S as [t [n' [sn [u [-> _]]]]]; assumption. }
      rewrite (Uni_modes s) by assumption. apply at1_cmodes.
    Qed.
    Lemma Uni_bc s s' : Uni s -> apply_bc s = Ok s' -> Uni s'.
    Proof.
      intros H E. pose proof H as [[W S] _]. apply (Uni_src s); [exact H|eapply Wf_bc; [exact (conj W S)|exact E]|].
      intros e f He Hf. rewrite (apply_bc_eq _ _ W) in E. apply Ok_inj in E. subst s'. apply (modes_bc ne s); [exact W|exact He|rewrite (similar_NF _ _ S); exact Hf].
    Qed.
    Lemma Uni_lim s : Uni s -> exists s', limit gamma l s = Ok s' /\ Uni s'.
    Proof.
      intro H. pose proof H as [[W S] _]. destruct l as [h|]; [|exists s; split; [reflexivity|exact H]]. destruct HL as [Hm Hq].
      assert (Q : quiet s (fun t => 0 <= t)).
      { destruct Hq as [sn [E1 [E2 E3]]]. destruct S as [t [n [sn' [u [-> Hs]]]]]. cbn [s_sens with_u with_sens] in *. rewrite E1 in Hs.
        destruct sn' as [sn'|]; [|contradiction]. exists sn'. split; [reflexivity|]. rewrite <- Hs. split; [exact E2|exact E3]. }
      destruct (sensing_uniform gamma ne s W Q) as [sn [sn' [K1 [K2 K3]]]].
      { intros e f He Hf. rewrite (similar_NF _ _ S) in Hf. rewrite !(Uni_mean s) by (assumption || lia). reflexivity. }
      assert (Hm' : maps_ok (b_p (s_basis s)) h) by (rewrite (similar_basis _ _ S); exact Hm).
      destruct (limit_unflagged gamma ne s h sn sn' W Hm' K1 K2 K3) as [s' [E [_ [_ [_ HM]]]]].
      exists s'. split; [exact E|]. apply (Uni_src s); [exact H|eapply Wf_lim; [exact (conj W S)|exact E]|].
      intros e f He Hf. apply HM; [exact He|rewrite (similar_NF _ _ S); exact Hf].
    Qed.
    Lemma Uni_lim' s s' : Uni s -> limit gamma l s = Ok s' -> Uni s'.
    Proof. intros H E. destruct (Uni_lim s H) as [s1 [E1 H1]]. rewrite E in E1. apply Ok_inj in E1. subst s1. exact H1. Qed.
    Lemma Uni_u s s' : Uni s -> Wf ne sol0 s' -> s_u s' = s_u s -> Uni s'.
    Proof. intros [_ H] H' E. split; [exact H'|]. intros. rewrite E. apply H; assumption. Qed.
    Lemma Uni_copy s s' : Uni s -> Uni s' -> Uni (copy_data_only s s').
    Proof. intros [H _] H'. apply (Uni_u s'); [exact H'|apply Wf_copy; [exact H|apply H']|reflexivity]. Qed.
    Lemma Uni_t s t : Uni s -> Uni (with_t s t).
    Proof. intro H. apply (Uni_u s); [exact H|apply Wf_t; apply H|reflexivity]. Qed.
    Lemma Uni_clock s t n : Uni s -> Uni (with_n (with_t s t) n).
    Proof. intro H. apply (Uni_u s); [exact H|apply Wf_n, Wf_t; apply H|reflexivity]. Qed.
    Lemma UniK_mscale a K : UniK K -> UniK (mscale a K).
    Proof.
      intros [H1 H2]. split; [apply shape_mscale; exact H1|]. intros n e f Hn He Hf Hp.
      rewrite (at2_mscale (s_Ns sol0) ((ne + 2) * s_NF sol0) a K n _ H1 Hn) by (apply cell_index; assumption).
      rewrite H2 by assumption. apply Rmult_0_r.
    Qed.
    Lemma Uni_axpy s a K : Uni s -> UniK K -> Uni (smart_axpy s a K).
    Proof.
      intros [H1 H2] HK. split; [apply Wf_axpy; [exact H1|apply HK]|]. intros n e f Hn He Hf Hp. cbn [s_u smart_axpy with_u]. unfold axpy_mat.
      destruct (nltb _ _); [|apply H2; assumption]. destruct (UniK_mscale a K HK) as [K1 K2].
      transitivity (at2 (s_u s) n (e * s_NF sol0 + f) + at2 (mscale a K) n (e * s_NF sol0 + f)).
      - refine (at2_madd (s_Ns sol0) ((ne + 2) * s_NF sol0) (s_u s) (mscale a K) n _ _ K1 Hn _); [|apply cell_index; assumption].
        destruct H1 as [W S]. rewrite <- (similar_Ns _ _ S), <- (similar_NF _ _ S). apply (wf_u _ _ W).
      - rewrite H2, K2 by assumption. ring.
    Qed.
    Lemma Uni_res dt s : Uni s -> exists s' F, residual gamma d s = Ok (s', F) /\ Uni s' /\ UniK (mscale dt F).
    Proof.
      intro H. pose proof H as [[W S] _].
      destruct (residual_uniform ne c s d) as [s1 [F [E [S1 [M1 [U1 [Z1 Z2]]]]]]].
      - eapply made_similar; eassumption. - apply (Wf_dg ne sol0 d D0 s (conj W S)).
      - destruct S as [t [n [sn [u [-> _]]]]]. exact HE. - destruct S as [t [n [sn [u [-> _]]]]]. exact Bl. - destruct S as [t [n [sn [u [-> _]]]]]. exact Br.
      - destruct S as [t [n [sn [u [-> _]]]]]. exact Hc. - apply Uni_uniform. exact H.
      - exists s1, F. split; [exact E|]. destruct (wf_residual gamma _ _ _ _ _ W (Wf_dg ne sol0 d D0 s (conj W S)) E) as [_ R3].
        rewrite (similar_NF _ _ S), (similar_Ns _ _ S) in *. split.
        + split; [exact (conj (md_wf _ _ M1) (similar_trans _ _ _ S S1))|]. intros n e f Hn He Hf _.
          pose proof (similar_trans _ _ _ S S1) as S2. rewrite <- (similar_NF _ _ S2) at 1.
          rewrite <- (modes_at ne s1 e f n (md_wf _ _ M1)); [|exact He|rewrite (similar_NF _ _ S2); exact Hf|rewrite (similar_Ns _ _ S2); exact Hn].
          rewrite (U1 e f) by (try exact He; rewrite (similar_NF _ _ S2); exact Hf). apply at1_cmodes.
        + apply UniK_mscale. split; [exact R3|]. intros n e f Hn He Hf [Hp| ->]; [apply Z1; assumption|apply Z2; assumption].
    Qed.
    Lemma Uni_res' dt s s' F : True -> Uni s -> residual gamma d s = Ok (s', F) -> Uni s' /\ UniK (mscale dt F).
    Proof. intros _ H E. destruct (Uni_res dt s H) as [s1 [F1 [E1 K]]]. rewrite E in E1. apply Ok_inj in E1. injection E1 as <- <-. exact K. Qed.
    Lemma Uni_0 : Uni sol0.
    Proof.
      split; [apply Wf_0; exact W0|]. intros n e f Hn He Hf _. rewrite <- (modes_at ne sol0 e f n W0 He Hf Hn). rewrite U0 by assumption. apply at1_cmodes.
    Qed.
    Lemma UniK_0 : UniK (zeros2 (nrows (s_u sol0)) (ncols (s_u sol0))).
    Proof.
      split; [apply WfK_0; exact W0|]. intros n e f Hn He Hf _. pose proof (wf_u _ _ W0) as U. rewrite (shape_ncols _ _ _ U (Ns_pos _)).
      unfold zeros2. apply at2_tab2; [|apply cell_index; assumption].
      unfold nrows. destruct U as [E _]. refine (eq_ind_r (fun k => (n < k)%nat) Hn E).
    Qed.
    Definition Uni_sc := Psc Uni UniK.
    Lemma Uni_visits rk cfl tf nout k tout touts s sc evs :
      visits gamma rk d l cfl tf nout sol0 k tout touts s sc evs -> Uni s /\ Uni_sc sc /\ sc_K sc <> [] /\ Forall (fun ev => Uni (ev_sol ev)) evs.
    Proof.
      apply (ProofsWf.visits_inv gamma Uni Uni UniK (fun _ => True) d l).
      - exact Uni_copy. - exact Uni_copy. - exact Uni_axpy. - exact Uni_axpy. - exact Uni_t. - exact Uni_lim'. - exact Uni_res'.
      - exact Uni_clock. - exact Uni_bc. - exact Uni_lim'. - auto. - exact Uni_0. - exact Uni_0. - exact UniK_0.
    Qed.
    Lemma Uni_time_step rk cfl tf tout s sc s' sc' r : Uni s -> Uni_sc sc -> sc_K sc <> [] ->
      time_step gamma (rk_inner gamma rk d l) l cfl tf tout s sc = Ok (s', sc', r) -> Uni s' /\ Uni_sc sc' /\ sc_K sc' <> [].
    Proof.
      apply (time_step_inv gamma Uni Uni UniK (fun _ => True) d l).
      - exact Uni_copy. - exact Uni_copy. - exact Uni_axpy. - exact Uni_axpy. - exact Uni_t. - exact Uni_lim'. - exact Uni_res'.
      - exact Uni_clock. - exact Uni_bc. - exact Uni_lim'. - auto.
    Qed.
    Lemma Uni_integrate rk cfl tf nout fuel evs out : integrate gamma rk d l cfl tf nout fuel sol0 = (evs, out) ->
      Forall (fun ev => Uni (ev_sol ev)) evs /\ (forall s', out = Finished s' -> Uni s').
    Proof.
      apply (integrate_inv gamma Uni Uni UniK (fun _ => True) d l).
      - exact Uni_copy. - exact Uni_copy. - exact Uni_axpy. - exact Uni_axpy. - exact Uni_t. - exact Uni_lim'. - exact Uni_res'.
      - exact Uni_clock. - exact Uni_bc. - exact Uni_lim'. - auto. - exact Uni_0. - exact Uni_0. - exact UniK_0.
    Qed.

    (** nothing in a step of a uniform flow can fail except the check of its length *)
    Lemma Uni_classic betas dt : forall cas k sol sc, Uni_sc sc -> Uni sol -> exists r, classic_stages gamma d l betas dt k cas sol sc = Ok r.
    Proof.
      induction cas as [|[a b] cas IH]; intros k sol sc [H1 [H2 H3]] Hs; [cbn; eauto|]. cbn [classic_stages].
      set (uk1 := fold_left _ _ _).
      assert (U1 : Uni uk1).
      { unfold uk1. apply (fold_axpy_inv Uni UniK); [exact Uni_axpy|apply Uni_copy; assumption|].
        apply Forall_forall. intros [x K] Hb. apply in_combine_r in Hb. rewrite Forall_forall in H3. apply H3. exact Hb. }
      set (uk2 := with_t uk1 _). assert (U2 : Uni uk2) by (apply Uni_t; exact U1).
      assert (E3 : exists uk3, (if (0 <? k)%nat then limit gamma l uk2 else Ok uk2) = Ok uk3 /\ Uni uk3).
      { destruct (0 <? k)%nat; [|eauto]. apply Uni_lim. exact U2. }
      destruct E3 as [uk3 [E3 U3]]. rewrite E3. cbn [rbind]. destruct (Uni_res dt uk3 U3) as [s1 [F [ER [U4 K4]]]]. rewrite ER. cbn [rbind].
      apply IH; [|apply Uni_axpy; assumption]. split; [exact H1|]. split; [exact U4|]. cbn [sc_K]. apply Forall_lset; assumption.
    Qed.
    Lemma Uni_low_storage dt : forall bgs k sol sc, Uni_sc sc -> sc_K sc <> [] -> Uni sol -> exists r, low_storage_stages gamma d l dt k bgs sol sc = Ok r.
    Proof.
      induction bgs as [|[a b] bgs IH]; intros k sol sc [H1 [H2 H3]] HK Hs; [cbn; eauto|]. cbn [low_storage_stages].
      set (us1 := smart_axpy _ _ _).
      assert (U1 : Uni us1).
      { apply Uni_axpy; [apply Uni_copy; assumption|]. destruct (sc_K sc) as [|K0 Ks]; [contradiction|]. inversion H3; subst. assumption. }
      set (us2 := with_t us1 _). assert (U2 : Uni us2) by (apply Uni_t; exact U1).
      assert (E3 : exists us3, (if (0 <? k)%nat then limit gamma l us2 else Ok us2) = Ok us3 /\ Uni us3).
      { destruct (0 <? k)%nat; [|eauto]. apply Uni_lim. exact U2. }
      destruct E3 as [us3 [E3 U3]]. rewrite E3. cbn [rbind]. destruct (Uni_res dt us3 U3) as [s1 [F [ER [U4 K4]]]]. rewrite ER. cbn [rbind].
      apply IH; [|discriminate|apply Uni_axpy; assumption]. split; [exact H1|]. split; [exact U4|]. cbn [sc_K]. constructor; [exact K4|constructor].
    Qed.
    Lemma Uni_step_total rk cfl tf tout s sc r : Uni s -> Uni_sc sc -> sc_K sc <> [] -> get_next_time_step gamma s tout cfl tf = Ok r ->
      exists s' sc', time_step gamma (rk_inner gamma rk d l) l cfl tf tout s sc = Ok (s', sc', r).
    Proof.
      intros Hs Hsc HK Hg. unfold time_step. rewrite Hg. cbn [rbind]. destruct r as [[dt o] dn].
      assert (Hsc' : Uni_sc (set_us sc s)).
      { destruct Hsc as [H1 [H2 H3]]. split; [apply Uni_copy; assumption|]. split; assumption. }
      assert (E1 : exists r, rk_inner gamma rk d l dt s (set_us sc s) = Ok r).
      { unfold rk_inner. destruct (String.eqb _ _); [apply Uni_low_storage|apply Uni_classic]; assumption. }
      destruct E1 as [[s1 sc1] E1]. rewrite E1. cbn [rbind].
      assert (U1 : Uni s1).
      { eapply (inner_inv gamma Uni Uni UniK (fun _ => True) d l) in E1; try eassumption; [apply E1|..].
        - exact Uni_copy. - exact Uni_axpy. - exact Uni_axpy. - exact Uni_t. - exact Uni_lim'. - exact Uni_res'. - exact I. }
      set (s2 := with_n _ _). assert (U2 : Uni s2) by (apply Uni_clock; exact U1).
      destruct (apply_bc s2) as [s3|e] eqn:E3; [|rewrite (apply_bc_eq ne s2 (proj1 (proj1 U2))) in E3; discriminate].
      cbn [rbind]. destruct (Uni_lim s3 (Uni_bc _ _ U2 E3)) as [s4 [E4 _]]. rewrite E4. cbn [rbind]. eauto.
    Qed.
    (** its wave speed never changes *)
    Lemma Uni_speed s : Uni s -> max_wave_speed gamma s = max_wave_speed gamma sol0.
    Proof.
      intro H. pose proof H as [[W S] _]. unfold max_wave_speed. rewrite (similar_euler _ _ S). destruct (s_euler sol0) eqn:Eu; [|reflexivity].
      pose proof (euler_speed_cells gamma ne s W) as K1. pose proof (euler_speed_cells gamma ne sol0 W0 Eu) as K2.
      unfold max_wave_speed in K1, K2. rewrite Eu in K2. rewrite (similar_euler _ _ S), Eu in K1. rewrite (K1 eq_refl), K2. do 2 f_equal.
      assert (NF3 : s_NF sol0 = 3%nat) by (unfold s_NF; rewrite Eu; reflexivity).
      replace (tab (ne + 2) (fun e => wave_speed gamma (at1 (modes s e 0) 0, at1 (modes s e 1) 0, at1 (modes s e 2) 0)))
        with (tab (ne + 2) (fun e => wave_speed gamma (at1 (modes sol0 e 0) 0, at1 (modes sol0 e 1) 0, at1 (modes sol0 e 2) 0))); [reflexivity|].
      apply tab_ext. intros e He. pose proof (fun f Hf => Uni_mean s e f H He Hf) as Q1. pose proof (fun f Hf => Uni_mean sol0 e f Uni_0 He Hf) as Q2.
      unfold cell_mean in Q1, Q2. rewrite !Q1, !Q2 by (rewrite NF3; lia). reflexivity.
    Qed.
    Lemma uniform_completes rk cfl tf nout v : (2 <= nout)%Z -> s_t sol0 <= tf -> max_wave_speed gamma sol0 = Ok v ->
      1 / 100000000000000 <= s_dx sol0 * cfl / (v * INR (2 * b_p (s_basis sol0) + 1)) ->
      exists F evs s, s_t s = tf /\ forall fuel, (F <= fuel)%nat -> integrate gamma rk d l cfl tf nout fuel sol0 = (evs, Finished s).
    Proof.
      intros Hn Ht Hv Hd. destruct (run_terminates gamma rk d l cfl tf nout sol0 Hn Ht) as [F [evs [out [_ [HF [[e ->]|[s [-> Es]]]]]]]].
      2:{ exists F, evs, s. split; [exact Es|exact HF]. }
      exfalso. destruct (integrate_ends gamma rk d l cfl tf nout sol0 Hn Ht) as [F' [r [_ [HF' Hr]]]].
      specialize (HF (Nat.max F F') (Nat.le_max_l _ _)). rewrite HF' in HF by apply Nat.le_max_r. subst r.
      destruct Hr as [[e' [Hp _]]|Hr]; [rewrite (printer_total ne) in Hp by exact W0; discriminate|].
      cbn [good_end] in Hr. destruct Hr as [k [tout [touts [s [sc [Hvis Hcs]]]]]]. destruct (Uni_visits _ _ _ _ _ _ _ _ _ _ Hvis) as [V1 [V2 [V3 _]]].
      assert (Hg : exists r, get_next_time_step gamma s tout cfl tf = Ok r).
      { unfold get_next_time_step, cfl_time_step. rewrite (Uni_speed s V1), Hv. cbn [rbind]. destruct V1 as [[_ [t [n [sn [u [-> _]]]]]] _].
        unfold sanity_check_dt, nnat. cbn [s_dx s_basis with_u with_sens with_n with_t]. numR. rewrite <- INR_IZR_INZ.
        match goal with |- context [Rltb ?a ?b] => Rcase a b end; [lra|]. cbn [rbind]. eauto. }
      destruct Hg as [r Hg]. destruct (Uni_step_total rk cfl tf tout s sc r V1 V2 V3 Hg) as [s' [sc' Es]].
      destruct Hcs as [Hcs|[s'' [sc'' [dt [b [Hcs Hp]]]]]]; [congruence|].
      destruct (Uni_time_step _ _ _ _ _ _ _ _ _ V1 V2 V3 Hcs) as [U'' _]. rewrite (printer_total ne) in Hp by apply U''. discriminate.
    Qed.
    (** C14 over runs *)
    Lemma uniform_run rk cfl tf nout fuel evs out : integrate gamma rk d l cfl tf nout fuel sol0 = (evs, out) ->
      forall s, (exists ev, In ev evs /\ s = ev_sol ev) \/ out = Finished s ->
      similar sol0 s /\ forall e f, (1 <= e <= ne)%nat -> (f < s_NF sol0)%nat -> modes s e f = modes sol0 e f.
    Proof.
      intros H s Hs. apply Uni_integrate in H. destruct H as [H1 H2]. rewrite Forall_forall in H1.
      assert (U : Uni s) by (destruct Hs as [[ev [Hi ->]]|Hs]; auto). split; [apply U|]. intros e f He Hf.
      rewrite (Uni_modes s), (Uni_modes sol0) by (try assumption; apply Uni_0). reflexivity.
    Qed.
  End Run.

  Lemma limiter_of_ok ne s l : made ne s -> limiter_of s l -> match l with None => True | Some h => maps_ok (b_p (s_basis s)) h /\ quiet s (fun t => 0 <= t) end.
  Proof.
    intros M [name [H Q]]. destruct l as [h|]; [|exact I]. destruct Q as [Q|Q]; [discriminate|]. split; [|exact Q].
    destruct (String.eqb_spec name "adaptive_hr") as [->|Hn]; [apply (Limiter_maps G IV ne); assumption|].
    rewrite unknown_limiter in H by exact Hn. discriminate.
  Qed.
  Lemma uniform_run_of ne c (s0 : solution R) d l :
    made ne s0 -> wf_dg ne s0 d -> enh_sound s0 -> bc_known (s_bcl s0) -> bc_known (s_bcr s0) -> good_state gamma c s0 -> uniform_all ne c s0 ->
    limiter_of s0 l ->
    forall rk cfl tf nout fuel evs out, integrate gamma rk d l cfl tf nout fuel s0 = (evs, out) ->
    forall s, (exists ev, In ev evs /\ s = ev_sol ev) \/ out = Finished s ->
    similar s0 s /\ forall e f, (1 <= e <= ne)%nat -> (f < s_NF s0)%nat -> modes s e f = modes s0 e f.
  Proof. intros. eapply uniform_run; try eassumption. eapply limiter_of_ok; eassumption. Qed.
  Lemma uniform_completes_of ne c (s0 : solution R) d l :
    made ne s0 -> wf_dg ne s0 d -> enh_sound s0 -> bc_known (s_bcl s0) -> bc_known (s_bcr s0) -> good_state gamma c s0 -> uniform_all ne c s0 ->
    limiter_of s0 l ->
    forall rk cfl tf nout v, (2 <= nout)%Z -> s_t s0 <= tf -> max_wave_speed gamma s0 = Ok v ->
    1 / 100000000000000 <= s_dx s0 * cfl / (v * INR (2 * b_p (s_basis s0) + 1)) ->
    exists F evs s, s_t s = tf /\ forall fuel, (F <= fuel)%nat -> integrate gamma rk d l cfl tf nout fuel s0 = (evs, Finished s).
  Proof. intros. eapply uniform_completes; try eassumption. eapply limiter_of_ok; eassumption. Qed.
End Uniform.
