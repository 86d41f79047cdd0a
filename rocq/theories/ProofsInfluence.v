(** How far data travel in unlimited advection: downstream only, and at most one cell per Runge-Kutta stage. *)
From Coq Require Import ZArith List Bool Arith String Lia.
From Verif Require Import Num Py PyStr Lib LegNumpy Ext Basis Sensor Enhance Limiting AdvectionPhysics EulerPhysics
  Solution Solver RKCoeffs RK SpecTime SpecTrace ProofsTime SpecDG ProofsDG ProofsDG2 ProofsWf ProofsCons ProofsRel ProofsRelTrace ProofsShift ProofsSol SpecInfluence.
Import ListNotations.
Open Scope list_scope.
Open Scope nat_scope.

Section Influence.
  Context {A : Type} {N : Num A} {L : Libm A}.
  Variable gamma : A.
  Implicit Types s : solution A.
  Variables (ne : nat) (sol0 : solution A) (d : dg).
  Hypothesis W0 : wf ne sol0.
  Hypothesis D0 : wf_dg ne sol0 d.
  Hypothesis Eu : s_euler sol0 = false.
  Hypothesis En : s_enh sol0 = None.
  Notation NF := (s_NF sol0).
  Notation Ns := (s_Ns sol0).
  Notation src := (src_cell (s_bcl sol0) (s_bcr sol0) ne).
  Notation upc := (upstream (s_bcl sol0) (s_bcr sol0) ne).
  Variable P : nat -> Prop.
  Lemma F1 : NF = 1. Proof. unfold s_NF. rewrite Eu. reflexivity. Qed.
  Definition cell (c : nat) : Prop := c <= ne /\ src c = c.
  Lemma cell_up c : cell c -> cell (upc c).
  Proof.
    intros [H1 H2]. pose proof (wf_ne _ _ W0) as Hne. unfold upstream. split; [|apply src_cell_idem; lia]. unfold src_cell. destruct (Nat.eqb_spec (c - 1) 0).
    - destruct (is_literal _ _); [lia|]. destruct (is_literal _ _); lia.
    - destruct (Nat.eqb_spec (c - 1) (ne + 1)); lia.
  Qed.
  Definition deep (j c : nat) : Prop := forall i, i <= j -> P (above (s_bcl sol0) (s_bcr sol0) ne i c).
  Lemma deep_le j k c : j <= k -> deep k c -> deep j c. Proof. intros H D i Hi. apply D. lia. Qed.
  Lemma deep_up j c : deep (S j) c -> deep j (upc c). Proof. intros D i Hi. apply (D (S i)). lia. Qed.
  Definition agreeU (j : nat) (u u' : mat A) : Prop := forall n c, n < Ns -> cell c -> deep j c -> at2 u n (c * NF + 0) = at2 u' n (c * NF + 0).
  Lemma agreeU_le j k u u' : j <= k -> agreeU j u u' -> agreeU k u u'.
  Proof. intros H G n c Hn Hc Hd. apply G; [exact Hn|exact Hc|exact (deep_le _ _ _ H Hd)]. Qed.
  Definition agree j s s' : Prop := Wf ne sol0 s /\ Wf ne sol0 s' /\ agreeU j (s_u s) (s_u s').
  Definition agreeK j (K K' : mat A) : Prop := WfK ne sol0 K /\ WfK ne sol0 K' /\ agreeU j K K'.
  Lemma agree_le j k s s' : j <= k -> agree j s s' -> agree k s s'.
  Proof. intros H [G1 [G2 G3]]. split; [exact G1|]. split; [exact G2|exact (agreeU_le _ _ _ _ H G3)]. Qed.
  Lemma agreeK_le j k K K' : j <= k -> agreeK j K K' -> agreeK k K K'.
  Proof. intros H [G1 [G2 G3]]. split; [exact G1|]. split; [exact G2|exact (agreeU_le _ _ _ _ H G3)]. Qed.
  Lemma cell_lt c : cell c -> c < ne + 2. Proof. intros [H _]. lia. Qed.
  Lemma agree_modes j s s' c : agree j s s' -> cell c -> deep j c -> modes s c 0 = modes s' c 0.
  Proof.
    intros [H1 [H2 H]] Hc Hd. pose proof (cell_lt c Hc) as Hl. pose proof F1 as HF. apply (nth_ext _ _ n0 n0); [rewrite !(length_modes' ne sol0) by assumption; reflexivity|].
    intros n Hn. rewrite (length_modes' ne sol0) in Hn by assumption. change (at1 (modes s c 0) n = at1 (modes s' c 0) n).
    rewrite !(modes_at' ne sol0) by (try assumption; lia). apply H; assumption.
  Qed.
  Lemma agree_axpy j s s' a K K' : agree j s s' -> agreeK j K K' -> agree j (smart_axpy s a K) (smart_axpy s' a K').
  Proof.
    intros [H1 [H2 H]] [G1 [G2 G]]. split; [apply Wf_axpy; assumption|]. split; [apply Wf_axpy; assumption|]. intros n c Hn Hc Hd. pose proof (cell_lt c Hc) as Hl. pose proof F1 as HF.
    cbn [s_u smart_axpy with_u]. unfold axpy_mat. destruct (nltb _ _); [|apply H; assumption].
    assert (J : c * NF + 0 < (ne + 2) * NF) by (apply cell_index; lia).
    rewrite (at2_madd _ _ (s_u s) (mscale a K) n _ (Wf_u' ne sol0 s H1) (shape_mscale _ _ a K G1) Hn J), (at2_madd _ _ (s_u s') (mscale a K') n _ (Wf_u' ne sol0 s' H2) (shape_mscale _ _ a K' G2) Hn J).
    rewrite (at2_mscale _ _ a K n _ G1 Hn J), (at2_mscale _ _ a K' n _ G2 Hn J). f_equal; [apply H; assumption|f_equal; apply G; assumption].
  Qed.
  Lemma agree_copy j s s' t t' : Wf ne sol0 s -> Wf ne sol0 s' -> agree j t t' -> agree j (copy_data_only s t) (copy_data_only s' t').
  Proof. intros H1 H2 [G1 [G2 G]]. split; [apply Wf_copy; assumption|]. split; [apply Wf_copy; assumption|exact G]. Qed.
  Lemma frame' s : Wf ne sol0 s -> s_bcl s = s_bcl sol0 /\ s_bcr s = s_bcr sol0 /\ s_basis s = s_basis sol0 /\ s_minv s = s_minv sol0 /\ s_enh s = None /\ s_euler s = false /\ s_dx s = s_dx sol0.
  Proof. intros [_ [t [n [sn [u [-> _]]]]]]. repeat split; try reflexivity; assumption. Qed.
  Lemma bc_modes s c : Wf ne sol0 s -> c < ne + 2 -> modes (with_u s (bc_u ne s)) c 0 = modes s (src c) 0.
  Proof.
    intros Hs Hc. destruct (frame' s Hs) as [B1 [B2 _]]. rewrite (modes_bc ne s) by (try apply Hs; try lia; rewrite (similar_NF _ _ (proj2 Hs)), F1; lia). rewrite B1, B2. reflexivity.
  Qed.
  Lemma agree_bc j s s' : agree j s s' -> agree j (with_u s (bc_u ne s)) (with_u s' (bc_u ne s')).
  Proof.
    intro H. pose proof H as [H1 [H2 _]]. pose proof F1 as HF.
    assert (V1 : Wf ne sol0 (with_u s (bc_u ne s))) by (apply (Wf_bc ne sol0 s); [exact H1|apply apply_bc_eq; apply H1]).
    assert (V2 : Wf ne sol0 (with_u s' (bc_u ne s'))) by (apply (Wf_bc ne sol0 s'); [exact H2|apply apply_bc_eq; apply H2]).
    split; [exact V1|]. split; [exact V2|]. intros n c Hn Hc Hd. pose proof (cell_lt c Hc) as Hl. rewrite <- !(modes_at' ne sol0) by (try assumption; lia).
    rewrite !bc_modes by assumption. destruct Hc as [Hc1 Hc2]. rewrite Hc2. rewrite (agree_modes j s s' c H (conj Hc1 Hc2) Hd). reflexivity.
  Qed.
  Lemma agree_residual j s s' : agree j s s' -> exists s1 F s1' F', residual gamma d s = Ok (s1, F) /\ residual gamma d s' = Ok (s1', F') /\ agree j s1 s1' /\ agreeK (S j) F F'.
  Proof.
    intro H0. pose proof (agree_bc j s s' H0) as H. pose proof H0 as [V [V' _]]. pose proof H as [H1 [H2 _]].
    assert (M : forall c, c < ne + 2 -> modes (with_u s (bc_u ne s)) c 0 = modes s (src c) 0) by (intros c Hc; apply bc_modes; assumption).
    assert (M' : forall c, c < ne + 2 -> modes (with_u s' (bc_u ne s')) c 0 = modes s' (src c) 0) by (intros c Hc; apply bc_modes; assumption).
    set (s1 := with_u s (bc_u ne s)) in *. set (s1' := with_u s' (bc_u ne s')) in *.
    destruct (frame' s1 H1) as [_ [_ [B3 [B4 [B5 [B6 _]]]]]]. destruct (frame' s1' H2) as [_ [_ [C3 [C4 [C5 [C6 _]]]]]]. pose proof F1 as HF.
    pose proof (similar_NF _ _ (proj2 H1)) as EF. pose proof (similar_NF _ _ (proj2 H2)) as EF'. pose proof (similar_Ns _ _ (proj2 H1)) as EN. pose proof (similar_Ns _ _ (proj2 H2)) as EN'.
    set (q := fun e => tab NF (face_minus s1 (modes s1) e)). set (q' := fun e => tab NF (face_minus s1' (modes s1') e)).
    assert (Q : residual gamma d s = Ok (s1, residual_mat gamma ne s1 q)).
    { apply (residual_iff gamma ne s d s1 _ (proj1 V) (Wf_dg ne sol0 d D0 _ V)). split; [reflexivity|]. exists q. split; [|reflexivity]. intros e He. change (iface_flux gamma s1 (modes s1) e = Ok (q e)).
      unfold iface_flux, num_flux. replace (s_riemann s1) with RUpwind by (symmetry; apply (wf_kind _ _ (proj1 H1)); exact B6). unfold q. rewrite EF. reflexivity. }
    assert (Q' : residual gamma d s' = Ok (s1', residual_mat gamma ne s1' q')).
    { apply (residual_iff gamma ne s' d s1' _ (proj1 V') (Wf_dg ne sol0 d D0 _ V')). split; [reflexivity|]. exists q'. split; [|reflexivity]. intros e He. change (iface_flux gamma s1' (modes s1') e = Ok (q' e)).
      unfold iface_flux, num_flux. replace (s_riemann s1') with RUpwind by (symmetry; apply (wf_kind _ _ (proj1 H2)); exact C6). unfold q'. rewrite EF'. reflexivity. }
    exists s1, (residual_mat gamma ne s1 q), s1', (residual_mat gamma ne s1' q'). split; [exact Q|]. split; [exact Q'|]. split; [exact H|].
    split; [unfold WfK, residual_mat; rewrite EN, EF; apply shape_tab2|]. split; [unfold WfK, residual_mat; rewrite EN', EF'; apply shape_tab2|].
    intros n c Hn Hc Hd. pose proof (cell_lt c Hc) as Hl. pose proof (deep_le _ _ _ (Nat.le_succ_diag_r j) Hd) as Hd0.
    assert (Mc : modes s1 c 0 = modes s1' c 0) by (rewrite M, M' by exact Hl; rewrite (proj2 Hc); apply (agree_modes j); assumption).
    assert (Vt : volume_term gamma s1 (modes s1) n c 0 = volume_term gamma s1' (modes s1') n c 0).
    { unfold volume_term. rewrite B3, C3. f_equal. apply tab_ext. intros g Hg. unfold phys_flux. rewrite B6, C6. unfold node_state. rewrite EF, EF', !at1_tab by lia. rewrite B3, C3, Mc. reflexivity. }
    assert (J : c * NF + 0 < (ne + 2) * NF) by (apply cell_index; lia).
    unfold residual_mat. rewrite EN, EN', EF, EF', !at2_tab2 by assumption. cbv zeta. assert (HF0 : 0 < NF) by lia. rewrite !(proj1 (divmod_idx NF c 0 HF0)), !(proj2 (divmod_idx NF c 0 HF0)).
    destruct ((1 <=? c) && (c <=? ne)) eqn:Eb.
    - apply andb_prop in Eb. destruct Eb as [E1 E2]. apply Nat.leb_le in E1, E2. unfold residual_of. rewrite B4, C4, Vt. do 2 f_equal. unfold q, q'. rewrite !at1_tab by lia. unfold face_minus. rewrite B5, C5, B3, C3, Mc.
      replace (modes s1 (c - 1) 0) with (modes s1' (c - 1) 0); [reflexivity|]. rewrite M, M' by lia. symmetry. apply (agree_modes j); [exact H0|apply cell_up; exact Hc|apply deep_up; exact Hd].
    - rewrite B4, C4, Vt. reflexivity.
  Qed.
  Lemma agree_scale j dt K K' : agreeK j K K' -> agreeK j (mscale dt K) (mscale dt K').
  Proof.
    intros [H1 [H2 H3]]. split; [apply shape_mscale; exact H1|]. split; [apply shape_mscale; exact H2|]. intros n c Hn Hc Hd. pose proof (cell_lt c Hc) as Hl. pose proof F1 as HF.
    rewrite (at2_mscale _ _ dt K n _ H1 Hn), (at2_mscale _ _ dt K' n _ H2 Hn) by (apply cell_index; lia). f_equal. apply H3; assumption.
  Qed.
  (** the scratch variables *)
  Definition agreeS j (sc sc' : scratch A) : Prop := agree j (sc_us sc) (sc_us sc') /\ Wf ne sol0 (sc_uk sc) /\ Wf ne sol0 (sc_uk sc') /\ Forall2 (agreeK j) (sc_K sc) (sc_K sc').
  Lemma Forall2_le j k Ks Ks' : j <= k -> Forall2 (agreeK j) Ks Ks' -> Forall2 (agreeK k) Ks Ks'.
  Proof. intros H. induction 1; constructor; [eapply agreeK_le; eassumption|assumption]. Qed.
  Lemma Forall2_lset j Ks Ks' i K K' : Forall2 (agreeK j) Ks Ks' -> agreeK j K K' -> Forall2 (agreeK j) (lset Ks i K) (lset Ks' i K').
  Proof.
    intros H HK. unfold lset. apply Forall2_app; [|apply Forall2_app; [constructor; [exact HK|constructor]|]].
    - revert i. induction H; intros [|i]; cbn [firstn]; constructor; auto.
    - generalize (S i). clear i. intro i. revert i. induction H; intros [|i]; cbn [skipn]; try constructor; auto.
  Qed.
  Lemma agree_fold j : forall Ks Ks' bs s s', Forall2 (agreeK j) Ks Ks' -> agree j s s' ->
    agree j (fold_left (fun uk bk => smart_axpy uk (fst bk) (snd bk)) (combine bs Ks) s) (fold_left (fun uk bk => smart_axpy uk (fst bk) (snd bk)) (combine bs Ks') s').
  Proof.
    intros Ks Ks' bs. revert Ks Ks'. induction bs as [|b bs IH]; intros Ks Ks' s s' H Hs; [exact Hs|]. destruct H as [|K K' Ks Ks' H1 H2]; [exact Hs|].
    cbn [combine fold_left fst snd]. apply IH; [exact H2|apply agree_axpy; assumption].
  Qed.
  Lemma agree_t j s s' t t' : agree j s s' -> agree j (with_t s t) (with_t s' t').
  Proof. intros [H1 [H2 H3]]. split; [apply Wf_t; exact H1|]. split; [apply Wf_t; exact H2|exact H3]. Qed.
  Lemma agree_n j s s' k k' : agree j s s' -> agree j (with_n s k) (with_n s' k').
  Proof. intros [H1 [H2 H3]]. split; [apply Wf_n; exact H1|]. split; [apply Wf_n; exact H2|exact H3]. Qed.
  Lemma classic_agree betas dt : forall cas k j s s' sc sc', agree j s s' -> agreeS j sc sc' ->
    exists t sc1 t' sc1', classic_stages gamma d None betas dt k cas s sc = Ok (t, sc1) /\ classic_stages gamma d None betas dt k cas s' sc' = Ok (t', sc1') /\
      agree (j + List.length cas) t t' /\ agreeS (j + List.length cas) sc1 sc1'.
  Proof.
    induction cas as [|[c a] cas IH]; intros k j s s' sc sc' Hs Hsc.
    - cbn [classic_stages List.length]. rewrite Nat.add_0_r. eauto 8.
    - cbn [classic_stages]. destruct Hsc as [G1 [G2 [G3 G4]]].
      set (uk := fold_left _ (combine (firstn k (row betas k)) (sc_K sc)) _). set (uk' := fold_left _ (combine (firstn k (row betas k)) (sc_K sc')) _).
      assert (U : agree j uk uk') by (apply agree_fold; [exact G4|apply agree_copy; assumption]).
      pose proof (agree_t j uk uk' (nadd (s_t uk) (nmul a dt)) (nadd (s_t uk') (nmul a dt)) U) as U'.
      destruct (agree_residual j _ _ U') as [s1 [F [s1' [F' [E1 [E2 [R1 R2]]]]]]].
      assert (El : forall x : solution A, (if 0 <? k then limit gamma None x else Ok x) = Ok x) by (intro x; destruct (0 <? k); reflexivity).
      rewrite !El. cbn [rbind]. rewrite E1, E2. cbn [rbind].
      destruct (IH (S k) (S j) (smart_axpy s c (mscale dt F)) (smart_axpy s' c (mscale dt F')) {| sc_us := sc_us sc; sc_uk := s1; sc_K := lset (sc_K sc) k (mscale dt F) |}
        {| sc_us := sc_us sc'; sc_uk := s1'; sc_K := lset (sc_K sc') k (mscale dt F') |}) as [t [sc1 [t' [sc1' I]]]].
      + apply agree_axpy; [apply (agree_le j); [lia|exact Hs]|apply agree_scale; exact R2].
      + split; [apply (agree_le j); [cbn; lia|exact G1]|]. split; [apply R1|]. split; [apply R1|]. apply Forall2_lset; [apply (Forall2_le j); [lia|exact G4]|apply agree_scale; exact R2].
      + exists t, sc1, t', sc1'. cbn [List.length]. replace (j + S (List.length cas)) with (S j + List.length cas) by lia. exact I.
  Qed.
  Lemma low_agree dt : forall bgs k j s s' sc sc', sc_K sc <> [] -> agree j s s' -> agreeS j sc sc' ->
    exists t sc1 t' sc1', low_storage_stages gamma d None dt k bgs s sc = Ok (t, sc1) /\ low_storage_stages gamma d None dt k bgs s' sc' = Ok (t', sc1') /\
      agree (j + List.length bgs) t t' /\ agreeS (j + List.length bgs) sc1 sc1'.
  Proof.
    induction bgs as [|[b g] bgs IH]; intros k j s s' sc sc' HK Hs Hsc.
    - cbn [low_storage_stages List.length]. rewrite Nat.add_0_r. eauto 8.
    - cbn [low_storage_stages]. destruct Hsc as [G1 [G2 [G3 G4]]].
      set (uk := smart_axpy (copy_data_only (sc_uk sc) (sc_us sc)) b (hd [] (sc_K sc))). set (uk' := smart_axpy (copy_data_only (sc_uk sc') (sc_us sc')) b (hd [] (sc_K sc'))).
      assert (U : agree j uk uk') by (apply agree_axpy; [apply agree_copy; assumption|destruct G4; [contradiction|assumption]]).
      pose proof (agree_t j uk uk' (nadd (s_t uk) (nmul b dt)) (nadd (s_t uk') (nmul b dt)) U) as U'.
      destruct (agree_residual j _ _ U') as [s1 [F [s1' [F' [E1 [E2 [R1 R2]]]]]]].
      assert (El : forall x : solution A, (if 0 <? k then limit gamma None x else Ok x) = Ok x) by (intro x; destruct (0 <? k); reflexivity).
      rewrite !El. cbn [rbind]. rewrite E1, E2. cbn [rbind].
      destruct (IH (S k) (S j) (smart_axpy s g (mscale dt F)) (smart_axpy s' g (mscale dt F')) {| sc_us := sc_us sc; sc_uk := s1; sc_K := [mscale dt F] |}
        {| sc_us := sc_us sc'; sc_uk := s1'; sc_K := [mscale dt F'] |}) as [t [sc1 [t' [sc1' I]]]].
      + discriminate.
      + apply agree_axpy; [apply (agree_le j); [lia|exact Hs]|apply agree_scale; exact R2].
      + split; [apply (agree_le j); [cbn; lia|exact G1]|]. split; [apply R1|]. split; [apply R1|]. constructor; [apply agree_scale; exact R2|constructor].
      + exists t, sc1, t', sc1'. cbn [List.length]. replace (j + S (List.length bgs)) with (S j + List.length bgs) by lia. exact I.
  Qed.
  Lemma agreeS_le j k sc sc' : j <= k -> agreeS j sc sc' -> agreeS k sc sc'.
  Proof. intros H [G1 [G2 [G3 G4]]]. split; [exact (agree_le _ _ _ _ H G1)|]. split; [exact G2|]. split; [exact G3|exact (Forall2_le _ _ _ _ H G4)]. Qed.
  Definition run_state j s s' (sc sc' : scratch A) : Prop := agree j s s' /\ agreeS j sc sc' /\ sc_K sc <> [] /\ s_t s = s_t s' /\ s_n s = s_n s'.
  Lemma inner_agree rk dt j s s' sc sc' : sc_K sc <> [] -> agree j s s' -> agreeS j sc sc' ->
    exists t sc1 t' sc1', rk_inner gamma rk d None dt s sc = Ok (t, sc1) /\ rk_inner gamma rk d None dt s' sc' = Ok (t', sc1') /\ agree (j + evaluations rk) t t' /\ agreeS (j + evaluations rk) sc1 sc1'.
  Proof.
    intros HK Hs Hsc. unfold rk_inner, evaluations. destruct (String.eqb rk "low_storage_rk4").
    - apply low_agree; assumption.
    - destruct (classic_agree (map (map ceval) (tb_betas (rk_choice rk))) dt (combine (map ceval (tb_coeffs (rk_choice rk))) (map ceval (tb_alphas (rk_choice rk)))) 0 j s s' sc sc' Hs Hsc) as [t [sc1 [t' [sc1' [E1 [E2 [E3 E4]]]]]]].
      exists t, sc1, t', sc1'. split; [exact E1|]. split; [exact E2|].
      assert (Le : List.length (combine (map ceval (tb_coeffs (rk_choice rk))) (map ceval (tb_alphas (rk_choice rk)) : list A)) <= List.length (tb_coeffs (rk_choice rk))) by (rewrite combine_length, !map_length; lia).
      split; [eapply agree_le; [|exact E3]; lia|eapply agreeS_le; [|exact E4]; lia].
  Qed.
  Lemma K_kept rk dt s sc s' sc' : sc_K sc <> [] -> rk_inner gamma rk d None dt s sc = Ok (s', sc') -> sc_K sc' <> [].
  Proof.
    intros HK H. exact (proj2 (proj2 (inner_inv gamma (fun _ => True) (fun _ => True) (fun _ => True) (fun _ => True) d None ltac:(auto) ltac:(auto) ltac:(auto) ltac:(auto) ltac:(auto) ltac:(auto)
      rk dt s sc s' sc' I I (conj I (conj I (proj2 (Forall_forall _ _) (fun _ _ => I)))) HK H))).
  Qed.
  Lemma step_agree rk cfl tf tout j s s' sc sc' : run_state j s s' sc sc' ->
    (exists t sc1 t' sc1' r, time_step gamma (rk_inner gamma rk d None) None cfl tf tout s sc = Ok (t, sc1, r) /\ time_step gamma (rk_inner gamma rk d None) None cfl tf tout s' sc' = Ok (t', sc1', r) /\
      run_state (j + evaluations rk) t t' sc1 sc1' /\ s_n t = s_n s + 1) \/
    (exists x, time_step gamma (rk_inner gamma rk d None) None cfl tf tout s sc = Raise x /\ time_step gamma (rk_inner gamma rk d None) None cfl tf tout s' sc' = Raise x).
  Proof.
    intros [Hs [Hsc [HK [Ht Hn]]]]. pose proof Hs as [W1 [W2 _]].
    assert (G : get_next_time_step gamma s tout cfl tf = get_next_time_step gamma s' tout cfl tf).
    { destruct (frame' s W1) as [_ [_ [B3 [_ [_ [B6 B7]]]]]]. destruct (frame' s' W2) as [_ [_ [C3 [_ [_ [C6 C7]]]]]].
      unfold get_next_time_step, cfl_time_step, max_wave_speed. rewrite B6, C6, B3, C3, B7, C7, <- Ht. reflexivity. }
    unfold time_step. rewrite <- G. destruct (get_next_time_step gamma s tout cfl tf) as [[[dt o] dn]|x]; [|right; exists x; split; reflexivity]. cbn [rbind]. left.
    destruct Hsc as [G1 [G2 [G3 G4]]].
    assert (Hsc' : agreeS j (set_us sc s) (set_us sc' s')) by (split; [apply agree_copy; [apply G1|apply G1|exact Hs]|split; [exact G2|split; [exact G3|exact G4]]]).
    assert (HK' : sc_K (set_us sc s) <> []) by exact HK.
    destruct (inner_agree rk dt j s s' _ _ HK' Hs Hsc') as [t [sc1 [t' [sc1' [E1 [E2 [E3 E4]]]]]]]. rewrite E1, E2. cbn [rbind].
    pose proof (K_kept _ _ _ _ _ _ HK' E1) as HK1.
    pose proof (frame_inner gamma _ _ _ _ _ _ _ _ E1) as Fr. pose proof (frame_inner gamma _ _ _ _ _ _ _ _ E2) as Fr'.
    pose proof (frame_t _ _ Fr) as T1. pose proof (frame_t _ _ Fr') as T2. pose proof (frame_n _ _ Fr) as N1. pose proof (frame_n _ _ Fr') as N2.
    set (v := with_n (with_t t (nadd (s_t t) dt)) (s_n t + 1)). set (v' := with_n (with_t t' (nadd (s_t t') dt)) (s_n t' + 1)).
    assert (V : agree (j + evaluations rk) v v') by (apply agree_n, agree_t; exact E3). pose proof V as [V1 [V2 _]].
    rewrite (apply_bc_eq ne v (proj1 V1)), (apply_bc_eq ne v' (proj1 V2)). cbn [rbind limit].
    eexists _, sc1, _, sc1', (dt, o, dn). split; [reflexivity|]. split; [reflexivity|]. split; [|cbn; lia].
    split; [apply agree_bc; exact V|]. split; [exact E4|]. split; [exact HK1|]. split; [cbn; congruence|cbn; congruence].
  Qed.
  (** depth reached after the steps counted by s_n *)
  Definition level (rk : string) s : nat := evaluations rk * (s_n s - s_n sol0).
  Definition ev_agree (rk : string) (x y : event A) : Prop :=
    ev_nout x = ev_nout y /\ ev_dt x = ev_dt y /\ s_t (ev_sol x) = s_t (ev_sol y) /\ s_n (ev_sol x) = s_n (ev_sol y) /\ s_n sol0 <= s_n (ev_sol x) /\ agree (level rk (ev_sol x)) (ev_sol x) (ev_sol y).
  Definition end_agree (rk : string) (o o' : outcome A) : Prop :=
    match o, o' with
    | Finished s, Finished s' => s_t s = s_t s' /\ s_n s = s_n s' /\ s_n sol0 <= s_n s /\ agree (level rk s) s s'
    | Failed x, Failed y => x = y
    | OutOfFuel, OutOfFuel => True
    | _, _ => False
    end.
  Lemma loop_agree rk cfl tf : forall fuel k tout touts s s' sc sc' evs evs', s_n sol0 <= s_n s -> run_state (level rk s) s s' sc sc' -> Forall2 (ev_agree rk) evs evs' ->
    let r := time_loop gamma (rk_inner gamma rk d None) None cfl tf fuel k tout touts s sc evs in
    let r' := time_loop gamma (rk_inner gamma rk d None) None cfl tf fuel k tout touts s' sc' evs' in
    Forall2 (ev_agree rk) (fst r) (fst r') /\ end_agree rk (snd r) (snd r').
  Proof.
    induction fuel as [|fuel IH]; intros k tout touts s s' sc sc' evs evs' Hn0 H He; cbv zeta.
    - cbn. split; [exact He|exact I].
    - cbn [time_loop]. destruct (step_agree rk cfl tf tout _ _ _ _ _ H) as [[t [sc1 [t' [sc1' [[[dt o] dn] [E1 [E2 [E3 E4]]]]]]]]|[x [E1 E2]]]; rewrite E1, E2; [|split; [exact He|reflexivity]].
      assert (Lv : level rk t = level rk s + evaluations rk) by (unfold level; rewrite E4; replace (s_n s + 1 - s_n sol0) with (S (s_n s - s_n sol0)) by lia; lia).
      rewrite <- Lv in E3. assert (Hn1 : s_n sol0 <= s_n t) by lia. pose proof E3 as [A1 [_ [_ [A2 A3]]]]. pose proof A1 as [V1 [V2 _]].
      rewrite (printer_total ne k dt t (proj1 V1)), (printer_total ne k dt t' (proj1 V2)).
      assert (He' : Forall2 (ev_agree rk) (evs ++ [{| ev_nout := k; ev_dt := dt; ev_sol := t |}]) (evs' ++ [{| ev_nout := k; ev_dt := dt; ev_sol := t' |}])).
      { apply Forall2_app; [exact He|]. constructor; [|constructor]. split; [reflexivity|]. split; [reflexivity|]. split; [exact A2|]. split; [exact A3|]. split; [exact Hn1|exact A1]. }
      destruct o, dn.
      + split; [exact He'|]. cbn. auto.
      + destruct touts as [|tout' touts']; [split; [exact He'|reflexivity]|]. apply IH; assumption.
      + split; [exact He|]. cbn. auto.
      + apply IH; assumption.
  Qed.
  Lemma influence_run rk cfl tf nout fuel sol' : agree 0 sol0 sol' -> s_t sol0 = s_t sol' -> s_n sol0 = s_n sol' ->
    let r := integrate gamma rk d None cfl tf nout fuel sol0 in
    let r' := integrate gamma rk d None cfl tf nout fuel sol' in
    Forall2 (ev_agree rk) (fst r) (fst r') /\ end_agree rk (snd r) (snd r').
  Proof.
    intros H Ht Hn. cbv zeta. rewrite !integrate_run_rk. unfold run_rk. pose proof H as [V1 [V2 _]].
    destruct (nout <? 0)%Z; [split; [constructor|reflexivity]|]. rewrite (printer_total ne 0 n0 sol0 (proj1 V1)), (printer_total ne 0 n0 sol' (proj1 V2)). rewrite <- Ht.
    assert (L0 : level rk sol0 = 0) by (unfold level; rewrite Nat.sub_diag; lia).
    assert (He : Forall2 (ev_agree rk) [{| ev_nout := 0; ev_dt := n0; ev_sol := sol0 |}] [{| ev_nout := 0; ev_dt := n0; ev_sol := sol' |}]).
    { constructor; [|constructor]. split; [reflexivity|]. split; [reflexivity|]. split; [exact Ht|]. split; [exact Hn|]. split; [cbn; lia|]. cbn [ev_sol]. rewrite L0. exact H. }
    destruct (slice_from _ _) as [|tout touts]; [split; [exact He|reflexivity]|].
    apply loop_agree; [lia| |exact He]. rewrite L0. split; [exact H|]. split; [|split; [apply K0_nonempty|split; assumption]].
    assert (Z0 : agreeK 0 (zeros2 (nrows (s_u sol0)) (ncols (s_u sol0))) (zeros2 (nrows (s_u sol')) (ncols (s_u sol')))).
    { assert (E : nrows (s_u sol') = nrows (s_u sol0) /\ ncols (s_u sol') = ncols (s_u sol0)).
      { pose proof (wf_u _ _ (proj1 V1)) as U. pose proof (Wf_u' ne sol0 sol' V2) as U'. split; [exact (eq_trans (proj1 U') (eq_sym (proj1 U)))|].
        rewrite (shape_ncols _ _ _ U (Ns_pos _)), (shape_ncols _ _ _ U' (Ns_pos _)). reflexivity. }
      destruct E as [-> ->]. pose proof (WfK_0 ne sol0 W0) as K0. split; [exact K0|]. split; [exact K0|]. intros n c _ _ _. reflexivity. }
    split; [exact H|]. split; [exact V1|]. split; [exact V2|]. cbn [sc_K]. unfold rk_K0. destruct (String.eqb rk "low_storage_rk4"); [constructor; [exact Z0|constructor]|].
    induction (tb_coeffs (rk_choice rk)); cbn [map]; constructor; assumption.
  Qed.
End Influence.

Section Statement.
  Context {A : Type} {N : Num A} {L : Libm A}.
  Variable gamma : A.
  Lemma influence ne (s s' : solution A) d : wf ne s -> wf ne s' -> similar s s' -> s_t s = s_t s' -> s_n s = s_n s' -> s_euler s = false -> s_enh s = None -> wf_dg ne s d ->
    forall rk cfl tf nout fuel,
    let r := integrate gamma rk d None cfl tf nout fuel s in
    let r' := integrate gamma rk d None cfl tf nout fuel s' in
    Forall2 (fun x y => ev_nout x = ev_nout y /\ ev_dt x = ev_dt y /\ s_t (ev_sol x) = s_t (ev_sol y) /\ s_n (ev_sol x) = s_n (ev_sol y) /\ s_n s <= s_n (ev_sol x) /\ unreached ne s s' rk (ev_sol x) (ev_sol y)) (fst r) (fst r') /\
    match snd r, snd r' with
    | Finished a, Finished b => s_t a = s_t b /\ s_n a = s_n b /\ s_n s <= s_n a /\ unreached ne s s' rk a b
    | Failed a, Failed b => a = b
    | OutOfFuel, OutOfFuel => True
    | _, _ => False
    end.
  Proof.
    intros W W' S Ht Hn Eu En D rk cfl tf nout fuel. cbv zeta.
    set (P := fun c => modes s c 0 = modes s' c 0).
    assert (V : Wf ne s s) by (apply Wf_0; exact W). assert (V' : Wf ne s s') by (split; assumption).
    assert (F0 : s_NF s = 1) by (unfold s_NF; rewrite Eu; reflexivity).
    destruct (influence_run gamma ne s d W D Eu En P rk cfl tf nout fuel s') as [H1 H2]; [|exact Ht|exact Hn|].
    - split; [exact V|]. split; [exact V'|]. intros n c Hn' [Hc _] Hd. specialize (Hd 0 (Nat.le_refl 0)). cbn [above] in Hd.
      rewrite <- !(modes_at' ne s) by (try assumption; lia). rewrite Hd. reflexivity.
    - assert (U : forall x y : solution A, s_n x = s_n y -> agree ne s P (level s rk x) x y -> unreached ne s s' rk x y).
      { intros x y E G c Hc Hd. apply (agree_modes ne s Eu P _ x y c G).
        - split; [lia|apply src_cell_interior; exact Hc].
        - intros i Hi. apply Hd. exact Hi. }
      split.
      + eapply Forall2_impl'; [|exact H1]. intros x y [E1 [E2 [E3 [E4 [E5 E6]]]]]. auto 8.
      + destruct (snd (integrate gamma rk d None cfl tf nout fuel s)), (snd (integrate gamma rk d None cfl tf nout fuel s')); cbn [end_agree] in H2; try contradiction; try assumption.
        destruct H2 as [E1 [E2 [E3 E4]]]. auto.
  Qed.
End Statement.
Lemma above_le bl br ne e : 1 <= ne -> e <= ne -> is_literal bl "periodic" = false -> 1 <= e -> forall i c, c <= e -> above bl br ne i c <= e.
Proof.
  intros Hne He Hb H1. induction i as [|i IH]; intros c Hc; cbn [above]; [exact Hc|]. apply IH. unfold upstream, src_cell. destruct (Nat.eqb_spec (c - 1) 0).
  - rewrite Hb. cbv iota. destruct (is_literal bl "zerograd"); lia.
  - destruct (Nat.eqb_spec (c - 1) (ne + 1)); lia.
Qed.
Lemma above_periodic bl br ne : is_literal bl "periodic" = true -> forall i c, 1 <= c <= ne -> above bl br ne i c = (c - 1 + i * (ne - 1)) mod ne + 1.
Proof.
  intros Hb. induction i as [|i IH]; intros c Hc; cbn [above].
  - cbn [Nat.mul]. rewrite Nat.add_0_r, Nat.mod_small by lia. lia.
  - assert (U : 1 <= upstream bl br ne c <= ne /\ (upstream bl br ne c - 1) mod ne = (c - 1 + (ne - 1)) mod ne).
    { unfold upstream, src_cell. destruct (Nat.eqb_spec (c - 1) 0) as [E|E].
      - rewrite Hb, E. split; [lia|]. reflexivity.
      - destruct (Nat.eqb_spec (c - 1) (ne + 1)); [lia|]. split; [lia|]. replace (c - 1 + (ne - 1)) with (c - 1 - 1 + 1 * ne) by lia. rewrite Nat.mod_add by lia. reflexivity. }
    destruct U as [U1 U2]. rewrite (IH _ U1). f_equal. rewrite <- Nat.add_mod_idemp_l by lia. rewrite U2. rewrite Nat.add_mod_idemp_l by lia. f_equal. lia.
Qed.
