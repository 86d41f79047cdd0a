(** How far data travel, for both systems of equations: at most one cell per evaluation and use of the limiter, to either side. *)
From Coq Require Import ZArith List Bool Arith String Lia.
From Verif Require Import Num Py PyStr Lib LegNumpy Ext Basis Sensor Enhance Limiting AdvectionPhysics EulerPhysics
  Solution Solver RKCoeffs RK SpecTime SpecTrace ProofsTime SpecDG ProofsDG ProofsDG2 ProofsWf ProofsCons ProofsRel ProofsRelTrace ProofsShift ProofsSol SpecInfluence SpecReach SpecLimit ProofsAHR ProofsLimRun.
Import ListNotations.
Open Scope list_scope.
Open Scope nat_scope.

Section Reach.
  Context {A : Type} {N : Num A} {L : Libm A}.
  Variable gamma : A.
  Implicit Types s : solution A.
  Variables (ne : nat) (sol0 : solution A) (d : dg).
  Hypothesis W0 : wf ne sol0.
  Hypothesis D0 : wf_dg ne sol0 d.
  Notation NF := (s_NF sol0).
  Notation Ns := (s_Ns sol0).
  Notation src := (src_cell (s_bcl sol0) (s_bcr sol0) ne).
  Notation rch := (reach (s_bcl sol0) (s_bcr sol0) ne).
  Variable l : limiter (A:=A).
  Hypothesis Hl : forall h, l = Some h -> List.length (h_M2L h) = Ns.
  Definition extra : nat := match l with None => 0 | Some _ => 1 end.
  Variable P : nat -> Prop.
  (** the limiter also reads the ghost cells *)
  Definition tcell (c : nat) : Prop := c < ne + 2 /\ (l = None -> src c = c).
  Definition close (j c : nat) : Prop := forall c', In c' (rch j c) -> P c'.
  Lemma close_S j c : close (S j) c -> close j c /\ close j (src (c - 1)) /\ close j (src (c + 1)).
  Proof. intro H. repeat split; intros c' Hc; apply H; cbn [reach]; rewrite !in_app_iff; auto. Qed.
  Lemma close_le j k c : j <= k -> close k c -> close j c.
  Proof. intros H. revert c. induction H; intros c G; [exact G|]. apply IHle. apply close_S. exact G. Qed.
  Lemma close_0 j c : close j c -> P c.
  Proof. intro H. apply (close_le 0 j c (Nat.le_0_l j) H). left. reflexivity. Qed.
  Definition sameU (j : nat) (u u' : mat A) : Prop := forall n c f, n < Ns -> tcell c -> f < NF -> close j (src c) -> at2 u n (c * NF + f) = at2 u' n (c * NF + f).
  Lemma sameU_le j k u u' : j <= k -> sameU j u u' -> sameU k u u'.
  Proof. intros H G n c f Hn Hc Hf Hd. apply G; [exact Hn|exact Hc|exact Hf|exact (close_le _ _ _ H Hd)]. Qed.
  Definition same j s s' : Prop := Wf ne sol0 s /\ Wf ne sol0 s' /\ sameU j (s_u s) (s_u s').
  Definition sameK j (K K' : mat A) : Prop := WfK ne sol0 K /\ WfK ne sol0 K' /\ sameU j K K'.
  Lemma same_le j k s s' : j <= k -> same j s s' -> same k s s'.
  Proof. intros H [G1 [G2 G3]]. split; [exact G1|]. split; [exact G2|exact (sameU_le _ _ _ _ H G3)]. Qed.
  Lemma sameK_le j k K K' : j <= k -> sameK j K K' -> sameK k K K'.
  Proof. intros H [G1 [G2 G3]]. split; [exact G1|]. split; [exact G2|exact (sameU_le _ _ _ _ H G3)]. Qed.
  Lemma same_modes j s s' c f : same j s s' -> tcell c -> f < NF -> close j (src c) -> modes s c f = modes s' c f.
  Proof.
    intros [H1 [H2 H]] Hc Hf Hd. pose proof (proj1 Hc) as Hlt. apply (nth_ext _ _ n0 n0); [rewrite !(length_modes' ne sol0) by assumption; reflexivity|].
    intros n Hn. rewrite (length_modes' ne sol0) in Hn by assumption. change (at1 (modes s c f) n = at1 (modes s' c f) n).
    rewrite !(modes_at' ne sol0) by assumption. apply H; assumption.
  Qed.
  Lemma same_axpy j s s' a K K' : same j s s' -> sameK j K K' -> same j (smart_axpy s a K) (smart_axpy s' a K').
  Proof.
    intros [H1 [H2 H]] [G1 [G2 G]]. split; [apply Wf_axpy; assumption|]. split; [apply Wf_axpy; assumption|]. intros n c f Hn Hc Hf Hd. pose proof (proj1 Hc) as Hlt.
    cbn [s_u smart_axpy with_u]. unfold axpy_mat. destruct (nltb _ _); [|apply H; assumption].
    assert (J : c * NF + f < (ne + 2) * NF) by (apply cell_index; assumption).
    rewrite (at2_madd _ _ (s_u s) (mscale a K) n _ (Wf_u' ne sol0 s H1) (shape_mscale _ _ a K G1) Hn J), (at2_madd _ _ (s_u s') (mscale a K') n _ (Wf_u' ne sol0 s' H2) (shape_mscale _ _ a K' G2) Hn J).
    rewrite (at2_mscale _ _ a K n _ G1 Hn J), (at2_mscale _ _ a K' n _ G2 Hn J). f_equal; [apply H; assumption|f_equal; apply G; assumption].
  Qed.
  Lemma same_copy j s s' t t' : Wf ne sol0 s -> Wf ne sol0 s' -> same j t t' -> same j (copy_data_only s t) (copy_data_only s' t').
  Proof. intros H1 H2 [G1 [G2 G]]. split; [apply Wf_copy; assumption|]. split; [apply Wf_copy; assumption|exact G]. Qed.
  Lemma bcs s : Wf ne sol0 s -> s_bcl s = s_bcl sol0 /\ s_bcr s = s_bcr sol0 /\ s_minv s = s_minv sol0.
  Proof. intros [_ [t [n [sn [u [-> _]]]]]]. repeat split. Qed.
  Lemma alike s s' : Wf ne sol0 s -> Wf ne sol0 s' -> similar s s'.
  Proof.
    intros [_ [t [n [sn [u [-> H]]]]]] [_ [t' [n' [sn' [u' [-> H']]]]]]. exists t', n', sn', u'. split; [reflexivity|]. cbn [s_sens with_u with_sens with_n with_t].
    destruct (s_sens sol0), sn, sn'; try contradiction; try exact I. congruence.
  Qed.
  Lemma bc_cell s c f : Wf ne sol0 s -> c < ne + 2 -> f < NF -> modes (with_u s (bc_u ne s)) c f = modes s (src c) f.
  Proof.
    intros Hs Hc Hf. destruct (bcs s Hs) as [B1 [B2 _]]. rewrite (modes_bc ne s) by (try apply Hs; try lia; rewrite (similar_NF _ _ (proj2 Hs)); exact Hf). rewrite B1, B2. reflexivity.
  Qed.
  Lemma src_src c : src (src c) = src c. Proof. apply src_cell_idem. apply (wf_ne _ _ W0). Qed.
  Lemma tcell_src c : c < ne + 2 -> tcell (src c).
  Proof. intro H. pose proof (wf_ne _ _ W0). split; [apply src_cell_lt; assumption|intros _; apply src_src]. Qed.
  Lemma same_bc j s s' : same j s s' -> same j (with_u s (bc_u ne s)) (with_u s' (bc_u ne s')).
  Proof.
    intro H. pose proof H as [H1 [H2 _]].
    assert (V1 : Wf ne sol0 (with_u s (bc_u ne s))) by (apply (Wf_bc ne sol0 s); [exact H1|apply apply_bc_eq; apply H1]).
    assert (V2 : Wf ne sol0 (with_u s' (bc_u ne s'))) by (apply (Wf_bc ne sol0 s'); [exact H2|apply apply_bc_eq; apply H2]).
    split; [exact V1|]. split; [exact V2|]. intros n c f Hn Hc Hf Hd. rewrite <- !(modes_at' ne sol0) by (try assumption; apply Hc).
    rewrite !bc_cell by (try assumption; apply Hc). f_equal. apply (same_modes j s s' (src c) f H); [apply tcell_src; apply Hc|exact Hf|rewrite src_src; exact Hd].
  Qed.
  Lemma same_residual j s s' s1 F s1' F' : same j s s' -> residual gamma d s = Ok (s1, F) -> residual gamma d s' = Ok (s1', F') -> same j s1 s1' /\ sameK (S j) F F'.
  Proof.
    intros H0 R R'. pose proof (same_bc j s s' H0) as H. pose proof H0 as [V [V' _]]. pose proof H as [H1 [H2 _]].
    apply (residual_iff gamma ne s d s1 F (proj1 V) (Wf_dg ne sol0 d D0 _ V)) in R. destruct R as [-> [q [Hq ->]]].
    apply (residual_iff gamma ne s' d s1' F' (proj1 V') (Wf_dg ne sol0 d D0 _ V')) in R'. destruct R' as [-> [q' [Hq' ->]]].
    split; [exact H|].
    assert (M : forall c f, c < ne + 2 -> f < NF -> close j (src c) -> modes (with_u s (bc_u ne s)) c f = modes (with_u s' (bc_u ne s')) c f).
    { intros c f Hc Hf Hd. rewrite !bc_cell by assumption. apply (same_modes j); [exact H0|apply tcell_src; exact Hc|exact Hf|rewrite src_src; exact Hd]. }
    set (s1 := with_u s (bc_u ne s)) in *. set (s1' := with_u s' (bc_u ne s')) in *.
    pose proof (alike s1 s1' H1 H2) as Sm.
    pose proof (similar_NF _ _ (proj2 H1)) as EF. pose proof (similar_NF _ _ (proj2 H2)) as EF'. pose proof (similar_Ns _ _ (proj2 H1)) as EN. pose proof (similar_Ns _ _ (proj2 H2)) as EN'.
    destruct (bcs s1 H1) as [_ [_ B4]]. destruct (bcs s1' H2) as [_ [_ C4]].
    split; [unfold WfK, residual_mat; rewrite EN, EF; apply shape_tab2|]. split; [unfold WfK, residual_mat; rewrite EN', EF'; apply shape_tab2|].
    intros n c f Hn Hc Hf Hd. pose proof (proj1 Hc) as Hlt. destruct (close_S j (src c) Hd) as [D1 [D2 D3]].
    assert (J : c * NF + f < (ne + 2) * NF) by (apply cell_index; assumption).
    assert (Mc : forall f, f < NF -> modes s1 c f = modes s1' c f) by (intros f' Hf'; apply M; [exact Hlt|exact Hf'|exact D1]).
    assert (Vt : volume_term gamma s1 (modes s1) n c f = volume_term gamma s1' (modes s1') n c f) by (apply volume_local; [exact Sm|rewrite EF; exact Mc]).
    unfold residual_mat. rewrite EN, EN', EF, EF', !at2_tab2 by assumption. cbv zeta. rewrite !(proj1 (divmod_idx NF c f Hf)), !(proj2 (divmod_idx NF c f Hf)).
    destruct ((1 <=? c) && (c <=? ne)) eqn:Eb; [|rewrite B4, C4, Vt; reflexivity].
    apply andb_prop in Eb. destruct Eb as [E1 E2]. apply Nat.leb_le in E1, E2. rewrite (src_cell_interior _ _ ne c (conj E1 E2)) in D1, D2, D3.
    assert (Q1 : q (c - 1) = q' (c - 1)).
    { apply Ok_inj. rewrite <- Hq, <- Hq' by lia. apply iface_local; [exact Sm|]. rewrite EF. intros f' Hf'. replace (c - 1 + 1) with c by lia. split; [apply M; [lia|exact Hf'|exact D2]|apply Mc; exact Hf']. }
    assert (Q2 : q c = q' c).
    { apply Ok_inj. rewrite <- Hq, <- Hq' by lia. apply iface_local; [exact Sm|]. rewrite EF. intros f' Hf'. split; [apply Mc; exact Hf'|apply M; [lia|exact Hf'|exact D3]]. }
    unfold residual_of. rewrite B4, C4, Vt, Q1, Q2. reflexivity.
  Qed.
  Lemma same_scale j dt K K' : sameK j K K' -> sameK j (mscale dt K) (mscale dt K').
  Proof.
    intros [H1 [H2 H3]]. split; [apply shape_mscale; exact H1|]. split; [apply shape_mscale; exact H2|]. intros n c f Hn Hc Hf Hd. pose proof (proj1 Hc) as Hlt.
    rewrite (at2_mscale _ _ dt K n _ H1 Hn), (at2_mscale _ _ dt K' n _ H2 Hn) by (apply cell_index; assumption). f_equal. apply H3; assumption.
  Qed.
  Definition sameS j (sc sc' : scratch A) : Prop := same j (sc_us sc) (sc_us sc') /\ Wf ne sol0 (sc_uk sc) /\ Wf ne sol0 (sc_uk sc') /\ Forall2 (sameK j) (sc_K sc) (sc_K sc').
  Lemma sameKs_le j k Ks Ks' : j <= k -> Forall2 (sameK j) Ks Ks' -> Forall2 (sameK k) Ks Ks'.
  Proof. intros H. induction 1; constructor; [eapply sameK_le; eassumption|assumption]. Qed.
  Lemma sameKs_lset j Ks Ks' i K K' : Forall2 (sameK j) Ks Ks' -> sameK j K K' -> Forall2 (sameK j) (lset Ks i K) (lset Ks' i K').
  Proof.
    intros H HK. unfold lset. apply Forall2_app; [|apply Forall2_app; [constructor; [exact HK|constructor]|]].
    - revert i. induction H; intros [|i]; cbn [firstn]; constructor; auto.
    - generalize (S i). clear i. intro i. revert i. induction H; intros [|i]; cbn [skipn]; try constructor; auto.
  Qed.
  Lemma sameS_le j k sc sc' : j <= k -> sameS j sc sc' -> sameS k sc sc'.
  Proof. intros H [G1 [G2 [G3 G4]]]. split; [exact (same_le _ _ _ _ H G1)|]. split; [exact G2|]. split; [exact G3|exact (sameKs_le _ _ _ _ H G4)]. Qed.
  Lemma same_fold j : forall Ks Ks' bs s s', Forall2 (sameK j) Ks Ks' -> same j s s' ->
    same j (fold_left (fun uk bk => smart_axpy uk (fst bk) (snd bk)) (combine bs Ks) s) (fold_left (fun uk bk => smart_axpy uk (fst bk) (snd bk)) (combine bs Ks') s').
  Proof.
    intros Ks Ks' bs. revert Ks Ks'. induction bs as [|b bs IH]; intros Ks Ks' s s' H Hs; [exact Hs|]. destruct H as [|K K' Ks Ks' H1 H2]; [exact Hs|].
    cbn [combine fold_left fst snd]. apply IH; [exact H2|apply same_axpy; assumption].
  Qed.
  Lemma same_t j s s' t t' : same j s s' -> same j (with_t s t) (with_t s' t').
  Proof. intros [H1 [H2 H3]]. split; [apply Wf_t; exact H1|]. split; [apply Wf_t; exact H2|exact H3]. Qed.
  Lemma same_n j s s' k k' : same j s s' -> same j (with_n s k) (with_n s' k').
  Proof. intros [H1 [H2 H3]]. split; [apply Wf_n; exact H1|]. split; [apply Wf_n; exact H2|exact H3]. Qed.
  Lemma same_limit j s s' s1 s1' : same j s s' -> limit gamma l s = Ok s1 -> limit gamma l s' = Ok s1' -> same (j + extra) s1 s1'.
  Proof.
    unfold extra. destruct l as [h|] eqn:El; cbn [limit]; [|intros H E E'; injection E as <-; injection E' as <-; rewrite Nat.add_0_r; exact H].
    rewrite Nat.add_1_r. intros H E E'. pose proof H as [V1 [V2 _]]. pose proof (alike s s' V1 V2) as Sm.
    pose proof (similar_NF _ _ (proj2 V1)) as EF. pose proof (similar_NF _ _ (proj2 V2)) as EF'. destruct (bcs s V1) as [B1 [B2 _]]. destruct (bcs s' V2) as [C1 [C2 _]].
    assert (W1 : Wf ne sol0 s1) by (apply (Wf_lim gamma ne sol0 (Some h) s s1 V1); exact E). assert (W2 : Wf ne sol0 s1') by (apply (Wf_lim gamma ne sol0 (Some h) s' s1' V2); exact E').
    assert (M : forall c f, c < ne + 2 -> f < NF -> close j (src c) -> modes s c f = modes s' c f).
    { intros c f Hc Hf Hd. apply (same_modes j); [exact H|split; [exact Hc|rewrite El; discriminate]|exact Hf|exact Hd]. }
    destruct (adaptive_hr_spec gamma ne h s s1 (proj1 V1)) as [sn [sn1 [V [S1 [S2 [_ [_ [_ [_ [_ [S3 S4]]]]]]]]]]]; [rewrite (Hl h eq_refl); symmetry; apply similar_Ns; apply V1|exact E|].
    destruct (adaptive_hr_spec gamma ne h s' s1' (proj1 V2)) as [sn' [sn1' [V' [S1' [S2' [_ [_ [_ [_ [_ [S3' S4']]]]]]]]]]]; [rewrite (Hl h eq_refl); symmetry; apply similar_Ns; apply V2|exact E'|].
    split; [exact W1|]. split; [exact W2|]. intros n c f Hn Hc Hf Hd. pose proof (proj1 Hc) as Hlt. rewrite <- !(modes_at' ne sol0) by assumption. f_equal.
    rewrite S4, S4' by (try assumption; rewrite ?EF, ?EF'; assumption). rewrite B1, B2, C1, C2. pose proof (src_cell_lt (s_bcl sol0) (s_bcr sol0) ne c (wf_ne _ _ W0) Hlt) as He.
    destruct (close_S j _ Hd) as [D1 [D2 D3]]. pose proof (src_src c) as Ss. set (e := src c) in *. clearbody e.
    assert (Me : forall f, f < NF -> modes s e f = modes s' e f) by (intros f' Hf'; apply M; [exact He|exact Hf'|rewrite Ss; exact D1]).
    rewrite EF in S3. rewrite EF' in S3'. destruct (S3 e f He Hf) as [A1 A2]. destruct (S3' e f He Hf) as [A1' A2'].
    destruct ((1 <=? e) && (e <=? ne)) eqn:Eb.
    2: { unfold limited in A2, A2'. rewrite Eb in A2, A2'. rewrite A2, A2' by reflexivity. apply Me. exact Hf. }
    apply andb_prop in Eb. destruct Eb as [E1 E2]. apply Nat.leb_le in E1, E2.
    assert (Ml : forall f, f < NF -> modes s (e - 1) f = modes s' (e - 1) f) by (intros f' Hf'; apply M; [lia|exact Hf'|exact D2]).
    assert (Mr : forall f, f < NF -> modes s (e + 1) f = modes s' (e + 1) f) by (intros f' Hf'; apply M; [lia|exact Hf'|exact D3]).
    assert (Fl : limited ne (sn_sensors sn1) e = limited ne (sn_sensors sn1') e).
    { unfold limited. f_equal. f_equal. f_equal.
      assert (Th : sn_thresholds sn = sn_thresholds sn') by (pose proof (similar_thr s s' Sm) as T; unfold thresholds in T; rewrite S1, S1' in T; cbn [option_map] in T; congruence).
      pose proof (similar_euler s s' Sm) as Eu'. rewrite Eu' in S2'. destruct (s_euler s) eqn:Eu.
      - assert (F3 : NF = 3) by (rewrite <- EF; unfold s_NF; rewrite Eu; reflexivity).
        assert (T1 : state3 s (e - 1) = state3 s' (e - 1)) by (unfold state3, cell_mean; rewrite !Ml by lia; reflexivity).
        assert (T2 : state3 s e = state3 s' e) by (unfold state3, cell_mean; rewrite !Me by lia; reflexivity).
        assert (T3 : state3 s (e + 1) = state3 s' (e + 1)) by (unfold state3, cell_mean; rewrite !Mr by lia; reflexivity).
        rewrite (sensing_euler gamma ne s sn (proj1 V1) Eu S1) in S2. rewrite (sensing_euler gamma ne s' sn' (proj1 V2) Eu' S1'), <- Th in S2'.
        destruct (nth_error (sn_thresholds sn) 0) as [t0|]; [|discriminate]. destruct (nth_error (sn_thresholds sn) 1) as [t1|]; [|discriminate].
        injection S2 as <-. injection S2' as <-. cbn [sn_sensors]. rewrite !nth_tab by exact He.
        unfold SpecLimit.near, shock_at, contact_at. replace (e - 1 + 1) with e by lia. rewrite T1, T2, T3. reflexivity.
      - assert (F1 : NF = 1) by (rewrite <- EF; unfold s_NF; rewrite Eu; reflexivity).
        rewrite (sensing_adv gamma ne s sn (proj1 V1) Eu S1) in S2. rewrite (sensing_adv gamma ne s' sn' (proj1 V2) Eu' S1'), <- Th in S2'.
        destruct (nth_error (sn_thresholds sn) 0) as [t0|]; [|discriminate].
        injection S2 as <-. injection S2' as <-. cbn [sn_sensors]. rewrite !nth_tab by exact He.
        unfold SpecLimit.near, jump_at, cell_mean. replace (e - 1 + 1) with e by lia. rewrite Ml, Me, Mr by lia. reflexivity. }
    destruct (limited ne (sn_sensors sn1) e) eqn:Li.
    - specialize (A1 eq_refl). symmetry in Fl. specialize (A1' Fl). rewrite (Me f Hf), (Ml f Hf), (Mr f Hf) in A1. rewrite A1 in A1'. apply Ok_inj in A1'. exact A1'.
    - symmetry in Fl. rewrite (A2 eq_refl), (A2' Fl). apply Me. exact Hf.
  Qed.
  (** cells travelled in n stages, the first of which has number k *)
  Fixpoint cost (k n : nat) : nat := match n with O => 0 | S n => (if 0 <? k then extra else 0) + 1 + cost (S k) n end.
  Lemma cost_le k n : cost k n + (if k =? 0 then extra else 0) <= (if n =? 0 then (if k =? 0 then extra else 0) else 0) + (1 + extra) * n.
  Proof.
    assert (G : forall n k, cost (S k) n = (1 + extra) * n).
    { clear. induction n as [|m IH]; intro i; cbn [cost]; [rewrite Nat.mul_0_r; reflexivity|]. rewrite IH. change (0 <? S i) with true. cbv iota. rewrite Nat.mul_succ_r. lia. }
    destruct k as [|k]; [|rewrite G; destruct (n =? 0); cbn [Nat.eqb]; lia]. destruct n as [|n]; cbn [cost]; [cbn; lia|]. rewrite G. change (0 <? 0) with false. change (0 =? 0) with true. change (S n =? 0) with false. cbv iota. rewrite Nat.mul_succ_r. lia.
  Qed.
  Lemma same_stage k j s s' s1 s1' : same j s s' -> (if 0 <? k then limit gamma l s else Ok s) = Ok s1 -> (if 0 <? k then limit gamma l s' else Ok s') = Ok s1' -> same (j + (if 0 <? k then extra else 0)) s1 s1'.
  Proof. destruct (0 <? k); [apply same_limit|]. intros H E E'. injection E as <-. injection E' as <-. rewrite Nat.add_0_r. exact H. Qed.
  Lemma classic_same betas dt : forall cas k j s s' sc sc' t sc1 t' sc1', same j s s' -> sameS j sc sc' ->
    classic_stages gamma d l betas dt k cas s sc = Ok (t, sc1) -> classic_stages gamma d l betas dt k cas s' sc' = Ok (t', sc1') ->
    same (j + cost k (List.length cas)) t t' /\ sameS (j + cost k (List.length cas)) sc1 sc1'.
  Proof.
    induction cas as [|[c a] cas IH]; intros k j s s' sc sc' t sc1 t' sc1' Hs Hsc E E'.
    - cbn [classic_stages List.length] in *. injection E as <- <-. injection E' as <- <-. cbn [cost]. rewrite Nat.add_0_r. auto.
    - cbn [classic_stages] in E, E'. destruct Hsc as [G1 [G2 [G3 G4]]].
      set (uk := fold_left _ (combine (firstn k (row betas k)) (sc_K sc)) _) in E. set (uk' := fold_left _ (combine (firstn k (row betas k)) (sc_K sc')) _) in E'.
      assert (U : same j uk uk') by (apply same_fold; [exact G4|apply same_copy; assumption]).
      pose proof (same_t j uk uk' (nadd (s_t uk) (nmul a dt)) (nadd (s_t uk') (nmul a dt)) U) as U'.
      destruct (if 0 <? k then limit gamma l (with_t uk (nadd (s_t uk) (nmul a dt))) else Ok (with_t uk (nadd (s_t uk) (nmul a dt)))) as [x|] eqn:Lx; [|discriminate].
      destruct (if 0 <? k then limit gamma l (with_t uk' (nadd (s_t uk') (nmul a dt))) else Ok (with_t uk' (nadd (s_t uk') (nmul a dt)))) as [x'|] eqn:Lx'; [|discriminate].
      pose proof (same_stage k j _ _ x x' U' Lx Lx') as Ux. cbn [rbind] in E, E'.
      destruct (residual gamma d x) as [[s1 F]|] eqn:R; [|discriminate]. destruct (residual gamma d x') as [[s1' F']|] eqn:R'; [|discriminate].
      set (j1 := j + (if 0 <? k then extra else 0)) in *. assert (J1 : j <= j1) by (unfold j1; lia).
      destruct (same_residual j1 _ _ _ _ _ _ Ux R R') as [R1 R2]. cbn [rbind] in E, E'.
      replace (j + cost k (List.length ((c, a) :: cas))) with (S j1 + cost (S k) (List.length cas)) by (cbn [List.length cost]; unfold j1; lia).
      apply (IH (S k) (S j1) _ _ _ _ _ _ _ _) with (3 := E) (4 := E').
      + apply same_axpy; [apply (same_le j); [lia|exact Hs]|apply same_scale; exact R2].
      + split; [apply (same_le j); [lia|exact G1]|]. split; [apply R1|]. split; [apply R1|]. apply sameKs_lset; [apply (sameKs_le j); [lia|exact G4]|apply same_scale; exact R2].
  Qed.
  Lemma low_same dt : forall bgs k j s s' sc sc' t sc1 t' sc1', sc_K sc <> [] -> same j s s' -> sameS j sc sc' ->
    low_storage_stages gamma d l dt k bgs s sc = Ok (t, sc1) -> low_storage_stages gamma d l dt k bgs s' sc' = Ok (t', sc1') ->
    same (j + cost k (List.length bgs)) t t' /\ sameS (j + cost k (List.length bgs)) sc1 sc1'.
  Proof.
    induction bgs as [|[b g] bgs IH]; intros k j s s' sc sc' t sc1 t' sc1' HK Hs Hsc E E'.
    - cbn [low_storage_stages List.length] in *. injection E as <- <-. injection E' as <- <-. cbn [cost]. rewrite Nat.add_0_r. auto.
    - cbn [low_storage_stages] in E, E'. destruct Hsc as [G1 [G2 [G3 G4]]].
      set (uk := smart_axpy (copy_data_only (sc_uk sc) (sc_us sc)) b (hd [] (sc_K sc))) in E. set (uk' := smart_axpy (copy_data_only (sc_uk sc') (sc_us sc')) b (hd [] (sc_K sc'))) in E'.
      assert (U : same j uk uk') by (apply same_axpy; [apply same_copy; assumption|destruct G4; [contradiction|assumption]]).
      pose proof (same_t j uk uk' (nadd (s_t uk) (nmul b dt)) (nadd (s_t uk') (nmul b dt)) U) as U'.
      destruct (if 0 <? k then limit gamma l (with_t uk (nadd (s_t uk) (nmul b dt))) else Ok (with_t uk (nadd (s_t uk) (nmul b dt)))) as [x|] eqn:Lx; [|discriminate].
      destruct (if 0 <? k then limit gamma l (with_t uk' (nadd (s_t uk') (nmul b dt))) else Ok (with_t uk' (nadd (s_t uk') (nmul b dt)))) as [x'|] eqn:Lx'; [|discriminate].
      pose proof (same_stage k j _ _ x x' U' Lx Lx') as Ux. cbn [rbind] in E, E'.
      destruct (residual gamma d x) as [[s1 F]|] eqn:R; [|discriminate]. destruct (residual gamma d x') as [[s1' F']|] eqn:R'; [|discriminate].
      set (j1 := j + (if 0 <? k then extra else 0)) in *. assert (J1 : j <= j1) by (unfold j1; lia).
      destruct (same_residual j1 _ _ _ _ _ _ Ux R R') as [R1 R2]. cbn [rbind] in E, E'.
      replace (j + cost k (List.length ((b, g) :: bgs))) with (S j1 + cost (S k) (List.length bgs)) by (cbn [List.length cost]; unfold j1; lia).
      apply (IH (S k) (S j1) _ _ _ _ _ _ _ _) with (4 := E) (5 := E').
      + discriminate.
      + apply same_axpy; [apply (same_le j); [lia|exact Hs]|apply same_scale; exact R2].
      + split; [apply (same_le j); [lia|exact G1]|]. split; [apply R1|]. split; [apply R1|]. constructor; [apply same_scale; exact R2|constructor].
  Qed.
  Lemma inner_same rk dt j s s' sc sc' t sc1 t' sc1' : sc_K sc <> [] -> same j s s' -> sameS j sc sc' ->
    rk_inner gamma rk d l dt s sc = Ok (t, sc1) -> rk_inner gamma rk d l dt s' sc' = Ok (t', sc1') ->
    exists k, k + extra <= radius l rk /\ same (j + k) t t' /\ sameS (j + k) sc1 sc1'.
  Proof.
    intros HK Hs Hsc. assert (Ra : radius l rk = (1 + extra) * evaluations rk) by (unfold radius, extra; destruct l; lia). rewrite Ra. unfold rk_inner, evaluations. destruct (String.eqb rk "low_storage_rk4").
    - intros E E'. exists (cost 0 4). split; [pose proof (cost_le 0 4) as C; cbn [Nat.eqb] in C; lia|]. exact (low_same dt _ _ _ _ _ _ _ _ _ _ _ HK Hs Hsc E E').
    - intros E E'. destruct (classic_same _ dt _ _ _ _ _ _ _ _ _ _ _ Hs Hsc E E') as [E3 E4]. eexists. split; [|split; [exact E3|exact E4]].
      assert (Le : List.length (combine (map ceval (tb_coeffs (rk_choice rk))) (map ceval (tb_alphas (rk_choice rk)) : list A)) <= List.length (tb_coeffs (rk_choice rk))) by (rewrite combine_length, !map_length; lia).
      assert (Po : 1 <= List.length (tb_coeffs (rk_choice rk))) by (unfold rk_choice; repeat (destruct (String.eqb _ _)); cbn; lia).
      pose proof (cost_le 0 (List.length (combine (map ceval (tb_coeffs (rk_choice rk))) (map ceval (tb_alphas (rk_choice rk)) : list A)))) as C. cbn [Nat.eqb] in C.
      revert Le C. generalize (List.length (combine (map ceval (tb_coeffs (rk_choice rk))) (map ceval (tb_alphas (rk_choice rk)) : list A))). intros n Le C. destruct (Nat.eqb_spec n 0); nia.
  Qed.
  Lemma K_stays rk dt s sc s' sc' : sc_K sc <> [] -> rk_inner gamma rk d l dt s sc = Ok (s', sc') -> sc_K sc' <> [].
  Proof.
    intros HK H. exact (proj2 (proj2 (inner_inv gamma (fun _ => True) (fun _ => True) (fun _ => True) (fun _ => True) d l ltac:(auto) ltac:(auto) ltac:(auto) ltac:(auto) ltac:(auto) ltac:(auto)
      rk dt s sc s' sc' I I (conj I (conj I (proj2 (Forall_forall _ _) (fun _ _ => I)))) HK H))).
  Qed.
  Lemma steps_same rk : forall dts j s s' sc sc' t sc1 t' sc1', sc_K sc <> [] -> same j s s' -> sameS j sc sc' ->
    steps gamma rk d l dts s sc = Ok (t, sc1) -> steps gamma rk d l dts s' sc' = Ok (t', sc1') ->
    same (j + radius l rk * List.length dts) t t' /\ sameS (j + radius l rk * List.length dts) sc1 sc1' /\ sc_K sc1 <> [].
  Proof.
    induction dts as [|dt dts IH]; intros j s s' sc sc' t sc1 t' sc1' HK Hs Hsc E E'; cbn [steps] in E, E'.
    - injection E as <- <-. injection E' as <- <-. cbn [List.length]. rewrite Nat.mul_0_r, Nat.add_0_r. auto.
    - destruct (rk_inner gamma rk d l dt s (set_us sc s)) as [[v w]|] eqn:R; [|discriminate]. destruct (rk_inner gamma rk d l dt s' (set_us sc' s')) as [[v' w']|] eqn:R'; [|discriminate]. cbn [rbind] in E, E'.
      destruct Hsc as [G1 [G2 [G3 G4]]].
      assert (Hsc' : sameS j (set_us sc s) (set_us sc' s')) by (split; [apply same_copy; [apply G1|apply G1|exact Hs]|split; [exact G2|split; [exact G3|exact G4]]]).
      assert (HK' : sc_K (set_us sc s) <> []) by exact HK.
      destruct (inner_same _ _ _ _ _ _ _ _ _ _ _ HK' Hs Hsc' R R') as [k [Hk [E3 E4]]]. pose proof (K_stays _ _ _ _ _ _ HK' R) as HK1.
      assert (V : same (j + k) (with_n (with_t v (nadd (s_t v) dt)) (s_n v + 1)) (with_n (with_t v' (nadd (s_t v') dt)) (s_n v' + 1))) by (apply same_n, same_t; exact E3). pose proof V as [V1 [V2 _]].
      rewrite (apply_bc_eq ne _ (proj1 V1)) in E. rewrite (apply_bc_eq ne _ (proj1 V2)) in E'. cbn [rbind] in E, E'. pose proof (same_bc _ _ _ V) as Vb.
      match type of E with context [limit gamma l ?x] => destruct (limit gamma l x) as [y|] eqn:Ly; [|discriminate] end.
      match type of E' with context [limit gamma l ?x] => destruct (limit gamma l x) as [y'|] eqn:Ly'; [|discriminate] end. cbn [rbind] in E, E'.
      pose proof (same_limit _ _ _ _ _ Vb Ly Ly') as Vy.
      replace (j + radius l rk * List.length (dt :: dts)) with (j + radius l rk + radius l rk * List.length dts) by (cbn [List.length]; lia).
      eapply IH; [exact HK1|apply (same_le (j + k + extra)); [lia|exact Vy]|apply (sameS_le (j + k)); [lia|exact E4]|exact E|exact E'].
  Qed.
End Reach.

Section Statement.
  Context {A : Type} {N : Num A} {L : Libm A}.
  Variable gamma : A.
  Variable l : limiter (A:=A).
  Lemma fresh_same ne (s s' : solution A) (P : nat -> Prop) rk : wf ne s -> wf ne s' -> similar s s' -> (l <> None -> apply_bc s = Ok s /\ apply_bc s' = Ok s') -> (forall c f, P c -> f < s_NF s -> modes s c f = modes s' c f) ->
    same ne s l P 0 s s' /\ sameS ne s l P 0 (fresh rk s) (fresh rk s') /\ sc_K (fresh rk s) <> [].
  Proof.
    intros W W' S Hb HP. assert (V1 : Wf ne s s) by (apply Wf_0; exact W). assert (V2 : Wf ne s s') by (split; assumption).
    assert (H : same ne s l P 0 s s').
    { split; [exact V1|]. split; [exact V2|]. intros n c f Hn [Hc Hg] Hf Hd. rewrite <- !(modes_at' ne s) by assumption. f_equal. pose proof (HP _ f (close_0 ne s P 0 _ Hd) Hf) as Hm.
      assert (C : l = None \/ l <> None) by (destruct l; [right; discriminate|left; reflexivity]). destruct C as [C|C]; [rewrite (Hg C) in Hm; exact Hm|].
      destruct (Hb C) as [B1 B2]. rewrite (apply_bc_eq ne s W) in B1. rewrite (apply_bc_eq ne s' W') in B2. apply Ok_inj in B1. apply Ok_inj in B2.
      pose proof (bc_cell ne s s c f V1 Hc Hf) as M1. pose proof (bc_cell ne s s' c f V2 Hc Hf) as M2. rewrite B1 in M1. rewrite B2 in M2. rewrite M1, M2. exact Hm. }
    split; [exact H|]. split; [|apply K0_nonempty]. split; [exact H|]. split; [exact V1|]. split; [exact V2|].
    assert (Z0 : sameK ne s l P 0 (zeros2 (nrows (s_u s)) (ncols (s_u s))) (zeros2 (nrows (s_u s')) (ncols (s_u s')))).
    { assert (E : nrows (s_u s') = nrows (s_u s) /\ ncols (s_u s') = ncols (s_u s)).
      { pose proof (wf_u _ _ (proj1 V1)) as U. pose proof (Wf_u' ne s s' V2) as U'. split; [exact (eq_trans (proj1 U') (eq_sym (proj1 U)))|].
        rewrite (shape_ncols _ _ _ U (Ns_pos _)), (shape_ncols _ _ _ U' (Ns_pos _)). reflexivity. }
      destruct E as [-> ->]. pose proof (WfK_0 ne s W) as K0. split; [exact K0|]. split; [exact K0|]. intros n c f _ _ _ _. reflexivity. }
    cbn [fresh sc_K]. unfold rk_K0. destruct (String.eqb rk "low_storage_rk4"); [constructor; [exact Z0|constructor]|].
    induction (tb_coeffs (rk_choice rk)); cbn [map]; constructor; assumption.
  Qed.
  Lemma steps_untouched ne (s s' : solution A) d rk dts a sc b sc' : wf ne s -> wf ne s' -> similar s s' -> wf_dg ne s d -> (forall h, l = Some h -> List.length (h_M2L h) = s_Ns s) -> (l <> None -> apply_bc s = Ok s /\ apply_bc s' = Ok s') ->
    steps gamma rk d l dts s (fresh rk s) = Ok (a, sc) -> steps gamma rk d l dts s' (fresh rk s') = Ok (b, sc') -> untouched ne (radius l rk * List.length dts) s s' a b.
  Proof.
    intros W W' S D Hl Hb E E' c Hc H f Hf.
    set (P := fun c => forall f, f < s_NF s -> modes s c f = modes s' c f).
    destruct (fresh_same ne s s' P rk W W' S Hb (fun c f HP Hf => HP f Hf)) as [H1 [H2 H3]].
    apply (same_modes ne s l P _ a b c f (proj1 (steps_same gamma ne s d W D l Hl P rk dts 0 _ _ _ _ _ _ _ _ H3 H1 H2 E E'))); [|exact Hf|].
    - split; [lia|intros _; apply src_cell_interior; exact Hc].
    - rewrite src_cell_interior by exact Hc. intros c' Hc' f' Hf'. apply H; [exact Hc'|exact Hf'].
  Qed.
  (** the loop makes steps *)
  Lemma loop_steps rk d cfl tf : forall fuel k tout touts (s : solution A) sc evs a,
    snd (time_loop gamma (rk_inner gamma rk d l) l cfl tf fuel k tout touts s sc evs) = Finished a ->
    exists dts sc1, steps gamma rk d l dts s sc = Ok (a, sc1) /\ s_n a = s_n s + List.length dts.
  Proof.
    induction fuel as [|fuel IH]; intros k tout touts s sc evs a; cbn [time_loop]; [discriminate|].
    destruct (time_step gamma (rk_inner gamma rk d l) l cfl tf tout s sc) as [[[s1 sc1] [[dt o] dn]]|] eqn:T; [|discriminate].
    assert (One : forall dts, steps gamma rk d l (dt :: dts) s sc = steps gamma rk d l dts s1 sc1 /\ s_n s1 = s_n s + 1).
    { unfold time_step in T. destruct (get_next_time_step gamma s tout cfl tf) as [[[dt0 o0] dn0]|]; [|discriminate]. cbn [rbind] in T.
      destruct (rk_inner gamma rk d l dt0 s (set_us sc s)) as [[v w]|] eqn:R; [|discriminate]. cbn [rbind] in T.
      destruct (apply_bc (with_n (with_t v (nadd (s_t v) dt0)) (s_n v + 1))) as [x|] eqn:B; [|discriminate]. cbn [rbind] in T. destruct (limit gamma l x) as [y|] eqn:Y; [|discriminate]. cbn [rbind] in T. injection T as <- <- <- _ _.
      intro dts. cbn [steps]. rewrite R. cbn [rbind]. rewrite B. cbn [rbind]. rewrite Y. cbn [rbind]. split; [reflexivity|].
      pose proof (frame_n _ _ (frame_inner gamma _ _ _ _ _ _ _ _ R)) as N1. rewrite (frame_n _ _ (frame_limit gamma _ _ _ Y)).
      unfold apply_bc in B. destruct (mapM _ _); [|discriminate]. cbn [rbind] in B. injection B as <-. cbn [s_n with_u with_n with_t]. rewrite N1. reflexivity. }
    assert (Fin : s1 = a -> exists dts sc2, steps gamma rk d l dts s sc = Ok (a, sc2) /\ s_n a = s_n s + List.length dts).
    { intros <-. exists [dt], sc1. destruct (One []) as [E1 E2]. split; [exact E1|exact E2]. }
    assert (More : forall k tout touts evs, snd (time_loop gamma (rk_inner gamma rk d l) l cfl tf fuel k tout touts s1 sc1 evs) = Finished a ->
      exists dts sc2, steps gamma rk d l dts s sc = Ok (a, sc2) /\ s_n a = s_n s + List.length dts).
    { intros k' tout' touts' evs' E. destruct (IH _ _ _ _ _ _ _ E) as [dts [sc2 [E1 E2]]]. exists (dt :: dts), sc2. destruct (One dts) as [O1 O2]. rewrite O1. split; [exact E1|]. cbn [List.length]. lia. }
    destruct o.
    - destruct (printer k dt s1); [|discriminate]. destruct dn; [intro E; injection E as E; exact (Fin E)|]. destruct touts as [|tout' touts']; [discriminate|]. apply More.
    - destruct dn; [intro E; injection E as E; exact (Fin E)|]. apply More.
  Qed.
  Lemma run_steps rk d cfl tf nout fuel (s a : solution A) : snd (integrate gamma rk d l cfl tf nout fuel s) = Finished a ->
    exists dts sc1, steps gamma rk d l dts s (fresh rk s) = Ok (a, sc1) /\ s_n a = s_n s + List.length dts.
  Proof.
    rewrite integrate_run_rk. unfold run_rk. destruct (nout <? 0)%Z; [discriminate|]. destruct (printer 0 n0 s); [|discriminate]. destruct (slice_from _ _) as [|tout touts]; [discriminate|]. apply loop_steps.
  Qed.
  Lemma steps_n rk d : forall dts (s : solution A) sc a sc1, steps gamma rk d l dts s sc = Ok (a, sc1) -> s_n a = s_n s + List.length dts.
  Proof.
    induction dts as [|dt dts IH]; intros s sc a sc1 E; cbn [steps] in E.
    - injection E as <- _. cbn [List.length]. lia.
    - destruct (rk_inner gamma rk d l dt s (set_us sc s)) as [[v w]|] eqn:R; [|discriminate]. cbn [rbind] in E.
      destruct (apply_bc (with_n (with_t v (nadd (s_t v) dt)) (s_n v + 1))) as [x|] eqn:B; [|discriminate]. cbn [rbind] in E. destruct (limit gamma l x) as [y|] eqn:Y; [|discriminate]. cbn [rbind] in E. apply IH in E. rewrite (frame_n _ _ (frame_limit gamma _ _ _ Y)) in E.
      pose proof (frame_n _ _ (frame_inner gamma _ _ _ _ _ _ _ _ R)) as N1. unfold apply_bc in B. destruct (mapM _ _); [|discriminate]. cbn [rbind] in B. injection B as <-.
      cbn [s_n with_u with_n with_t] in E. cbn [List.length]. lia.
  Qed.
  (** advection: the step lengths are the same in both runs *)
  Lemma adv_step (s s' : solution A) rk d cfl tf tout sc sc' s1 sc1 r s1' sc1' r' : s_euler s = false -> similar s s' -> s_t s = s_t s' ->
    time_step gamma (rk_inner gamma rk d l) l cfl tf tout s sc = Ok (s1, sc1, r) -> time_step gamma (rk_inner gamma rk d l) l cfl tf tout s' sc' = Ok (s1', sc1', r') ->
    r = r' /\ s_t s1 = s_t s1' /\ forall dts, steps gamma rk d l (fst (fst r) :: dts) s sc = steps gamma rk d l dts s1 sc1 /\ steps gamma rk d l (fst (fst r) :: dts) s' sc' = steps gamma rk d l dts s1' sc1'.
  Proof.
    intros Eu S Ht. assert (G : get_next_time_step gamma s tout cfl tf = get_next_time_step gamma s' tout cfl tf).
    { destruct S as [t [n [sn [u [-> _]]]]]. unfold get_next_time_step, cfl_time_step, max_wave_speed. cbn [s_euler s_t s_basis s_dx with_u with_sens with_n with_t] in *. rewrite Eu, Ht. reflexivity. }
    unfold time_step. rewrite <- G. destruct (get_next_time_step gamma s tout cfl tf) as [[[dt o] dn]|]; [|discriminate]. cbn [rbind].
    destruct (rk_inner gamma rk d l dt s (set_us sc s)) as [[v w]|] eqn:R; [|discriminate]. destruct (rk_inner gamma rk d l dt s' (set_us sc' s')) as [[v' w']|] eqn:R'; [|discriminate]. cbn [rbind].
    destruct (apply_bc (with_n (with_t v (nadd (s_t v) dt)) (s_n v + 1))) as [x|] eqn:B; [|discriminate]. destruct (apply_bc (with_n (with_t v' (nadd (s_t v') dt)) (s_n v' + 1))) as [x'|] eqn:B'; [|discriminate].
    cbn [rbind]. destruct (limit gamma l x) as [y|] eqn:Y; [|discriminate]. destruct (limit gamma l x') as [y'|] eqn:Y'; [|discriminate]. cbn [rbind]. intros E E'. injection E as <- <- <-. injection E' as <- <- <-. split; [reflexivity|].
    pose proof (frame_t _ _ (frame_inner gamma _ _ _ _ _ _ _ _ R)) as T1. pose proof (frame_t _ _ (frame_inner gamma _ _ _ _ _ _ _ _ R')) as T2. split.
    - rewrite (frame_t _ _ (frame_limit gamma _ _ _ Y)), (frame_t _ _ (frame_limit gamma _ _ _ Y')). unfold apply_bc in B, B'. destruct (mapM _ _) in B; [|discriminate]. destruct (mapM _ _) in B'; [|discriminate]. cbn [rbind] in B, B'. injection B as <-. injection B' as <-. cbn [s_t with_u with_n with_t]. congruence.
    - intro dts. cbn [fst steps]. rewrite R, R'. cbn [rbind]. rewrite B, B'. cbn [rbind]. rewrite Y, Y'. split; reflexivity.
  Qed.
  Lemma adv_loops ne (sol0 : solution A) d rk cfl tf (P : nat -> Prop) : wf ne sol0 -> wf_dg ne sol0 d -> (forall h, l = Some h -> List.length (h_M2L h) = s_Ns sol0) -> s_euler sol0 = false ->
    forall fuel k tout touts (s s' : solution A) sc sc' evs evs' a b j, sc_K sc <> [] -> same ne sol0 l P j s s' -> sameS ne sol0 l P j sc sc' -> s_t s = s_t s' ->
    snd (time_loop gamma (rk_inner gamma rk d l) l cfl tf fuel k tout touts s sc evs) = Finished a -> snd (time_loop gamma (rk_inner gamma rk d l) l cfl tf fuel k tout touts s' sc' evs') = Finished b ->
    exists dts sc1 sc1', steps gamma rk d l dts s sc = Ok (a, sc1) /\ steps gamma rk d l dts s' sc' = Ok (b, sc1') /\ s_t a = s_t b.
  Proof.
    intros W D Hl Eu. induction fuel as [|fuel IH]; intros k tout touts s s' sc sc' evs evs' a b j HK Hs Hsc Ht; cbn [time_loop]; [discriminate|].
    destruct (time_step gamma (rk_inner gamma rk d l) l cfl tf tout s sc) as [[[s1 sc1] r]|] eqn:T; [|discriminate].
    destruct (time_step gamma (rk_inner gamma rk d l) l cfl tf tout s' sc') as [[[s1' sc1'] r']|] eqn:T'; [|destruct r as [[dt o] dn]; discriminate].
    pose proof Hs as [V1 [V2 _]].
    assert (Eu1 : s_euler s = false) by (destruct V1 as [_ [t [n [sn [u [-> _]]]]]]; exact Eu).
    destruct (adv_step s s' rk d cfl tf tout sc sc' s1 sc1 r s1' sc1' r' Eu1 (alike ne sol0 s s' V1 V2) Ht T T') as [<- [T1 One]].
    destruct (One []) as [O1 O2]. destruct (steps_same gamma ne sol0 d W D l Hl P rk _ _ _ _ _ _ _ _ _ _ HK Hs Hsc O1 O2) as [S1 [S2 S3]].
    destruct r as [[dt o] dn]. cbn [fst] in One.
    assert (Fin : s1 = a -> s1' = b -> exists dts sc2 sc2', steps gamma rk d l dts s sc = Ok (a, sc2) /\ steps gamma rk d l dts s' sc' = Ok (b, sc2') /\ s_t a = s_t b).
    { intros <- <-. exists [dt], sc1, sc1'. destruct (One []) as [-> ->]. auto. }
    assert (More : forall k tout touts evs evs', snd (time_loop gamma (rk_inner gamma rk d l) l cfl tf fuel k tout touts s1 sc1 evs) = Finished a ->
      snd (time_loop gamma (rk_inner gamma rk d l) l cfl tf fuel k tout touts s1' sc1' evs') = Finished b ->
      exists dts sc2 sc2', steps gamma rk d l dts s sc = Ok (a, sc2) /\ steps gamma rk d l dts s' sc' = Ok (b, sc2') /\ s_t a = s_t b).
    { intros k' tout' touts' ev1 ev2 E E'. destruct (IH _ _ _ _ _ _ _ _ _ _ _ _ S3 S1 S2 T1 E E') as [dts [sc2 [sc2' [E1 [E2 E3]]]]].
      exists (dt :: dts), sc2, sc2'. destruct (One dts) as [-> ->]. auto. }
    destruct o.
    - destruct (printer k dt s1); [|discriminate]. destruct (printer k dt s1'); [|destruct dn; [discriminate|destruct touts; discriminate]]. destruct dn.
      + intros E E'. injection E as E. injection E' as E'. exact (Fin E E').
      + destruct touts as [|tout' touts']; [discriminate|]. apply More.
    - destruct dn; [intros E E'; injection E as E; injection E' as E'; exact (Fin E E')|]. apply More.
  Qed.
  Lemma adv_run ne (s s' : solution A) d rk cfl tf nout fuel a b : wf ne s -> wf ne s' -> similar s s' -> s_t s = s_t s' -> s_euler s = false -> wf_dg ne s d -> (forall h, l = Some h -> List.length (h_M2L h) = s_Ns s) -> (l <> None -> apply_bc s = Ok s /\ apply_bc s' = Ok s') ->
    snd (integrate gamma rk d l cfl tf nout fuel s) = Finished a -> snd (integrate gamma rk d l cfl tf nout fuel s') = Finished b ->
    s_t a = s_t b /\ s_n s <= s_n a /\ untouched ne (radius l rk * (s_n a - s_n s)) s s' a b.
  Proof.
    intros W W' S Ht Eu D Hl Hb. rewrite !integrate_run_rk. unfold run_rk. rewrite <- Ht. destruct (nout <? 0)%Z; [discriminate|].
    destruct (printer 0 n0 s); [|discriminate]. destruct (printer 0 n0 s'); [|destruct (slice_from _ _); discriminate]. destruct (slice_from _ _) as [|tout touts]; [discriminate|]. intros E E'.
    destruct (fresh_same ne s s' (fun _ => False) rk W W' S Hb (fun c f HP Hf => match HP with end)) as [H1 [H2 H3]].
    destruct (adv_loops ne s d rk cfl tf (fun _ => False) W D Hl Eu fuel 1 tout touts s s' _ _ _ _ a b 0 H3 H1 H2 Ht E E') as [dts [sc1 [sc1' [E1 [E2 E3]]]]].
    split; [exact E3|]. pose proof (steps_n rk d dts _ _ _ _ E1) as Hn. split; [lia|].
    replace (s_n a - s_n s) with (List.length dts) by lia. exact (steps_untouched ne s s' d rk dts a sc1 b sc1' W W' S D Hl Hb E1 E2).
  Qed.
End Statement.
(** cells within reach *)
Lemma reach_dist bl br ne : 1 <= ne -> is_literal bl "periodic" = false -> is_literal br "periodic" = false -> forall j c c', c <= ne -> In c' (reach bl br ne j c) -> c - j <= c' <= c + j.
Proof.
  intros Hne Hl Hr. assert (Sd : forall e, (is_literal br "zerograd" = true -> e <= ne) ->
    (e - 1 <= src_cell bl br ne (e - 1) <= e + 1 /\ (is_literal br "zerograd" = true -> src_cell bl br ne (e - 1) <= ne)) /\ (e - 1 <= src_cell bl br ne (e + 1) <= e + 1 /\ (is_literal br "zerograd" = true -> src_cell bl br ne (e + 1) <= ne))).
  { intros e He. unfold src_cell. rewrite Hl, Hr. destruct (is_literal bl "zerograd"), (is_literal br "zerograd"); try (specialize (He eq_refl)); destruct (Nat.eqb_spec (e - 1) 0), (Nat.eqb_spec (e - 1) (ne + 1)), (Nat.eqb_spec (e + 1) 0), (Nat.eqb_spec (e + 1) (ne + 1));
      split; split; intros; try discriminate; lia. }
  assert (G : forall j c c', (is_literal br "zerograd" = true -> c <= ne) -> In c' (reach bl br ne j c) -> c - j <= c' <= c + j).
  { induction j as [|j IH]; intros c c' Hc H; cbn [reach] in H.
    - destruct H as [<-|[]]. lia.
    - rewrite !in_app_iff in H. destruct (Sd c Hc) as [[S1 S2] [S3 S4]]. destruct H as [H|[H|H]]; apply IH in H; try assumption; lia. }
  intros j c c' Hc. apply G. intros _. exact Hc.
Qed.
Lemma reach_periodic bl br ne : is_literal bl "periodic" = true -> is_literal br "periodic" = true -> forall j c c', 1 <= c <= ne -> In c' (reach bl br ne j c) ->
  exists i, i <= 2 * j /\ c' = (c - 1 + i + j * (ne - 1)) mod ne + 1.
Proof.
  intros Hl Hr. induction j as [|j IH]; intros c c' Hc H; cbn [reach] in H.
  - destruct H as [<-|[]]. exists 0. split; [lia|]. rewrite Nat.mul_0_l, !Nat.add_0_r, Nat.mod_small by lia. lia.
  - assert (Up : forall e, 1 <= e <= ne -> 1 <= src_cell bl br ne (e - 1) <= ne /\ 1 <= src_cell bl br ne (e + 1) <= ne /\
      (exists m, src_cell bl br ne (e - 1) - 1 + m * ne = e - 1 + (ne - 1)) /\ (exists m, src_cell bl br ne (e + 1) - 1 + m * ne = e - 1 + 1)).
    { intros e He. unfold src_cell. rewrite Hl, Hr. destruct (Nat.eqb_spec (e - 1) 0), (Nat.eqb_spec (e - 1) (ne + 1)), (Nat.eqb_spec (e + 1) 0), (Nat.eqb_spec (e + 1) (ne + 1)); try lia;
      (split; [lia|]; split; [lia|]; split; [first [exists 0; lia|exists 1; lia]|first [exists 0; lia|exists 1; lia]]). }
    assert (Mv : forall x y m, x + m * ne = y -> y mod ne = x mod ne) by (intros x y m <-; apply Nat.mod_add; lia).
    destruct (Up c Hc) as [U1 [U2 [[m1 U3] [m2 U4]]]]. rewrite !in_app_iff in H. destruct H as [H|[H|H]].
    + destruct (IH c c' Hc H) as [i [Hi ->]]. exists (i + 1). split; [lia|]. f_equal. symmetry. apply (Mv _ _ 1). lia.
    + destruct (IH _ c' U1 H) as [i [Hi ->]]. exists i. split; [lia|]. f_equal. symmetry. apply (Mv _ _ m1). lia.
    + destruct (IH _ c' U2 H) as [i [Hi ->]]. exists (i + 2). split; [lia|]. f_equal. symmetry. apply (Mv _ _ (m2 + 1)). lia.
Qed.
