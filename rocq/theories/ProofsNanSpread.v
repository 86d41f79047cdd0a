(** A NaN in advected data spreads downstream by at least one cell per step. *)
From Coq Require Import ZArith List Bool Arith String Lia Floats.SpecFloat.
From Verif Require Import Num Py PyStr Lib LegNumpy Ext Basis Sensor Enhance Limiting AdvectionPhysics EulerPhysics
  Solution Solver RKCoeffs RK SpecTime SpecTrace ProofsTime SpecDG SpecLimit ProofsDG ProofsDG2 ProofsWf ProofsCons ProofsRel ProofsShift ProofsSol ProofsLim ProofsAHR ProofsTime2 ProofsStageLimit ProofsNan.
Import ListNotations.
Open Scope list_scope.
Open Scope nat_scope.

Lemma vdot_nan_c (r v : vec sf) n : n < List.length r -> n < List.length v -> at1 v n = nan -> vdot r v = nan.
Proof. intros. eapply vdot_nan; eassumption. Qed.
Definition big (c : sf) : bool := nltb (lit 1 1000000000000000) (nabs c).

Section Spread.
  Context {L : Libm sf}.
  Variables (gamma : sf) (ne : nat) (sol0 : solution sf) (d : dg) (l : limiter (A:=sf)).
  Hypothesis W0 : wf ne sol0.
  Hypothesis D0 : wf_dg ne sol0 d.
  Hypothesis Hl : forall h, l = Some h -> shape (s_Ns sol0) (s_Ns sol0) (h_L2M h) /\ shape (s_Ns sol0) (s_Ns sol0) (h_M2L h).
  Hypothesis Eu : s_euler sol0 = false.
  Notation NF := (s_NF sol0).
  Notation Ns := (s_Ns sol0).
  Lemma NF1 : NF = 1. Proof. unfold s_NF. rewrite Eu. reflexivity. Qed.
  Definition hit (s : solution sf) (c : nat) : Prop := exists n, n < Ns /\ at1 (modes s c 0) n = nan.
  Definition full (s : solution sf) (c : nat) : Prop := forall n, n < Ns -> at1 (modes s c 0) n = nan.
  Lemma full_hit s c : full s c -> hit s c.
  Proof. intro H. exists 0. assert (0 < Ns) by (unfold s_Ns, b_Ns; lia). split; [assumption|apply H; assumption]. Qed.

  Variable c : nat.
  Hypothesis Hc : 1 <= c <= ne.
  Definition up : nat := src_cell (s_bcl sol0) (s_bcr sol0) ne (c - 1).
  (** the cell or its upstream neighbour holds a NaN *)
  Definition near (s : solution sf) : Prop := hit s c \/ (1 <= up <= ne /\ hit s up).
  Lemma near_map s s' : (forall e n, 1 <= e <= ne -> n < Ns -> is_nan e 0 n s -> is_nan e 0 n s') -> near s -> near s'.
  Proof.
    intros H [[n [Hn E]]|[Hu [n [Hn E]]]]; [left|right; split; [exact Hu|]]; (exists n; split; [exact Hn|]; apply H; assumption).
  Qed.
  Lemma near_axpy s a K : Wf ne sol0 s -> WfK ne sol0 K -> near s -> near (smart_axpy s a K).
  Proof. intros Hs HK. apply near_map. intros e n He Hn. apply (nan_axpy ne sol0 e 0 n He); try assumption. rewrite NF1. lia. Qed.
  Lemma near_limit s s' : Wf ne sol0 s -> near s -> limit gamma l s = Ok s' -> near s'.
  Proof. intros Hs Hn E. revert Hn. apply near_map. intros e n He Hn H. apply (nan_limit gamma ne sol0 l Hl e 0 n He) with (s := s); try assumption. rewrite NF1. lia. Qed.
  Lemma near_copy s t : Wf ne sol0 s -> Wf ne sol0 t -> near t -> near (copy_data_only s t).
  Proof.
    intros Hs Ht. apply near_map. unfold is_nan. intros e n He Hn H. pose proof (Wf_copy ne sol0 s t Hs Ht) as HC.
    rewrite (modes_at' ne sol0) in * by (try assumption; try lia; rewrite NF1; lia). exact H.
  Qed.
  Lemma near_t s t : near s -> near (with_t s t).
  Proof. intro H. exact H. Qed.
  Lemma full_axpy s a K : Wf ne sol0 s -> WfK ne sol0 K -> full s c -> full (smart_axpy s a K) c.
  Proof. intros Hs HK H n Hn. apply (nan_axpy ne sol0 c 0 n Hc); try assumption; [rewrite NF1; lia|apply H; exact Hn]. Qed.
  (** an increment whose column of the cell is NaN makes the cell NaN *)
  Definition bad (K : mat sf) : Prop := forall n, n < Ns -> at2 K n (c * NF + 0) = nan.
  Lemma full_bad s a K : Wf ne sol0 s -> WfK ne sol0 K -> bad K -> big a = true -> full (smart_axpy s a K) c.
  Proof.
    intros Hs HK HB Ha n Hn. assert (HF : 0 < NF) by (rewrite NF1; lia). rewrite (modes_at' ne sol0) by (try assumption; try lia; apply Wf_axpy; assumption).
    cbn [s_u smart_axpy with_u]. unfold axpy_mat. unfold big in Ha. rewrite Ha.
    assert (J : c * NF + 0 < (ne + 2) * NF) by (apply cell_index; lia).
    rewrite (at2_madd _ _ (s_u s) (mscale a K) n _ (Wf_u' ne sol0 s Hs) (shape_mscale _ _ a K HK) Hn J), (at2_mscale _ _ a K n _ HK Hn J), (HB n Hn), mul_nan_r. apply add_nan_r'.
  Qed.
  Lemma bad_scale dt K : WfK ne sol0 K -> bad K -> bad (mscale dt K).
  Proof. intros HK HB n Hn. rewrite (at2_mscale _ _ dt K n _ HK Hn) by (apply cell_index; rewrite ?NF1; lia). rewrite (HB n Hn). apply mul_nan_r. Qed.
  Lemma near_residual s s1 F : Wf ne sol0 s -> near s -> residual gamma d s = Ok (s1, F) -> WfK ne sol0 F /\ bad F.
  Proof.
    intros Hs HN E. pose proof (Wf_res gamma ne sol0 d D0 n0 s s1 F I Hs E) as [H1 _].
    apply (residual_iff gamma ne s d s1 F (proj1 Hs) (Wf_dg ne sol0 d D0 _ Hs)) in E. destruct E as [E1 [q [Hq EF]]].
    pose proof (similar_NF _ _ (proj2 H1)) as SF. pose proof (similar_Ns _ _ (proj2 H1)) as SN. pose proof (similar_NF _ _ (proj2 Hs)) as SF0. pose proof NF1 as F1.
    assert (Ee : s_euler s1 = false /\ s_bcl s = s_bcl sol0 /\ s_bcr s = s_bcr sol0).
    { destruct Hs as [_ [t1 [m1 [sn1 [u1 [Z1 _]]]]]]. destruct H1 as [_ [t2 [m2 [sn2 [u2 [Z2 _]]]]]]. subst s. rewrite Z2. repeat split; try reflexivity. exact Eu. }
    destruct Ee as [Ee [Bl Br]]. rewrite <- E1 in *.
    assert (M : forall e, e < ne + 2 -> modes s1 e 0 = modes s (src_cell (s_bcl sol0) (s_bcr sol0) ne e) 0).
    { intros e He. rewrite E1, (modes_bc ne s) by (try apply Hs; try lia; rewrite SF0, F1; lia). rewrite Bl, Br. reflexivity. }
    assert (NG : 1 <= b_NG (s_basis s1)) by (apply (wf_NG _ _ (proj1 H1))).
    assert (Lm : forall e, e < ne + 2 -> List.length (modes s1 e 0) = s_Ns s1) by (intros e He; rewrite (length_modes' ne sol0) by assumption; congruence).
    assert (V : forall n, n < Ns -> hit s c -> volume_term gamma s1 (modes s1) n c 0 = nan).
    { intros n Hn [k [Hk Ek]]. unfold volume_term. apply (vdot_nan_c _ _ 0).
      - rewrite (shape_row (s_Ns s1) (b_NG (s_basis s1))) by (try apply (wf_dphi _ _ (proj1 H1)); congruence). lia.
      - rewrite length_tab. lia.
      - rewrite at1_tab by lia. unfold phys_flux. rewrite Ee. unfold node_state. rewrite SF, at1_tab by lia. apply (vdot_nan_c _ _ k).
        + rewrite (shape_row (b_NG (s_basis s1)) (s_Ns s1)) by (try apply (wf_phi _ _ (proj1 H1)); lia). congruence.
        + rewrite Lm by lia. congruence.
        + rewrite M by lia. rewrite src_cell_interior by exact Hc. exact Ek. }
    assert (Q : hit s up -> at1 (q (c - 1)) 0 = nan).
    { intros [k [Hk Ek]]. specialize (Hq (c - 1) ltac:(lia)). unfold iface_flux, num_flux in Hq. replace (s_riemann s1) with RUpwind in Hq by (symmetry; apply (wf_kind _ _ (proj1 H1)); exact Ee).
      apply Ok_inj in Hq. rewrite <- Hq. rewrite SF, at1_tab by lia. unfold face_minus. pose proof (wf_enh _ _ (proj1 H1)) as WE. destruct (s_enh s1) as [en|].
      - destruct WE as [WE _]. replace (vdot (e_alphaL en) (modes s1 (c - 1) 0)) with nan; [apply add_nan_l'|]. symmetry. apply (vdot_nan_c _ _ k); [rewrite WE; congruence|rewrite Lm by lia; congruence|].
        rewrite M by lia. exact Ek.
      - apply (vdot_nan_c _ _ k); [rewrite (shape_row 2 (s_Ns s1)) by (try apply (wf_psi _ _ (proj1 H1)); lia); congruence|rewrite Lm by lia; congruence|]. rewrite M by lia. exact Ek. }
    split; [rewrite EF; unfold WfK, residual_mat; rewrite SN, SF; apply shape_tab2|]. intros n Hn. rewrite EF. rewrite <- SF. rewrite residual_interior by (try apply H1; try lia; congruence). unfold residual_of.
    destruct HN as [HN|[_ HN]].
    - rewrite (V n Hn HN), sub_nan_l. apply mul_nan_l.
    - replace (face_term n (at1 (q (c - 1)) 0) (at1 (q c) 0)) with nan; [rewrite sub_nan_r; apply mul_nan_l|]. symmetry. unfold face_term. rewrite (Q HN). destruct (Nat.even n); [apply sub_nan_r|apply add_nan_l'].
  Qed.
  Notation Wsc := (Psc (Wf ne sol0) (WfK ne sol0)).
  Lemma near_fold us : forall bks, Wf ne sol0 us -> Forall (fun bk => WfK ne sol0 (snd bk)) bks -> near us ->
    Wf ne sol0 (fold_left (fun uk bk => smart_axpy uk (fst bk) (snd bk)) bks us) /\ near (fold_left (fun uk bk => smart_axpy uk (fst bk) (snd bk)) bks us).
  Proof.
    intro bks. revert us. induction bks as [|[b K] bks IH]; intros us Hu HK HN; cbn [fold_left]; [split; assumption|]. inversion HK; subst.
    apply IH; [apply Wf_axpy; assumption|assumption|apply near_axpy; assumption].
  Qed.
  Lemma stages_full betas dt : forall cas k sol sc sol' sc', Wf ne sol0 sol -> Wsc sc -> near (sc_us sc) -> full sol c \/ existsb (fun ca => big (fst ca)) cas = true ->
    classic_stages gamma d l betas dt k cas sol sc = Ok (sol', sc') -> full sol' c.
  Proof.
    induction cas as [|[a al] cas IH]; intros k sol sc sol' sc' Hs Hsc HN HB H.
    - injection H as <- <-. destruct HB as [HB|HB]; [exact HB|discriminate].
    - cbn [classic_stages] in H. destruct Hsc as [H1 [H2 H3]]. inv_bind H. inv_bind H. destruct x0 as [uk F].
      match type of Hx with (if _ then limit _ _ ?u else _) = _ => assert (Hu : Wf ne sol0 u /\ near u) end.
      { destruct (near_fold (copy_data_only (sc_uk sc) (sc_us sc)) (combine (firstn k (row betas k)) (sc_K sc))) as [G1 G2].
        - apply Wf_copy; assumption.
        - apply Forall_forall. intros [b K] Hin. apply in_combine_r in Hin. rewrite Forall_forall in H3. apply H3. exact Hin.
        - apply near_copy; assumption.
        - split; [apply Wf_t; exact G1|exact G2]. }
      assert (Hu' : Wf ne sol0 x /\ near x).
      { destruct Hu as [G1 G2]. destruct (0 <? k); [|apply Ok_inj in Hx; subst x; split; assumption]. split; [exact (Wf_lim gamma ne sol0 l _ _ G1 Hx)|exact (near_limit _ _ G1 G2 Hx)]. }
      destruct Hu' as [U1 U2]. destruct (Wf_res gamma ne sol0 d D0 dt _ _ _ I U1 Hx0) as [R1 R2].
      assert (R3 : bad (mscale dt F)).
      { destruct (near_residual _ _ _ U1 U2 Hx0) as [B1 B2]. apply bad_scale; assumption. }
      eapply IH; [| | | |exact H].
      + apply Wf_axpy; assumption.
      + split; [exact H1|]. split; [exact R1|]. apply Forall_lset; assumption.
      + exact HN.
      + cbn [existsb fst] in HB. destruct HB as [HB|HB]; [left; apply full_axpy; assumption|]. destruct (big a) eqn:Eb; [left; apply full_bad; assumption|right; exact HB].
  Qed.
  Lemma low_full dt : forall bgs k sol sc sol' sc', sc_K sc <> [] -> Wf ne sol0 sol -> Wsc sc -> near (sc_us sc) -> full sol c \/ existsb (fun bg => big (snd bg)) bgs = true ->
    low_storage_stages gamma d l dt k bgs sol sc = Ok (sol', sc') -> full sol' c.
  Proof.
    induction bgs as [|[b g] bgs IH]; intros k sol sc sol' sc' HK Hs Hsc HN HB H.
    - injection H as <- <-. destruct HB as [HB|HB]; [exact HB|discriminate].
    - cbn [low_storage_stages] in H. destruct Hsc as [H1 [H2 H3]]. inv_bind H. inv_bind H. destruct x0 as [uk F].
      match type of Hx with (if _ then limit _ _ ?u else _) = _ => assert (Hu : Wf ne sol0 u /\ near u) end.
      { assert (K1 : WfK ne sol0 (hd [] (sc_K sc))) by (destruct (sc_K sc) as [|K Ks]; [contradiction|inversion H3; assumption]).
        assert (C1 : Wf ne sol0 (copy_data_only (sc_uk sc) (sc_us sc))) by (apply Wf_copy; assumption).
        split; [apply Wf_t, Wf_axpy; assumption|apply near_t, near_axpy; [exact C1|exact K1|apply near_copy; assumption]]. }
      assert (Hu' : Wf ne sol0 x /\ near x).
      { destruct Hu as [G1 G2]. destruct (0 <? k); [|apply Ok_inj in Hx; subst x; split; assumption]. split; [exact (Wf_lim gamma ne sol0 l _ _ G1 Hx)|exact (near_limit _ _ G1 G2 Hx)]. }
      destruct Hu' as [U1 U2]. destruct (Wf_res gamma ne sol0 d D0 dt _ _ _ I U1 Hx0) as [R1 R2].
      assert (R3 : bad (mscale dt F)).
      { destruct (near_residual _ _ _ U1 U2 Hx0) as [B1 B2]. apply bad_scale; assumption. }
      eapply IH; [| | | | |exact H].
      + discriminate.
      + apply Wf_axpy; assumption.
      + split; [exact H1|]. split; [exact R1|]. constructor; [exact R2|constructor].
      + exact HN.
      + cbn [existsb snd] in HB. destruct HB as [HB|HB]; [left; apply full_axpy; assumption|]. destruct (big g) eqn:Eb; [left; apply full_bad; assumption|right; exact HB].
  Qed.
  Lemma step_full rk cfl tf tout s sc s' sc' r : Wf ne sol0 s -> Wsc sc -> sc_K sc <> [] -> near s ->
    time_step gamma (rk_inner gamma rk d l) l cfl tf tout s sc = Ok (s', sc', r) -> full s' c.
  Proof.
    intros Hs Hsc HK HN H. unfold time_step in H. inv_bind H. destruct x as [[dt o] dn]. inv_bind H. destruct x as [s1 sc1].
    inv_bind H. inv_bind H. apply Ok_inj in H. injection H as <- <- <-.
    assert (Hsc' : Wsc (set_us sc s)) by (destruct Hsc as [H1 [H2 H3]]; split; [apply Wf_copy; assumption|split; assumption]).
    assert (HN' : near (sc_us (set_us sc s))) by (destruct Hsc as [H1 _]; apply near_copy; assumption).
    assert (HK' : sc_K (set_us sc s) <> []) by exact HK.
    assert (F1 : full s1 c).
    { unfold rk_inner in Hx0. destruct (String.eqb rk "low_storage_rk4").
      - eapply low_full; [exact HK'|exact Hs|exact Hsc'|exact HN'| |exact Hx0]. right. vm_compute. reflexivity.
      - eapply stages_full; [exact Hs|exact Hsc'|exact HN'| |exact Hx0]. right. unfold rk_choice.
        repeat (match goal with |- context [String.eqb rk ?x] => destruct (String.eqb rk x) end); vm_compute; reflexivity. }
    assert (W1 : Wf ne sol0 s1).
    { apply (inner_inv gamma (Wf ne sol0) (Wf ne sol0) (WfK ne sol0) (fun _ => True) d l) with (rk := rk) (dt := dt) (sol := s) (sc := set_us sc s) (sc' := sc1); try assumption; auto.
      - intros z y X1 X2. apply Wf_copy; assumption.
      - intros z a K X1 X2. apply Wf_axpy; assumption.
      - intros z a K X1 X2. apply Wf_axpy; assumption.
      - intros z t X1. apply Wf_t; assumption.
      - intros z y X1 X2. exact (Wf_lim gamma ne sol0 l z y X1 X2).
      - intros t z y F _ X1 X2. exact (Wf_res gamma ne sol0 d D0 t z y F I X1 X2). }
    assert (HF : 0 < NF) by (rewrite NF1; lia).
    set (s2 := with_n (with_t s1 (nadd (s_t s1) dt)) (s_n s1 + 1)) in *. assert (W2 : Wf ne sol0 s2) by (apply Wf_n, Wf_t; exact W1).
    intros n Hn. pose proof (Wf_bc ne sol0 _ _ W2 Hx1) as W3. apply (nan_limit gamma ne sol0 l Hl c 0 n Hc HF Hn _ _ W3); [|exact Hx2].
    apply (nan_bc ne sol0 c 0 n Hc HF Hn s2 _ W2); [|exact Hx1]. exact (F1 n Hn).
  Qed.
End Spread.

(** steps from cell e to cell c along the flow *)
Definition distance (ne e c : nat) : nat := if e <=? c then c - e else c + ne - e.
Section Run.
  Context {L : Libm sf}.
  Variables (gamma : sf) (ne : nat) (sol0 : solution sf) (d : dg) (l : limiter (A:=sf)).
  Hypothesis W0 : wf ne sol0.
  Hypothesis D0 : wf_dg ne sol0 d.
  Hypothesis Hl : forall h, l = Some h -> shape (s_Ns sol0) (s_Ns sol0) (h_L2M h) /\ shape (s_Ns sol0) (s_Ns sol0) (h_M2L h).
  Hypothesis Eu : s_euler sol0 = false.
  Variable e : nat.
  Hypothesis He : 1 <= e <= ne.
  (** the cells reached after m steps *)
  Definition infected (m : nat) (s : solution sf) : Prop := hit sol0 s e /\
    forall c, 1 <= c <= ne -> e <= c \/ is_literal (s_bcl sol0) "periodic" = true -> distance ne e c <= m -> 1 <= m -> full sol0 s c.
  Notation Wsc := (Psc (Wf ne sol0) (WfK ne sol0)).
  Lemma infected_step m rk cfl tf tout s sc s' sc' r : Wf ne sol0 s -> Wsc sc -> sc_K sc <> [] -> infected m s ->
    time_step gamma (rk_inner gamma rk d l) l cfl tf tout s sc = Ok (s', sc', r) -> infected (S m) s'.
  Proof.
    intros Hs Hsc HK [H1 H2] H.
    assert (G : forall c, 1 <= c <= ne -> near ne sol0 c s -> full sol0 s' c) by (intros c Hc HN; exact (step_full gamma ne sol0 d l D0 Hl Eu c Hc _ _ _ _ _ _ _ _ _ Hs Hsc HK HN H)).
    split; [apply full_hit, G; [exact He|left; exact H1]|]. intros c Hc Hp Hd _. apply G; [exact Hc|].
    destruct (Nat.eq_dec c e) as [->|Nc]; [left; exact H1|].
    assert (B : forall c', 1 <= c' <= ne -> e <= c' \/ is_literal (s_bcl sol0) "periodic" = true -> distance ne e c' <= m -> hit sol0 s c').
    { intros c' Hc' Hp' Hd'. destruct (Nat.eq_dec c' e) as [->|Nc']; [exact H1|]. apply full_hit, H2; try assumption. revert Hd'. unfold distance. destruct (Nat.leb_spec e c'); lia. }
    right. unfold up. destruct (Nat.eq_dec c 1) as [->|N1].
    - destruct Hp as [Hp|Hp]; [lia|]. assert (E : src_cell (s_bcl sol0) (s_bcr sol0) ne (1 - 1) = ne) by (unfold src_cell; cbn [Nat.sub Nat.eqb]; rewrite Hp; reflexivity). rewrite E.
      split; [lia|]. apply B; [lia|left; lia|]. revert Hd. unfold distance. destruct (Nat.leb_spec e 1), (Nat.leb_spec e ne); lia.
    - rewrite src_cell_interior by lia. split; [lia|]. apply B; [lia| |].
      + destruct Hp as [Hp|Hp]; [left; lia|right; exact Hp].
      + revert Hd. unfold distance. destruct (Nat.leb_spec e c), (Nat.leb_spec e (c - 1)); lia.
  Qed.
  Definition marked (s : solution sf) : Prop := s_n sol0 <= s_n s /\ infected (s_n s - s_n sol0) s.
  Lemma marked_step rk cfl tf tout s sc s' sc' r : Wf ne sol0 s -> Wsc sc -> sc_K sc <> [] -> marked s ->
    time_step gamma (rk_inner gamma rk d l) l cfl tf tout s sc = Ok (s', sc', r) -> marked s'.
  Proof.
    intros Hs Hsc HK [H1 H2] H. pose proof H as H'. destruct r as [[dt o] dn]. apply time_step_clock in H'; [|intros; eapply frame_inner; eassumption]. destruct H' as [_ [_ [E _]]].
    split; [lia|]. replace (s_n s' - s_n sol0) with (S (s_n s - s_n sol0)) by lia. eapply infected_step; eassumption.
  Qed.
  Lemma marked_loop rk cfl tf : forall fuel k tout touts s sc evs evs' out, Wf ne sol0 s -> Wsc sc -> sc_K sc <> [] -> marked s -> Forall (fun x => marked (ev_sol x)) evs ->
    time_loop gamma (rk_inner gamma rk d l) l cfl tf fuel k tout touts s sc evs = (evs', out) ->
    Forall (fun x => marked (ev_sol x)) evs' /\ (forall s', out = Finished s' -> marked s').
  Proof.
    induction fuel as [|fuel IH]; intros k tout touts s sc evs evs' out Hs Hsc HK Hm Hp H.
    - cbn in H. injection H as <- <-. split; [exact Hp|discriminate].
    - cbn [time_loop] in H. destruct (time_step _ _ _ _ _ _ _ _) as [[[s1 sc1] [[dt o] dn]]|x] eqn:Est.
      2: { injection H as <- <-. split; [exact Hp|discriminate]. }
      destruct (later_step gamma ne sol0 d l D0 (fun _ => True) ltac:(auto) ltac:(auto) ltac:(auto) ltac:(auto) _ _ _ _ _ _ _ _ _ Hs Hsc HK Est) as [S1 [S2 [S3 _]]].
      pose proof (marked_step _ _ _ _ _ _ _ _ _ Hs Hsc HK Hm Est) as M1.
      destruct o.
      + destruct (printer k dt s1) as [ev|x] eqn:Ep.
        2: { injection H as <- <-. split; [exact Hp|discriminate]. }
        assert (Hp' : Forall (fun x => marked (ev_sol x)) (evs ++ [ev])) by (apply Forall_app; split; [exact Hp|constructor; [apply printer_Ok in Ep; subst ev; exact M1|constructor]]).
        destruct dn.
        * injection H as <- <-. split; [exact Hp'|]. intros s' E. injection E as <-. exact M1.
        * destruct touts as [|tout' touts']; [injection H as <- <-; split; [exact Hp'|discriminate]|].
          eapply IH; [exact S1|exact S2|exact S3|exact M1|exact Hp'|exact H].
      + destruct dn.
        * injection H as <- <-. split; [exact Hp|]. intros s' E. injection E as <-. exact M1.
        * eapply IH; [exact S1|exact S2|exact S3|exact M1|exact Hp|exact H].
  Qed.
  Lemma marked_run rk cfl tf nout fuel evs out : hit sol0 sol0 e -> integrate gamma rk d l cfl tf nout fuel sol0 = (evs, out) ->
    Forall (fun x => marked (ev_sol x)) evs /\ (forall s', out = Finished s' -> marked s').
  Proof.
    intros Hh H. rewrite integrate_run_rk in H. unfold run_rk in H.
    assert (M0 : marked sol0) by (split; [lia|]; rewrite Nat.sub_diag; split; [exact Hh|intros; lia]).
    destruct (nout <? 0)%Z; [injection H as <- <-; split; [constructor|discriminate]|].
    destruct (printer 0 n0 sol0) as [ev|x] eqn:Ep; [|injection H as <- <-; split; [constructor|discriminate]].
    assert (E0 : Forall (fun x => marked (ev_sol x)) [ev]) by (constructor; [apply printer_Ok in Ep; subst ev; exact M0|constructor]).
    destruct (slice_from _ _) as [|tout touts]; [injection H as <- <-; split; [exact E0|discriminate]|].
    pose proof (WfK_0 ne sol0 W0) as HK. pose proof (Wf_0 ne sol0 W0) as H0.
    eapply marked_loop; [exact H0| | |exact M0|exact E0|exact H].
    - split; [exact H0|]. split; [exact H0|]. cbn [sc_K]. unfold rk_K0.
      destruct (String.eqb rk "low_storage_rk4"); [constructor; [exact HK|constructor]|].
      apply Forall_forall. intros x Hx. apply in_map_iff in Hx. destruct Hx as [? [<- _]]. exact HK.
    - apply K0_nonempty.
  Qed.
End Run.
Lemma nan_spread {L : Libm sf} (gamma : sf) ne s d l : wf ne s -> wf_dg ne s d ->
  (forall h, l = Some h -> shape (s_Ns s) (s_Ns s) (h_L2M h) /\ shape (s_Ns s) (s_Ns s) (h_M2L h)) -> s_euler s = false ->
  forall e k, 1 <= e <= ne -> k < s_Ns s -> at1 (modes s e 0) k = nan ->
  forall rk cfl tf nout fuel evs out, integrate gamma rk d l cfl tf nout fuel s = (evs, out) ->
  forall s', (exists x, In x evs /\ s' = ev_sol x) \/ out = Finished s' ->
  forall c, 1 <= c <= ne -> e <= c \/ is_literal (s_bcl s) "periodic" = true ->
  1 <= s_n s' - s_n s -> (if e <=? c then c - e else c + ne - e) <= s_n s' - s_n s -> forall n, n < s_Ns s -> at1 (modes s' c 0) n = nan.
Proof.
  intros W D Hl Eu e k He Hk H rk cfl tf nout fuel evs out E s' Hs' c Hc Hp H1 Hd n Hn.
  destruct (marked_run gamma ne s d l W D Hl Eu e He rk cfl tf nout fuel evs out (ex_intro _ k (conj Hk H)) E) as [R1 R2].
  assert (M : marked ne s e s').
  { destruct Hs' as [[x [Hx ->]]|Hs']; [rewrite Forall_forall in R1; exact (R1 x Hx)|exact (R2 s' Hs')]. }
  destruct M as [_ [_ M]]. exact (M c Hc Hp Hd H1 n Hn).
Qed.
Lemma minmod_nan_l (b : sf) : scalar_minmod nan b = (if nltb n0 b then n0 else b).
Proof. unfold scalar_minmod, pysorted. cbn [fold_left insert_sorted forallb andb]. destruct b as [[]|[]| |[] m e]; reflexivity. Qed.
Lemma minmod_nan_r (a : sf) : scalar_minmod a nan = nan.
Proof. unfold scalar_minmod, pysorted. cbn [fold_left insert_sorted forallb andb]. destruct a as [[]|[]| |[] m e]; reflexivity. Qed.
(** averages 1 2 4 and no slopes, but for a NaN in cell k *)
Definition nan_at (k : nat) : solution sf := with_u (three 1 2 4) [row (s_u (three 1 2 4)) 0; map (fun e => if Nat.eqb (if e =? 0 then 3 else if e =? 4 then 1 else e) k then nan else n0) (seq 0 5)].
Lemma nan_at_wf k : wf 3 (nan_at k).
Proof. destruct (three_wf 1 2 4). constructor; try assumption. split; [reflexivity|]. intros r [<-|[<-|[]]]; reflexivity. Qed.
