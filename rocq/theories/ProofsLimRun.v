(** The limiter over a whole solution and a whole run (C13, C36, C39, C41, C43, C52). *)
From Coq Require Import ZArith List Bool Arith String Lia Reals Lra.
From Verif Require Import Num Py PyStr Lib RealLib LegNumpy Ext Basis Constants Sensor Enhance Limiting AdvectionPhysics EulerPhysics
  IC Solution Solver RKCoeffs RK SpecTime ProofsTime ProofsTime2 SpecDG SpecPoly ProofsDG ProofsDG2 ProofsWf ProofsCons ProofsSol ProofsRun
  ProofsPoly ProofsLeg ProofsGauss ProofsBasis SpecLimit ProofsLim ProofsAHR SpecEuler ProofsRiemann.
Import ListNotations.
Open Scope list_scope.
Open Scope nat_scope.

(** ** Runs whose limiter always raises *)
Section Doomed.
  Context {A : Type} {N : Num A} {L : Libm A}.
  Variable gamma : A.
  Implicit Types s : solution A.
  Variables (ne : nat) (sol0 : solution A) (d : dg) (l : limiter (A:=A)) (x : exn).
  Hypothesis W0 : wf ne sol0.
  Hypothesis D0 : wf_dg ne sol0 d.
  Hypothesis HX : forall s, Wf ne sol0 s -> limit gamma l s = Raise x.
  Notation Wf := (Wf ne sol0).
  Notation WfK := (WfK ne sol0).
  Notation Wf_sc := (Wf_sc ne sol0).

  Lemma doomed_step rk cfl tf tout s sc r : Wf s -> Wf_sc sc -> sc_K sc <> [] ->
    time_step gamma (rk_inner gamma rk d l) l cfl tf tout s sc = Ok r -> False.
  Proof.
    intros Hs Hsc HK H. unfold time_step in H. inv_bind H. destruct x0 as [[dt o] dn]. inv_bind H. destruct x0 as [s1 sc1].
    inv_bind H. inv_bind H. rewrite HX in Hx2; [discriminate|].
    assert (Hsc' : Wf_sc (set_us sc s)).
    { destruct Hsc as [H1 [H2 H3]]. split; [apply Wf_copy; assumption|]. split; assumption. }
    eapply Wf_bc; [|exact Hx1]. apply Wf_n, Wf_t.
    eapply (inner_inv gamma Wf Wf WfK (fun _ => True) d l) in Hx0; try eassumption.
    - apply Hx0. - exact (Wf_copy ne sol0). - exact (Wf_axpy ne sol0). - exact (Wf_axpy ne sol0). - exact (Wf_t ne sol0).
    - exact (Wf_lim gamma ne sol0 l). - exact (Wf_res gamma ne sol0 d D0). - exact I.
  Qed.
  Lemma start_sc rk : Wf_sc {| sc_us := sol0; sc_uk := sol0; sc_K := rk_K0 rk sol0 |} /\ rk_K0 rk sol0 <> [].
  Proof.
    split; [|apply K0_nonempty]. split; [apply Wf_0; exact W0|]. split; [apply Wf_0; exact W0|]. cbn [sc_K]. unfold rk_K0.
    destruct (String.eqb rk "low_storage_rk4"); [constructor; [apply WfK_0; exact W0|constructor]|].
    apply Forall_forall. intros y Hy. apply in_map_iff in Hy. destruct Hy as [? [<- _]]. apply WfK_0. exact W0.
  Qed.
  (** no time step completes: at most snapshot 0 is written and the run does not finish *)
  Lemma doomed_run rk cfl tf nout fuel evs out : integrate gamma rk d l cfl tf nout fuel sol0 = (evs, out) ->
    (evs = [] \/ evs = [{| ev_nout := 0; ev_dt := n0; ev_sol := sol0 |}]) /\ forall s, out <> Finished s.
  Proof.
    intro H. rewrite integrate_run_rk in H. unfold run_rk in H.
    destruct (nout <? 0)%Z; [injection H as <- <-; split; [auto|discriminate]|].
    rewrite (printer_total ne) in H by exact W0.
    destruct (slice_from _ _) as [|tout touts]; [injection H as <- <-; split; [auto|discriminate]|].
    destruct fuel as [|fuel]; [injection H as <- <-; split; [auto|discriminate]|].
    cbn [time_loop] in H. destruct (time_step _ _ _ _ _ _ _ _) as [r|e] eqn:Et; [|injection H as <- <-; split; [auto|discriminate]].
    exfalso. destruct (start_sc rk) as [S1 S2]. eapply doomed_step; [apply Wf_0; exact W0|exact S1|exact S2|exact Et].
  Qed.

  (** the first limited stage is the second one *)
  Hypothesis HR : s_riemann sol0 <> RGodunov.
  Lemma doomed_classic betas dt c0 a0 c1 a1 cas sol sc : Wf_sc sc -> sc_K sc <> [] ->
    classic_stages gamma d l betas dt 0 ((c0, a0) :: (c1, a1) :: cas) sol sc = Raise x.
  Proof.
    intros [H1 [H2 H3]] HK. cbn [classic_stages]. change (0 <? 0) with false. change (0 <? 1) with true. cbn iota. cbn [rbind].
    set (uk1 := fold_left _ _ (copy_data_only (sc_uk sc) (sc_us sc))).
    assert (U1 : Wf uk1).
    { unfold uk1. apply (fold_axpy_inv Wf WfK); [exact (Wf_axpy ne sol0)| apply Wf_copy; assumption |].
      apply Forall_forall. intros [b K] Hb. apply in_combine_r in Hb. rewrite Forall_forall in H3. apply H3. exact Hb. }
    set (uk2 := with_t uk1 _). assert (U2 : Wf uk2) by (apply Wf_t; exact U1).
    destruct (Wf_residual_total gamma ne sol0 d D0 HR uk2 U2) as [s1 [F ER]]. rewrite ER. cbn [rbind sc_uk sc_us sc_K].
    destruct (Wf_res gamma ne sol0 d D0 dt _ _ _ I U2 ER) as [U3 K3].
    rewrite HX; [reflexivity|]. apply Wf_t. apply (fold_axpy_inv Wf WfK); [exact (Wf_axpy ne sol0)| apply Wf_copy; assumption |].
    apply Forall_forall. intros [b K] Hb. apply in_combine_r in Hb.
    assert (HF : Forall WfK (lset (sc_K sc) 0 (mscale dt F))) by (apply Forall_lset; assumption).
    rewrite Forall_forall in HF. apply HF. exact Hb.
  Qed.
  Lemma doomed_low_storage dt c0 a0 c1 a1 cas sol sc : Wf_sc sc -> sc_K sc <> [] ->
    low_storage_stages gamma d l dt 0 ((c0, a0) :: (c1, a1) :: cas) sol sc = Raise x.
  Proof.
    intros [H1 [H2 H3]] HK. cbn [low_storage_stages]. change (0 <? 0) with false. change (0 <? 1) with true. cbn iota. cbn [rbind].
    set (us1 := smart_axpy (copy_data_only (sc_uk sc) (sc_us sc)) _ _).
    assert (U1 : Wf us1).
    { apply Wf_axpy; [apply Wf_copy; assumption|]. destruct (sc_K sc) as [|K0 Ks]; [contradiction|]. inversion H3; subst. assumption. }
    set (us2 := with_t us1 _). assert (U2 : Wf us2) by (apply Wf_t; exact U1).
    destruct (Wf_residual_total gamma ne sol0 d D0 HR us2 U2) as [s1 [F ER]]. rewrite ER. cbn [rbind sc_uk sc_us sc_K hd].
    destruct (Wf_res gamma ne sol0 d D0 dt _ _ _ I U2 ER) as [U3 K3].
    rewrite HX; [reflexivity|]. apply Wf_t. apply Wf_axpy; [apply Wf_copy; assumption|exact K3].
  Qed.
  Lemma doomed_inner rk dt sol sc : Wf_sc sc -> sc_K sc <> [] -> rk_inner gamma rk d l dt sol sc = Raise x.
  Proof.
    intros. unfold rk_inner. destruct (String.eqb rk "low_storage_rk4"); [apply doomed_low_storage; assumption|].
    unfold rk_choice. repeat (match goal with |- context [if ?c then _ else _] => destruct c; [apply doomed_classic; assumption|] end).
    apply doomed_classic; assumption.
  Qed.
  Lemma doomed_run_exn rk cfl tf nout fuel tout touts r : (0 <= nout)%Z -> (1 <= fuel) ->
    slice_from (linspace (s_t sol0) tf (Z.to_nat nout)) 1 = tout :: touts ->
    get_next_time_step gamma sol0 tout cfl tf = Ok r ->
    integrate gamma rk d l cfl tf nout fuel sol0 = ([{| ev_nout := 0; ev_dt := n0; ev_sol := sol0 |}], Failed x).
  Proof.
    intros Hn Hf Hl Hg. rewrite integrate_run_rk. unfold run_rk. destruct (Z.ltb_spec nout 0); [lia|].
    rewrite (printer_total ne) by exact W0. rewrite Hl. destruct fuel as [|fuel]; [lia|]. cbn [time_loop]. unfold time_step.
    rewrite Hg. cbn [rbind]. destruct r as [[dt o] dn]. destruct (start_sc rk) as [[S1 [S2 S3]] S4].
    rewrite doomed_inner; [reflexivity| |exact S4]. split; [apply Wf_copy; assumption|]. split; assumption.
  Qed.
End Doomed.

Section Config.
  Context {A : Type} {N : Num A} {L : Libm A}.
  Variable gamma : A.
  Implicit Types s : solution A.
  Lemma similar_thr s s' : similar s s' -> thresholds s' = thresholds s.
  Proof. intros [t [n [sn [u [-> H]]]]]. unfold thresholds. cbn. destruct (s_sens s), sn; try contradiction; cbn; congruence. Qed.
  Lemma similar_euler s s' : similar s s' -> s_euler s' = s_euler s. Proof. intros [t [n [sn [u [-> H]]]]]. reflexivity. Qed.

  (** adaptive_hr without thresholds *)
  Lemma no_thresholds_raise h s : thresholds s = None -> limit gamma (Some h) s = Raise AttributeError.
  Proof. unfold thresholds. intro H. cbn [limit]. unfold adaptive_hr. destruct (s_sens s); [discriminate|reflexivity]. Qed.
  (** sensing succeeds iff there are enough thresholds *)
  Lemma sensing_few ne s sn : wf ne s -> s_sens s = Some sn -> List.length (sn_thresholds sn) < needed s ->
    sensing gamma (s_euler s) sn (s_u s) (s_NF s) = Raise IndexError.
  Proof.
    intros W Es Hn. unfold needed in Hn. destruct (s_euler s) eqn:Eu.
    - rewrite (sensing_euler gamma ne) by assumption. destruct (sn_thresholds sn) as [|a [|b t]]; cbn in *; [reflexivity|reflexivity|lia].
    - rewrite (sensing_adv gamma ne) by assumption. destruct (sn_thresholds sn) as [|a t]; cbn in *; [reflexivity|lia].
  Qed.
  Lemma sensing_enough ne s sn : wf ne s -> s_sens s = Some sn -> needed s <= List.length (sn_thresholds sn) ->
    exists sn', sensing gamma (s_euler s) sn (s_u s) (s_NF s) = Ok sn'.
  Proof.
    intros W Es Hn. unfold needed in Hn. destruct (s_euler s) eqn:Eu.
    - rewrite (sensing_euler gamma ne) by assumption. destruct (sn_thresholds sn) as [|a [|b t]]; cbn in *; [lia|lia|eauto].
    - rewrite (sensing_adv gamma ne) by assumption. destruct (sn_thresholds sn) as [|a t]; cbn in *; [lia|eauto].
  Qed.
  Lemma few_thresholds_raise ne h s th : wf ne s -> thresholds s = Some th -> List.length th < needed s ->
    limit gamma (Some h) s = Raise IndexError.
  Proof.
    unfold thresholds. intros W H Hn. destruct (s_sens s) as [sn|] eqn:Es; [|discriminate]. cbn in H. injection H as <-.
    cbn [limit]. unfold adaptive_hr. rewrite Es, (sensing_few ne) by assumption. reflexivity.
  Qed.
  (** thresholds without limiter: the sensors are never computed *)
  Lemma sensors_unused rk d cfl tf nout fuel sol0 evs out : integrate gamma rk d None cfl tf nout fuel sol0 = (evs, out) ->
    (forall ev, In ev evs -> s_sens (ev_sol ev) = s_sens sol0) /\ (forall s, out = Finished s -> s_sens s = s_sens sol0).
  Proof.
    intro H. pose (P := fun s => s_sens s = s_sens sol0).
    assert (Pbc : forall s s', P s -> apply_bc s = Ok s' -> P s').
    { unfold P. intros s s' Hs H'. unfold apply_bc in H'. inv_bind H'. apply Ok_inj in H'. subst s'. exact Hs. }
    destruct (integrate_inv gamma P P (fun _ => True) (fun _ => True) d None) with (rk := rk) (cfl := cfl) (tf := tf) (nout := nout) (fuel := fuel) (sol0 := sol0) (evs := evs) (out := out) as [K1 K2]; unfold P; auto.
    - intros s s' Hs E. cbn in E. apply Ok_inj in E. subst. exact Hs.
    - intros dt s s' F _ Hs E. split; [|exact I]. unfold residual in E. inv_bind E. inv_bind E. inv_bind E. inv_bind E. inv_bind E.
      apply Ok_inj in E. injection E as <- _. eapply Pbc; [exact Hs|exact Hx].
    - intros s s' Hs E. cbn in E. apply Ok_inj in E. subst. exact Hs.
    - split; [|exact K2]. rewrite Forall_forall in K1. exact K1.
  Qed.
End Config.

Open Scope R_scope.
(** ** Real arithmetic *)
Section LimR.
  Context {X : Ext R}.
  Hypothesis G : gauss_ok.
  Hypothesis I : inv_ok.
  Variable gamma : R.
  Implicit Types s : solution R.

  Lemma maps_len p h : maps_ok p h -> List.length (h_M2L h) = (p + 1)%nat.
  Proof. intros [_ [_ [S _]]]. exact (proj1 S). Qed.
  Lemma hr_init_maps p h : hr_init (Basis p) = Ok h -> maps_ok p h.
  Proof. intro H. destruct (hr_init_ok G I p) as [h' [E M]]. congruence. Qed.
  Lemma Limiter_maps ne s h : made ne s -> Limiter "adaptive_hr" s = Ok (Some h) -> maps_ok (b_p (s_basis s)) h.
  Proof.
    intros M H. unfold Limiter in H. cbn [String.eqb] in H. change (String.eqb "adaptive_hr" "adaptive_hr") with true in H. cbn iota in H.
    rewrite (md_basis _ _ M) in H. inv_bind H. apply Ok_inj in H. injection H as <-. apply hr_init_maps. exact Hx.
  Qed.
  Lemma Limiter_ok ne s : made ne s -> exists h, Limiter "adaptive_hr" s = Ok (Some h) /\ maps_ok (b_p (s_basis s)) h.
  Proof.
    intro M. destruct (hr_init_ok G I (b_p (s_basis s))) as [h [E Mo]]. exists h. split; [|exact Mo].
    unfold Limiter. change (String.eqb "adaptive_hr" "adaptive_hr") with true. cbn iota. rewrite (md_basis _ _ M), E. reflexivity.
  Qed.
  Lemma similar_basis s s' : similar s s' -> s_basis s' = s_basis s. Proof. intros [t [n [sn [u [-> H]]]]]. reflexivity. Qed.
  Lemma Ns_p s : s_Ns s = (b_p (s_basis s) + 1)%nat. Proof. reflexivity. Qed.

  (** C36: limit leaves every interior mean unchanged *)
  Lemma limit_means ne s h s' e f : wf ne s -> maps_ok (b_p (s_basis s)) h -> limit gamma (Some h) s = Ok s' ->
    (1 <= e <= ne)%nat -> (f < s_NF s)%nat -> at1 (modes s' e f) 0 = at1 (modes s e f) 0.
  Proof.
    intros W M H He Hf. cbn [limit] in H.
    destruct (adaptive_hr_spec gamma ne h s s' W) as [sn [sn' [V [_ [_ [_ [_ [_ [_ [_ [HV Hm]]]]]]]]]]]; [rewrite Ns_p; apply maps_len; exact M|exact H|].
    rewrite Hm, src_cell_interior by (assumption || lia). destruct (HV e f ltac:(lia) Hf) as [V1 V2].
    destruct (limited ne (sn_sensors sn') e) eqn:El; [|rewrite V2; reflexivity].
    specialize (V1 eq_refl). apply (hr_mean (b_p (s_basis s))) in V1; try exact M; try (apply (length_modes ne); exact W).
    apply V1.
  Qed.
  Lemma limiter_keeps ne sol0 l : made ne sol0 -> Limiter "adaptive_hr" sol0 = Ok l -> keeps_means gamma l ne sol0.
  Proof.
    intros M H s s' W S E e f He Hf. destruct l as [h|]; [|apply (no_limiter_keeps gamma ne sol0 s s' W S E); assumption].
    apply (limit_means ne s h s' e f W); try assumption. rewrite (similar_basis _ _ S). apply (Limiter_maps ne); assumption.
  Qed.
  Lemma any_limiter_keeps ne sol0 t l : made ne sol0 -> Limiter t sol0 = Ok l -> keeps_means gamma l ne sol0.
  Proof.
    intros M H. destruct (String.eqb t "adaptive_hr") eqn:E.
    - apply String.eqb_eq in E. subst t. apply limiter_keeps; assumption.
    - unfold Limiter in H. rewrite E in H. apply Ok_inj in H. subst l. apply no_limiter_keeps.
  Qed.

  (** C41: with enough thresholds and order >= 1 the limiter returns normally *)
  Lemma limit_total ne s h th : wf ne s -> maps_ok (b_p (s_basis s)) h -> thresholds s = Some th -> (needed s <= List.length th)%nat ->
    (1 <= b_p (s_basis s))%nat -> exists s', limit gamma (Some h) s = Ok s'.
  Proof.
    unfold thresholds. intros W M H Hn Hp. destruct (s_sens s) as [sn|] eqn:Es; [|discriminate]. cbn in H. injection H as <-.
    destruct (sensing_enough gamma ne s sn W Es Hn) as [sn' E]. cbn [limit]. apply (adaptive_hr_total gamma ne h s sn sn' W Es E).
    intros e f He Hf _. apply (hr_total (b_p (s_basis s))); try exact M; try exact Hp. apply (length_modes ne). exact W.
  Qed.
  (** .. and at order 0 it returns normally exactly when nothing is flagged *)
  Lemma limit_order0 ne s h th : wf ne s -> maps_ok (b_p (s_basis s)) h -> thresholds s = Some th -> (needed s <= List.length th)%nat ->
    b_p (s_basis s) = 0%nat -> forall sn sn', s_sens s = Some sn -> sensing gamma (s_euler s) sn (s_u s) (s_NF s) = Ok sn' ->
    (exists e, (1 <= e <= ne)%nat /\ nth e (sn_sensors sn') 0%Z <> 0%Z) -> limit gamma (Some h) s = Raise UnboundLocalError.
  Proof.
    intros W M H Hn Hp sn sn' Es E [e [He Hs]]. cbn [limit]. unfold adaptive_hr. rewrite Es, E. cbn [rbind].
    pose proof (wf_u _ _ W) as Wu. pose proof (shape_ncols _ _ _ Wu (Ns_pos _)) as Nc.
    assert (H0 : forall uc ul ur, hr h uc ul ur = Raise UnboundLocalError).
    { intros uc ul ur. unfold hr. rewrite limit_monomial_0; [reflexivity|]. rewrite length_dotv. destruct M as [[S _] _].
      pose proof (proj1 S) as L'. eapply Nat.le_trans; [apply Nat.eq_le_incl; exact L'|]. rewrite Hp. lia. }
    assert (P : (0 < s_NF s)%nat) by (unfold s_NF; destruct (s_euler s); lia).
    assert (EM : mapM (limited_column h s (sn_sensors sn')) (seq 0 (ncols (s_u s))) = Raise UnboundLocalError).
    { assert (Hj : In (e * s_NF s + 0)%nat (seq 0 (ncols (s_u s)))) by (apply in_seq; rewrite Nc; pose proof (cell_index (s_NF s) ne e 0 P ltac:(lia)); lia).
      assert (Hall : forall j, In j (seq 0 (ncols (s_u s))) -> limited_column h s (sn_sensors sn') j = Raise UnboundLocalError \/ exists v, limited_column h s (sn_sensors sn') j = Ok v).
      { intros j Hj'. apply in_seq in Hj'. rewrite Nc in Hj'.
        assert (Ej : j = ((j / s_NF s) * s_NF s + j mod s_NF s)%nat) by (rewrite Nat.mul_comm; apply Nat.div_mod; lia).
        assert (Hee : (j / s_NF s < ne + 2)%nat) by (apply Nat.div_lt_upper_bound; nia).
        assert (Hff : (j mod s_NF s < s_NF s)%nat) by (apply Nat.mod_upper_bound; lia).
        rewrite Ej, (limited_col ne) by assumption. destruct (limited _ _ _); [left; apply H0|right; eauto]. }
      assert (Hr : limited_column h s (sn_sensors sn') (e * s_NF s + 0) = Raise UnboundLocalError).
      { rewrite (limited_col ne) by (assumption || lia). unfold limited.
        replace (1 <=? e)%nat with true by (symmetry; apply Nat.leb_le; lia). replace (e <=? ne)%nat with true by (symmetry; apply Nat.leb_le; lia).
        replace (nth e (sn_sensors sn') 0 =? 0)%Z with false by (symmetry; apply Z.eqb_neq; exact Hs). cbn [andb negb]. apply H0. }
      revert Hj Hall. generalize (seq 0 (ncols (s_u s))). induction l as [|j js IH]; intros Hj Hall; [destruct Hj|].
      cbn [mapM]. destruct (Hall j (or_introl eq_refl)) as [->|[v Ev]]; [reflexivity|]. rewrite Ev. cbn [rbind].
      destruct Hj as [->|Hj]; [congruence|]. rewrite IH; [reflexivity|exact Hj|intros; apply Hall; right; assumption]. }
    rewrite EM. reflexivity.
  Qed.

  (** C39 *)
  Lemma hr_p1 h uc ul ur v : maps_ok 1 h -> List.length uc = 2%nat -> List.length ul = 2%nat -> List.length ur = 2%nat ->
    hr h uc ul ur = Ok v ->
    v = [nth 0 uc 0; minmod ((nth 0 uc 0 - nth 0 ul 0) / 2) ((nth 0 ur 0 - nth 0 uc 0) / 2)].
  Proof.
    intros M Lc Ll Lr H. destruct (hr_taylor 1 h uc ul ur M Lc Ll Lr) as [ac [al [ar [Kc [Kl [Kr [Ec [El [Er HH]]]]]]]]].
    apply HH in H. destruct H as [w [Hw ->]]. apply limit_monomial_spec in Hw. destruct Hw as [L2 [Lw [H1 H0]]].
    assert (T : forall a u : list R, List.length a = 2%nat -> List.length u = 2%nat -> (forall x, taylor a x = legseries u x) -> a = u).
    { intros [|a0 [|a1 [|]]] [|u0 [|u1 [|]]] La Lu E; try discriminate La; try discriminate Lu.
      pose proof (E 0) as E0. pose proof (E 1) as E1. unfold taylor, legseries in E0, E1. cbn [List.length Rsum nth pow fact Nat.mul Nat.add INR] in E0, E1. rewrite LegP_0, LegP_1 in E0, E1.
      assert (a0 = u0) by lra. assert (a1 = u1) by lra. congruence. }
    apply T in Ec; [|exact Kc|exact Lc]. apply T in El; [|exact Kl|exact Ll]. apply T in Er; [|exact Kr|exact Lr]. subst ac al ar.
    destruct (m2l_ok 1 h w M) as [Lv Ev]; [rewrite Lw; exact Lc|].
    rewrite <- (T w (dotv (h_M2L h) w)); [|rewrite Lw; exact Lc|exact Lv|intro; symmetry; apply Ev].
    destruct w as [|w0 [|w1 [|]]]; try (rewrite Lc in Lw; discriminate Lw).
    specialize (H1 1%nat ltac:(rewrite Lc; lia)). unfold at1 in H1, H0. cbn [nth] in H1, H0.
    rewrite candidates_R in H1, H0 by (cbn [List.length]; try rewrite Lc; (lia || congruence || reflexivity)).
    cbn [fst snd] in H1, H0. cbv zeta in H1, H0. unfold dint in H1, H0. cbn [List.length] in H1, H0.
    rewrite Lc, Ll, Lr in H1. rewrite Lc in H0. cbn [Nat.sub Nat.add Rsum nth] in H1, H0.
    rewrite !mono_int_0, !mono_int_1 in H1. rewrite !mono_int_0, !mono_int_1 in H0.
    f_equal; [lra|]. f_equal. rewrite H1. f_equal; field.
  Qed.
  Lemma p1_bounds a l r x : -1 <= x <= 1 ->
    let v := [a; minmod ((a - l) / 2) ((r - a) / 2)] in
    Rmin l (Rmin a r) <= legseries v x <= Rmax l (Rmax a r) /\
    ((l <= a /\ r <= a) \/ (a <= l /\ a <= r) -> legseries v x = a).
  Proof.
    intros Hx v. assert (E : legseries v x = a + minmod ((a - l) / 2) ((r - a) / 2) * x).
    { unfold v, legseries. cbn [List.length Rsum nth]. rewrite LegP_0, LegP_1. ring. }
    rewrite E. set (m := minmod _ _).
    assert (Hm : (m = 0 /\ (a - l) / 2 * ((r - a) / 2) <= 0) \/ (0 < m /\ m <= (a - l) / 2 /\ m <= (r - a) / 2) \/ (m < 0 /\ (a - l) / 2 <= m /\ (r - a) / 2 <= m)).
    { unfold m, minmod. destruct (Rle_dec _ 0) as [Hp|Hp]; [left; auto|right].
      set (p := (a - l) / 2) in *. set (q := (r - a) / 2) in *.
      assert (Hs : (0 < p /\ 0 < q) \/ (p < 0 /\ q < 0)).
      { destruct (Rtotal_order p 0) as [|[->|]]; [right|exfalso; apply Hp; rewrite Rmult_0_l; lra|left].
        - split; [assumption|]. destruct (Rlt_or_le q 0); [assumption|]. exfalso. apply Hp. nra.
        - split; [assumption|]. destruct (Rlt_or_le 0 q); [assumption|]. exfalso. apply Hp. nra. }
      destruct Hs as [[P Q]|[P Q]].
      - left. rewrite !Rabs_right by lra. destruct (Rle_dec p q); lra.
      - right. rewrite !Rabs_left by lra. destruct (Rle_dec (-p) (-q)); lra. }
    clearbody m. split.
    - unfold Rmin, Rmax. destruct Hm as [[-> _]|[[H1 [H2 H3]]|[H1 [H2 H3]]]].
      + repeat destruct (Rle_dec _ _); lra.
      + repeat destruct (Rle_dec _ _); split; nra.
      + repeat destruct (Rle_dec _ _); split; nra.
    - intro Hc. assert (m = 0) as ->; [|ring]. destruct Hm as [[-> _]|[[H1 [H2 H3]]|[H1 [H2 H3]]]]; [reflexivity|exfalso; lra|exfalso; lra].
  Qed.

  (** C43 *)
  Lemma sensor_fn_R (x : R) : sensor_fn x = 2 * x / ((1 + x) * (1 + x)).
  Proof. unfold sensor_fn. numR. reflexivity. Qed.
  Lemma sensor_bounds x : 0 <= x -> 0 <= sensor_fn x <= 1 / 2 /\ (sensor_fn x = 0 <-> x = 0) /\ (sensor_fn x = 1 / 2 <-> x = 1).
  Proof.
    intro H. rewrite sensor_fn_R.
    assert (P : 0 < (1 + x) * (1 + x)) by nra.
    assert (E : 2 * x / ((1 + x) * (1 + x)) = 1 / 2 - ((1 - x) * (1 - x)) / (2 * ((1 + x) * (1 + x)))) by (field; lra).
    assert (Q : 0 <= ((1 - x) * (1 - x)) / (2 * ((1 + x) * (1 + x)))).
    { apply Rmult_le_pos; [exact (Rle_0_sqr (1 - x))|]. left. apply Rinv_0_lt_compat. lra. }
    split; [split|split; split].
    - apply Rmult_le_pos; [lra|]. left. apply Rinv_0_lt_compat. exact P.
    - rewrite E. set (q := (1 - x) * (1 - x) / _) in *. lra.
    - intro H0. apply Rmult_integral in H0. destruct H0 as [H0|H0]; [lra|]. pose proof (Rinv_0_lt_compat _ P). lra.
    - intros ->. field.
    - intro H1. rewrite E in H1. assert (H2 : (1 - x) * (1 - x) / (2 * ((1 + x) * (1 + x))) = 0) by (set (q := (1 - x) * (1 - x) / _) in *; lra).
      apply Rmult_integral in H2. destruct H2 as [H2|H2]; [apply Rmult_integral in H2; lra|]. assert (0 < / (2 * ((1 + x) * (1 + x)))) by (apply Rinv_0_lt_compat; lra). lra.
    - intros ->. field.
  Qed.
  Lemma jump_value s e : 0 <= adv_sensor_value (cell_mean s e 0) (cell_mean s (e + 1) 0) <= 1 / 2.
  Proof. unfold adv_sensor_value. apply sensor_bounds. numR. apply Rabs_pos. Qed.
  Lemma jump_value_0 (a b : R) : adv_sensor_value a b = 0 <-> a = b.
  Proof.
    unfold adv_sensor_value. numR. rewrite (proj1 (proj2 (sensor_bounds (Rabs (b - a)) (Rabs_pos _)))).
    split; [intro H; destruct (Req_dec (b - a) 0); [lra|apply Rabs_no_R0 in H0; contradiction]|intros ->; rewrite Rminus_diag_eq by reflexivity; apply Rabs_R0].
  Qed.
  Hypothesis Hg : 1 < gamma.
  Lemma pres_admissible rho v p : 0 < rho -> pres gamma (cons gamma rho v p) = p.
  Proof. intros H1. unfold pres, cons, nhalf, lit, vel. numR. apply (pres_of gamma); assumption. Qed.
  Lemma contact_bounds sl sr : admissible gamma sl -> admissible gamma sr -> 0 <= contact_value gamma sl sr <= 1 / 2.
  Proof.
    intros [rl [vl [pl [Hrl [_ ->]]]]] [rr [vr [pr [Hrr [_ ->]]]]]. unfold contact_value, cons. apply sensor_bounds. numR.
    apply Rmult_le_pos; [apply Rabs_pos|]. left. apply Rinv_0_lt_compat. lra.
  Qed.
  Lemma shock_bounds sl sr : admissible gamma sl -> admissible gamma sr ->
    0 <= shock_value gamma sl sr <= 1 / 2 /\ (shock_value gamma sl sr = 0 <-> pres gamma sl = pres gamma sr).
  Proof.
    intros [rl [vl [pl [Hrl [Hpl ->]]]]] [rr [vr [pr [Hrr [Hpr ->]]]]]. unfold shock_value. rewrite !pres_admissible by assumption. numR.
    assert (Hi : 0 < / (pl + pr)) by (apply Rinv_0_lt_compat; lra).
    assert (P : 0 <= Rabs (pr - pl) / (pl + pr)) by (apply Rmult_le_pos; [apply Rabs_pos|lra]).
    split; [apply sensor_bounds; exact P|]. rewrite (proj1 (proj2 (sensor_bounds _ P))). split.
    - intro H. apply Rmult_integral in H. destruct H as [H|H]; [|lra]. destruct (Req_dec (pr - pl) 0) as [|H0]; [lra|apply Rabs_no_R0 in H0; contradiction].
    - intros ->. rewrite Rminus_diag_eq by reflexivity. rewrite Rabs_R0. unfold Rdiv. ring.
  Qed.
  Lemma contact_same c : contact_value gamma c c = 0.
  Proof.
    destruct c as [[rho m] E]. unfold contact_value. rewrite sensor_fn_R. numR.
    replace (pres gamma (rho, m, E) - pres gamma (rho, m, E)) with 0 by ring. replace (rho - rho) with 0 by ring.
    unfold Rdiv. rewrite !Rmult_0_l, Rminus_0_r, Rabs_R0. ring.
  Qed.
  Lemma shock_same c : shock_value gamma c c = 0.
  Proof.
    unfold shock_value. rewrite sensor_fn_R. numR. replace (pres gamma c - pres gamma c) with 0 by ring.
    unfold Rdiv. rewrite Rabs_R0. ring.
  Qed.
  (** sensing that flags nothing *)
  Lemma near_false ne (P : nat -> bool) e : (forall i, (i <= ne)%nat -> P i = false) -> (e < ne + 2)%nat -> near ne P e = false.
  Proof.
    intros H He. unfold near. destruct (Nat.leb_spec 1 e); cbn [andb orb].
    - rewrite H by lia. cbn [orb]. destruct (Nat.leb_spec e ne); [rewrite H by lia|]; reflexivity.
    - destruct (Nat.leb_spec e ne); [rewrite H by lia|]; reflexivity.
  Qed.
  Lemma sensing_quiet ne s bound : wf ne s -> quiet s bound ->
    (s_euler s = false -> forall t e, bound t -> (e <= ne)%nat -> jump_at s t e = false) ->
    (s_euler s = true -> forall t e, bound t -> (e <= ne)%nat -> contact_at gamma s t e = false /\ shock_at gamma s t e = false) ->
    exists sn sn', s_sens s = Some sn /\ sensing gamma (s_euler s) sn (s_u s) (s_NF s) = Ok sn' /\ sn_sensors sn' = tab (ne + 2) (fun _ => 0%Z).
  Proof.
    intros W [sn [Es [Hn Hb]]] Ha He. exists sn. unfold needed in Hn. destruct (s_euler s) eqn:Eu.
    - rewrite (sensing_euler gamma ne) by assumption. destruct (sn_thresholds sn) as [|t0 [|t1 t]]; cbn [List.length] in Hn; try lia.
      inversion Hb as [|? ? B0 Hb1]; subst. inversion Hb1 as [|? ? B1 _]; subst. cbn [nth_error]. eexists. split; [exact Es|]. split; [reflexivity|].
      cbn [sn_sensors]. apply tab_ext. intros e H. rewrite !near_false; [reflexivity| |exact H| |exact H]; intros i Hi; [apply (He eq_refl t0 i B0 Hi)|apply (He eq_refl t1 i B1 Hi)].
    - rewrite (sensing_adv gamma ne) by assumption. destruct (sn_thresholds sn) as [|t0 t]; cbn [List.length] in Hn; try lia.
      inversion Hb as [|? ? B0 Hb1]; subst. cbn [nth_error]. eexists. split; [exact Es|]. split; [reflexivity|].
      cbn [sn_sensors]. apply tab_ext. intros e H. rewrite near_false; [reflexivity| |exact H]. intros i Hi. apply (Ha eq_refl t0 i B0 Hi).
  Qed.
  Lemma sensing_half ne s : wf ne s -> quiet s (fun t => 1 / 2 <= t) ->
    (s_euler s = true -> forall e, (e < ne + 2)%nat -> admissible gamma (state3 s e)) ->
    exists sn sn', s_sens s = Some sn /\ sensing gamma (s_euler s) sn (s_u s) (s_NF s) = Ok sn' /\ sn_sensors sn' = tab (ne + 2) (fun _ => 0%Z).
  Proof.
    intros W Q Ha. apply (sensing_quiet ne s _ W Q).
    - intros _ t e Ht _. unfold jump_at. apply Rltb_false. pose proof (jump_value s e). lra.
    - intros Eu t e Ht He. pose proof (Ha Eu e ltac:(lia)) as A1. pose proof (Ha Eu (e + 1)%nat ltac:(lia)) as A2. split.
      + unfold contact_at. apply Rltb_false. pose proof (contact_bounds _ _ A1 A2). lra.
      + unfold shock_at. replace (nltb t (shock_value gamma (state3 s e) (state3 s (e + 1)))) with false; [reflexivity|].
        symmetry. apply Rltb_false. pose proof (proj1 (shock_bounds _ _ A1 A2)). lra.
  Qed.
  Lemma sensing_uniform ne s : wf ne s -> quiet s (fun t => 0 <= t) ->
    (forall e f, (e < ne + 2)%nat -> (f < s_NF s)%nat -> cell_mean s e f = cell_mean s 0 f) ->
    exists sn sn', s_sens s = Some sn /\ sensing gamma (s_euler s) sn (s_u s) (s_NF s) = Ok sn' /\ sn_sensors sn' = tab (ne + 2) (fun _ => 0%Z).
  Proof.
    intros W Q Hu. apply (sensing_quiet ne s _ W Q).
    - intros Eu t e Ht He. unfold jump_at. apply Rltb_false. assert (NF1 : s_NF s = 1%nat) by (unfold s_NF; rewrite Eu; reflexivity).
      rewrite (Hu e 0%nat), (Hu (e + 1)%nat 0%nat) by lia. rewrite (proj2 (jump_value_0 _ _) eq_refl). lra.
    - intros Eu t e Ht He. assert (NF3 : s_NF s = 3%nat) by (unfold s_NF; rewrite Eu; reflexivity).
      assert (E : state3 s (e + 1) = state3 s e) by (unfold state3; rewrite !(Hu e), !(Hu (e + 1)%nat) by lia; reflexivity).
      unfold contact_at, shock_at. rewrite E, contact_same, shock_same. replace (nltb t (IZR 0)) with false; [split; reflexivity|].
      symmetry. apply Rltb_false. lra.
  Qed.
  (** a limiter call that flags nothing only refreshes the ghost cells *)
  Lemma limit_unflagged ne s h sn sn' : wf ne s -> maps_ok (b_p (s_basis s)) h -> s_sens s = Some sn ->
    sensing gamma (s_euler s) sn (s_u s) (s_NF s) = Ok sn' -> sn_sensors sn' = tab (ne + 2) (fun _ => 0%Z) ->
    exists s', limit gamma (Some h) s = Ok s' /\ similar s s' /\ s_t s' = s_t s /\ s_n s' = s_n s /\
      forall e f, (e < ne + 2)%nat -> (f < s_NF s)%nat -> modes s' e f = modes s (src_cell (s_bcl s) (s_bcr s) ne e) f.
  Proof.
    intros W M Es E Ez.
    assert (NL : forall e, limited ne (sn_sensors sn') e = false).
    { intro e. unfold limited. rewrite Ez. replace (nth e (tab (ne + 2) (fun _ => 0%Z)) 0%Z) with 0%Z; [cbn; apply andb_false_r|].
      destruct (Nat.ltb_spec e (ne + 2)); [rewrite nth_tab by assumption; reflexivity|rewrite nth_overflow; [reflexivity|rewrite length_tab; assumption]]. }
    destruct (adaptive_hr_total gamma ne h s sn sn' W Es E) as [s' H].
    { intros e f _ _ HL. rewrite NL in HL. discriminate. }
    exists s'. split; [exact H|].
    destruct (adaptive_hr_spec gamma ne h s s' W) as [sn1 [sn1' [V [E1 [E2 [_ [S [T [Nn [_ [HV Hm]]]]]]]]]]]; [rewrite Ns_p; apply maps_len; exact M|exact H|].
    rewrite Es in E1. injection E1 as <-. rewrite E in E2. apply Ok_inj in E2. subst sn1'.
    split; [exact S|]. split; [exact T|]. split; [exact Nn|]. intros e f He Hf. rewrite Hm by assumption.
    apply HV; [|exact Hf|apply NL]. apply src_cell_lt; [apply (wf_ne _ _ W)|exact He].
  Qed.
  Lemma average_mode (c : list R) v : average c v <-> v = nth 0 c 0.
  Proof.
    unfold average. rewrite (poly_integral (List.length c) (legseries c)) by (lra || apply legseries_poly'; lia).
    pose proof (nint_series c) as K. split; [intro H; pose proof (nint_unique _ _ _ _ _ H K); lra|intros ->; exact K].
  Qed.
  (** C38 over a solution *)
  Lemma limit_identity ne s h s' e f : wf ne s -> maps_ok (b_p (s_basis s)) h -> (1 <= b_p (s_basis s))%nat -> limit gamma (Some h) s = Ok s' ->
    (1 <= e <= ne)%nat -> (f < s_NF s)%nat -> one_polynomial (modes s (e - 1) f) (modes s e f) (modes s (e + 1) f) ->
    modes s' e f = modes s e f.
  Proof.
    intros W M Hp H He Hf O. cbn [limit] in H.
    destruct (adaptive_hr_spec gamma ne h s s' W) as [sn [sn' [V [_ [_ [_ [_ [_ [_ [_ [HV Hm]]]]]]]]]]]; [rewrite Ns_p; apply maps_len; exact M|exact H|].
    rewrite Hm, src_cell_interior by (assumption || lia). destruct (HV e f ltac:(lia) Hf) as [V1 V2].
    destruct (limited ne (sn_sensors sn') e) eqn:El; [|apply V2; reflexivity].
    specialize (V1 eq_refl). rewrite (hr_identity (b_p (s_basis s))) in V1; try exact M; try exact Hp; try (apply (length_modes ne); exact W); try exact O.
    apply Ok_inj in V1. congruence.
  Qed.
  (** C39 over a solution: order 1 *)
  Lemma limit_p1 ne s h s' e f : wf ne s -> maps_ok 1 h -> b_p (s_basis s) = 1%nat -> limit gamma (Some h) s = Ok s' ->
    (1 <= e <= ne)%nat -> (f < s_NF s)%nat ->
    modes s' e f = modes s e f \/
    let l := cell_mean s (e - 1) f in let a := cell_mean s e f in let r := cell_mean s (e + 1) f in
    modes s' e f = [a; minmod ((a - l) / 2) ((r - a) / 2)].
  Proof.
    intros W M Hp H He Hf. cbn [limit] in H.
    destruct (adaptive_hr_spec gamma ne h s s' W) as [sn [sn' [V [_ [_ [_ [_ [_ [_ [_ [HV Hm]]]]]]]]]]]; [rewrite Ns_p, Hp; apply maps_len; exact M|exact H|].
    rewrite Hm, src_cell_interior by (assumption || lia). destruct (HV e f ltac:(lia) Hf) as [V1 V2].
    destruct (limited ne (sn_sensors sn') e) eqn:El; [|left; apply V2; reflexivity]. right.
    assert (Ns2 : s_Ns s = 2%nat) by (rewrite Ns_p, Hp; reflexivity).
    apply (hr_p1 h _ _ _ _ M); try (rewrite <- Ns2; apply (length_modes ne); exact W). apply V1. reflexivity.
  Qed.
  Lemma limited_run_total ne sol0 l th : made ne sol0 -> Limiter "adaptive_hr" sol0 = Ok l -> thresholds sol0 = Some th ->
    (needed sol0 <= List.length th)%nat -> (1 <= b_p (s_basis sol0))%nat -> forall s, Wf ne sol0 s -> exists s', limit gamma l s = Ok s'.
  Proof.
    intros M H Ht Hn Hp s [W S]. destruct l as [h|]; [|exists s; reflexivity].
    apply (limit_total ne s h th W).
    - rewrite (similar_basis _ _ S). apply (Limiter_maps ne); assumption.
    - rewrite (similar_thr _ _ S). exact Ht.
    - unfold needed. rewrite (similar_euler _ _ S). exact Hn.
    - rewrite (similar_basis _ _ S). exact Hp.
  Qed.
End LimR.
