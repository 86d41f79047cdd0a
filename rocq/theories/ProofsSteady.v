(** Steady states of the semi-discrete equations are steady states of every run without a limiter. *)
From Coq Require Import ZArith List Bool Arith String Lia Reals Lra.
From Verif Require Import Num Py PyStr Lib RealLib LegNumpy Ext Basis Constants Sensor Enhance Limiting AdvectionPhysics EulerPhysics
  IC Solution Solver RKCoeffs RK SpecTime SpecTrace ProofsTime ProofsTrace SpecDG SpecPoly SpecEuler SpecLimit SpecEnh SpecUniform ProofsPoly ProofsDG ProofsDG2 ProofsWf ProofsCons
  ProofsSol ProofsBasis ProofsAdv ProofsLimRun ProofsShift ProofsRun ProofsTime2 ProofsUniform.
Import ListNotations.
Open Scope list_scope.
Open Scope R_scope.

Section Steady.
  Variable gamma : R.
  Implicit Types s : solution R.
  Variables (ne : nat) (sol0 : solution R) (d : dg).
  Hypothesis W0 : wf ne sol0.
  Hypothesis D0 : wf_dg ne sol0 d.
  Hypothesis Bl : bc_known (s_bcl sol0).
  Hypothesis Br : bc_known (s_bcr sol0).
  (** the ghost cells are filled *)
  Hypothesis B0 : apply_bc sol0 = Ok sol0.
  (** states that agree with sol0 in the interior have a residual that vanishes there, and in the ghost averages *)
  Hypothesis HR : forall s, Wf ne sol0 s -> (forall e f, (1 <= e <= ne)%nat -> (f < s_NF sol0)%nat -> modes s e f = modes sol0 e f) ->
    exists s' F, residual gamma d s = Ok (s', F) /\
      (forall n e f, (n < s_Ns sol0)%nat -> (e < ne + 2)%nat -> (f < s_NF sol0)%nat -> (1 <= e <= ne)%nat \/ n = 0%nat -> at2 F n (e * s_NF sol0 + f) = 0).

  Definition held (n e : nat) : Prop := (1 <= e <= ne)%nat \/ n = 0%nat.
  Definition Fix s := Wf ne sol0 s /\ forall n e f, (n < s_Ns sol0)%nat -> (e < ne + 2)%nat -> (f < s_NF sol0)%nat -> held n e ->
    at2 (s_u s) n (e * s_NF sol0 + f) = at2 (s_u sol0) n (e * s_NF sol0 + f).
  Definition FixK (K : mat R) := WfK ne sol0 K /\ forall n e f, (n < s_Ns sol0)%nat -> (e < ne + 2)%nat -> (f < s_NF sol0)%nat -> held n e ->
    at2 K n (e * s_NF sol0 + f) = 0.
  Lemma Fix_at s e f n : Wf ne sol0 s -> (e < ne + 2)%nat -> (f < s_NF sol0)%nat -> (n < s_Ns sol0)%nat -> at1 (modes s e f) n = at2 (s_u s) n (e * s_NF sol0 + f).
  Proof.
    intros [W S] He Hf Hn. rewrite (modes_at ne s e f n W He); [rewrite (similar_NF _ _ S); reflexivity|rewrite (similar_NF _ _ S); exact Hf|rewrite (similar_Ns _ _ S); exact Hn].
  Qed.
  Lemma Fix_modes s e f : Fix s -> (1 <= e <= ne)%nat -> (f < s_NF sol0)%nat -> modes s e f = modes sol0 e f.
  Proof.
    intros [HW H] He Hf. pose proof HW as [W S]. apply (vec_ext (s_Ns sol0)).
    - rewrite (length_modes ne s e f W). apply similar_Ns. exact S.
    - apply (length_modes ne). exact W0.
    - intros n Hn. change (at1 (modes s e f) n = at1 (modes sol0 e f) n). rewrite (Fix_at s) by (assumption || lia). rewrite (Fix_at sol0) by (try apply Wf_0; assumption || lia).
      apply H; try assumption; [lia|left; exact He].
  Qed.
  Lemma src_filled e f : (e < ne + 2)%nat -> (f < s_NF sol0)%nat -> modes sol0 (src_cell (s_bcl sol0) (s_bcr sol0) ne e) f = modes sol0 e f.
  Proof.
    intros He Hf. rewrite (apply_bc_eq _ _ W0) in B0. apply Ok_inj in B0. rewrite <- (modes_bc ne sol0 e f W0 He Hf). rewrite B0. reflexivity.
  Qed.
  Lemma Fix_src s s' : Fix s -> Wf ne sol0 s' ->
    (forall e f, (e < ne + 2)%nat -> (f < s_NF sol0)%nat -> modes s' e f = modes s (src_cell (s_bcl s) (s_bcr s) ne e) f) -> Fix s'.
  Proof.
    intros H H' E. split; [exact H'|]. intros n e f Hn He Hf _. rewrite <- (Fix_at s') by assumption. rewrite <- (Fix_at sol0) by (try apply Wf_0; assumption).
    rewrite E by assumption. pose proof H as [[W S] _].
    assert (Eb : s_bcl s = s_bcl sol0 /\ s_bcr s = s_bcr sol0) by (destruct S as [t [n' [sn [u [-> _]]]]]; split; reflexivity). destruct Eb as [-> ->].
    rewrite Fix_modes by (try assumption; apply src_interior; try assumption; apply (wf_ne _ _ W0)). rewrite src_filled by assumption. reflexivity.
  Qed.
  Lemma Fix_bc s s' : Fix s -> apply_bc s = Ok s' -> Fix s'.
  Proof.
    intros H E. pose proof H as [[W S] _]. apply (Fix_src s); [exact H|eapply Wf_bc; [exact (conj W S)|exact E]|].
    intros e f He Hf. rewrite (apply_bc_eq _ _ W) in E. apply Ok_inj in E. subst s'. apply (modes_bc ne s); [exact W|exact He|rewrite (similar_NF _ _ S); exact Hf].
  Qed.
  Lemma Fix_lim s s' : Fix s -> limit gamma None s = Ok s' -> Fix s'.
  Proof. intros H E. apply Ok_inj in E. subst s'. exact H. Qed.
  Lemma Fix_u s s' : Fix s -> Wf ne sol0 s' -> s_u s' = s_u s -> Fix s'.
  Proof. intros [_ H] H' E. split; [exact H'|]. intros. rewrite E. apply H; assumption. Qed.
  Lemma Fix_copy s s' : Fix s -> Fix s' -> Fix (copy_data_only s s').
  Proof. intros [H _] H'. apply (Fix_u s'); [exact H'|apply Wf_copy; [exact H|apply H']|reflexivity]. Qed.
  Lemma Fix_t s t : Fix s -> Fix (with_t s t).
  Proof. intro H. apply (Fix_u s); [exact H|apply Wf_t; apply H|reflexivity]. Qed.
  Lemma Fix_clock s t n : Fix s -> Fix (with_n (with_t s t) n).
  Proof. intro H. apply (Fix_u s); [exact H|apply Wf_n, Wf_t; apply H|reflexivity]. Qed.
  Lemma FixK_mscale a K : FixK K -> FixK (mscale a K).
  Proof.
    intros [H1 H2]. split; [apply shape_mscale; exact H1|]. intros n e f Hn He Hf Hp.
    rewrite (at2_mscale (s_Ns sol0) ((ne + 2) * s_NF sol0) a K n _ H1 Hn) by (apply cell_index; assumption).
    rewrite H2 by assumption. apply Rmult_0_r.
  Qed.
  Lemma Fix_axpy s a K : Fix s -> FixK K -> Fix (smart_axpy s a K).
  Proof.
    intros [H1 H2] HK. split; [apply Wf_axpy; [exact H1|apply HK]|]. intros n e f Hn He Hf Hp. cbn [s_u smart_axpy with_u]. unfold axpy_mat.
    destruct (nltb _ _); [|apply H2; assumption]. destruct (FixK_mscale a K HK) as [K1 K2].
    transitivity (at2 (s_u s) n (e * s_NF sol0 + f) + at2 (mscale a K) n (e * s_NF sol0 + f)).
    - refine (at2_madd (s_Ns sol0) ((ne + 2) * s_NF sol0) (s_u s) (mscale a K) n _ _ K1 Hn _); [|apply cell_index; assumption].
      destruct H1 as [W S]. rewrite <- (similar_Ns _ _ S), <- (similar_NF _ _ S). apply (wf_u _ _ W).
    - rewrite H2, K2 by assumption. ring.
  Qed.
  Lemma Fix_res dt s : Fix s -> exists s' F, residual gamma d s = Ok (s', F) /\ Fix s' /\ FixK (mscale dt F).
  Proof.
    intro H. pose proof H as [HW _]. pose proof HW as [W S]. pose proof (Wf_dg ne sol0 d D0 s HW) as D.
    destruct (HR s HW (fun e f He Hf => Fix_modes s e f H He Hf)) as [s1 [F [E Z]]]. exists s1, F. split; [exact E|].
    destruct (wf_residual gamma _ _ _ _ _ W D E) as [_ R3]. rewrite (similar_NF _ _ S), (similar_Ns _ _ S) in R3.
    apply (residual_char gamma ne s d s1 F W D) in E. destruct E as [E _]. split; [eapply Fix_bc; eassumption|].
    apply FixK_mscale. split; [exact R3|exact Z].
  Qed.
  Lemma Fix_res' dt s s' F : True -> Fix s -> residual gamma d s = Ok (s', F) -> Fix s' /\ FixK (mscale dt F).
  Proof. intros _ H E. destruct (Fix_res dt s H) as [s1 [F1 [E1 K]]]. rewrite E in E1. apply Ok_inj in E1. injection E1 as <- <-. exact K. Qed.
  Lemma Fix_0 : Fix sol0.
  Proof. split; [apply Wf_0; exact W0|]. reflexivity. Qed.
  Lemma FixK_0 : FixK (zeros2 (nrows (s_u sol0)) (ncols (s_u sol0))).
  Proof.
    split; [apply WfK_0; exact W0|]. intros n e f Hn He Hf _. pose proof (wf_u _ _ W0) as U. rewrite (shape_ncols _ _ _ U (Ns_pos _)).
    unfold zeros2. apply at2_tab2; [|apply cell_index; assumption].
    unfold nrows. destruct U as [E _]. refine (eq_ind_r (fun k => (n < k)%nat) Hn E).
  Qed.
  Definition Fix_sc := Psc Fix FixK.
  Lemma Fix_visits rk cfl tf nout k tout touts s sc evs :
    visits gamma rk d None cfl tf nout sol0 k tout touts s sc evs -> Fix s /\ Fix_sc sc /\ sc_K sc <> [] /\ Forall (fun ev => Fix (ev_sol ev)) evs.
  Proof.
    apply (ProofsWf.visits_inv gamma Fix Fix FixK (fun _ => True) d None).
    - exact Fix_copy. - exact Fix_copy. - exact Fix_axpy. - exact Fix_axpy. - exact Fix_t. - exact Fix_lim. - exact Fix_res'.
    - exact Fix_clock. - exact Fix_bc. - exact Fix_lim. - auto. - exact Fix_0. - exact Fix_0. - exact FixK_0.
  Qed.
  Lemma Fix_evaluated rk cfl tf nout x : evaluated gamma rk d None cfl tf nout sol0 x -> Fix x.
  Proof.
    intros [k [tout [touts [s [sc [evs [dt [o [dn [V [_ Hx]]]]]]]]]]]. destruct (Fix_visits _ _ _ _ _ _ _ _ _ _ V) as [V1 [V2 [V3 _]]].
    assert (Q : Forall Fix (inner_inputs gamma rk d None dt (set_us sc s))); [|rewrite Forall_forall in Q; apply Q; exact Hx].
    apply (inner_inputs_in gamma Fix FixK d None Fix_copy Fix_axpy Fix_t Fix_lim (fun dt s s' F => Fix_res' dt s s' F I)); [exact V3|].
    destruct V2 as [U1 [U2 U3]]. split; [apply Fix_copy; assumption|]. split; assumption.
  Qed.
  Lemma Fix_time_step rk cfl tf tout s sc s' sc' r : Fix s -> Fix_sc sc -> sc_K sc <> [] ->
    time_step gamma (rk_inner gamma rk d None) None cfl tf tout s sc = Ok (s', sc', r) -> Fix s' /\ Fix_sc sc' /\ sc_K sc' <> [].
  Proof.
    apply (time_step_inv gamma Fix Fix FixK (fun _ => True) d None).
    - exact Fix_copy. - exact Fix_copy. - exact Fix_axpy. - exact Fix_axpy. - exact Fix_t. - exact Fix_lim. - exact Fix_res'.
    - exact Fix_clock. - exact Fix_bc. - exact Fix_lim. - auto.
  Qed.
  Lemma Fix_integrate rk cfl tf nout fuel evs out : integrate gamma rk d None cfl tf nout fuel sol0 = (evs, out) ->
    Forall (fun ev => Fix (ev_sol ev)) evs /\ (forall s', out = Finished s' -> Fix s').
  Proof.
    apply (integrate_inv gamma Fix Fix FixK (fun _ => True) d None).
    - exact Fix_copy. - exact Fix_copy. - exact Fix_axpy. - exact Fix_axpy. - exact Fix_t. - exact Fix_lim. - exact Fix_res'.
    - exact Fix_clock. - exact Fix_bc. - exact Fix_lim. - auto. - exact Fix_0. - exact Fix_0. - exact FixK_0.
  Qed.
  Lemma steady_run rk cfl tf nout fuel evs out : integrate gamma rk d None cfl tf nout fuel sol0 = (evs, out) ->
    forall s, (exists ev, In ev evs /\ s = ev_sol ev) \/ out = Finished s ->
    similar sol0 s /\ forall e f, (1 <= e <= ne)%nat -> (f < s_NF sol0)%nat -> modes s e f = modes sol0 e f.
  Proof.
    intros H s Hs. apply Fix_integrate in H. destruct H as [H1 H2]. rewrite Forall_forall in H1.
    assert (U : Fix s) by (destruct Hs as [[ev [Hi ->]]|Hs]; auto). split; [apply U|]. intros e f He Hf. apply Fix_modes; assumption.
  Qed.

  (** nothing in a step can fail except the check of its length *)
  Lemma Fix_classic betas dt : forall cas k sol sc, Fix_sc sc -> Fix sol -> exists r, classic_stages gamma d None betas dt k cas sol sc = Ok r.
  Proof.
    induction cas as [|[a b] cas IH]; intros k sol sc [H1 [H2 H3]] Hs; [cbn; eauto|]. cbn [classic_stages].
    set (uk1 := fold_left _ _ _).
    assert (U1 : Fix uk1).
    { unfold uk1. apply (fold_axpy_inv Fix FixK); [exact Fix_axpy|apply Fix_copy; assumption|].
      apply Forall_forall. intros [x K] Hb. apply in_combine_r in Hb. rewrite Forall_forall in H3. apply H3. exact Hb. }
    set (uk2 := with_t uk1 _). assert (U2 : Fix uk2) by (apply Fix_t; exact U1).
    assert (E3 : (if (0 <? k)%nat then limit gamma None uk2 else Ok uk2) = Ok uk2) by (destruct (0 <? k)%nat; reflexivity).
    rewrite E3. cbn [rbind]. destruct (Fix_res dt uk2 U2) as [s1 [F [ER [U4 K4]]]]. rewrite ER. cbn [rbind].
    apply IH; [|apply Fix_axpy; assumption]. split; [exact H1|]. split; [exact U4|]. cbn [sc_K]. apply Forall_lset; assumption.
  Qed.
  Lemma Fix_low_storage dt : forall bgs k sol sc, Fix_sc sc -> sc_K sc <> [] -> Fix sol -> exists r, low_storage_stages gamma d None dt k bgs sol sc = Ok r.
  Proof.
    induction bgs as [|[a b] bgs IH]; intros k sol sc [H1 [H2 H3]] HK Hs; [cbn; eauto|]. cbn [low_storage_stages].
    set (us1 := smart_axpy _ _ _).
    assert (U1 : Fix us1).
    { apply Fix_axpy; [apply Fix_copy; assumption|]. destruct (sc_K sc) as [|K0 Ks]; [contradiction|]. inversion H3; subst. assumption. }
    set (us2 := with_t us1 _). assert (U2 : Fix us2) by (apply Fix_t; exact U1).
    assert (E3 : (if (0 <? k)%nat then limit gamma None us2 else Ok us2) = Ok us2) by (destruct (0 <? k)%nat; reflexivity).
    rewrite E3. cbn [rbind]. destruct (Fix_res dt us2 U2) as [s1 [F [ER [U4 K4]]]]. rewrite ER. cbn [rbind].
    apply IH; [|discriminate|apply Fix_axpy; assumption]. split; [exact H1|]. split; [exact U4|]. cbn [sc_K]. constructor; [exact K4|constructor].
  Qed.
  Lemma Fix_step_total rk cfl tf tout s sc r : Fix s -> Fix_sc sc -> sc_K sc <> [] -> get_next_time_step gamma s tout cfl tf = Ok r ->
    exists s' sc', time_step gamma (rk_inner gamma rk d None) None cfl tf tout s sc = Ok (s', sc', r).
  Proof.
    intros Hs Hsc HK Hg. unfold time_step. rewrite Hg. cbn [rbind]. destruct r as [[dt o] dn].
    assert (Hsc' : Fix_sc (set_us sc s)).
    { destruct Hsc as [H1 [H2 H3]]. split; [apply Fix_copy; assumption|]. split; assumption. }
    assert (E1 : exists r, rk_inner gamma rk d None dt s (set_us sc s) = Ok r).
    { unfold rk_inner. destruct (String.eqb _ _); [apply Fix_low_storage|apply Fix_classic]; assumption. }
    destruct E1 as [[s1 sc1] E1]. rewrite E1. cbn [rbind].
    assert (U1 : Fix s1).
    { eapply (inner_inv gamma Fix Fix FixK (fun _ => True) d None) in E1; try eassumption; [apply E1|..].
      - exact Fix_copy. - exact Fix_axpy. - exact Fix_axpy. - exact Fix_t. - exact Fix_lim. - exact Fix_res'. - exact I. }
    set (s2 := with_n _ _). assert (U2 : Fix s2) by (apply Fix_clock; exact U1).
    destruct (apply_bc s2) as [s3|e] eqn:E3; [|rewrite (apply_bc_eq ne s2 (proj1 (proj1 U2))) in E3; discriminate].
    cbn [rbind]. cbn [limit rbind]. eauto.
  Qed.
  Lemma Fix_speed s : Fix s -> max_wave_speed gamma s = max_wave_speed gamma sol0.
  Proof.
    intros [HW H]. pose proof HW as [W S]. unfold max_wave_speed. rewrite (similar_euler _ _ S). destruct (s_euler sol0) eqn:Eu; [|reflexivity].
    pose proof (euler_speed_cells gamma ne s W) as K1. pose proof (euler_speed_cells gamma ne sol0 W0 Eu) as K2.
    unfold max_wave_speed in K1, K2. rewrite Eu in K2. rewrite (similar_euler _ _ S), Eu in K1. rewrite (K1 eq_refl), K2.
    assert (NF3 : s_NF sol0 = 3%nat) by (unfold s_NF; rewrite Eu; reflexivity).
    replace (tab (ne + 2) (fun e => wave_speed gamma (at1 (modes s e 0) 0, at1 (modes s e 1) 0, at1 (modes s e 2) 0)))
      with (tab (ne + 2) (fun e => wave_speed gamma (at1 (modes sol0 e 0) 0, at1 (modes sol0 e 1) 0, at1 (modes sol0 e 2) 0))); [reflexivity|].
    apply tab_ext. intros e He.
    assert (Q : forall f, (f < 3)%nat -> at1 (modes s e f) 0 = at1 (modes sol0 e f) 0).
    { intros f Hf. rewrite (Fix_at s), (Fix_at sol0) by (try apply Wf_0; try apply Ns_pos; try assumption; rewrite NF3; exact Hf).
      apply H; [apply Ns_pos|exact He|rewrite NF3; exact Hf|right; reflexivity]. }
    rewrite !Q by lia. reflexivity.
  Qed.
  Lemma steady_completes rk cfl tf nout w : (2 <= nout)%Z -> s_t sol0 <= tf -> max_wave_speed gamma sol0 = Ok w ->
    1 / 100000000000000 <= s_dx sol0 * cfl / (w * INR (2 * b_p (s_basis sol0) + 1)) ->
    exists F evs s, s_t s = tf /\ forall fuel, (F <= fuel)%nat -> integrate gamma rk d None cfl tf nout fuel sol0 = (evs, Finished s).
  Proof.
    intros Hn Ht Hv Hd. destruct (run_terminates gamma rk d None cfl tf nout sol0 Hn Ht) as [F [evs [out [_ [HF [[e ->]|[s [-> Es]]]]]]]].
    2:{ exists F, evs, s. split; [exact Es|exact HF]. }
    exfalso. destruct (integrate_ends gamma rk d None cfl tf nout sol0 Hn Ht) as [F' [r [_ [HF' Hr]]]].
    specialize (HF (Nat.max F F') (Nat.le_max_l _ _)). rewrite HF' in HF by apply Nat.le_max_r. subst r.
    destruct Hr as [[e' [Hp _]]|Hr]; [rewrite (printer_total ne) in Hp by exact W0; discriminate|].
    cbn [good_end] in Hr. destruct Hr as [k [tout [touts [s [sc [Hvis Hcs]]]]]]. destruct (Fix_visits _ _ _ _ _ _ _ _ _ _ Hvis) as [V1 [V2 [V3 _]]].
    assert (Hg : exists r, get_next_time_step gamma s tout cfl tf = Ok r).
    { unfold get_next_time_step, cfl_time_step. rewrite (Fix_speed s V1), Hv. cbn [rbind]. destruct V1 as [[_ [t [n [sn [u [-> _]]]]]] _].
      unfold sanity_check_dt, nnat. cbn [s_dx s_basis with_u with_sens with_n with_t]. numR. rewrite <- INR_IZR_INZ.
      match goal with |- context [Rltb ?a ?b] => Rcase a b end; [lra|]. cbn [rbind]. eauto. }
    destruct Hg as [r Hg]. destruct (Fix_step_total rk cfl tf tout s sc r V1 V2 V3 Hg) as [s' [sc' Es]].
    destruct Hcs as [Hcs|[s'' [sc'' [dt [b [Hcs Hp]]]]]]; [congruence|].
    destruct (Fix_time_step _ _ _ _ _ _ _ _ _ V1 V2 V3 Hcs) as [U'' _]. rewrite (printer_total ne) in Hp by apply U''. discriminate.
  Qed.
End Steady.
