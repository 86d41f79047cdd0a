(** Runs that cannot fail: without limiter, only Godunov's pressure iteration and the check of the
    time step can stop a run; advection runs complete. *)
From Coq Require Import ZArith List Bool Arith String Lia Reals Lra.
From Verif Require Import Num Py PyStr Lib RealLib LegNumpy Ext Basis Constants Sensor Enhance Limiting AdvectionPhysics EulerPhysics
  IC Solution Solver RKCoeffs RK SpecTime ProofsTime ProofsTime2 SpecDG SpecPoly ProofsDG ProofsDG2 ProofsWf ProofsCons ProofsSol.
Import ListNotations.
Open Scope list_scope.
Open Scope nat_scope.

Section Total.
  Context {A : Type} {N : Num A} {L : Libm A}.
  Variable gamma : A.
  Implicit Types s : solution A.

  Lemma num_flux_total s cl cr : s_riemann s <> RGodunov -> exists q, num_flux gamma s cl cr = Ok q.
  Proof.
    unfold num_flux. destruct (s_riemann s); intro H; [eauto| |contradiction|].
    - destruct (rusanov1 _ _ _) as [[a b] e]. eauto.
    - destruct (roe1 _ _ _) as [[a b] e]. eauto.
  Qed.
  Lemma finite_res n (f : nat -> res (list A)) : (forall e, e <= n -> exists q, f e = Ok q) ->
    exists q, forall e, e <= n -> f e = Ok (q e).
  Proof.
    intro H. exists (fun e => match f e with Ok q => q | Raise _ => [] end). intros e He.
    destruct (H e He) as [q ->]. reflexivity.
  Qed.
  Lemma residual_total ne s d : wf ne s -> wf_dg ne s d -> s_riemann s <> RGodunov -> exists s1 F, residual gamma d s = Ok (s1, F).
  Proof.
    intros W D HR. pose (s' := with_u s (bc_u ne s)).
    destruct (finite_res ne (iface_flux gamma s' (modes s'))) as [q Hq].
    { intros e _. unfold iface_flux. apply num_flux_total. exact HR. }
    exists s', (residual_mat gamma ne s' q). apply (residual_iff gamma ne s d _ _ W D). split; [reflexivity|]. exists q. split; [exact Hq|reflexivity].
  Qed.

  Section Run.
    Variables (ne : nat) (sol0 : solution A) (d : dg) (l : limiter (A:=A)).
    Hypothesis W0 : wf ne sol0.
    Hypothesis D0 : wf_dg ne sol0 d.
    Hypothesis HR : s_riemann sol0 <> RGodunov.
    Notation Wf := (Wf ne sol0).
    Hypothesis HLt : forall s, Wf s -> exists s', limit gamma l s = Ok s'.
    Notation WfK := (WfK ne sol0).
    Notation Wf_sc := (Wf_sc ne sol0).

    Lemma Wf_residual_total s : Wf s -> exists s1 F, residual gamma d s = Ok (s1, F).
    Proof.
      intros [W S]. apply (residual_total ne); [exact W|apply (Wf_dg ne sol0 d D0 s (conj W S))|].
      destruct S as [t [n [sn [u [-> _]]]]]. exact HR.
    Qed.
    Lemma classic_total betas dt : forall cas k sol sc, Wf_sc sc -> Wf sol -> exists r, classic_stages gamma d l betas dt k cas sol sc = Ok r.
    Proof.
      induction cas as [|[c a] cas IH]; intros k sol sc [H1 [H2 H3]] Hs; [cbn; eauto|]. cbn [classic_stages].
      set (uk1 := fold_left _ _ _).
      assert (U1 : Wf uk1).
      { unfold uk1. apply (fold_axpy_inv Wf WfK); [exact (Wf_axpy ne sol0)| apply Wf_copy; assumption |].
        apply Forall_forall. intros [b K] Hb. apply in_combine_r in Hb. rewrite Forall_forall in H3. apply H3. exact Hb. }
      set (uk2 := with_t uk1 _). assert (U2 : Wf uk2) by (apply Wf_t; exact U1).
      assert (E3 : exists uk3, (if 0 <? k then limit gamma l uk2 else Ok uk2) = Ok uk3 /\ Wf uk3).
      { destruct (0 <? k); [|eauto]. destruct (HLt uk2 U2) as [uk3 E]. exists uk3. split; [exact E|]. eapply Wf_lim; eassumption. }
      destruct E3 as [uk3 [E3 U2']].
      rewrite E3. cbn [rbind]. destruct (Wf_residual_total uk3 U2') as [s1 [F ER]]. rewrite ER. cbn [rbind].
      destruct (Wf_res gamma ne sol0 d D0 dt _ _ _ I U2' ER) as [U3 K3].
      apply IH.
      - split; [exact H1|]. split; [exact U3|]. cbn [sc_K]. apply Forall_lset; assumption.
      - apply Wf_axpy; assumption.
    Qed.
    Lemma low_storage_total dt : forall bgs k sol sc, Wf_sc sc -> sc_K sc <> [] -> Wf sol -> exists r, low_storage_stages gamma d l dt k bgs sol sc = Ok r.
    Proof.
      induction bgs as [|[b g] bgs IH]; intros k sol sc [H1 [H2 H3]] HK Hs; [cbn; eauto|]. cbn [low_storage_stages].
      set (us1 := smart_axpy _ _ _).
      assert (U1 : Wf us1).
      { apply Wf_axpy; [apply Wf_copy; assumption|]. destruct (sc_K sc) as [|K0 Ks]; [contradiction|]. inversion H3; subst. assumption. }
      set (us2 := with_t us1 _). assert (U2 : Wf us2) by (apply Wf_t; exact U1).
      assert (E3 : exists us3, (if 0 <? k then limit gamma l us2 else Ok us2) = Ok us3 /\ Wf us3).
      { destruct (0 <? k); [|eauto]. destruct (HLt us2 U2) as [us3 E]. exists us3. split; [exact E|]. eapply Wf_lim; eassumption. }
      destruct E3 as [us3 [E3 U2']].
      rewrite E3. cbn [rbind]. destruct (Wf_residual_total us3 U2') as [s1 [F ER]]. rewrite ER. cbn [rbind].
      destruct (Wf_res gamma ne sol0 d D0 dt _ _ _ I U2' ER) as [U3 K3].
      apply IH.
      - split; [exact H1|]. split; [exact U3|]. cbn [sc_K]. constructor; [exact K3|constructor].
      - discriminate.
      - apply Wf_axpy; assumption.
    Qed.
    Lemma inner_total rk dt sol sc : Wf_sc sc -> sc_K sc <> [] -> Wf sol -> exists r, rk_inner gamma rk d l dt sol sc = Ok r.
    Proof. intros. unfold rk_inner. destruct (String.eqb _ _); [apply low_storage_total|apply classic_total]; assumption. Qed.
    Lemma inner_wf rk dt sol sc s' sc' : Wf_sc sc -> sc_K sc <> [] -> Wf sol -> rk_inner gamma rk d l dt sol sc = Ok (s', sc') -> Wf s'.
    Proof.
      intros H1 H2 H3 H. eapply (inner_inv gamma Wf Wf WfK (fun _ => True) d l) in H; try eassumption.
      - apply H. - exact (Wf_copy ne sol0). - exact (Wf_axpy ne sol0). - exact (Wf_axpy ne sol0). - exact (Wf_t ne sol0).
      - exact (Wf_lim gamma ne sol0 l). - exact (Wf_res gamma ne sol0 d D0). - exact I.
    Qed.
    Lemma time_step_total rk cfl tf tout s sc r : Wf s -> Wf_sc sc -> sc_K sc <> [] ->
      get_next_time_step gamma s tout cfl tf = Ok r ->
      exists s' sc', time_step gamma (rk_inner gamma rk d l) l cfl tf tout s sc = Ok (s', sc', r).
    Proof.
      intros Hs Hsc HK Hg. unfold time_step. rewrite Hg. cbn [rbind]. destruct r as [[dt o] dn].
      assert (Hsc' : Wf_sc (set_us sc s)).
      { destruct Hsc as [H1 [H2 H3]]. split; [apply Wf_copy; assumption|]. split; assumption. }
      destruct (inner_total rk dt s (set_us sc s) Hsc' HK Hs) as [[s1 sc1] E1]. rewrite E1. cbn [rbind].
      pose proof (inner_wf rk dt s _ s1 sc1 Hsc' HK Hs E1) as W1.
      set (s2 := with_n _ _). assert (W2 : Wf s2) by (apply Wf_n, Wf_t; exact W1).
      destruct (apply_bc s2) as [s3|e] eqn:E3; [|rewrite (apply_bc_eq ne s2 (proj1 W2)) in E3; discriminate].
      cbn [rbind]. destruct (HLt s3) as [s4 E4]; [eapply Wf_bc; eassumption|]. rewrite E4. cbn [rbind]. eauto.
    Qed.
  End Run.
End Total.

Section TotalR.
  Context {X : Ext R}.
  Variable gamma : R.
  Local Open Scope R_scope.
  Implicit Types s : solution R.

  Lemma no_limiter_total ne sol0 s : Wf ne sol0 s -> exists s', limit gamma None s = Ok s'.
  Proof. intros _. exists s. reflexivity. Qed.
  (** with a limiter that always returns and any solver but Godunov, a run that fails does so at the
      check of a time step *)
  Lemma only_dt_fails_limited ne sol0 d l rk cfl tf nout fuel evs e :
    (forall s, Wf ne sol0 s -> exists s', limit gamma l s = Ok s') ->
    wf ne sol0 -> wf_dg ne sol0 d -> s_riemann sol0 <> RGodunov -> (2 <= nout)%Z -> s_t sol0 <= tf ->
    integrate gamma rk d l cfl tf nout fuel sol0 = (evs, Failed e) ->
    exists k tout touts s sc, visits gamma rk d l cfl tf nout sol0 k tout touts s sc evs /\
      get_next_time_step gamma s tout cfl tf = Raise e.
  Proof.
    intros HLt W D HR Hn Ht H.
    destruct (integrate_ends gamma rk d l cfl tf nout sol0 Hn Ht) as [F [r [_ [HF Hr]]]].
    assert (Hmax : integrate gamma rk d l cfl tf nout (Nat.max F fuel) sol0 = (evs, Failed e)).
    { rewrite (integrate_start gamma rk d l cfl tf nout sol0 Hn) in *. destruct (printer 0 0 sol0) as [ev|]; [|exact H].
      apply (loop_fuel_mono gamma nout _ _ _ _ fuel); [apply Nat.le_max_r|exact H|discriminate]. }
    rewrite HF in Hmax by lia. subst r. destruct Hr as [[e' [Hp Hr]]|Hr].
    - rewrite (printer_total ne) in Hp by exact W. discriminate.
    - cbn [good_end] in Hr. destruct Hr as [k [tout [touts [s [sc [Hv Hc]]]]]]. exists k, tout, touts, s, sc. split; [exact Hv|].
      destruct (Wf_visits gamma ne sol0 d l W D _ _ _ _ _ _ _ _ _ _ Hv) as [H1 [H2 [H3 _]]].
      destruct (get_next_time_step gamma s tout cfl tf) as [r|e'] eqn:Eg.
      + exfalso. destruct (time_step_total gamma ne sol0 d l D HR HLt rk cfl tf tout s sc r H1 H2 H3 Eg) as [s' [sc' Es]].
        destruct Hc as [Hc|[s'' [sc'' [dt [b [Hc Hp]]]]]]; [congruence|].
        assert (Es' : time_step gamma (rk_inner gamma rk d l) l cfl tf tout s sc = Ok (s'', sc'', (dt, true, b))) by exact Hc.
        rewrite (printer_total ne) in Hp; [discriminate|].
        destruct (Wf_time_step gamma ne sol0 d l D _ _ _ _ _ _ _ _ _ H1 H2 H3 Es') as [[W' _] _]. exact W'.
      + destruct Hc as [Hc|[s'' [sc'' [dt [b [Hc Hp]]]]]].
        * unfold time_step in Hc. rewrite Eg in Hc. cbn [rbind] in Hc. congruence.
        * unfold time_step in Hc. rewrite Eg in Hc. discriminate.
  Qed.

  (** without limiter *)
  Lemma only_dt_fails ne sol0 d rk cfl tf nout fuel evs e :
    wf ne sol0 -> wf_dg ne sol0 d -> s_riemann sol0 <> RGodunov -> (2 <= nout)%Z -> s_t sol0 <= tf ->
    integrate gamma rk d None cfl tf nout fuel sol0 = (evs, Failed e) ->
    exists k tout touts s sc, visits gamma rk d None cfl tf nout sol0 k tout touts s sc evs /\
      get_next_time_step gamma s tout cfl tf = Raise e.
  Proof. apply only_dt_fails_limited. apply no_limiter_total. Qed.

  (** advection runs complete *)
  Lemma adv_next_step s tout cfl tf : s_euler s = false -> eps_dt <= s_dx s * cfl / INR (2 * b_p (s_basis s) + 1) ->
    exists r, get_next_time_step gamma s tout cfl tf = Ok r.
  Proof.
    intros E H. unfold get_next_time_step, cfl_time_step, max_wave_speed. rewrite E. unfold adv_max_wave_speed. cbn [rbind].
    unfold sanity_check_dt, nnat. numR. rewrite <- INR_IZR_INZ, Rmult_1_l. unfold eps_dt in H.
    Rcase (s_dx s * cfl / INR (2 * b_p (s_basis s) + 1)) (1 / 100000000000000); [lra|]. cbn [rbind]. eauto.
  Qed.
  Theorem advection_completes_limited ne sol0 d l rk cfl tf nout :
    (forall s, Wf ne sol0 s -> exists s', limit gamma l s = Ok s') ->
    wf ne sol0 -> wf_dg ne sol0 d -> s_euler sol0 = false -> (2 <= nout)%Z -> s_t sol0 <= tf ->
    1 / 100000000000000 <= s_dx sol0 * cfl / INR (2 * b_p (s_basis sol0) + 1) ->
    exists F evs s, s_t s = tf /\ forall fuel, (F <= fuel)%nat -> integrate gamma rk d l cfl tf nout fuel sol0 = (evs, Finished s).
  Proof.
    intros HLt W D E Hn Ht Hc.
    assert (HR : s_riemann sol0 = RUpwind) by (apply (wf_kind _ _ W); exact E).
    destruct (run_terminates gamma rk d l cfl tf nout sol0 Hn Ht) as [F [evs [out [_ [HF [[e ->]|[s [-> Es]]]]]]]].
    - exfalso. specialize (HF F (le_n _)).
      destruct (only_dt_fails_limited ne sol0 d l rk cfl tf nout F evs e HLt W D ltac:(congruence) Hn Ht HF) as [k [tout [touts [s [sc [Hv Hg]]]]]].
      destruct (Wf_visits gamma ne sol0 d l W D _ _ _ _ _ _ _ _ _ _ Hv) as [[_ [t [n [sn [u [-> _]]]]]] _].
      destruct (adv_next_step (with_u (with_sens (with_n (with_t sol0 t) n) sn) u) tout cfl tf E Hc) as [r Hr]. congruence.
    - exists F, evs, s. auto.
  Qed.

  Theorem advection_completes ne sol0 d rk cfl tf nout :
    wf ne sol0 -> wf_dg ne sol0 d -> s_euler sol0 = false -> (2 <= nout)%Z -> s_t sol0 <= tf ->
    1 / 100000000000000 <= s_dx sol0 * cfl / INR (2 * b_p (s_basis sol0) + 1) ->
    exists F evs s, s_t s = tf /\ forall fuel, (F <= fuel)%nat -> integrate gamma rk d None cfl tf nout fuel sol0 = (evs, Finished s).
  Proof. apply advection_completes_limited. apply no_limiter_total. Qed.

  (** one CFL step longer than the whole run: only two snapshots, however many were asked for *)
  Theorem advection_skips ne sol0 d rk cfl tf nout :
    wf ne sol0 -> wf_dg ne sol0 d -> s_euler sol0 = false -> (2 <= nout)%Z -> s_t sol0 <= tf ->
    1 / 100000000000000 <= s_dx sol0 * cfl / INR (2 * b_p (s_basis sol0) + 1) ->
    tf - s_t sol0 < s_dx sol0 * cfl / INR (2 * b_p (s_basis sol0) + 1) ->
    exists evs s, List.length evs = 2%nat /\ s_t s = tf /\
      forall fuel, (1 <= fuel)%nat -> integrate gamma rk d None cfl tf nout fuel sol0 = (evs, Finished s).
  Proof.
    intros W D E Hn Ht Hc Hs.
    assert (HR : s_riemann sol0 = RUpwind) by (apply (wf_kind _ _ W); exact E).
    assert (P0 := printer_total ne 0 (IZR 0) sol0 W).
    pose proof (visits_first gamma rk d None cfl tf nout sol0 Hn _ P0) as Hv.
    destruct (Wf_visits gamma ne sol0 d None W D _ _ _ _ _ _ _ _ _ _ Hv) as [H1 [H2 [H3 _]]].
    set (tout := out_time _ _ _ 1) in *. set (touts := skipn 2 _) in *. set (sc0 := {| sc_us := sol0; sc_uk := sol0; sc_K := rk_K0 rk sol0 |}) in *.
    assert (Eg : get_next_time_step gamma sol0 tout cfl tf = Ok (tf - s_t sol0, true, true)).
    { unfold get_next_time_step, cfl_time_step, max_wave_speed. rewrite E. unfold adv_max_wave_speed. cbn [rbind].
      unfold sanity_check_dt, nnat. numR. rewrite <- INR_IZR_INZ, Rmult_1_l.
      Rcase (s_dx sol0 * cfl / INR (2 * b_p (s_basis sol0) + 1)) (1 / 100000000000000); [lra|]. cbn [rbind].
      unfold adjust_for_output. numR. Rcase (tf - s_t sol0) (s_dx sol0 * cfl / INR (2 * b_p (s_basis sol0) + 1)); [reflexivity|lra]. }
    destruct (time_step_total gamma ne sol0 d None D ltac:(congruence) (no_limiter_total ne sol0) rk cfl tf tout sol0 sc0 _ H1 H2 H3 Eg) as [s' [sc' Es]].
    destruct (Wf_time_step gamma ne sol0 d None D _ _ _ _ _ _ _ _ _ H1 H2 H3 Es) as [[W' _] _].
    destruct (step_times gamma rk d None cfl tf nout sol0 Hn Ht _ _ _ _ _ _ _ _ _ _ _ Hv Es) as [_ [_ [_ [_ [_ Hf]]]]].
    eexists _, s'. split; [|split; [apply Hf; reflexivity|]].
    2:{ intros fuel Hfu. rewrite (integrate_start gamma rk d None cfl tf nout sol0 Hn), P0. fold tout touts sc0.
        destruct fuel as [|fuel]; [lia|]. cbn [time_loop]. rewrite Es. rewrite (printer_total ne) by exact W'. reflexivity. }
    reflexivity.
  Qed.
End TotalR.

(** a run that completes makes a first step *)
Lemma finished_first_step {A} {N : Num A} {L : Libm A} gamma rk d l cfl tf nout fuel (sol0 : solution A) evs s' :
  integrate gamma rk d l cfl tf nout fuel sol0 = (evs, Finished s') ->
  exists tout touts ev s1 sc1 r,
    visits gamma rk d l cfl tf nout sol0 1 tout touts sol0 {| sc_us := sol0; sc_uk := sol0; sc_K := rk_K0 rk sol0 |} [ev] /\
    time_step gamma (rk_inner gamma rk d l) l cfl tf tout sol0 {| sc_us := sol0; sc_uk := sol0; sc_K := rk_K0 rk sol0 |} = Ok (s1, sc1, r).
Proof.
  rewrite integrate_run_rk. unfold run_rk. intro H. destruct (nout <? 0)%Z; [discriminate|]. destruct (printer 0 n0 sol0) as [ev|e] eqn:Ep; [|discriminate].
  destruct (slice_from _ 1) as [|tout touts] eqn:Es; [discriminate|]. destruct fuel as [|fuel]; [discriminate|]. cbn [time_loop] in H.
  destruct (time_step _ _ _ _ _ _ _ _) as [[[s1 sc1] r]|e] eqn:Et; [|discriminate].
  exists tout, touts, ev, s1, sc1, r. split; [apply visits_start; assumption|first [reflexivity|exact Et]].
Qed.
