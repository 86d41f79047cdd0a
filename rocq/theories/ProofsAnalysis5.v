(** Fourier modes through whole advection runs. *)
From Coq Require Import ZArith List Bool Arith String Lia Reals Lra Ring.
From Verif Require Import Num Py Lib RealLib LegNumpy Ext Basis Enhance Solution Solver RKCoeffs RK SpecDG SpecTime SpecPoly SpecRK SpecEnh SpecUniform Analysis SpecAnalysis SpecCfl
  ProofsDG ProofsCons ProofsWf ProofsAdv ProofsTime ProofsTime2 ProofsRun ProofsRKLin ProofsAnalysis ProofsAnalysis2 ProofsAnalysis3.
Import ListNotations.
Open Scope R_scope.

Section Run.
  Context {X : Ext R}.
  Hypothesis G : gauss_ok.
  Hypothesis IV : inv_ok.
  Variables (gamma : R) (ne : nat) (sol0 soli : solution R) (d : dg) (rk : string) (cfl tf : R) (nout : Z).
  Variables (t l : C) (w : nat -> C) (Mx : mat C) (det : mat C -> C).
  Hypothesis M : made ne sol0.
  Hypothesis W : wf ne soli.
  Hypothesis Sim : similar sol0 soli.
  Hypothesis Et : s_t soli = s_t sol0.
  Hypothesis D : wf_dg ne sol0 d.
  Hypothesis Ha : s_euler sol0 = false.
  Hypothesis He : enh_sound sol0.
  Hypothesis Hl : is_literal (s_bcl sol0) "periodic" = true.
  Hypothesis Hr : is_literal (s_bcr sol0) "periodic" = true.
  Hypothesis Ht : Cpow t ne = nofZ 1.
  Hypothesis HM : symbol sol0 t = Ok Mx.
  Hypothesis Hw : forall i, (i < s_Ns sol0)%nat -> Capply (s_Ns sol0) Mx w i = nmul l (w i).
  Hypothesis HD : det_ok det.
  Hypothesis H0 : wave ne sol0 soli t w.
  Hypothesis Hn : (2 <= nout)%Z.
  Hypothesis Htf : s_t sol0 <= tf.
  Notation amp := (rk_factor det rk (s_dx sol0) l).
  Definition carried (sr si : solution R) (dts : list R) : Prop :=
    s_t sr = s_t sol0 + total_time dts /\ wave ne sr si t (fun n => nmul (Cprod amp dts) (w n)) /\ Forall (fun dt => 0 <= dt <= full_step sol0 cfl) dts.
  Notation visits s0 := (visits gamma rk d None cfl tf nout s0).
  Notation step := (time_step gamma (rk_inner gamma rk d None) None cfl tf).

  Lemma next_same (a s s' : solution R) tout : similar a s -> similar a s' -> s_t s' = s_t s -> s_euler a = false ->
    get_next_time_step gamma s' tout cfl tf = get_next_time_step gamma s tout cfl tf.
  Proof.
    intros [t0 [k [sn [u [-> _]]]]] [t0' [k' [sn' [u' [-> _]]]]] E Eu. cbn in E. unfold get_next_time_step, cfl_time_step, max_wave_speed. cbn. rewrite Eu, E. reflexivity.
  Qed.
  Lemma step_next tout s sc s' sc' r : step tout s sc = Ok (s', sc', r) -> get_next_time_step gamma s tout cfl tf = Ok r.
  Proof.
    unfold time_step. intro H. inv_bind H. destruct x as [[dt o] dn]. inv_bind H. destruct x as [s1 sc1]. inv_bind H. inv_bind H.
    apply Ok_inj in H. injection H as _ _ <-. first [exact Hx | reflexivity].
  Qed.
  Lemma Di : wf_dg ne soli d. Proof. unfold wf_dg in *. destruct Sim as [? [? [? [? [-> _]]]]]. exact D. Qed.
  Lemma Eui : s_euler soli = false. Proof. rewrite (proj1 (proj2 (proj2 (similar_fields _ _ Sim)))). exact Ha. Qed.

  (** one synchronised step *)
  Lemma sync_step k tout touts sr scr evsr si sci evsi s'r sc'r dt o dn dts :
    visits sol0 k tout touts sr scr evsr -> visits soli k tout touts si sci evsi -> s_t si = s_t sr -> carried sr si dts ->
    step tout sr scr = Ok (s'r, sc'r, (dt, o, dn)) ->
    exists s'i sc'i, step tout si sci = Ok (s'i, sc'i, (dt, o, dn)) /\ s_t s'i = s_t s'r /\ carried s'r s'i (dt :: dts) /\ wf ne s'i.
  Proof.
    intros Vr Vi Ets [C1 [C2 C3]] Tr.
    destruct (Wf_visits gamma ne sol0 d None (md_wf _ _ M) D _ _ _ _ _ _ _ _ _ _ Vr) as [[Wr Sr] [Wsr [Kr _]]].
    destruct (Wf_visits gamma ne soli d None W Di _ _ _ _ _ _ _ _ _ _ Vi) as [[Wi Si] [Wsi [Ki _]]].
    pose proof (step_next _ _ _ _ _ _ Tr) as Nr.
    assert (Ni : get_next_time_step gamma si tout cfl tf = Ok (dt, o, dn)).
    { rewrite <- Nr. apply (next_same sol0); [exact Sr|eapply similar_trans; [exact Sim|exact Si]|exact Ets|exact Ha]. }
    assert (HR : s_riemann soli <> RGodunov) by (rewrite (proj2 (wf_kind _ _ W) Eui); discriminate).
    destruct (time_step_total gamma ne soli d None Di HR (no_limiter_total gamma ne soli) rk cfl tf tout si sci _ (conj Wi Si) Wsi Ki Ni) as [s'i [sc'i Ti]].
    destruct (Wf_time_step gamma ne soli d None Di _ _ _ _ _ _ _ _ _ (conj Wi Si) Wsi Ki Ti) as [[Wi' _] _].
    exists s'i, sc'i. split; [exact Ti|].
    destruct (time_step_clock gamma _ _ _ _ _ _ _ _ _ _ _ _ (fun _ _ _ _ _ => frame_inner gamma rk d None _ _ _ _ _) Tr) as [_ [Tr1 _]].
    destruct (time_step_clock gamma _ _ _ _ _ _ _ _ _ _ _ _ (fun _ _ _ _ _ => frame_inner gamma rk d None _ _ _ _ _) Ti) as [_ [Ti1 _]].
    split; [rewrite Tr1, Ti1, Ets; reflexivity|]. split; [|exact Wi'].
    split; [rewrite Tr1, C1; cbn [total_time fold_right]; unfold total_time; numR; ring|].
    split; [|constructor; [|exact C3]].
    2:{ destruct (step_times gamma rk d None cfl tf nout sol0 Hn Htf _ _ _ _ _ _ _ _ _ _ _ Vr Tr) as [Pd _]. split; [exact Pd|].
        destruct (step_cfl_bound gamma _ _ _ _ _ _ _ _ _ _ _ _ Tr) as [v [Hv [Bd _]]]. destruct (similar_fields _ _ Sr) as [Eb [_ [Ee [Edx _]]]].
        assert (v = 1) by (unfold max_wave_speed in Hv; rewrite Ee, Ha in Hv; injection Hv as <-; reflexivity). subst v.
        rewrite Rmult_1_l, Eb, Edx in Bd. exact Bd. }
    assert (Hw' : forall i, (i < s_Ns sol0)%nat -> Capply (s_Ns sol0) Mx (fun n => nmul (Cprod amp dts) (w n)) i = nmul l (nmul (Cprod amp dts) (w i))).
    { intros i Hi. unfold Capply in *. rewrite (Csum_ext _ _ (fun j => nmul (Cprod amp dts) (nmul (at2 Mx i j) (w j)))) by (intros; ring). rewrite Csum_scale, Hw by exact Hi. ring. }
    pose proof (amplification G IV gamma ne sol0 d rk cfl tf nout k tout touts sr scr evsr s'r sc'r dt o dn soli k tout touts si sci evsi s'i sc'i o dn t
      _ l Mx det M W Sim D Ha He Hl Hr Ht HM Hw' HD Vr Tr Vi Ti C2) as A.
    intros e n Hee Hne. rewrite (A e n Hee Hne). cbn [Cprod fold_right]. fold (rk_factor det rk (s_dx sol0) l dt). fold (Cprod amp dts). ring.
  Qed.
  Notation snap := (fun er ei : event R => exists dts, s_t (ev_sol er) = s_t sol0 + total_time dts /\ wave ne (ev_sol er) (ev_sol ei) t (fun n => nmul (Cprod amp dts) (w n)) /\
    Forall (fun dt => 0 <= dt <= full_step sol0 cfl) dts).
  Lemma sync k tout touts sr scr evsr : visits sol0 k tout touts sr scr evsr ->
    exists si sci evsi dts, visits soli k tout touts si sci evsi /\ s_t si = s_t sr /\ carried sr si dts /\ Forall2 snap evsr evsi.
  Proof.
    assert (C0 : carried sol0 soli []).
    { split; [cbn; lra|]. split; [|constructor]. intros e n Hee Hne. rewrite (H0 e n Hee Hne). cbn [Cprod fold_right]. ring. }
    induction 1 as [ev tout touts Hp Hs | k tout touts s sc evs s' sc' dt Hv IH Hs | k tout tout' touts s sc evs s' sc' dt ev Hv IH Hs Hp].
    - exists soli, {| sc_us := soli; sc_uk := soli; sc_K := rk_K0 rk soli |}. pose proof (printer_total ne 0 n0 soli W) as Pi.
      eexists _, []. split; [apply visits_start; [exact Pi|rewrite Et; exact Hs]|]. split; [exact Et|]. split; [exact C0|].
      constructor; [|constructor]. apply printer_Ok in Hp. subst ev. exists []. exact C0.
    - destruct IH as [si [sci [evsi [dts [Vi [Ei [Ci Fi]]]]]]].
      destruct (sync_step _ _ _ _ _ _ _ _ _ _ _ _ _ _ dts Hv Vi Ei Ci Hs) as [s'i [sc'i [Ti [E' [C' _]]]]].
      exists s'i, sc'i, evsi, (dt :: dts). split; [eapply visits_quiet; eassumption|]. auto.
    - destruct IH as [si [sci [evsi [dts [Vi [Ei [Ci Fi]]]]]]].
      destruct (sync_step _ _ _ _ _ _ _ _ _ _ _ _ _ _ dts Hv Vi Ei Ci Hs) as [s'i [sc'i [Ti [E' [C' W']]]]].
      pose proof (printer_total ne k dt s'i W') as Pi.
      exists s'i, sc'i. eexists _, (dt :: dts). split; [eapply visits_output; eassumption|]. split; [exact E'|]. split; [exact C'|].
      apply Forall2_app; [exact Fi|]. constructor; [|constructor]. apply printer_Ok in Hp. subst ev. exists (dt :: dts). exact C'.
  Qed.
  (** the run with the imaginary part finishes as well *)
  Lemma companion fuel evs s' : integrate gamma rk d None cfl tf nout fuel sol0 = (evs, Finished s') ->
    exists fueli evsi s'i, integrate gamma rk d None cfl tf nout fueli soli = (evsi, Finished s'i).
  Proof.
    intros Ir. pose proof (finished_events gamma rk d None cfl tf nout sol0 Hn Htf fuel evs s' Ir) as GE.
    destruct GE as [k [tout [touts [sr [scr [evsr [sc' [dt [Vr [Tr ->]]]]]]]]]].
    destruct (sync _ _ _ _ _ _ Vr) as [si [sci [evs0 [dts [Vi [Ei [Ci Fi]]]]]]].
    destruct (sync_step _ _ _ _ _ _ _ _ _ _ _ _ _ _ dts Vr Vi Ei Ci Tr) as [s2 [sc2 [Ti [E' [C' W']]]]].
    pose proof (printer_total ne k dt s2 W') as Pi.
    destruct (visits_loop gamma rk d None cfl tf nout soli _ _ _ _ _ _ ltac:(lia) Vi) as [m Hm].
    pose proof (Hm 1%nat) as H. cbn [time_loop] in H. rewrite Ti, Pi in H. eauto.
  Qed.
  Theorem run_amplification fuel evs s' fueli evsi s'i :
    integrate gamma rk d None cfl tf nout fuel sol0 = (evs, Finished s') ->
    integrate gamma rk d None cfl tf nout fueli soli = (evsi, Finished s'i) ->
    (exists dts, total_time dts = tf - s_t sol0 /\ wave ne s' s'i t (fun n => nmul (Cprod amp dts) (w n)) /\ Forall (fun dt => 0 <= dt <= full_step sol0 cfl) dts) /\ Forall2 snap evs evsi.
  Proof.
    intros Ir Ii. pose proof (finished_events gamma rk d None cfl tf nout sol0 Hn Htf fuel evs s' Ir) as GE.
    destruct GE as [k [tout [touts [sr [scr [evsr [sc' [dt [Vr [Tr ->]]]]]]]]]].
    destruct (sync _ _ _ _ _ _ Vr) as [si [sci [evs0 [dts [Vi [Ei [Ci Fi]]]]]]].
    destruct (sync_step _ _ _ _ _ _ _ _ _ _ _ _ _ _ dts Vr Vi Ei Ci Tr) as [s2 [sc2 [Ti [E' [C' W']]]]].
    pose proof (printer_total ne k dt s2 W') as Pi.
    destruct (visits_loop gamma rk d None cfl tf nout soli _ _ _ _ _ _ ltac:(lia) Vi) as [m Hm].
    pose proof (Hm (S fueli)) as H. cbn [time_loop] in H. rewrite Ti, Pi in H.
    assert (H2 : integrate gamma rk d None cfl tf nout (m + S fueli) soli = (evsi, Finished s'i)).
    { rewrite (integrate_start gamma rk d None cfl tf nout soli Hn) in Ii |- *. destruct (printer 0 0 soli); [|discriminate].
      apply (loop_fuel_mono gamma nout _ _ _ _ fueli); [lia|exact Ii|discriminate]. }
    rewrite H in H2. injection H2 as <- <-. split.
    - exists (dt :: dts). destruct C' as [T1 C']. split; [|exact C'].
      destruct (step_times gamma rk d None cfl tf nout sol0 Hn Htf _ _ _ _ _ _ _ _ _ _ _ Vr Tr) as [_ [_ [_ [_ [_ Hf]]]]]. destruct (Hf eq_refl) as [Hf' _]. lra.
    - apply Forall2_app; [exact Fi|]. constructor; [|constructor]. exists (dt :: dts). exact C'.
  Qed.
End Run.
