(** Whole runs of mirrored flows with the limiter. *)
From Coq Require Import ZArith List Bool Arith String Reals Lra Lia.
From Verif Require Import Num Py Lib RealLib LegNumpy Ext Basis Sensor Enhance Limiting AdvectionPhysics EulerPhysics Solution Solver RKCoeffs RK
  SpecTime SpecTrace SpecClip SpecDG SpecPoly SpecUniform ProofsTime ProofsDG ProofsDG2 ProofsWf ProofsCons ProofsRel ProofsRelTrace SpecLimit ProofsLim ProofsAHR SpecEuler ProofsRiemann ProofsLimRun ProofsSensor
  SpecMirror SpecMirrorLim ProofsMirror ProofsMirrorRun ProofsSensorMirror ProofsHrMirror ProofsLeg ProofsGauss ProofsDescartes.
Import ListNotations.
Open Scope list_scope.
Open Scope R_scope.

Section LimRun.
  Context {X : Ext R}.
  Hypothesis G : gauss_ok.
  Hypothesis IV : inv_ok.
  Variables (gamma : R) (ne : nat) (b0 : basis R) (d : dg).
  Hypothesis Hg : 1 < gamma.
  Hypothesis D0 : dg_rows d = b_Ns b0 /\ dg_cols d = (ne * 3)%nat.
  Variables (r0 : riemann_kind) (Ex : exn -> exn -> Prop).
  Hypothesis Exr : forall e, Ex e e.
  Hypothesis HEx : (forall e e', Ex e e') \/ (forall a b, exists q, flux_of gamma r0 a b = Ok q).
  Variables (h : hr_maps R) (th : list R) (t0 t1 : R).
  Hypotheses (MO : maps_ok (b_p b0) h) (Hp : (1 <= b_p b0)%nat) (T0 : nth_error th 0 = Some t0) (T1 : nth_error th 1 = Some t1).
  Definition Ml (s s' : solution R) : Prop := Mr ne b0 r0 s s' /\ thresholds s = Some th /\ thresholds s' = Some th.

  Lemma th_similar (a b : solution R) : similar a b -> thresholds b = thresholds a.
  Proof. intros [t [n [x [u [-> T]]]]]. unfold thresholds. cbn. destruct (s_sens a), x; cbn; try contradiction; congruence. Qed.

  Lemma Ml_limit s s' : orientation_free gamma ne s -> Ml s s' -> resx Ex Ml (limit gamma (Some h) s) (limit gamma (Some h) s').
  Proof.
    intros [Ad Ev] [[[Mi [Eb En]] Hr] [Th Th']]. pose proof (mi_made _ _ _ Mi) as M. pose proof (md_wf _ _ M) as W. pose proof (mi_euler _ _ _ Mi) as [Eu _].
    assert (Nd : (needed s <= List.length th)%nat). { unfold needed. rewrite Eu. assert (1 < List.length th)%nat; [|lia]. apply nth_error_Some. rewrite T1. discriminate. }
    destruct (limit_total gamma ne s h th W ltac:(rewrite Eb; exact MO) Th Nd ltac:(rewrite Eb; exact Hp)) as [s1 H].
    pose proof Th as Th2. pose proof Th' as Th2'. unfold thresholds in Th, Th'. destruct (s_sens s) as [sn|] eqn:Es; [|discriminate]. destruct (s_sens s') as [sn'|] eqn:Es'; [|discriminate].
    cbn in Th, Th'. injection Th as Th. injection Th' as Th'.
    assert (Hs : exists sn1, sensing gamma (s_euler s) sn (s_u s) (s_NF s) = Ok sn1) by (apply (sensing_enough gamma ne s sn W Es); rewrite Th; exact Nd).
    destruct Hs as [sn1 Hs].
    destruct (flags_mirror gamma ne s s' Hg Mi Ad sn sn' sn1 t0 t1 Es Es' ltac:(congruence) ltac:(rewrite Th; exact T0) ltac:(rewrite Th; exact T1) Hs) as [sn1' [Hs' Fl]].
    assert (MO' : maps_ok (b_p (s_basis s)) h) by (rewrite Eb; exact MO).
    assert (Fl' : forall e, (1 <= e <= ne)%nat -> nth e (sn_sensors sn1') 0%Z = nth (ne + 1 - e) (sn_sensors sn1) 0%Z).
    { intros e He. apply Fl; [lia|]. intros i Hi _. apply (Ev th t1 Th2 T1). lia. }
    destruct (limit_mirror gamma ne s s' sn sn' sn1 sn1' h s1 Mi MO' Es Es' Hs Hs' Fl' H) as [s1' [H' [Mi' _]]].
    rewrite H, H'. constructor. pose proof (similar_limit gamma (Some h) s s1 H) as S1. pose proof (similar_limit gamma (Some h) s' s1' H') as S1'.
    split; [|rewrite (th_similar _ _ S1), (th_similar _ _ S1'); split; assumption].
    assert (K : s_basis s1 = s_basis s /\ s_enh s1 = s_enh s /\ s_riemann s1 = s_riemann s) by (destruct S1 as [t [n [x [u [-> _]]]]]; repeat split).
    destruct K as [K1 [K2 K3]]. split; [|congruence]. split; [exact Mi'|]. split; [congruence|]. unfold enh_sound. rewrite K1, K2. exact En.
  Qed.
  Lemma Ml_run rk cfl tf nout fuel sol sol' : (forall x, evaluated gamma rk d (Some h) cfl tf nout sol x -> symmetric_at gamma ne r0 x) ->
    (forall x, clipped gamma rk d (Some h) cfl tf nout sol x -> orientation_free gamma ne x) -> Ml sol sol' ->
    let r := integrate gamma rk d (Some h) cfl tf nout fuel sol in
    let r' := integrate gamma rk d (Some h) cfl tf nout fuel sol' in
    Forall2 (Rev Ml) (fst r) (fst r') /\ outx Ex Ml (snd r) (snd r').
  Proof.
    intros HG HC H.
    assert (Bc : forall s s', Ml s s' -> Ml (with_u s (bc_u ne s)) (with_u s' (bc_u ne s'))).
    { intros s s' [[H1 R1] [Q Q']]. split; [split; [eapply M_bc_u; eassumption|exact R1]|split; assumption]. }
    apply (integrate_relG gamma Ex Exr Ml Ml (Mir ne b0) (symmetric_at gamma ne r0) (orientation_free gamma ne) d (Some h)).
    - auto.
    - intros s s' t t' [[H1 R1] Q] [[H2 _] _]. split; [split; [eapply M_copy; eassumption|exact R1]|exact Q].
    - intros s s' a K K' [[H1 R1] Q] HK. split; [split; [eapply M_axpy; eassumption|exact R1]|exact Q].
    - intros s s' t [[H1 R1] Q]. split; [split; [eapply M_t; eassumption|exact R1]|exact Q].
    - intros s s' [[H1 _] _]. eapply M_time. exact H1.
    - exact Ml_limit.
    - intros dt s s' HS [H1 [Q Q']]. pose proof (Mr_res G IV gamma ne b0 d D0 r0 Ex HEx dt s s' HS H1) as Hr.
      pose proof (proj1 (proj1 H1)) as Mi. destruct Mi as [M M' _ _ _ _].
      destruct (residual gamma d s) as [[u F]|e] eqn:E1; destruct (residual gamma d s') as [[u' F']|e'] eqn:E2; inversion Hr as [? ? K|? ? K]; subst; constructor; [|exact K].
      cbn [fst snd] in *. destruct K as [K1 K2]. split; [|exact K2]. split; [exact K1|].
      pose proof (similar_residual gamma d s u F E1) as S1. pose proof (similar_residual gamma d s' u' F' E2) as S2.
      rewrite (th_similar _ _ S1), (th_similar _ _ S2). split; assumption.
    - intros s s' n [[H1 R1] Q]. split; [split; [eapply M_n; eassumption|exact R1]|exact Q].
    - intros s s' H1. pose proof (proj1 (proj1 (proj1 H1))) as [M M' _ _ _ _]. rewrite (apply_bc_eq ne s (md_wf _ _ M)), (apply_bc_eq ne s' (md_wf _ _ M')). constructor 1. apply Bc. exact H1.
    - exact Ml_limit.
    - intros s s' tout c t [[H1 _] _]. eapply M_step; eassumption.
    - intros s s' k dt [[[[M M' _ _ _ _] _] _] _]. rewrite (printer_total ne k dt s (md_wf _ _ M)), (printer_total ne k dt s' (md_wf _ _ M')). eauto.
    - exact HG.
    - exact HC.
    - exact H.
    - eapply Mir_0; [eassumption|apply H].
  Qed.
End LimRun.
Lemma mirror_run_limited {X : Ext R} gamma ne (sol sol' : solution R) d h th (Ex : exn -> exn -> Prop) r0 : 1 < gamma -> gauss_ok -> inv_ok -> mirrored ne sol sol' -> enh_sound sol -> s_riemann sol = r0 -> wf_dg ne sol d ->
  (forall e, Ex e e) -> (forall e e', Ex e e') \/ (forall a b, exists q, flux_of gamma r0 a b = Ok q) ->
  Limiter "adaptive_hr" sol = Ok (Some h) -> (1 <= b_p (s_basis sol))%nat -> thresholds sol = Some th -> thresholds sol' = Some th -> (2 <= List.length th)%nat ->
  forall rk cfl tf nout fuel, (forall x, evaluated gamma rk d (Some h) cfl tf nout sol x -> symmetric_at gamma ne r0 x) ->
  (forall x, clipped gamma rk d (Some h) cfl tf nout sol x -> orientation_free gamma ne x) ->
  let r := integrate gamma rk d (Some h) cfl tf nout fuel sol in
  let r' := integrate gamma rk d (Some h) cfl tf nout fuel sol' in
  Forall2 (mirrored_event ne) (fst r) (fst r') /\ mirrored_outcome ne Ex (snd r) (snd r').
Proof.
  intros Hg G IV H HS HR D Exr HEx HL Hp Th Th' L2 rk cfl tf nout fuel HG HC. cbv zeta. destruct (mi_NF _ _ _ H) as [F3 _]. destruct D as [D1 D2]. rewrite F3 in D2.
  pose proof (Limiter_maps G IV ne sol h (mi_made _ _ _ H) HL) as MO.
  destruct th as [|t0 [|t1 th]]; cbn in L2; try lia.
  assert (M0 : Ml ne (s_basis sol) r0 (t0 :: t1 :: th) sol sol') by (split; [split; [split; [exact H|split; [reflexivity|exact HS]]|exact HR]|split; assumption]).
  destruct (Ml_run G IV gamma ne (s_basis sol) d Hg (conj D1 D2) r0 Ex Exr HEx h (t0 :: t1 :: th) t0 t1 MO Hp eq_refl eq_refl rk cfl tf nout fuel sol sol' HG HC M0) as [E O]. split.
  - clear - E. induction E as [|x y xs ys [X1 [X2 X3]] _ IH]; constructor; [|exact IH]. split; [symmetry; exact X1|]. split; [symmetry; exact X2|apply X3].
  - destruct O as [s s' [[[Y _] _] _]|e e' He|]; constructor; assumption.
Qed.
Lemma hr_mirror_series {X : Ext R} p h k uc ul ur uc' ul' ur' v : gauss_ok -> inv_ok -> hr_init (Basis p) = Ok h ->
  List.length uc = (p + 1)%nat -> List.length ul = (p + 1)%nat -> List.length ur = (p + 1)%nat ->
  List.length uc' = (p + 1)%nat -> List.length ul' = (p + 1)%nat -> List.length ur' = (p + 1)%nat ->
  (forall x, legseries uc' x = k * legseries uc (- x)) -> (forall x, legseries ul' x = k * legseries ur (- x)) -> (forall x, legseries ur' x = k * legseries ul (- x)) ->
  hr h uc ul ur = Ok v -> exists v', hr h uc' ul' ur' = Ok v' /\ forall x, legseries v' x = k * legseries v (- x).
Proof.
  intros G IV HI Lc Ll Lr Lc' Ll' Lr' Ec El Er H. destruct (hr_mirror p h k uc ul ur uc' ul' ur' v (hr_init_maps G IV p h HI) Lc Ll Lr Lc' Ll' Lr' Ec El Er H) as [v' [H' E]].
  exists v'. split; [exact H'|]. intro x. rewrite <- mirror_series, <- legseries_scale. set (w := legscale k (ProofsDescartes.mirror v)).
  rewrite (legseries_to (List.length v' + List.length w) v'), (legseries_to (List.length v' + List.length w) w) by lia. apply Rsum_ext. intros n _. f_equal.
  rewrite E. unfold w, legscale. rewrite (nth_map0 (nmul k)) by (cbn; ring). rewrite mirror_nth. reflexivity.
Qed.
Lemma limit_mirror_free {X : Ext R} gamma ne (s s' s1 : solution R) h th : 1 < gamma -> gauss_ok -> inv_ok -> mirrored ne s s' ->
  Limiter "adaptive_hr" s = Ok (Some h) -> thresholds s = Some th -> thresholds s' = Some th -> (2 <= List.length th)%nat -> orientation_free gamma ne s ->
  limit gamma (Some h) s = Ok s1 -> exists s1', limit gamma (Some h) s' = Ok s1' /\ mirrored ne s1 s1'.
Proof.
  intros Hg G IV Mi HL Th2 Th2' L2 [Ad Ev] H. pose proof (mi_made _ _ _ Mi) as M. pose proof (md_wf _ _ M) as W. pose proof (mi_euler _ _ _ Mi) as [Eu _].
  pose proof (Limiter_maps G IV ne s h M HL) as MO.
  assert (T : exists t0 t1, nth_error th 0 = Some t0 /\ nth_error th 1 = Some t1) by (destruct th as [|t0 [|t1 th]]; cbn in L2; try lia; exists t0, t1; split; reflexivity).
  destruct T as [t0 [t1 [T0 T1]]]. pose proof Th2 as Th. pose proof Th2' as Th'. unfold thresholds in Th, Th'. destruct (s_sens s) as [sn|] eqn:Es; [|discriminate]. destruct (s_sens s') as [sn'|] eqn:Es'; [|discriminate].
  cbn in Th, Th'. injection Th as Th. injection Th' as Th'.
  assert (Hs : exists sn1, sensing gamma (s_euler s) sn (s_u s) (s_NF s) = Ok sn1) by (apply (sensing_enough gamma ne s sn W Es); rewrite Th; unfold needed; rewrite Eu; exact L2).
  destruct Hs as [sn1 Hs].
  destruct (flags_mirror gamma ne s s' Hg Mi Ad sn sn' sn1 t0 t1 Es Es' ltac:(congruence) ltac:(rewrite Th; exact T0) ltac:(rewrite Th; exact T1) Hs) as [sn1' [Hs' Fl]].
  assert (Fl' : forall e, (1 <= e <= ne)%nat -> nth e (sn_sensors sn1') 0%Z = nth (ne + 1 - e) (sn_sensors sn1) 0%Z).
  { intros e He. apply Fl; [lia|]. intros i Hi _. apply (Ev th t1 Th2 T1). lia. }
  destruct (limit_mirror gamma ne s s' sn sn' sn1 sn1' h s1 Mi MO Es Es' Hs Hs' Fl' H) as [s1' [H' [Mi' _]]]. eauto.
Qed.
Lemma mirror_run_limited_all {X : Ext R} gamma ne (sol sol' : solution R) d h th : 1 < gamma -> gauss_ok -> inv_ok -> mirrored ne sol sol' -> enh_sound sol -> wf_dg ne sol d ->
  Limiter "adaptive_hr" sol = Ok (Some h) -> (1 <= b_p (s_basis sol))%nat -> thresholds sol = Some th -> thresholds sol' = Some th -> (2 <= List.length th)%nat ->
  forall rk cfl tf nout fuel,
  match s_riemann sol with
  | RRoe => forall x, evaluated gamma rk d (Some h) cfl tf nout sol x -> physical gamma ne x
  | RGodunov => forall x, evaluated gamma rk d (Some h) cfl tf nout sol x -> no_collision gamma ne x
  | RRusanov => True
  | _ => False
  end ->
  (forall x, clipped gamma rk d (Some h) cfl tf nout sol x -> orientation_free gamma ne x) ->
  let r := integrate gamma rk d (Some h) cfl tf nout fuel sol in
  let r' := integrate gamma rk d (Some h) cfl tf nout fuel sol' in
  Forall2 (mirrored_event ne) (fst r) (fst r') /\ mirrored_outcome ne (fun e e' => s_riemann sol = RGodunov \/ e = e') (snd r) (snd r').
Proof.
  intros Hg G IV H HS D HL Hp Th Th' L2 rk cfl tf nout fuel HP HC.
  apply (mirror_run_limited gamma ne sol sol' d h th (fun e e' => s_riemann sol = RGodunov \/ e = e') (s_riemann sol)); try assumption; try reflexivity.
  - intro e. right. reflexivity.
  - destruct (s_riemann sol) eqn:HR.
    all: try contradiction.
    all: try (left; intros e e'; left; reflexivity).
    + right. intros a b. unfold flux_of. destruct (rusanov1 gamma a b) as [[x y] z]. eauto.
    + right. intros a b. unfold flux_of. destruct (roe1 gamma a b) as [[x y] z]. eauto.
  - destruct (s_riemann sol) eqn:HR; try contradiction; intros x Hx t Et e He.
    + apply mirrors_rusanov.
    + destruct (HP x Hx t Et e He) as [rl [vl [pl [rr [vr [pr [A1 [A2 [A3 [A4 [-> [-> A5]]]]]]]]]]]]. apply mirrors_godunov; assumption.
    + destruct (HP x Hx t Et e He) as [A B]. apply mirrors_roe; assumption.
Qed.
