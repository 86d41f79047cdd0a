(** Two runs in lockstep whose clocks differ by a factor (ProofsRel is the case of equal clocks, over any arithmetic). *)
From Coq Require Import ZArith List Bool Arith String Lia Reals Lra.
From Verif Require Import Num Py Lib LegNumpy Ext Basis Sensor Enhance Limiting
  Solution Solver RKCoeffs RK SpecTime ProofsTime SpecDG ProofsDG ProofsDG2 ProofsWf ProofsRel SpecUnits.
Import ListNotations.
Open Scope list_scope.
Open Scope nat_scope.

Definition small : exn := SysExit "Next time step is too small".
(** both succeed with related results, or raise the same exception; if [slack], one may give up on a small step *)
Inductive lop (slack : Prop) {P Q : Type} (Rel : P -> Q -> Prop) : res P -> res Q -> Prop :=
| lop_ok x y : Rel x y -> lop slack Rel (Ok x) (Ok y)
| lop_raise e : lop slack Rel (Raise e) (Raise e)
| lop_left r : slack -> lop slack Rel (Raise small) r
| lop_right r : slack -> lop slack Rel r (Raise small).
Lemma lop_bind slack {P Q P' Q'} (R1 : P -> Q -> Prop) (R2 : P' -> Q' -> Prop) a b f g :
  lop slack R1 a b -> (forall x y, R1 x y -> lop slack R2 (f x) (g y)) -> lop slack R2 (rbind a f) (rbind b g).
Proof. intros H Hfg. destruct H as [x y H|e|r H|r H]; cbn [rbind]; [apply Hfg; assumption|constructor 2|constructor 3; exact H|constructor 4; exact H]. Qed.

Section Common.
  Context {P : Type}.
  Variable Rel : P -> P -> Prop.
  Lemma common_Forall2 xs ys : Forall2 Rel xs ys -> common Rel xs ys.
  Proof. intro H. induction H as [|x y xs ys H1 H2 IH]; intros [|i] a b Ha Hb; try discriminate. - injection Ha as <-. injection Hb as <-. exact H1. - exact (IH i a b Ha Hb). Qed.
  Lemma common_app xs ys xt yt : Forall2 Rel xs ys -> common Rel xt yt -> common Rel (xs ++ xt) (ys ++ yt).
  Proof. intros H C. induction H as [|x y xs ys H1 H2 IH]; [exact C|]. intros [|i] a b Ha Hb. - injection Ha as <-. injection Hb as <-. exact H1. - exact (IH i a b Ha Hb). Qed.
  Lemma common_nil_l ys : common Rel [] ys. Proof. intros [|i] a b Ha; discriminate. Qed.
  Lemma common_nil_r xs : common Rel xs []. Proof. intros [|i] a b Ha Hb; discriminate. Qed.
End Common.

Section RelTime.
  Variables (gamma tau : R) (slack : Prop).
  Implicit Types s : solution R.
  Variables (Rs Rw : solution R -> solution R -> Prop) (RK : mat R -> mat R -> Prop).
  Variables (d : dg) (l : limiter (A:=R)).
  Open Scope R_scope.
  Hypothesis Hsw : forall s s', Rs s s' -> Rw s s'.
  Hypothesis Hcopy : forall s s' t t', Rw s s' -> Rw t t' -> Rw (copy_data_only s t) (copy_data_only s' t').
  Hypothesis Haxpy : forall s s' a K K', Rw s s' -> RK K K' -> Rw (smart_axpy s a K) (smart_axpy s' a K').
  Hypothesis Ht : forall s s' t, Rw s s' -> Rw (with_t s t) (with_t s' (tau * t)).
  Hypothesis Htime : forall s s', Rw s s' -> s_t s' = tau * s_t s /\ s_n s' = s_n s.
  Hypothesis Hlim : forall s s', Rw s s' -> lop slack Rw (limit gamma l s) (limit gamma l s').
  Hypothesis Hres : forall dt s s', Rw s s' ->
    lop slack (fun p p' => Rw (fst p) (fst p') /\ RK (mscale dt (snd p)) (mscale (tau * dt) (snd p'))) (residual gamma d s) (residual gamma d s').
  Hypothesis Hn : forall s s' n, Rw s s' -> Rw (with_n s n) (with_n s' n).
  Hypothesis Hbc : forall s s', Rw s s' -> lop slack Rs (apply_bc s) (apply_bc s').
  Hypothesis Hlims : forall s s', Rs s s' -> lop slack Rs (limit gamma l s) (limit gamma l s').
  Hypothesis Hstep : forall s s' tout cfl tf, Rs s s' ->
    lop slack (fun r r' => r' = (tau * fst (fst r), snd (fst r), snd r)) (get_next_time_step gamma s tout cfl tf) (get_next_time_step gamma s' (tau * tout) cfl (tau * tf)).
  Hypothesis Hprint : forall s s' k dt dt', Rs s s' -> exists ev ev', printer k dt s = Ok ev /\ printer k dt' s' = Ok ev'.

  Definition TRsc (sc sc' : scratch R) : Prop := Rw (sc_us sc) (sc_us sc') /\ Rw (sc_uk sc) (sc_uk sc') /\ Forall2 RK (sc_K sc) (sc_K sc').
  Definition TRout (p p' : solution R * scratch R) : Prop := Rw (fst p) (fst p') /\ TRsc (snd p) (snd p').

  Lemma Tadvance s s' a dt : Rw s s' -> Rw (with_t s (s_t s + a * dt)) (with_t s' (s_t s' + a * (tau * dt))).
  Proof. intro H. destruct (Htime _ _ H) as [E _]. rewrite E. replace (tau * s_t s + a * (tau * dt)) with (tau * (s_t s + a * dt)) by ring. apply Ht. exact H. Qed.

  Lemma Tclassic_rel betas dt cas : forall k sol sol' sc sc', Rw sol sol' -> TRsc sc sc' ->
    lop slack TRout (classic_stages gamma d l betas dt k cas sol sc) (classic_stages gamma d l betas (tau * dt) k cas sol' sc').
  Proof.
    induction cas as [|[c a] cas IH]; intros k sol sol' sc sc' Hs Hsc.
    - constructor 1. split; assumption.
    - cbn [classic_stages]. destruct Hsc as [H1 [H2 H3]].
      eapply lop_bind with (R1 := Rw).
      + match goal with |- lop _ _ (if _ then limit _ _ ?u else _) (if _ then limit _ _ ?v else _) => assert (Hu : Rw u v) end.
        { apply (Tadvance _ _ a dt). apply (fold_axpy_rel Rw RK Haxpy); [apply Hcopy; assumption|assumption]. }
        destruct (0 <? k)%nat; [apply Hlim; exact Hu|constructor; exact Hu].
      + intros x y Hxy. eapply lop_bind; [apply (Hres dt); exact Hxy|]. intros [u F] [u' F'] [Hu HF]. cbn [fst snd] in *.
        apply IH; [apply Haxpy; assumption|]. split; [exact H1|]. split; [exact Hu|]. apply Forall2_lset; assumption.
  Qed.
  Lemma Tlow_storage_rel dt bgs : forall k sol sol' sc sc', Rw sol sol' -> TRsc sc sc' -> sc_K sc <> [] ->
    lop slack TRout (low_storage_stages gamma d l dt k bgs sol sc) (low_storage_stages gamma d l (tau * dt) k bgs sol' sc').
  Proof.
    induction bgs as [|[b g] bgs IH]; intros k sol sol' sc sc' Hs Hsc HK.
    - constructor 1. split; assumption.
    - cbn [low_storage_stages]. destruct Hsc as [H1 [H2 H3]].
      eapply lop_bind with (R1 := Rw).
      + match goal with |- lop _ _ (if _ then limit _ _ ?u else _) (if _ then limit _ _ ?v else _) => assert (Hu : Rw u v) end.
        { apply (Tadvance _ _ b dt). apply Haxpy; [apply Hcopy; assumption|]. destruct H3; [contradiction|]. assumption. }
        destruct (0 <? k)%nat; [apply Hlim; exact Hu|constructor; exact Hu].
      + intros x y Hxy. eapply lop_bind; [apply (Hres dt); exact Hxy|]. intros [u F] [u' F'] [Hu HF]. cbn [fst snd] in *.
        apply IH; [apply Haxpy; assumption| |discriminate]. split; [exact H1|]. split; [exact Hu|]. constructor; [exact HF|constructor].
  Qed.
  Lemma Tinner_rel rk dt sol sol' sc sc' : Rw sol sol' -> TRsc sc sc' -> sc_K sc <> [] ->
    lop slack TRout (rk_inner gamma rk d l dt sol sc) (rk_inner gamma rk d l (tau * dt) sol' sc').
  Proof.
    intros. unfold rk_inner. destruct (String.eqb rk "low_storage_rk4").
    - apply Tlow_storage_rel; assumption.
    - apply Tclassic_rel; assumption.
  Qed.
  Definition TRtop (p p' : solution R * scratch R * (R * bool * bool)) : Prop :=
    Rs (fst (fst p)) (fst (fst p')) /\ TRsc (snd (fst p)) (snd (fst p')) /\ snd p' = (tau * fst (fst (snd p)), snd (fst (snd p)), snd (snd p)) /\ sc_K (snd (fst p)) <> [].
  Lemma Tstep_rel rk cfl tf tout s s' sc sc' : Rs s s' -> TRsc sc sc' -> sc_K sc <> [] ->
    lop slack TRtop (time_step gamma (rk_inner gamma rk d l) l cfl tf tout s sc) (time_step gamma (rk_inner gamma rk d l) l cfl (tau * tf) (tau * tout) s' sc').
  Proof.
    intros Hs Hsc HK. unfold time_step.
    eapply lop_bind; [apply Hstep; exact Hs|]. intros [[dt o] dn] r ->. cbn [fst snd].
    assert (Hi : lop slack TRout (rk_inner gamma rk d l dt s (set_us sc s)) (rk_inner gamma rk d l (tau * dt) s' (set_us sc' s'))).
    { apply Tinner_rel; [apply Hsw; exact Hs| |exact HK]. destruct Hsc as [H1 [H2 H3]]. split; [apply Hcopy; [assumption|apply Hsw; assumption]|split; assumption]. }
    assert (HK1 : forall s1 sc1, rk_inner gamma rk d l dt s (set_us sc s) = Ok (s1, sc1) -> sc_K sc1 <> []) by (intros s1 sc1 E; eapply inner_nonempty; [|exact E]; exact HK).
    destruct Hi as [[s1 sc1] [s1' sc1'] Hxy|e|r Hl|r Hl]; cbn [rbind]; [|constructor 2|constructor 3; exact Hl|constructor 4; exact Hl].
    specialize (HK1 _ _ eq_refl). destruct Hxy as [H1 H2]. cbn [fst snd] in *.
    destruct (Htime _ _ H1) as [Et En].
    assert (Hu : Rw (with_n (with_t s1 (s_t s1 + dt)) (s_n s1 + 1)) (with_n (with_t s1' (s_t s1' + tau * dt)) (s_n s1' + 1))).
    { rewrite En. apply Hn. rewrite Et. replace (tau * s_t s1 + tau * dt) with (tau * (s_t s1 + dt)) by ring. apply Ht. exact H1. }
    eapply lop_bind; [apply Hbc; exact Hu|]. intros s2 s2' H3.
    eapply lop_bind; [apply Hlims; exact H3|]. intros s3 s3' H4. constructor 1. split; [exact H4|]. split; [exact H2|]. split; [reflexivity|exact HK1].
  Qed.
  Definition TRev (ev ev' : event R) : Prop := ev_nout ev' = ev_nout ev /\ ev_dt ev' = tau * ev_dt ev /\ Rs (ev_sol ev) (ev_sol ev').
  Inductive Tout : outcome R -> outcome R -> Prop :=
  | to_fin s s' : Rs s s' -> Tout (Finished s) (Finished s')
  | to_fail e : Tout (Failed e) (Failed e)
  | to_fuel : Tout OutOfFuel OutOfFuel.
  Definition Tagree (r r' : list (event R) * outcome R) : Prop :=
    common TRev (fst r) (fst r') /\ ((Forall2 TRev (fst r) (fst r') /\ Tout (snd r) (snd r')) \/ (slack /\ (too_small (snd r) \/ too_small (snd r')))).
  Lemma Tagree_ok evs evs' o o' : Forall2 TRev evs evs' -> Tout o o' -> Tagree (evs, o) (evs', o').
  Proof. intros. split; [apply common_Forall2; assumption|left; split; assumption]. Qed.
  Lemma loop_prefix inner cfl tf : forall fuel k tout touts s sc evs, exists more, fst (time_loop gamma inner l cfl tf fuel k tout touts s sc evs) = evs ++ more.
  Proof.
    induction fuel as [|fuel IH]; intros k tout touts s sc evs; cbn [time_loop]; [exists []; rewrite app_nil_r; reflexivity|].
    destruct (time_step _ _ _ _ _ _ _ _) as [[[s1 sc1] [[dt o] dn]]|e]; [|exists []; rewrite app_nil_r; reflexivity].
    destruct o.
    - destruct (printer k dt s1) as [ev|e]; [|exists []; rewrite app_nil_r; reflexivity].
      destruct dn; [exists [ev]; reflexivity|]. destruct touts as [|t touts]; [exists [ev]; reflexivity|].
      destruct (IH (k + 1)%nat t touts s1 sc1 (evs ++ [ev])) as [more Hm]. exists (ev :: more). rewrite Hm, <- app_assoc. reflexivity.
    - destruct dn; [exists []; rewrite app_nil_r; reflexivity|]. apply IH.
  Qed.
  Lemma Tloop_rel rk cfl tf : forall fuel k tout touts s s' sc sc' evs evs', Rs s s' -> TRsc sc sc' -> sc_K sc <> [] -> Forall2 TRev evs evs' ->
    Tagree (time_loop gamma (rk_inner gamma rk d l) l cfl tf fuel k tout touts s sc evs)
           (time_loop gamma (rk_inner gamma rk d l) l cfl (tau * tf) fuel k (tau * tout) (map (Rmult tau) touts) s' sc' evs').
  Proof.
    induction fuel as [|fuel IH]; intros k tout touts s s' sc sc' evs evs' Hs Hsc HK He.
    - apply Tagree_ok; [exact He|constructor].
    - pose proof (Tstep_rel rk cfl tf tout s s' sc sc' Hs Hsc HK) as Hst.
      pose proof (loop_prefix (rk_inner gamma rk d l) cfl tf (S fuel) k tout touts s sc evs) as [m1 E1].
      pose proof (loop_prefix (rk_inner gamma rk d l) cfl (tau * tf) (S fuel) k (tau * tout) (map (Rmult tau) touts) s' sc' evs') as [m2 E2].
      cbn [time_loop] in *.
      destruct Hst as [[[s1 sc1] [[dt o] dn]] [[s1' sc1'] r'] H|e|r Hl|r Hl].
      2: { apply Tagree_ok; [exact He|constructor]. }
      2: { split; [cbn [fst]; rewrite E2; rewrite <- (app_nil_r evs); apply common_app; [exact He|apply common_nil_l]|]. right. split; [exact Hl|left; reflexivity]. }
      2: { split; [cbn [fst]; rewrite E1; rewrite <- (app_nil_r evs'); apply common_app; [exact He|apply common_nil_r]|]. right. split; [exact Hl|right; reflexivity]. }
      clear E1 E2. destruct H as [H1 [H2 [H3 H4]]]. cbn [fst snd] in *. subst r'.
      destruct o.
      + destruct (Hprint _ _ k dt (tau * dt) H1) as [ev [ev' [P1 P2]]]. rewrite P1, P2.
        apply printer_Ok in P1. apply printer_Ok in P2.
        assert (Hev : Forall2 TRev (evs ++ [ev]) (evs' ++ [ev'])).
        { apply Forall2_app; [exact He|]. constructor; [|constructor]. subst. repeat split. exact H1. }
        destruct dn; [apply Tagree_ok; [exact Hev|constructor; exact H1]|].
        destruct touts as [|tout' touts]; [apply Tagree_ok; [exact Hev|constructor]|]. apply IH; assumption.
      + destruct dn; [apply Tagree_ok; [exact He|constructor; exact H1]|]. apply IH; assumption.
  Qed.
  Lemma linspace_tau a b n : linspace (tau * a) (tau * b) n = map (Rmult tau) (linspace a b n).
  Proof.
    destruct n as [|[|n]]; [reflexivity|reflexivity|]. unfold linspace. rewrite map_tab. apply tab_ext. intros i Hi. cbv zeta. numR. destruct (Nat.eqb i (S n)); [reflexivity|]. unfold Rdiv. ring.
  Qed.
  Lemma Tintegrate_rel rk cfl tf nout fuel sol sol' : Rs sol sol' ->
    RK (zeros2 (nrows (s_u sol)) (ncols (s_u sol))) (zeros2 (nrows (s_u sol')) (ncols (s_u sol'))) ->
    Tagree (integrate gamma rk d l cfl tf nout fuel sol) (integrate gamma rk d l cfl (tau * tf) nout fuel sol').
  Proof.
    intros Hs HK. rewrite !integrate_run_rk. unfold run_rk.
    destruct (nout <? 0)%Z; [apply Tagree_ok; constructor|]. destruct (Htime _ _ (Hsw _ _ Hs)) as [Et _]. rewrite Et, linspace_tau.
    destruct (Hprint _ _ O n0 n0 Hs) as [ev [ev' [P1 P2]]]. rewrite P1, P2. apply printer_Ok in P1. apply printer_Ok in P2.
    assert (Hev : Forall2 TRev [ev] [ev']). { constructor; [|constructor]. subst. split; [reflexivity|]. split; [cbn; ring|exact Hs]. }
    replace (slice_from (map (Rmult tau) (linspace (s_t sol) tf (Z.to_nat nout))) 1) with (map (Rmult tau) (slice_from (linspace (s_t sol) tf (Z.to_nat nout)) 1))
      by (change 1%Z with (Z.of_nat 1); rewrite !slice_from_nat, skipn_map; reflexivity).
    destruct (slice_from _ _) as [|tout touts]; [apply Tagree_ok; [exact Hev|constructor]|].
    cbn [map]. apply Tloop_rel; try assumption.
    - split; [apply Hsw; exact Hs|]. split; [apply Hsw; exact Hs|]. cbn [sc_K]. unfold rk_K0.
      destruct (String.eqb rk "low_storage_rk4"); [constructor; [exact HK|constructor]|].
      induction (tb_coeffs (rk_choice rk)); constructor; assumption.
    - cbn [sc_K]. apply K0_nonempty.
  Qed.
End RelTime.
