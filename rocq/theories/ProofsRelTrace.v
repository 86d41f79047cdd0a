(** Two runs in lockstep, where the relation is only kept by the residual at states the first run
    actually evaluates, and by the limiter at states the first run actually limits. *)
From Coq Require Import ZArith List Bool Arith String Lia.
From Verif Require Import Num Py Lib LegNumpy Ext Basis Sensor Enhance Limiting
  Solution Solver RKCoeffs RK SpecTime SpecTrace SpecClip ProofsTime SpecDG ProofsDG ProofsDG2 ProofsWf ProofsRel.
Import ListNotations.
Open Scope list_scope.
Open Scope nat_scope.

(** both succeed with related results, or both raise, with related exceptions *)
Inductive resx (Ex : exn -> exn -> Prop) {P Q : Type} (Rel : P -> Q -> Prop) : res P -> res Q -> Prop :=
| rx_ok x y : Rel x y -> resx Ex Rel (Ok x) (Ok y)
| rx_raise e e' : Ex e e' -> resx Ex Rel (Raise e) (Raise e').
Lemma resx_bind Ex {P Q P' Q'} (R1 : P -> Q -> Prop) (R2 : P' -> Q' -> Prop) a b f g :
  resx Ex R1 a b -> (forall x y, a = Ok x -> R1 x y -> resx Ex R2 (f x) (g y)) -> resx Ex R2 (rbind a f) (rbind b g).
Proof. intros H Hfg. destruct H; cbn [rbind]; [apply Hfg; [reflexivity|assumption]|constructor; assumption]. Qed.
Inductive outx {A : Type} (Ex : exn -> exn -> Prop) (Rel : solution A -> solution A -> Prop) : outcome A -> outcome A -> Prop :=
| ox_fin s s' : Rel s s' -> outx Ex Rel (Finished s) (Finished s')
| ox_fail e e' : Ex e e' -> outx Ex Rel (Failed e) (Failed e')
| ox_fuel : outx Ex Rel OutOfFuel OutOfFuel.

Section RelTrace.
  Context {A : Type} {N : Num A} {L : Libm A}.
  Variables gamma : A.
  Variable Ex : exn -> exn -> Prop.
  Hypothesis Exr : forall e, Ex e e.
  Variables (Rs Rw : solution A -> solution A -> Prop) (RK : mat A -> mat A -> Prop) (Good Clip : solution A -> Prop).
  Variables (d : dg) (l : limiter (A:=A)).
  Hypothesis Hsw : forall s s', Rs s s' -> Rw s s'.
  Hypothesis Hcopy : forall s s' t t', Rw s s' -> Rw t t' -> Rw (copy_data_only s t) (copy_data_only s' t').
  Hypothesis Haxpy : forall s s' a K K', Rw s s' -> RK K K' -> Rw (smart_axpy s a K) (smart_axpy s' a K').
  Hypothesis Ht : forall s s' t, Rw s s' -> Rw (with_t s t) (with_t s' t).
  Hypothesis Htime : forall s s', Rw s s' -> s_t s = s_t s' /\ s_n s = s_n s'.
  Hypothesis Hlim : forall s s', Clip s -> Rw s s' -> resx Ex Rw (limit gamma l s) (limit gamma l s').
  Hypothesis Hres : forall dt s s', Good s -> Rw s s' ->
    resx Ex (fun p p' => Rw (fst p) (fst p') /\ RK (mscale dt (snd p)) (mscale dt (snd p'))) (residual gamma d s) (residual gamma d s').
  Hypothesis Hn : forall s s' n, Rw s s' -> Rw (with_n s n) (with_n s' n).
  Hypothesis Hbc : forall s s', Rw s s' -> resx Ex Rs (apply_bc s) (apply_bc s').
  Hypothesis Hlims : forall s s', Clip s -> Rs s s' -> resx Ex Rs (limit gamma l s) (limit gamma l s').
  Hypothesis Hstep : forall s s' tout cfl tf, Rs s s' ->
    resx Ex eq (get_next_time_step gamma s tout cfl tf) (get_next_time_step gamma s' tout cfl tf).
  Hypothesis Hprint : forall s s' k dt, Rs s s' -> exists ev ev', printer k dt s = Ok ev /\ printer k dt s' = Ok ev'.
  Notation Rsc := (Rsc Rw RK).
  Notation Rout := (Rout Rw RK).

  Lemma classic_relG betas dt cas : forall k sol sol' sc sc', Forall Good (classic_inputs gamma d l betas dt k cas sc) -> Forall Clip (classic_clips gamma d l betas dt k cas sc) -> Rw sol sol' -> Rsc sc sc' ->
    resx Ex Rout (classic_stages gamma d l betas dt k cas sol sc) (classic_stages gamma d l betas dt k cas sol' sc').
  Proof.
    induction cas as [|[c a] cas IH]; intros k sol sol' sc sc' HG HC Hs Hsc.
    - constructor. split; assumption.
    - cbn [classic_stages]. cbn [classic_inputs] in HG. cbn [classic_clips] in HC. apply Forall_app in HC. destruct HC as [HC1 HC]. destruct Hsc as [H1 [H2 H3]].
      eapply resx_bind with (R1 := Rw).
      + match goal with |- resx _ _ (if _ then limit _ _ ?u else _) (if _ then limit _ _ ?v else _) => assert (Hu : Rw u v) end.
        { assert (Hu1 : forall bs, Rw (fold_left (fun uk bk => smart_axpy uk (fst bk) (snd bk)) (combine bs (sc_K sc)) (copy_data_only (sc_uk sc) (sc_us sc)))
                  (fold_left (fun uk bk => smart_axpy uk (fst bk) (snd bk)) (combine bs (sc_K sc')) (copy_data_only (sc_uk sc') (sc_us sc')))).
          { intro bs. apply (fold_axpy_rel Rw RK Haxpy); [apply Hcopy; assumption|assumption]. }
          specialize (Hu1 (firstn k (row betas k))). destruct (Htime _ _ Hu1) as [E _]. rewrite E. apply Ht. exact Hu1. }
        destruct (0 <? k); [apply Hlim; [inversion HC1; assumption|exact Hu]|constructor; exact Hu].
      + intros x y Hx Hxy. rewrite Hx in HG, HC. inversion HG as [|? ? G1 G2]; subst.
        eapply resx_bind; [apply (Hres dt); [exact G1|exact Hxy]|]. intros [u F] [u' F'] Hu0 [Hu HF]. cbn [fst snd] in *. rewrite Hu0 in G2, HC.
        apply IH; [exact G2|exact HC|apply Haxpy; assumption|]. split; [exact H1|]. split; [exact Hu|]. apply Forall2_lset; assumption.
  Qed.
  Lemma low_storage_relG dt bgs : forall k sol sol' sc sc', Forall Good (low_storage_inputs gamma d l dt k bgs sc) -> Forall Clip (low_storage_clips gamma d l dt k bgs sc) -> Rw sol sol' -> Rsc sc sc' -> sc_K sc <> [] ->
    resx Ex Rout (low_storage_stages gamma d l dt k bgs sol sc) (low_storage_stages gamma d l dt k bgs sol' sc').
  Proof.
    induction bgs as [|[b g] bgs IH]; intros k sol sol' sc sc' HG HC Hs Hsc HK.
    - constructor. split; assumption.
    - cbn [low_storage_stages]. cbn [low_storage_inputs] in HG. cbn [low_storage_clips] in HC. apply Forall_app in HC. destruct HC as [HC1 HC]. destruct Hsc as [H1 [H2 H3]].
      eapply resx_bind with (R1 := Rw).
      + match goal with |- resx _ _ (if _ then limit _ _ ?u else _) (if _ then limit _ _ ?v else _) => assert (Hu : Rw u v) end.
        { assert (Hu1 : Rw (smart_axpy (copy_data_only (sc_uk sc) (sc_us sc)) b (hd [] (sc_K sc)))
                           (smart_axpy (copy_data_only (sc_uk sc') (sc_us sc')) b (hd [] (sc_K sc')))).
          { apply Haxpy; [apply Hcopy; assumption|]. destruct H3; [contradiction|]. assumption. }
          destruct (Htime _ _ Hu1) as [E _]. rewrite E. apply Ht. exact Hu1. }
        destruct (0 <? k); [apply Hlim; [inversion HC1; assumption|exact Hu]|constructor; exact Hu].
      + intros x y Hx Hxy. rewrite Hx in HG, HC. inversion HG as [|? ? G1 G2]; subst.
        eapply resx_bind; [apply (Hres dt); [exact G1|exact Hxy]|]. intros [u F] [u' F'] Hu0 [Hu HF]. cbn [fst snd] in *. rewrite Hu0 in G2, HC.
        apply IH; [exact G2|exact HC|apply Haxpy; assumption| |discriminate]. split; [exact H1|]. split; [exact Hu|]. constructor; [exact HF|constructor].
  Qed.
  Lemma inner_relG rk dt sol sol' sc sc' : Forall Good (inner_inputs gamma rk d l dt sc) -> Forall Clip (inner_clips gamma rk d l dt sc) -> Rw sol sol' -> Rsc sc sc' -> sc_K sc <> [] ->
    resx Ex Rout (rk_inner gamma rk d l dt sol sc) (rk_inner gamma rk d l dt sol' sc').
  Proof.
    intros HG HC. intros. unfold rk_inner. unfold inner_inputs in HG. unfold inner_clips in HC. destruct (String.eqb rk "low_storage_rk4").
    - apply low_storage_relG; assumption.
    - apply classic_relG; assumption.
  Qed.
  Notation Rtop := (Rtop Rs Rw RK).
  Lemma step_relG rk cfl tf tout s s' sc sc' :
    (forall dt o dn, get_next_time_step gamma s tout cfl tf = Ok (dt, o, dn) -> Forall Good (inner_inputs gamma rk d l dt (set_us sc s))) ->
    (forall dt o dn, get_next_time_step gamma s tout cfl tf = Ok (dt, o, dn) -> Forall Clip (inner_clips gamma rk d l dt (set_us sc s)) /\
       forall s1 sc1 x, rk_inner gamma rk d l dt s (set_us sc s) = Ok (s1, sc1) -> apply_bc (with_n (with_t s1 (nadd (s_t s1) dt)) (s_n s1 + 1)) = Ok x -> Clip x) ->
    Rs s s' -> Rsc sc sc' -> sc_K sc <> [] ->
    resx Ex Rtop (time_step gamma (rk_inner gamma rk d l) l cfl tf tout s sc) (time_step gamma (rk_inner gamma rk d l) l cfl tf tout s' sc').
  Proof.
    intros HG HC Hs Hsc HK. unfold time_step.
    eapply resx_bind; [apply Hstep; exact Hs|]. intros [[dt o] dn] r Hg <-. destruct (HC _ _ _ Hg) as [HC1 HC2].
    eapply resx_bind.
    { apply inner_relG; [exact (HG _ _ _ Hg)|exact HC1|apply Hsw; exact Hs| |exact HK]. destruct Hsc as [H1 [H2 H3]]. split; [apply Hcopy; [assumption|apply Hsw; assumption]|split; assumption]. }
    intros [s1 sc1] [s1' sc1'] E1 [H1 H2]. cbn [fst snd] in *.
    assert (HK1 : sc_K sc1 <> []) by (eapply inner_nonempty; [|exact E1]; exact HK).
    destruct (Htime _ _ H1) as [Et En]. specialize (HC2 s1 sc1). rewrite Et, En in HC2 |- *.
    eapply resx_bind; [apply Hbc; apply Hn; apply Ht; exact H1|]. intros s2 s2' E2 H3.
    eapply resx_bind; [apply Hlims; [apply (HC2 _ E1); exact E2|exact H3]|]. intros s3 s3' _ H4. constructor. split; [exact H4|]. split; [exact H2|]. split; [reflexivity|exact HK1].
  Qed.
  Notation Rev := (Rev Rs).
  Section Run.
    Variables (rk : string) (cfl tf : A) (nout : Z) (sol0 : solution A).
    Hypothesis HG : forall x, evaluated gamma rk d l cfl tf nout sol0 x -> Good x.
    Hypothesis HC : forall x, clipped gamma rk d l cfl tf nout sol0 x -> Clip x.
    Lemma loop_relG : forall fuel k tout touts s s' sc sc' evs evs', visits gamma rk d l cfl tf nout sol0 k tout touts s sc evs ->
      Rs s s' -> Rsc sc sc' -> sc_K sc <> [] -> Forall2 Rev evs evs' ->
      let r := time_loop gamma (rk_inner gamma rk d l) l cfl tf fuel k tout touts s sc evs in
      let r' := time_loop gamma (rk_inner gamma rk d l) l cfl tf fuel k tout touts s' sc' evs' in
      Forall2 Rev (fst r) (fst r') /\ outx Ex Rs (snd r) (snd r').
    Proof.
      induction fuel as [|fuel IH]; intros k tout touts s s' sc sc' evs evs' V Hs Hsc HK He; cbn zeta.
      - split; [exact He|constructor].
      - cbn [time_loop].
        assert (Hst : resx Ex Rtop (time_step gamma (rk_inner gamma rk d l) l cfl tf tout s sc) (time_step gamma (rk_inner gamma rk d l) l cfl tf tout s' sc')).
        { apply step_relG; try assumption.
          - intros dt o dn Hg. apply Forall_forall. intros x Hx. apply HG. exists k, tout, touts, s, sc, evs, dt, o, dn. auto.
          - intros dt o dn Hg. split.
            + apply Forall_forall. intros x Hx. apply HC. exists k, tout, touts, s, sc, evs, dt, o, dn. auto.
            + intros s1 sc1 x E1 E2. apply HC. exists k, tout, touts, s, sc, evs, dt, o, dn. split; [exact V|]. split; [exact Hg|]. right. exists s1, sc1. auto. }
        destruct (time_step gamma (rk_inner gamma rk d l) l cfl tf tout s sc) as [[[s1 sc1] [[dt o] dn]]|e] eqn:ET.
        2: { inversion Hst as [|e0 e' He' E2 E3]. subst. split; [exact He|constructor; assumption]. }
        inversion Hst as [x0 y H E2 E3|]. subst. destruct y as [[s1' sc1'] r']. destruct H as [H1 [H2 [H3 H4]]]. cbn [fst snd] in *. subst r'.
        destruct o.
        + destruct (Hprint _ _ k dt H1) as [ev [ev' [P1 P2]]]. rewrite P1, P2. pose proof P1 as Q1. apply printer_Ok in P1. apply printer_Ok in P2.
          assert (Hev : Forall2 Rev (evs ++ [ev]) (evs' ++ [ev'])).
          { apply Forall2_app; [exact He|]. constructor; [|constructor]. subst. repeat split. exact H1. }
          destruct dn; [split; [exact Hev|constructor; exact H1]|].
          destruct touts as [|tout' touts]; [split; [exact Hev|constructor; apply Exr]|]. apply IH; try assumption. eapply visits_output; eassumption.
        + destruct dn; [split; [exact He|constructor; exact H1]|]. apply IH; try assumption. eapply visits_quiet; eassumption.
    Qed.
    Lemma integrate_relG fuel sol' : Rs sol0 sol' ->
      RK (zeros2 (nrows (s_u sol0)) (ncols (s_u sol0))) (zeros2 (nrows (s_u sol')) (ncols (s_u sol'))) ->
      let r := integrate gamma rk d l cfl tf nout fuel sol0 in
      let r' := integrate gamma rk d l cfl tf nout fuel sol' in
      Forall2 Rev (fst r) (fst r') /\ outx Ex Rs (snd r) (snd r').
    Proof.
      intros Hs HK. cbn zeta. rewrite !integrate_run_rk. unfold run_rk.
      destruct (nout <? 0)%Z; [split; constructor; apply Exr|]. destruct (Htime _ _ (Hsw _ _ Hs)) as [Et _]. rewrite <- Et.
      destruct (Hprint _ _ 0 n0 Hs) as [ev [ev' [P1 P2]]]. rewrite P1, P2. pose proof P1 as Q1. apply printer_Ok in P1. apply printer_Ok in P2.
      assert (Hev : Forall2 Rev [ev] [ev']). { constructor; [|constructor]. subst. repeat split. exact Hs. }
      destruct (slice_from _ _) as [|tout touts] eqn:ES; [split; [exact Hev|constructor; apply Exr]|].
      apply loop_relG; try assumption.
      - constructor; assumption.
      - split; [apply Hsw; exact Hs|]. split; [apply Hsw; exact Hs|]. cbn [sc_K]. unfold rk_K0.
        destruct (String.eqb rk "low_storage_rk4"); [constructor; [exact HK|constructor]|].
        induction (tb_coeffs (rk_choice rk)); constructor; assumption.
      - cbn [sc_K]. apply K0_nonempty.
    Qed.
  End Run.
End RelTrace.
