(** Two runs in lockstep: if the building blocks preserve a relation, whole runs do. *)
From Coq Require Import ZArith List Bool Arith String Lia Reals Lra.
From Verif Require Import Num Py Lib LegNumpy Ext Basis Sensor Enhance Limiting
  Solution Solver RKCoeffs RK SpecTime ProofsTime SpecDG ProofsDG ProofsDG2 ProofsWf.
Import ListNotations.
Open Scope list_scope.
Open Scope nat_scope.

(** both succeed with related results, or both raise *)
Inductive res_rel {P Q : Type} (Rel : P -> Q -> Prop) : res P -> res Q -> Prop :=
| rr_ok x y : Rel x y -> res_rel Rel (Ok x) (Ok y)
| rr_raise e e' : res_rel Rel (Raise e) (Raise e').
Lemma res_rel_bind {P Q P' Q'} (R1 : P -> Q -> Prop) (R2 : P' -> Q' -> Prop) a b f g :
  res_rel R1 a b -> (forall x y, R1 x y -> res_rel R2 (f x) (g y)) -> res_rel R2 (rbind a f) (rbind b g).
Proof. intros H Hfg. destruct H; cbn [rbind]; [apply Hfg; assumption|constructor]. Qed.

(** outcomes *)
Inductive out_rel {A B : Type} (Rel : solution A -> solution B -> Prop) : outcome A -> outcome B -> Prop :=
| or_fin s s' : Rel s s' -> out_rel Rel (Finished s) (Finished s')
| or_fail e e' : out_rel Rel (Failed e) (Failed e')
| or_fuel : out_rel Rel OutOfFuel OutOfFuel.

Section Rel.
  Context {A : Type} {N : Num A} {L : Libm A}.
  Variables gamma : A.
  Implicit Types s : solution A.
  (** [Rs]: at the head of the time loop; [Rw]: inside a step; [RK]: increments *)
  Variables (Rs Rw : solution A -> solution A -> Prop) (RK : mat A -> mat A -> Prop).
  Variables (d : dg) (l : limiter (A:=A)).
  Hypothesis Hsw : forall s s', Rs s s' -> Rw s s'.
  Hypothesis Hcopy : forall s s' t t', Rw s s' -> Rw t t' -> Rw (copy_data_only s t) (copy_data_only s' t').
  Hypothesis Haxpy : forall s s' a K K', Rw s s' -> RK K K' -> Rw (smart_axpy s a K) (smart_axpy s' a K').
  Hypothesis Ht : forall s s' t, Rw s s' -> Rw (with_t s t) (with_t s' t).
  Hypothesis Htime : forall s s', Rw s s' -> s_t s = s_t s' /\ s_n s = s_n s'.
  Hypothesis Hlim : forall s s', Rw s s' -> res_rel Rw (limit gamma l s) (limit gamma l s').
  Hypothesis Hres : forall dt s s', Rw s s' ->
    res_rel (fun p p' => Rw (fst p) (fst p') /\ RK (mscale dt (snd p)) (mscale dt (snd p'))) (residual gamma d s) (residual gamma d s').
  Hypothesis Hn : forall s s' n, Rw s s' -> Rw (with_n s n) (with_n s' n).
  Hypothesis Hbc : forall s s', Rw s s' -> res_rel Rs (apply_bc s) (apply_bc s').
  Hypothesis Hlims : forall s s', Rs s s' -> res_rel Rs (limit gamma l s) (limit gamma l s').
  Hypothesis Hstep : forall s s' tout cfl tf, Rs s s' ->
    res_rel eq (get_next_time_step gamma s tout cfl tf) (get_next_time_step gamma s' tout cfl tf).
  Hypothesis Hprint : forall s s' k dt, Rs s s' ->
    res_rel (fun ev ev' => True) (printer k dt s) (printer k dt s').

  Definition Rsc (sc sc' : scratch A) : Prop := Rw (sc_us sc) (sc_us sc') /\ Rw (sc_uk sc) (sc_uk sc') /\ Forall2 RK (sc_K sc) (sc_K sc').

  Lemma fold_axpy_rel (bs : vec A) : forall (K K' : list (mat A)) s s', Rw s s' -> Forall2 RK K K' ->
    Rw (fold_left (fun uk bk => smart_axpy uk (fst bk) (snd bk)) (combine bs K) s)
       (fold_left (fun uk bk => smart_axpy uk (fst bk) (snd bk)) (combine bs K') s').
  Proof.
    induction bs as [|b bs IH]; intros K K' s s' Hs HK; [exact Hs|].
    destruct HK as [|k k' K K' H1 H2]; [exact Hs|]. cbn [combine fold_left fst snd]. apply IH; [apply Haxpy; assumption|assumption].
  Qed.
  Lemma Forall2_firstn {P Q} (R : P -> Q -> Prop) a b n : Forall2 R a b -> Forall2 R (firstn n a) (firstn n b).
  Proof. intro H. revert n. induction H; intros [|n]; cbn; constructor; auto. Qed.
  Lemma Forall2_skipn {P Q} (R : P -> Q -> Prop) a b n : Forall2 R a b -> Forall2 R (skipn n a) (skipn n b).
  Proof. intro H. revert n. induction H; intros [|n]; cbn; auto. Qed.
  Lemma Forall2_lset (K K' : list (mat A)) k x x' : Forall2 RK K K' -> RK x x' -> Forall2 RK (lset K k x) (lset K' k x').
  Proof. intros. unfold lset. apply Forall2_app; [apply Forall2_firstn; assumption|]. constructor; [assumption|apply Forall2_skipn; assumption]. Qed.

  Definition Rout (p p' : solution A * scratch A) : Prop := Rw (fst p) (fst p') /\ Rsc (snd p) (snd p').

  Lemma classic_rel betas dt cas : forall k sol sol' sc sc', Rw sol sol' -> Rsc sc sc' ->
    res_rel Rout (classic_stages gamma d l betas dt k cas sol sc) (classic_stages gamma d l betas dt k cas sol' sc').
  Proof.
    induction cas as [|[c a] cas IH]; intros k sol sol' sc sc' Hs Hsc.
    - constructor. split; assumption.
    - cbn [classic_stages]. destruct Hsc as [H1 [H2 H3]].
      eapply res_rel_bind with (R1 := Rw).
      + match goal with |- res_rel _ (if _ then limit _ _ ?u else _) (if _ then limit _ _ ?v else _) => assert (Hu : Rw u v) end.
        { assert (Hu1 : forall bs, Rw (fold_left (fun uk bk => smart_axpy uk (fst bk) (snd bk)) (combine bs (sc_K sc)) (copy_data_only (sc_uk sc) (sc_us sc)))
                  (fold_left (fun uk bk => smart_axpy uk (fst bk) (snd bk)) (combine bs (sc_K sc')) (copy_data_only (sc_uk sc') (sc_us sc')))).
          { intro bs. apply fold_axpy_rel; [apply Hcopy; assumption|assumption]. }
          specialize (Hu1 (firstn k (row betas k))). destruct (Htime _ _ Hu1) as [E _]. rewrite E. apply Ht. exact Hu1. }
        destruct (0 <? k); [apply Hlim; exact Hu|constructor; exact Hu].
      + intros x y Hxy. eapply res_rel_bind; [apply (Hres dt); exact Hxy|]. intros [u F] [u' F'] [Hu HF]. cbn [fst snd] in *.
        apply IH; [apply Haxpy; assumption|]. split; [exact H1|]. split; [exact Hu|]. apply Forall2_lset; assumption.
  Qed.
  Lemma low_storage_rel dt bgs : forall k sol sol' sc sc', Rw sol sol' -> Rsc sc sc' -> sc_K sc <> [] ->
    res_rel Rout (low_storage_stages gamma d l dt k bgs sol sc) (low_storage_stages gamma d l dt k bgs sol' sc').
  Proof.
    induction bgs as [|[b g] bgs IH]; intros k sol sol' sc sc' Hs Hsc HK.
    - constructor. split; assumption.
    - cbn [low_storage_stages]. destruct Hsc as [H1 [H2 H3]].
      eapply res_rel_bind with (R1 := Rw).
      + match goal with |- res_rel _ (if _ then limit _ _ ?u else _) (if _ then limit _ _ ?v else _) => assert (Hu : Rw u v) end.
        { assert (Hu1 : Rw (smart_axpy (copy_data_only (sc_uk sc) (sc_us sc)) b (hd [] (sc_K sc)))
                           (smart_axpy (copy_data_only (sc_uk sc') (sc_us sc')) b (hd [] (sc_K sc')))).
          { apply Haxpy; [apply Hcopy; assumption|]. destruct H3; [contradiction|]. assumption. }
          destruct (Htime _ _ Hu1) as [E _]. rewrite E. apply Ht. exact Hu1. }
        destruct (0 <? k); [apply Hlim; exact Hu|constructor; exact Hu].
      + intros x y Hxy. eapply res_rel_bind; [apply (Hres dt); exact Hxy|]. intros [u F] [u' F'] [Hu HF]. cbn [fst snd] in *.
        apply IH; [apply Haxpy; assumption| |discriminate]. split; [exact H1|]. split; [exact Hu|]. constructor; [exact HF|constructor].
  Qed.
  Lemma inner_rel rk dt sol sol' sc sc' : Rw sol sol' -> Rsc sc sc' -> sc_K sc <> [] ->
    res_rel Rout (rk_inner gamma rk d l dt sol sc) (rk_inner gamma rk d l dt sol' sc').
  Proof.
    intros. unfold rk_inner. destruct (String.eqb rk "low_storage_rk4").
    - apply low_storage_rel; assumption.
    - apply classic_rel; assumption.
  Qed.
  Lemma inner_nonempty rk dt sol sc sol1 sc1 : sc_K sc <> [] -> rk_inner gamma rk d l dt sol sc = Ok (sol1, sc1) -> sc_K sc1 <> [].
  Proof.
    intros HK H. assert (I : forall s : solution A, True) by auto.
    eapply (inner_inv gamma (fun _ => True) (fun _ => True) (fun _ => True) (fun _ => True) d l) in H; try exact HK; auto.
    - apply H.
    - split; auto. split; auto. apply Forall_forall. auto.
  Qed.
  Definition Rtop (p p' : solution A * scratch A * (A * bool * bool)) : Prop :=
    Rs (fst (fst p)) (fst (fst p')) /\ Rsc (snd (fst p)) (snd (fst p')) /\ snd p = snd p' /\ sc_K (snd (fst p)) <> [].
  Lemma step_rel rk cfl tf tout s s' sc sc' : Rs s s' -> Rsc sc sc' -> sc_K sc <> [] ->
    res_rel Rtop (time_step gamma (rk_inner gamma rk d l) l cfl tf tout s sc) (time_step gamma (rk_inner gamma rk d l) l cfl tf tout s' sc').
  Proof.
    intros Hs Hsc HK. unfold time_step.
    eapply res_rel_bind; [apply Hstep; exact Hs|]. intros [[dt o] dn] r <-.
    assert (Hi : res_rel Rout (rk_inner gamma rk d l dt s (set_us sc s)) (rk_inner gamma rk d l dt s' (set_us sc' s'))).
    { apply inner_rel; [apply Hsw; exact Hs| |exact HK]. destruct Hsc as [H1 [H2 H3]]. split; [apply Hcopy; [assumption|apply Hsw; assumption]|split; assumption]. }
    destruct (rk_inner gamma rk d l dt s (set_us sc s)) as [[s1 sc1]|e] eqn:E1.
    2: { inversion Hi; subst. cbn. constructor. }
    inversion Hi as [x y Hxy Ex Ey|]; subst. destruct y as [s1' sc1']. cbn [rbind].
    destruct Hxy as [H1 H2]. cbn [fst snd] in *.
    assert (HK1 : sc_K sc1 <> []) by (eapply inner_nonempty; [|exact E1]; exact HK).
    destruct (Htime _ _ H1) as [Et En]. rewrite Et, En.
    eapply res_rel_bind; [apply Hbc; apply Hn; apply Ht; exact H1|]. intros s2 s2' H3.
    eapply res_rel_bind; [apply Hlims; exact H3|]. intros s3 s3' H4. constructor. split; [exact H4|]. split; [exact H2|]. split; [reflexivity|exact HK1].
  Qed.
  Definition Rev (ev ev' : event A) : Prop := ev_nout ev = ev_nout ev' /\ ev_dt ev = ev_dt ev' /\ Rs (ev_sol ev) (ev_sol ev').
  Lemma loop_rel rk cfl tf : forall fuel k tout touts s s' sc sc' evs evs', Rs s s' -> Rsc sc sc' -> sc_K sc <> [] -> Forall2 Rev evs evs' ->
    let r := time_loop gamma (rk_inner gamma rk d l) l cfl tf fuel k tout touts s sc evs in
    let r' := time_loop gamma (rk_inner gamma rk d l) l cfl tf fuel k tout touts s' sc' evs' in
    Forall2 Rev (fst r) (fst r') /\ out_rel Rs (snd r) (snd r').
  Proof.
    induction fuel as [|fuel IH]; intros k tout touts s s' sc sc' evs evs' Hs Hsc HK He; cbn zeta.
    - split; [exact He|constructor].
    - cbn [time_loop]. pose proof (step_rel rk cfl tf tout s s' sc sc' Hs Hsc HK) as Hst.
      destruct Hst as [[[s1 sc1] [[dt o] dn]] [[s1' sc1'] r'] H|e e'].
      2: { split; [exact He|constructor]. }
      destruct H as [H1 [H2 [H3 H4]]]. cbn [fst snd] in *. subst r'.
      destruct o.
      + pose proof (Hprint _ _ k dt H1) as Hp.
        destruct (printer k dt s1) as [ev|e] eqn:E1; destruct (printer k dt s1') as [ev'|e'] eqn:E2; inversion Hp; subst.
        2: { split; [exact He|constructor]. }
        apply printer_Ok in E1. apply printer_Ok in E2.
        assert (Hev : Forall2 Rev (evs ++ [ev]) (evs' ++ [ev'])).
        { apply Forall2_app; [exact He|]. constructor; [|constructor]. subst. repeat split. exact H1. }
        destruct dn; [split; [exact Hev|constructor; exact H1]|].
        destruct touts as [|tout' touts]; [split; [exact Hev|constructor]|]. apply IH; assumption.
      + destruct dn; [split; [exact He|constructor; exact H1]|]. apply IH; assumption.
  Qed.
  Lemma integrate_rel rk cfl tf nout fuel sol sol' : Rs sol sol' ->
    RK (zeros2 (nrows (s_u sol)) (ncols (s_u sol))) (zeros2 (nrows (s_u sol')) (ncols (s_u sol'))) ->
    let r := integrate gamma rk d l cfl tf nout fuel sol in
    let r' := integrate gamma rk d l cfl tf nout fuel sol' in
    Forall2 Rev (fst r) (fst r') /\ out_rel Rs (snd r) (snd r').
  Proof.
    intros Hs HK. cbn zeta. rewrite !integrate_run_rk. unfold run_rk.
    destruct (nout <? 0)%Z; [split; constructor|]. destruct (Htime _ _ (Hsw _ _ Hs)) as [Et _]. rewrite <- Et.
    pose proof (Hprint _ _ 0 n0 Hs) as Hp.
    destruct (printer 0 n0 sol) as [ev|e] eqn:E1; destruct (printer 0 n0 sol') as [ev'|e'] eqn:E2; inversion Hp; subst.
    2: { split; [constructor|constructor]. }
    apply printer_Ok in E1. apply printer_Ok in E2.
    assert (Hev : Forall2 Rev [ev] [ev']). { constructor; [|constructor]. subst. repeat split. exact Hs. }
    destruct (slice_from _ _) as [|tout touts]; [split; [exact Hev|constructor]|].
    apply loop_rel; try assumption.
    - split; [apply Hsw; exact Hs|]. split; [apply Hsw; exact Hs|]. cbn [sc_K]. unfold rk_K0.
      destruct (String.eqb rk "low_storage_rk4"); [constructor; [exact HK|constructor]|].
      induction (tb_coeffs (rk_choice rk)); constructor; assumption.
    - cbn [sc_K]. apply K0_nonempty.
  Qed.
End Rel.
