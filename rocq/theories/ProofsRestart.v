(** Continuing a run from one of its snapshots (C93). *)
From Coq Require Import ZArith List Bool Arith String Lia Reals Lra SpecFloat.
From Verif Require Import Num Py PyStr Lib RealLib LegNumpy Ext Basis Sensor Enhance Limiting Solution Solver RKCoeffs RK SpecTime SpecDG SpecRestart
  ProofsTime ProofsTime2 ProofsDG ProofsWf.
Import ListNotations.
Open Scope list_scope.
Open Scope nat_scope.

(** both calls succeed with related results, or both raise the same exception *)
Inductive both {P Q} (R : P -> Q -> Prop) : res P -> res Q -> Prop :=
| both_Ok x y : R x y -> both R (Ok x) (Ok y)
| both_Raise e : both R (Raise e) (Raise e).
Lemma both_bind {P Q P' Q'} (R1 : P -> Q -> Prop) (R2 : P' -> Q' -> Prop) a b f g :
  both R1 a b -> (forall x y, R1 x y -> both R2 (f x) (g y)) -> both R2 (rbind a f) (rbind b g).
Proof. intros [x y H|e] F; cbn [rbind]; [apply F; exact H|constructor]. Qed.

Section Restart.
  Context {A : Type} {N : Num A} {L : Libm A}.
  Variable gamma : A.
  Implicit Types s : solution A.
  Hypothesis skip0 : nltb (lit 1 1000000000000000) (nabs (n0 : A)) = false.

  (** what the stages of a step can see of a solution: everything but time, step count and which sensors are on *)
  Definition blank (o : option (sensor A)) : option (sensor A) :=
    match o with None => None | Some sn => Some {| sn_thresholds := sn_thresholds sn; sn_sensors := map (fun _ => 0%Z) (sn_sensors sn) |} end.
  Definition core s : solution A := with_sens (with_n (with_t s n0) 0) (blank (s_sens s)).
  Definition W s s' : Prop := core s = core s'.
  (** the same, leaving the coefficients out too *)
  Definition V s s' : Prop := with_u (core s) [] = with_u (core s') [].
  Ltac unW := unfold W, V, core, copy_data_only, with_u, with_sens, with_n, with_t in *; cbn -[blank] in *.
  Lemma W_V s s' : W s s' -> V s s'. Proof. unfold W, V. intros ->. reflexivity. Qed.
  Lemma copy_W s s' t : V s s' -> W (copy_data_only s t) (copy_data_only s' t).
  Proof. destruct s, s'. intro H. cbv -[blank n0] in H |- *. injection H; intros; subst. congruence. Qed.
  Lemma copy_W2 s s' t t' : V s s' -> W t t' -> W (copy_data_only s t) (copy_data_only s' t').
  Proof.
    intros H E. assert (Eu : s_u t = s_u t') by (change (s_u (core t) = s_u (core t')); rewrite E; reflexivity).
    unfold copy_data_only. rewrite Eu. apply (copy_W s s' t'). exact H.
  Qed.
  Lemma axpy_W s s' a K : W s s' -> W (smart_axpy s a K) (smart_axpy s' a K).
  Proof.
    intro E. assert (Eu : s_u s = s_u s') by (change (s_u (core s) = s_u (core s')); rewrite E; reflexivity).
    unfold smart_axpy. rewrite Eu. change (W (copy_data_only s (with_u s (axpy_mat (s_u s') a K))) (copy_data_only s' (with_u s (axpy_mat (s_u s') a K)))).
    apply copy_W, W_V. exact E.
  Qed.
  Lemma fold_axpy_W bs : forall s s', W s s' ->
    W (fold_left (fun uk (bk : A * mat A) => smart_axpy uk (fst bk) (snd bk)) bs s) (fold_left (fun uk (bk : A * mat A) => smart_axpy uk (fst bk) (snd bk)) bs s').
  Proof. induction bs as [|b bs IH]; intros s s' H; [exact H|]. cbn [fold_left]. apply IH, axpy_W, H. Qed.
  Lemma t_W s s' t t' : W s s' -> W (with_t s t) (with_t s' t'). Proof. intro H. exact H. Qed.

  Lemma bc_W s s' : W s s' -> both W (apply_bc s) (apply_bc s').
  Proof.
    intro H. destruct s, s'. unW. injection H; intros; subst. unfold apply_bc, s_NF. cbn -[blank].
    destruct (mapM _ _); cbn -[blank]; constructor. unW. congruence.
  Qed.
  Lemma residual_W d s s' : W s s' -> both (fun p q => W (fst p) (fst q) /\ snd p = snd q) (residual gamma d s) (residual gamma d s').
  Proof.
    intro H. unfold residual. eapply both_bind; [apply bc_W; exact H|]. clear s s' H. intros s s' H. pose proof H as H0.
    destruct s, s'. unfold W, core, with_sens, with_n, with_t in H. cbn -[blank] in H. injection H; intros; subst.
    unfold collocate, evaluate_faces, riemann, interior_flux, s_NF. cbn.
    match goal with |- context [rbind ?x _] => destruct x; cbn [rbind]; [|constructor] end.
    match goal with |- context [rbind ?x _] => destruct x; cbn [rbind]; [|constructor] end.
    match goal with |- context [rbind ?x _] => destruct x; cbn [rbind]; [|constructor] end.
    match goal with |- context [rbind ?x _] => destruct x; cbn [rbind]; [|constructor] end.
    constructor. split; [exact H0|reflexivity].
  Qed.
  Lemma mapM_ext_in {P Q} (f g : P -> res Q) xs : (forall x, In x xs -> f x = g x) -> mapM f xs = mapM g xs.
  Proof.
    induction xs as [|x xs IH]; intro H; [reflexivity|]. cbn. rewrite (H x (or_introl eq_refl)), IH; [reflexivity|]. intros y Hy. apply H. right. exact Hy.
  Qed.
  Lemma limit_W l s s' : W s s' -> both W (limit gamma l s) (limit gamma l s').
  Proof.
    intro H. destruct l as [h|]; [|constructor; exact H]. cbn [limit]. unfold adaptive_hr.
    destruct s, s'. unfold W, core, with_sens, with_n, with_t in H. cbn -[blank] in H. injection H; intros; subst. cbn.
    destruct s_sens as [sn|], s_sens0 as [sn'|]; cbn in *; try discriminate; [|constructor].
    unfold sensing. match goal with E : Some _ = Some _ |- _ => injection E as E1 E2 end. rewrite E1, E2. unfold s_NF. cbn.
    match goal with |- context [rbind (rbind ?x _) _] => destruct x as [q|]; cbn [rbind]; [|constructor] end.
    cbn [sn_sensors sn_thresholds].
    match goal with |- both _ (rbind (mapM ?f ?xs) _) (rbind (mapM ?g ?xs) _) => rewrite (mapM_ext_in f g xs) by reflexivity; destruct (mapM g xs); cbn [rbind]; [|constructor] end.
    apply bc_W. reflexivity.
  Qed.

  (** ** The stages do not see what earlier steps left in the work arrays *)
  Definition Vsc (sc sc' : scratch A) : Prop := V (sc_us sc) (sc_us sc') /\ V (sc_uk sc) (sc_uk sc').
  Definition Rin (p q : solution A * scratch A) : Prop := fst p = fst q /\ Vsc (snd p) (snd q).
  Lemma combine_firstn_r {P Q} (a : list P) (b : list Q) k : combine (firstn k a) b = combine (firstn k a) (firstn k b).
  Proof.
    revert a b. induction k as [|k IH]; intros a b; [reflexivity|]. destruct a as [|x a]; [reflexivity|]. destruct b as [|y b]; [reflexivity|].
    cbn. f_equal. apply IH.
  Qed.
  Lemma firstn_lset {P} (x : list P) k y : k <= List.length x -> firstn (S k) (lset x k y) = firstn k x ++ [y].
  Proof.
    intro H. unfold lset. rewrite app_assoc. rewrite firstn_app. rewrite firstn_all2; rewrite app_length, firstn_length_le by exact H; cbn [List.length]; [|lia].
    replace (S k - (k + 1)) with 0 by lia. rewrite firstn_O. apply app_nil_r.
  Qed.
  Lemma length_lset {P} (x : list P) k y : k <= List.length x -> S k <= List.length (lset x k y).
  Proof. intro H. unfold lset. rewrite !app_length, firstn_length_le by exact H. cbn. lia. Qed.
  Lemma classic_W d l betas dt cas : forall k sol sc sc', W (sc_us sc) (sc_us sc') -> V (sc_uk sc) (sc_uk sc') ->
    k <= List.length (sc_K sc) -> k <= List.length (sc_K sc') -> firstn k (sc_K sc) = firstn k (sc_K sc') ->
    both Rin (classic_stages gamma d l betas dt k cas sol sc) (classic_stages gamma d l betas dt k cas sol sc').
  Proof.
    induction cas as [|[c a] cas IH]; intros k sol sc sc' Hus Huk HK HK' E; cbn [classic_stages].
    - constructor. split; [reflexivity|]. split; [apply W_V; exact Hus|exact Huk].
    - rewrite (combine_firstn_r (row betas k) (sc_K sc)), (combine_firstn_r (row betas k) (sc_K sc')), E.
      eapply both_bind with (R1 := W).
      { destruct (0 <? k); [apply limit_W|constructor]; apply t_W, fold_axpy_W, copy_W2; assumption. }
      intros u u' Hu. eapply both_bind; [apply residual_W; exact Hu|]. intros [v F] [v' F'] [H1 H2]. cbn [fst snd] in H1, H2. subst F'.
      apply IH; cbn [sc_us sc_uk sc_K]; [exact Hus|apply W_V; exact H1|apply length_lset; exact HK|apply length_lset; exact HK'|].
      rewrite !firstn_lset by assumption. rewrite E. reflexivity.
  Qed.
  Lemma ls_W d l dt bgs : forall k sol sc sc', W (sc_us sc) (sc_us sc') -> V (sc_uk sc) (sc_uk sc') ->
    (hd [] (sc_K sc) = hd [] (sc_K sc') \/ (exists g rest, bgs = (n0, g) :: rest)) ->
    both Rin (low_storage_stages gamma d l dt k bgs sol sc) (low_storage_stages gamma d l dt k bgs sol sc').
  Proof.
    induction bgs as [|[b g] bgs IH]; intros k sol sc sc' Hus Huk HK; cbn [low_storage_stages].
    - constructor. split; [reflexivity|]. split; [apply W_V; exact Hus|exact Huk].
    - assert (Hx : W (smart_axpy (copy_data_only (sc_uk sc) (sc_us sc)) b (hd [] (sc_K sc))) (smart_axpy (copy_data_only (sc_uk sc') (sc_us sc')) b (hd [] (sc_K sc')))).
      { destruct HK as [E|[g' [rest E]]].
        - rewrite E. apply axpy_W, copy_W2; assumption.
        - injection E as -> _ _. unfold smart_axpy at 1 2, axpy_mat. rewrite skip0. pose proof (copy_W2 _ _ _ _ Huk Hus) as C.
          destruct (copy_data_only (sc_uk sc) (sc_us sc)), (copy_data_only (sc_uk sc') (sc_us sc')). exact C. }
      eapply both_bind with (R1 := W).
      { destruct (0 <? k); [apply limit_W|constructor]; apply t_W; exact Hx. }
      intros u u' Hu. eapply both_bind; [apply residual_W; exact Hu|]. intros [v F] [v' F'] [H1 H2]. cbn [fst snd] in H1, H2. subst F'.
      apply IH; cbn [sc_us sc_uk sc_K]; [exact Hus|apply W_V; exact H1|left; reflexivity].
  Qed.
  Lemma inner_W rk d l dt sol sc sc' : W (sc_us sc) (sc_us sc') -> V (sc_uk sc) (sc_uk sc') ->
    both Rin (rk_inner gamma rk d l dt sol sc) (rk_inner gamma rk d l dt sol sc').
  Proof.
    intros H1 H2. unfold rk_inner. destruct (String.eqb rk "low_storage_rk4").
    - apply ls_W; [assumption|assumption|]. right. do 2 eexists. reflexivity.
    - apply classic_W; [assumption|assumption|lia|lia|reflexivity].
  Qed.
  Definition Rst (p q : solution A * scratch A * (A * bool * bool)) : Prop :=
    fst (fst p) = fst (fst q) /\ Vsc (snd (fst p)) (snd (fst q)) /\ snd p = snd q.
  Lemma step_W rk d l cfl tf tout s sc sc' : Vsc sc sc' ->
    both Rst (time_step gamma (rk_inner gamma rk d l) l cfl tf tout s sc) (time_step gamma (rk_inner gamma rk d l) l cfl tf tout s sc').
  Proof.
    intros [H1 H2]. unfold time_step. destruct (get_next_time_step gamma s tout cfl tf) as [[[dt o] dn]|e]; cbn [rbind]; [|constructor].
    eapply both_bind; [apply inner_W; [apply copy_W; exact H1|exact H2]|]. intros [s1 sc1] [s1' sc1'] [E Hs]. cbn [fst snd] in E, Hs. subst s1'.
    destruct (apply_bc _) as [s2|e]; cbn [rbind]; [|constructor]. destruct (limit gamma l s2) as [s3|e]; cbn [rbind]; [|constructor].
    constructor. split; [reflexivity|]. split; [exact Hs|reflexivity].
  Qed.
  Lemma loop_W rk d l cfl tf : forall fuel k tout touts s sc sc' evs, Vsc sc sc' ->
    time_loop gamma (rk_inner gamma rk d l) l cfl tf fuel k tout touts s sc evs = time_loop gamma (rk_inner gamma rk d l) l cfl tf fuel k tout touts s sc' evs.
  Proof.
    induction fuel as [|fuel IH]; intros k tout touts s sc sc' evs H; [reflexivity|]. cbn [time_loop].
    destruct (step_W rk d l cfl tf tout s sc sc' H) as [[[s1 sc1] r] [[s1' sc1'] r'] [E [Hs Er]]|e]; [|reflexivity].
    cbn [fst snd] in E, Hs, Er. subst s1' r'. destruct r as [[dt o] dn]. destruct o; [|destruct dn; [reflexivity|apply IH; exact Hs]].
    destruct (printer k dt s1) as [ev|e]; [|reflexivity]. destruct dn; [reflexivity|]. destruct touts; [reflexivity|]. apply IH; exact Hs.
  Qed.

  (** ** Every state of a run looks the same up to time, coefficients and sensors *)
  Lemma V_trans s1 s2 s3 : V s1 s2 -> V s2 s3 -> V s1 s3. Proof. unfold V. congruence. Qed.
  Lemma V_sym s1 s2 : V s1 s2 -> V s2 s1. Proof. unfold V. congruence. Qed.
  Lemma bc_V s s' : apply_bc s = Ok s' -> V s s'.
  Proof. unfold apply_bc. intro H. inv_bind H. apply Ok_inj in H. subst s'. reflexivity. Qed.
  Lemma blank_sensing eu sn sn' u NF : sensing gamma eu sn u NF = Ok sn' -> blank (Some sn) = blank (Some sn').
  Proof.
    intro H. pose proof (length_sensing _ _ _ _ _ _ H) as E. unfold sensing in H. inv_bind H. apply Ok_inj in H. subst sn'. cbn [blank sn_thresholds sn_sensors] in *.
    f_equal. f_equal. clear Hx. revert x E. induction (sn_sensors sn) as [|a m IH]; intros [|b x] E; cbn in E; try discriminate; [reflexivity|]. cbn. f_equal. apply IH. lia.
  Qed.
  Lemma sens_V s sn u : blank (s_sens s) = blank sn -> V s (with_u (with_sens s sn) u).
  Proof. intro E. destruct s. cbv -[blank n0] in E |- *. rewrite E. reflexivity. Qed.
  Lemma limit_V l s s' : limit gamma l s = Ok s' -> V s s'.
  Proof.
    destruct l as [h|]; cbn [limit]; intro H; [|apply Ok_inj in H; subst; reflexivity]. unfold adaptive_hr in H.
    destruct (s_sens s) as [sn|] eqn:E; [|discriminate]. inv_bind H. inv_bind H. apply bc_V in H. eapply V_trans; [|exact H].
    apply sens_V. rewrite E. exact (blank_sensing _ _ _ _ _ Hx).
  Qed.
  Lemma visits_V rk d l cfl tf nout sol0 k tout touts s sc evs : visits gamma rk d l cfl tf nout sol0 k tout touts s sc evs ->
    V sol0 s /\ V sol0 (sc_us sc) /\ V sol0 (sc_uk sc).
  Proof.
    intro H. destruct (ProofsWf.visits_inv gamma (V sol0) (V sol0) (fun _ => True) (fun _ => True) d l) with (rk := rk) (cfl := cfl) (tf := tf) (nout := nout) (sol0 := sol0) (k := k) (tout := tout) (touts := touts) (s := s) (sc := sc) (evs := evs) as [H1 [[H2 [H3 _]] _]]; auto; try reflexivity; intros;
      repeat match goal with Hv : V sol0 ?x |- V sol0 _ => exact Hv end.
    - eapply V_trans; [eassumption|eapply limit_V; eassumption].
    - split; [|exact I]. eapply V_trans; [eassumption|]. apply bc_V. match goal with E : residual _ _ _ = _ |- _ => unfold residual in E; inv_bind E; inv_bind E; inv_bind E; inv_bind E; inv_bind E; apply Ok_inj in E; injection E as <- _ end. assumption.
    - eapply V_trans; [eassumption|eapply bc_V; eassumption].
    - eapply V_trans; [eassumption|eapply limit_V; eassumption].
  Qed.
  (** the work arrays a run starts with *)
  Definition clean (rk : string) s : scratch A := {| sc_us := s; sc_uk := s; sc_K := rk_K0 rk s |}.
  (** the rest of a run depends on the current solution only *)
  Lemma memoryless rk d l cfl tf nout sol0 k tout touts s sc evs : visits gamma rk d l cfl tf nout sol0 k tout touts s sc evs ->
    forall cfl' tf' fuel k' tout' touts' evs',
    time_loop gamma (rk_inner gamma rk d l) l cfl' tf' fuel k' tout' touts' s sc evs' = time_loop gamma (rk_inner gamma rk d l) l cfl' tf' fuel k' tout' touts' s (clean rk s) evs'.
  Proof.
    intros H *. destruct (visits_V _ _ _ _ _ _ _ _ _ _ _ _ _ H) as [H1 [H2 H3]]. apply loop_W. split; cbn [sc_us sc_uk clean]; eapply V_trans; [apply V_sym; eassumption|assumption|apply V_sym; eassumption|assumption].
  Qed.

  (** ** Snapshots and the loop *)
  Lemma printer_ev k (dt : A) s ev : printer k dt s = Ok ev -> ev_nout ev = k /\ ev_dt ev = dt /\ ev_sol ev = s.
  Proof. intro H. apply printer_Ok in H. subst ev. auto. Qed.
  Lemma visits_snap rk d l cfl tf nout sol0 k tout touts s sc evs : visits gamma rk d l cfl tf nout sol0 k tout touts s sc evs ->
    List.length evs = k /\ forall i ev, nth_error evs i = Some ev ->
    ev_nout ev = i /\ exists tout' touts' sc', visits gamma rk d l cfl tf nout sol0 (S i) tout' touts' (ev_sol ev) sc' (firstn (S i) evs).
  Proof.
    induction 1 as [ev tout touts Hp Hs|k tout touts s sc evs s' sc' dt Hv IH Hs|k tout tout' touts s sc evs s' sc' dt ev Hv [IHl IH] Hs Hp]; [|exact IH|].
    - split; [reflexivity|]. intros i ev' Hi. destruct i as [|[|i]]; [|discriminate|discriminate]. injection Hi as <-. destruct (printer_ev _ _ _ _ Hp) as [En [_ Es]]. rewrite En, Es.
      split; [reflexivity|]. cbn [firstn]. do 3 eexists. constructor; [exact Hp|exact Hs].
    - split; [rewrite app_length; cbn; lia|]. intros i ev' Hi. destruct (lt_dec i k) as [Hlt|Hge].
      + rewrite nth_error_app1 in Hi by lia. destruct (IH _ _ Hi) as [E1 [t1 [t2 [sc1 E2]]]]. split; [exact E1|]. exists t1, t2, sc1.
        rewrite firstn_app. replace (S i - List.length evs) with 0 by lia. rewrite firstn_O, app_nil_r. exact E2.
      + rewrite nth_error_app2 in Hi by lia. destruct (i - List.length evs) as [|m] eqn:Em; [|destruct m; discriminate]. injection Hi as <-.
        assert (i = k) by lia. subst i. destruct (printer_ev _ _ _ _ Hp) as [En [_ Es]]. rewrite En, Es. split; [reflexivity|].
        rewrite firstn_all2 by (rewrite app_length; cbn; lia). replace (S k) with (k + 1) by lia. do 3 eexists. econstructor; eassumption.
  Qed.
  (** a run that stopped: every snapshot but the last is a state the loop was entered with *)
  Lemma loop_visits rk d l cfl tf nout sol0 : forall fuel k tout touts s sc evs0 evs out,
    visits gamma rk d l cfl tf nout sol0 k tout touts s sc evs0 ->
    time_loop gamma (rk_inner gamma rk d l) l cfl tf fuel k tout touts s sc evs0 = (evs, out) ->
    exists k' tout' touts' s' sc' evs', visits gamma rk d l cfl tf nout sol0 k' tout' touts' s' sc' evs' /\ (evs = evs' \/ exists ev, evs = evs' ++ [ev]).
  Proof.
    induction fuel as [|fuel IH]; intros k tout touts s sc evs0 evs out Hv H; cbn [time_loop] in H.
    - injection H as <- _. do 6 eexists. split; [exact Hv|]. left. reflexivity.
    - destruct (time_step _ _ _ _ _ _ _ _) as [[[s1 sc1] [[dt o] dn]]|e] eqn:Es.
      2: { injection H as <- _. do 6 eexists. split; [exact Hv|]. left. reflexivity. }
      destruct o.
      + destruct (printer k dt s1) as [ev|e] eqn:Ep.
        2: { injection H as <- _. do 6 eexists. split; [exact Hv|]. left. reflexivity. }
        destruct dn; [injection H as <- _; do 6 eexists; split; [exact Hv|]; right; eexists; reflexivity|].
        destruct touts as [|t ts]; [injection H as <- _; do 6 eexists; split; [exact Hv|]; right; eexists; reflexivity|].
        eapply IH; [|exact H]. econstructor; eassumption.
      + destruct dn; [injection H as <- _; do 6 eexists; split; [exact Hv|]; left; reflexivity|].
        eapply IH; [|exact H]. econstructor; eassumption.
  Qed.
  Lemma snapshot_visited rk d l cfl tf nout fuel sol0 evs out k ev : (0 <= nout)%Z -> integrate gamma rk d l cfl tf nout fuel sol0 = (evs, out) ->
    S k < List.length evs -> nth_error evs k = Some ev ->
    ev_nout ev = k /\ exists tout touts sc, visits gamma rk d l cfl tf nout sol0 (S k) tout touts (ev_sol ev) sc (firstn (S k) evs).
  Proof.
    intros Hn H Hk Hev. rewrite integrate_run_rk in H. unfold run_rk in H. destruct (Z.ltb_spec nout 0); [lia|].
    destruct (printer 0 n0 sol0) as [ev0|e] eqn:Ep; [|injection H as <- _; cbn in Hk; lia].
    destruct (slice_from _ _) as [|tout touts] eqn:El; [injection H as <- _; cbn in Hk; lia|].
    eapply loop_visits in H; [|constructor; eassumption].
    destruct H as [k' [t' [ts' [s' [sc' [evs' [Hv Hc]]]]]]]. destruct (visits_snap _ _ _ _ _ _ _ _ _ _ _ _ _ Hv) as [Hl Hi].
    assert (E : nth_error evs' k = Some ev /\ firstn (S k) evs = firstn (S k) evs').
    { destruct Hc as [->|[e' ->]]; [auto|]. rewrite app_length in Hk. cbn in Hk. rewrite nth_error_app1 in Hev by lia. split; [exact Hev|].
      rewrite firstn_app. replace (S k - List.length evs') with 0 by lia. rewrite firstn_O, app_nil_r. reflexivity. }
    destruct E as [E1 E2]. rewrite E2. apply Hi. exact E1.
  Qed.
  Lemma printer_any j (k : nat) (dt : A) s : match printer j dt s with
    | Raise e => printer k dt s = Raise e
    | Ok _ => printer k dt s = Ok {| ev_nout := k; ev_dt := dt; ev_sol := s |} end.
  Proof. unfold printer. destruct (negb _); [reflexivity|]. destruct (s_sens s); [|reflexivity]. destruct (negb _); [reflexivity|]. destruct (Nat.eqb _ _); reflexivity. Qed.
  Lemma printer_dt j (k : nat) (dt dt' : A) s ev : printer j dt s = Ok ev -> printer k dt' s = Ok {| ev_nout := k; ev_dt := dt'; ev_sol := s |}.
  Proof. unfold printer. destruct (negb _); [discriminate|]. destruct (s_sens s); [|reflexivity]. destruct (negb _); [discriminate|]. destruct (Nat.eqb _ _); [discriminate|reflexivity]. Qed.
  Lemma visits_printer rk d l cfl tf nout sol0 k tout touts s sc evs : visits gamma rk d l cfl tf nout sol0 k tout touts s sc evs ->
    forall ev, In ev evs -> exists j dt, printer j dt (ev_sol ev) = Ok ev.
  Proof.
    induction 1 as [ev tout touts Hp Hs|k tout touts s sc evs s' sc' dt Hv IH Hs|k tout tout' touts s sc evs s' sc' dt ev Hv IH Hs Hp]; [|exact IH|].
    - intros e [<-|[]]. exists 0, n0. destruct (printer_ev _ _ _ _ Hp) as [_ [_ ->]]. exact Hp.
    - intros e He. apply in_app_or in He. destruct He as [He|[<-|[]]]; [apply IH; exact He|]. exists k, dt. destruct (printer_ev _ _ _ _ Hp) as [_ [_ ->]]. exact Hp.
  Qed.
  Lemma loop_shift inner l cfl tf m : forall fuel j tout touts s sc evs evs',
    exists new o, time_loop gamma inner l cfl tf fuel (j + m) tout touts s sc evs = (evs ++ new, o) /\
                  time_loop gamma inner l cfl tf fuel j tout touts s sc evs' = (evs' ++ map (renumbered m) new, o).
  Proof.
    induction fuel as [|fuel IH]; intros j tout touts s sc evs evs'; cbn [time_loop]; [exists [], OutOfFuel; cbn; rewrite !app_nil_r; auto|].
    destruct (time_step _ _ _ _ _ _ _ _) as [[[s1 sc1] [[dt o] dn]]|e]; [|exists [], (Failed e); cbn; rewrite !app_nil_r; auto].
    destruct o.
    - pose proof (printer_any (j + m) j dt s1) as Hp. destruct (printer (j + m) dt s1) as [ev|e] eqn:E; rewrite Hp; [|exists [], (Failed e); cbn; rewrite !app_nil_r; auto].
      pose proof (printer_Ok _ _ _ _ E) as Ee. assert (R : renumbered m ev = {| ev_nout := j; ev_dt := dt; ev_sol := s1 |}).
      { rewrite Ee. unfold renumbered. cbn. replace (j + m - m) with j by lia. reflexivity. }
      rewrite <- R. destruct dn; [exists [ev], (Finished s1); auto|]. destruct touts as [|t ts]; [exists [ev], (Failed StopIteration); auto|].
      replace (j + m + 1) with (j + 1 + m) by lia. destruct (IH (j + 1) t ts s1 sc1 (evs ++ [ev]) (evs' ++ [renumbered m ev])) as [new [o [E1 E2]]].
      exists (ev :: new), o. rewrite E1, E2. rewrite <- !app_assoc. auto.
    - destruct dn; [exists [], (Finished s1); cbn; rewrite !app_nil_r; auto|]. apply IH.
  Qed.
  Lemma loop_mono inner l cfl tf : forall f1 f2 k tout touts s sc evs r o, f1 <= f2 ->
    time_loop gamma inner l cfl tf f1 k tout touts s sc evs = (r, o) -> o <> OutOfFuel -> time_loop gamma inner l cfl tf f2 k tout touts s sc evs = (r, o).
  Proof.
    induction f1 as [|f1 IH]; intros f2 k tout touts s sc evs r o Hle H Ho; [cbn in H; injection H as <- <-; contradiction|].
    destruct f2 as [|f2]; [lia|]. cbn [time_loop] in *. destruct (time_step _ _ _ _ _ _ _ _) as [[[s' sc'] [[dt out] dn]]|e]; [|exact H].
    destruct out.
    - destruct (printer k dt s'); [|exact H]. destruct dn; [exact H|]. destruct touts; [exact H|]. apply IH; [lia|exact H|exact Ho].
    - destruct dn; [exact H|]. apply IH; [lia|exact H|exact Ho].
  Qed.
  (** the run continued: same remaining output times, fresh work arrays *)
  Lemma restart_loop rk d l cfl tf nout fuel sol0 evs out k ev : (0 <= nout)%Z -> integrate gamma rk d l cfl tf nout fuel sol0 = (evs, out) -> out <> OutOfFuel ->
    S k < List.length evs -> nth_error evs k = Some ev ->
    exists tout touts sc, visits gamma rk d l cfl tf nout sol0 (S k) tout touts (ev_sol ev) sc (firstn (S k) evs) /\
      time_loop gamma (rk_inner gamma rk d l) l cfl tf fuel (1 + k) tout touts (ev_sol ev) (clean rk (ev_sol ev)) (firstn (S k) evs) = (evs, out) /\
      time_loop gamma (rk_inner gamma rk d l) l cfl tf fuel 1 tout touts (ev_sol ev) (clean rk (ev_sol ev)) [opening (ev_sol ev)]
        = (opening (ev_sol ev) :: map (renumbered k) (skipn (S k) evs), out).
  Proof.
    intros Hn H Ho Hk Hev. destruct (snapshot_visited _ _ _ _ _ _ _ _ _ _ _ _ Hn H Hk Hev) as [_ [tout [touts [sc Hv]]]].
    exists tout, touts, sc. split; [exact Hv|]. destruct (visits_loop gamma _ _ _ _ _ _ _ _ _ _ _ _ _ Hn Hv) as [m Hm]. specialize (Hm fuel).
    assert (Hf : integrate gamma rk d l cfl tf nout (m + fuel) sol0 = (evs, out)).
    { rewrite integrate_run_rk in H |- *. unfold run_rk in *. destruct (nout <? 0)%Z; [exact H|]. destruct (printer 0 n0 sol0); [|exact H].
      destruct (slice_from _ _); [exact H|]. eapply loop_mono; [|exact H|exact Ho]. lia. }
    rewrite Hf in Hm. symmetry in Hm. rewrite (memoryless _ _ _ _ _ _ _ _ _ _ _ _ _ Hv) in Hm. split; [exact Hm|].
    destruct (loop_shift (rk_inner gamma rk d l) l cfl tf k fuel 1 tout touts (ev_sol ev) (clean rk (ev_sol ev)) (firstn (S k) evs) [opening (ev_sol ev)]) as [new [o [E1 E2]]].
    change (1 + k) with (S k) in E1. rewrite E1 in Hm. injection Hm as Hm ->. rewrite E2. cbn [app]. do 3 f_equal.
    rewrite <- (firstn_skipn (S k) evs) in Hm at 2. apply app_inv_head in Hm. exact Hm.
  Qed.

  (** ** From one snapshot to the next *)
  Lemma visits_pending rk d l cfl tf nout sol0 k tout touts s sc evs : visits gamma rk d l cfl tf nout sol0 k tout touts s sc evs ->
    skipn k (linspace (s_t sol0) tf (Z.to_nat nout)) = tout :: touts.
  Proof.
    induction 1 as [ev tout touts Hp Hs|k tout touts s sc evs s' sc' dt Hv IH Hs|k tout tout' touts s sc evs s' sc' dt ev Hv IH Hs Hp]; [|exact IH|].
    - change 1%Z with (Z.of_nat 1) in Hs. rewrite slice_from_nat in Hs. exact Hs.
    - rewrite Nat.add_comm, <- skipn_skipn, IH. reflexivity.
  Qed.
  Lemma pending_at rk d l cfl tf nout sol0 k tout touts s sc evs : visits gamma rk d l cfl tf nout sol0 k tout touts s sc evs ->
    tout = at1 (linspace (s_t sol0) tf (Z.to_nat nout)) k.
  Proof.
    intro H. apply visits_pending in H. unfold at1. pose proof (nth_skipn' (linspace (s_t sol0) tf (Z.to_nat nout)) k 0 n0) as E.
    rewrite H, Nat.add_0_r in E. exact E.
  Qed.
  Lemma step_tf inner l cfl tf tout s sc s' sc' dt o : time_step gamma inner l cfl tf tout s sc = Ok (s', sc', (dt, o, false)) ->
    time_step gamma inner l cfl tout tout s sc = Ok (s', sc', (dt, o, o)).
  Proof.
    unfold time_step, get_next_time_step. intro H. inv_bind H. inv_bind Hx. rewrite Hx0. cbn [rbind]. inv_bind Hx. rewrite Hx1. cbn [rbind].
    apply Ok_inj in Hx. subst x. unfold adjust_for_output in *. destruct (nltb (nsub tf (s_t s)) x0).
    { inv_bind H. destruct x. inv_bind H. inv_bind H. discriminate. }
    destruct (nltb (nsub tout (s_t s)) x0).
    - inv_bind H. destruct x as [s1 sc1]. rewrite Hx. cbn [rbind]. inv_bind H. rewrite Hx2. cbn [rbind]. inv_bind H. rewrite Hx3. cbn [rbind]. injection H as <- <- <- <-. reflexivity.
    - inv_bind H. destruct x as [s1 sc1]. rewrite Hx. cbn [rbind]. inv_bind H. rewrite Hx2. cbn [rbind]. inv_bind H. rewrite Hx3. cbn [rbind]. injection H as <- <- <- <-. reflexivity.
  Qed.
  Lemma loop_prefix inner l cfl tf fuel j tout touts s sc evs r o :
    time_loop gamma inner l cfl tf fuel j tout touts s sc evs = (r, o) -> exists new, r = evs ++ new.
  Proof.
    destruct (loop_shift inner l cfl tf 0 fuel j tout touts s sc evs evs) as [new [o' [E _]]]. rewrite Nat.add_0_r in E. rewrite E. intro H. injection H as <- _. eauto.
  Qed.
  Lemma app_head2 {P} (a : list P) x y r : a ++ [x] = a ++ y :: r -> x = y /\ r = [].
  Proof. intro H. apply app_inv_head in H. injection H as -> <-. auto. Qed.
  Lemma loop_leg inner l cfl tf tout : forall fuel j touts s sc evs e1 e2 new o,
    time_loop gamma inner l cfl tf fuel j tout touts s sc evs = (evs ++ e1 :: e2 :: new, o) ->
    time_loop gamma inner l cfl tout fuel j tout [] s sc evs = (evs ++ [e1], Finished (ev_sol e1)).
  Proof.
    assert (Hno : forall (evs : list (event A)) x r, evs = evs ++ x :: r -> False).
    { intros evs x r E. apply (f_equal (@List.length _)) in E. rewrite app_length in E. cbn in E. lia. }
    induction fuel as [|fuel IH]; intros j touts s sc evs e1 e2 new o H; cbn [time_loop] in *; [injection H as E _; destruct (Hno _ _ _ E)|].
    destruct (time_step gamma inner l cfl tf tout s sc) as [[[s1 sc1] [[dt ou] dn]]|e] eqn:Es; [|injection H as E _; destruct (Hno _ _ _ E)].
    destruct ou.
    - destruct (printer j dt s1) as [ev|e] eqn:Ep; [|injection H as E _; destruct (Hno _ _ _ E)].
      destruct dn; [injection H as E _; apply app_head2 in E; destruct E; discriminate|].
      rewrite (step_tf _ _ _ _ _ _ _ _ _ _ _ Es), Ep.
      destruct touts as [|t ts]; [injection H as E _; apply app_head2 in E; destruct E; discriminate|].
      destruct (loop_prefix _ _ _ _ _ _ _ _ _ _ _ _ _ H) as [n' E]. rewrite <- app_assoc in E. apply app_inv_head in E. injection E as <- _.
      destruct (printer_ev _ _ _ _ Ep) as [_ [_ ->]]. reflexivity.
    - destruct dn; [injection H as E _; destruct (Hno _ _ _ E)|]. rewrite (step_tf _ _ _ _ _ _ _ _ _ _ _ Es). eapply IH. exact H.
  Qed.
  Lemma leg rk d l cfl tf nout fuel sol0 evs out k ev ev' : (0 <= nout)%Z -> integrate gamma rk d l cfl tf nout fuel sol0 = (evs, out) -> out <> OutOfFuel ->
    S (S k) < List.length evs -> nth_error evs k = Some ev -> nth_error evs (S k) = Some ev' ->
    integrate gamma rk d l cfl (at1 (linspace (s_t sol0) tf (Z.to_nat nout)) (S k)) 2 fuel (ev_sol ev) = ([opening (ev_sol ev); renumbered k ev'], Finished (ev_sol ev')).
  Proof.
    intros Hn H Ho Hk Hev Hev'. assert (Hk1 : S k < List.length evs) by lia. destruct (restart_loop _ _ _ _ _ _ _ _ _ _ _ _ Hn H Ho Hk1 Hev) as [tout [touts [sc [Hv [_ E]]]]].
    rewrite <- (pending_at _ _ _ _ _ _ _ _ _ _ _ _ _ Hv).
    assert (Hs : exists e2 r, skipn (S k) evs = ev' :: e2 :: r).
    { destruct (skipn (S k) evs) as [|a [|b r]] eqn:Es; apply (f_equal (@List.length _)) in Es as El; rewrite skipn_length in El; cbn in El; try lia.
      exists b, r. f_equal. rewrite <- (firstn_skipn (S k) evs) in Hev'. rewrite nth_error_app2 in Hev' by (rewrite firstn_length_le; lia).
      rewrite firstn_length_le, Nat.sub_diag, Es in Hev' by lia. injection Hev' as ->. reflexivity. }
    destruct Hs as [e2 [r Hs]]. rewrite Hs in E. cbn [map] in E.
    apply (loop_leg _ _ _ _ _ _ _ _ _ _ [opening (ev_sol ev)]) in E.
    rewrite integrate_run_rk. unfold run_rk. cbn [Z.ltb Z.compare].
    assert (Hp : printer 0 n0 (ev_sol ev) = Ok (opening (ev_sol ev))).
    { destruct (visits_printer _ _ _ _ _ _ _ _ _ _ _ _ _ Hv ev) as [j [dt Hp]]; [|eapply printer_dt; exact Hp].
      rewrite <- (firstn_skipn (S k) evs) in Hev. rewrite nth_error_app1 in Hev by (rewrite firstn_length_le; lia). eapply nth_error_In. exact Hev. }
    rewrite Hp. change (slice_from (linspace (s_t (ev_sol ev)) tout (Z.to_nat 2)) 1) with [tout]. exact E.
  Qed.
  Lemma restart_gen rk d l cfl tf nout fuel sol0 evs out k ev : (0 <= nout)%Z -> integrate gamma rk d l cfl tf nout fuel sol0 = (evs, out) -> out <> OutOfFuel ->
    S k < List.length evs -> nth_error evs k = Some ev ->
    skipn 1 (linspace (s_t (ev_sol ev)) tf (Z.to_nat nout - k)) = skipn (S k) (linspace (s_t sol0) tf (Z.to_nat nout)) ->
    integrate gamma rk d l cfl tf (nout - Z.of_nat k) fuel (ev_sol ev) = (opening (ev_sol ev) :: map (renumbered k) (skipn (S k) evs), out).
  Proof.
    intros Hn H Ho Hk Hev Hl. destruct (restart_loop _ _ _ _ _ _ _ _ _ _ _ _ Hn H Ho Hk Hev) as [tout [touts [sc [Hv [_ E]]]]].
    pose proof (visits_pending _ _ _ _ _ _ _ _ _ _ _ _ _ Hv) as Hp. rewrite Hp in Hl.
    assert (HZ : Z.to_nat (nout - Z.of_nat k) = Z.to_nat nout - k) by lia.
    rewrite integrate_run_rk. unfold run_rk. destruct (Z.ltb_spec (nout - Z.of_nat k) 0) as [Hneg|].
    { exfalso. replace (Z.to_nat nout - k) with 0 in Hl by lia. discriminate Hl. }
    rewrite HZ. change 1%Z with (Z.of_nat 1). rewrite slice_from_nat, Hl.
    assert (Hq : printer 0 n0 (ev_sol ev) = Ok (opening (ev_sol ev))).
    { destruct (visits_printer _ _ _ _ _ _ _ _ _ _ _ _ _ Hv ev) as [j [dt Hq]]; [|eapply printer_dt; exact Hq].
      rewrite <- (firstn_skipn (S k) evs) in Hev. rewrite nth_error_app1 in Hev by (rewrite firstn_length_le; lia). eapply nth_error_In. exact Hev. }
    rewrite Hq. exact E.
  Qed.
End Restart.

Lemma skip0_R : nltb (lit 1 1000000000000000) (nabs (n0 : R)) = false.
Proof. unfold lit, n0; numR. rewrite Rabs_R0. Rcase (1 / 1000000000000000)%R 0%R; [lra|reflexivity]. Qed.
Lemma skip0_SF : nltb (lit 1 1000000000000000) (nabs (n0 : spec_float)) = false.
Proof. vm_compute. reflexivity. Qed.

Open Scope R_scope.
Lemma restart_R (gamma : R) rk d l cfl tf nout fuel sol0 evs out k ev : (2 <= nout)%Z -> s_t sol0 <= tf ->
  integrate gamma rk d l cfl tf nout fuel sol0 = (evs, out) -> out <> OutOfFuel -> (S k < List.length evs)%nat -> nth_error evs k = Some ev ->
  s_t (ev_sol ev) = at1 (linspace (s_t sol0) tf (Z.to_nat nout)) k /\
  integrate gamma rk d l cfl tf (nout - Z.of_nat k) fuel (ev_sol ev) = (opening (ev_sol ev) :: map (renumbered k) (skipn (S k) evs), out).
Proof.
  intros Hn Ht H Ho Hk Hev. assert (Hn0 : (0 <= nout)%Z) by lia. destruct (snapshot_visited gamma _ _ _ _ _ _ _ _ _ _ _ _ Hn0 H Hk Hev) as [_ [tout [touts [sc Hv]]]].
  pose proof (ProofsTime.visits_inv gamma rk d l cfl tf nout sol0 Hn Ht _ _ _ _ _ _ Hv) as Hi.
  assert (Hkn : (S k < Z.to_nat nout)%nat) by (destruct (li_k _ _ _ _ _ _ _ _ Hi); assumption).
  assert (Et : s_t (ev_sol ev) = out_time tf nout sol0 k).
  { apply (li_ev _ _ _ _ _ _ _ _ Hi k ev). rewrite <- (firstn_skipn (S k) evs) in Hev. rewrite nth_error_app1 in Hev by (rewrite firstn_length_le; lia). exact Hev. }
  assert (El : at1 (linspace (s_t sol0) tf (Z.to_nat nout)) k = out_time tf nout sol0 k) by (apply at1_linspace_out; [exact Hn|exact (Nat.lt_trans _ _ _ (Nat.lt_succ_diag_r k) Hkn)]).
  split; [rewrite El; exact Et|]. apply restart_gen with (sol0 := sol0); try assumption; [apply skip0_R|].
  apply nth_ext with (d := n0) (d' := n0); [rewrite !skipn_length, !length_linspace; lia|]. intros i Hi2. rewrite skipn_length, length_linspace in Hi2.
  rewrite !nth_skipn'. change (at1 (linspace (s_t (ev_sol ev)) tf (Z.to_nat nout - k)) (1 + i) = at1 (linspace (s_t sol0) tf (Z.to_nat nout)) (S k + i)).
  rewrite (linspace_R (s_t (ev_sol ev))) by lia. rewrite (linspace_R (s_t sol0)) by lia. rewrite Et. unfold out_time.
  assert (P1 : INR (Z.to_nat nout - 1) = INR k + INR (Z.to_nat nout - k - 1)) by (rewrite <- plus_INR; f_equal; lia).
  assert (P2 : 0 < INR (Z.to_nat nout - k - 1)) by (apply lt_0_INR; lia). assert (P3 : 0 <= INR k) by apply pos_INR.
  replace (S k + i)%nat with (k + (1 + i))%nat by lia. rewrite (plus_INR k). rewrite P1. field. lra.
Qed.
