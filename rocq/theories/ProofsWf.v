(** Invariants of the stage loops and of whole runs; the shape invariant. *)
From Coq Require Import ZArith List Bool Arith String Lia Reals Lra.
From Verif Require Import Num Py Lib LegNumpy Ext Basis Sensor Enhance Limiting AdvectionPhysics EulerPhysics
  Solution Solver RKCoeffs RK SpecTime ProofsTime SpecDG ProofsDG ProofsDG2.
Import ListNotations.
Open Scope list_scope.
Open Scope nat_scope.

Ltac vlia := unfold mat, vec in *; lia.

Section Inv.
  Context {A : Type} {N : Num A} {L : Libm A}.
  Variable gamma : A.
  Implicit Types s : solution A.

  (** Invariants carried through the stage loops of one scheme: [Ps] of the solution being
      advanced, [Pk] of the stage solutions, [PK] of the increments, [PT] of what the CFL condition
      and the limiter see. *)
  Section Unary.
    Variables (Ps Pk : solution A -> Prop) (PK : mat A -> Prop) (Pdt : A -> Prop).
    Variables (d : dg) (l : limiter (A:=A)).
    Hypothesis Hcopy : forall s s', Pk s -> Pk s' -> Pk (copy_data_only s s').
    Hypothesis Hcopys : forall s s', Pk s -> Ps s' -> Pk (copy_data_only s s').
    Hypothesis Haxk : forall s a K, Pk s -> PK K -> Pk (smart_axpy s a K).
    Hypothesis Haxs : forall s a K, Ps s -> PK K -> Ps (smart_axpy s a K).
    Hypothesis Ht : forall s t, Pk s -> Pk (with_t s t).
    Hypothesis Hlim : forall s s', Pk s -> limit gamma l s = Ok s' -> Pk s'.
    Hypothesis Hres : forall dt s s' F, Pdt dt -> Pk s -> residual gamma d s = Ok (s', F) -> Pk s' /\ PK (mscale dt F).

    Definition Psc (sc : scratch A) : Prop := Pk (sc_us sc) /\ Pk (sc_uk sc) /\ Forall PK (sc_K sc).

    Lemma Forall_lset {Y} (P : Y -> Prop) (x : list Y) i y : Forall P x -> P y -> Forall P (lset x i y).
    Proof.
      intros Hx Hy. unfold lset. apply Forall_app. split; [|constructor; [exact Hy|]].
      - rewrite <- (firstn_skipn i x) in Hx. apply Forall_app in Hx. apply Hx.
      - rewrite <- (firstn_skipn (S i) x) in Hx. apply Forall_app in Hx. apply Hx.
    Qed.

    Lemma fold_axpy_inv bs s : Pk s -> Forall (fun b => PK (snd b)) bs ->
      Pk (fold_left (fun uk bk => smart_axpy uk (fst bk) (snd bk)) bs s).
    Proof.
      revert s. induction bs as [|b bs IH]; intros s Hs Hb; [exact Hs|]. simpl.
      inversion Hb; subst. apply IH; [apply Haxk; assumption|assumption].
    Qed.

    Lemma classic_inv betas dt cas k sol sc sol' sc' : Pdt dt -> Ps sol -> Psc sc ->
      classic_stages gamma d l betas dt k cas sol sc = Ok (sol', sc') -> Ps sol' /\ Psc sc'.
    Proof.
      intro Hdt. revert k sol sc. induction cas as [|[c a] cas IH]; intros k sol sc Hs Hsc H.
      - injection H as <- <-. auto.
      - cbn [classic_stages] in H. destruct Hsc as [H1 [H2 H3]]. inv_bind H. inv_bind H. destruct x0 as [uk F].
        match type of Hx with (if _ then limit _ _ ?u else _) = _ => assert (Hu : Pk u) end.
        { apply Ht. apply fold_axpy_inv; [apply Hcopy; assumption|].
          apply Forall_forall. intros [b K] Hin. apply in_combine_r in Hin. rewrite Forall_forall in H3. apply H3. exact Hin. }
        assert (Hu' : Pk x).
        { destruct (0 <? k); [eapply Hlim; [exact Hu|exact Hx]|]. apply Ok_inj in Hx. subst x. exact Hu. }
        destruct (Hres dt _ _ _ Hdt Hu' Hx0) as [R1 R2].
        eapply IH; [| |exact H].
        + apply Haxs; assumption.
        + split; [exact H1|]. split; [exact R1|]. apply Forall_lset; assumption.
    Qed.
    Lemma low_storage_inv dt bgs k sol sc sol' sc' : PK [] \/ sc_K sc <> [] -> Pdt dt -> Ps sol -> Psc sc ->
      low_storage_stages gamma d l dt k bgs sol sc = Ok (sol', sc') -> Ps sol' /\ Psc sc' /\ (sc_K sc' = [] -> sc_K sc = []).
    Proof.
      intros HK Hdt. revert k sol sc HK. induction bgs as [|[b g] bgs IH]; intros k sol sc HK Hs Hsc H.
      - injection H as <- <-. auto.
      - cbn [low_storage_stages] in H. destruct Hsc as [H1 [H2 H3]]. inv_bind H. inv_bind H. destruct x0 as [uk F].
        match type of Hx with (if _ then limit _ _ ?u else _) = _ => assert (Hu : Pk u) end.
        { apply Ht. apply Haxk; [apply Hcopy; assumption|].
          destruct (sc_K sc) as [|K Ks]; [destruct HK as [HK|HK]; [exact HK|contradiction]|]. inversion H3; assumption. }
        assert (Hu' : Pk x).
        { destruct (0 <? k); [eapply Hlim; [exact Hu|exact Hx]|]. apply Ok_inj in Hx. subst x. exact Hu. }
        destruct (Hres dt _ _ _ Hdt Hu' Hx0) as [R1 R2].
        eapply IH in H.
        + destruct H as [P1 [P2 P3]]. split; [exact P1|]. split; [exact P2|]. intro E. exfalso. apply P3 in E. discriminate E.
        + right. discriminate.
        + apply Haxs; assumption.
        + split; [exact H1|]. split; [exact R1|]. constructor; [exact R2|constructor].
    Qed.
    Lemma inner_inv rk dt sol sc sol' sc' : Pdt dt -> Ps sol -> Psc sc -> sc_K sc <> [] ->
      rk_inner gamma rk d l dt sol sc = Ok (sol', sc') -> Ps sol' /\ Psc sc' /\ sc_K sc' <> [].
    Proof.
      intros Hdt Hs Hsc HK. unfold rk_inner. destruct (String.eqb rk "low_storage_rk4").
      - intro H. apply low_storage_inv in H; try tauto.
      - intro H. pose proof (classic_inv _ _ _ _ _ _ _ _ Hdt Hs Hsc H) as [P1 P2]. split; [exact P1|]. split; [exact P2|].
        revert H. generalize (combine (map ceval (tb_coeffs (rk_choice rk))) (map ceval (tb_alphas (rk_choice rk)) : vec A)).
        intro cas. generalize 0. clear -HK. revert sol sc HK. induction cas as [|[c a] cas IH]; intros sol sc HK k H.
        + injection H as _ <-. exact HK.
        + cbn [classic_stages] in H. inv_bind H. inv_bind H. destruct x0 as [uk F]. eapply IH; [|exact H].
          cbn [sc_K]. unfold lset. intro E. apply app_eq_nil in E. destruct E as [_ E]. discriminate E.
    Qed.

    (** one time step *)
    Hypothesis Hclock : forall s t n, Ps s -> Ps (with_n (with_t s t) n).
    Hypothesis Hbc : forall s s', Ps s -> apply_bc s = Ok s' -> Ps s'.
    Hypothesis Hlims : forall s s', Ps s -> limit gamma l s = Ok s' -> Ps s'.
    Hypothesis Hstep : forall s tout cfl tf dt o dn, Ps s -> get_next_time_step gamma s tout cfl tf = Ok (dt, o, dn) -> Pdt dt.

    Lemma time_step_inv rk cfl tf tout s sc s' sc' r : Ps s -> Psc sc -> sc_K sc <> [] ->
      time_step gamma (rk_inner gamma rk d l) l cfl tf tout s sc = Ok (s', sc', r) -> Ps s' /\ Psc sc' /\ sc_K sc' <> [].
    Proof.
      intros Hs Hsc HK H. unfold time_step in H. inv_bind H. destruct x as [[dt o] dn]. inv_bind H. destruct x as [s1 sc1].
      inv_bind H. inv_bind H. apply Ok_inj in H. injection H as <- <- <-.
      assert (Hdt : Pdt dt) by (eapply Hstep; [exact Hs|exact Hx]).
      assert (Hsc' : Psc (set_us sc s)).
      { destruct Hsc as [H1 [H2 H3]]. split; [apply Hcopys; assumption|]. split; assumption. }
      destruct (inner_inv _ _ _ _ _ _ Hdt Hs Hsc' HK Hx0) as [P1 [P2 P3]].
      split; [|split; assumption]. eapply Hlims; [|exact Hx2]. eapply Hbc; [|exact Hx1]. apply Hclock. exact P1.
    Qed.

    (** every state of a run *)
    Lemma K0_nonempty rk sol : rk_K0 rk sol <> [].
    Proof.
      unfold rk_K0. destruct (String.eqb rk "low_storage_rk4"); [discriminate|].
      unfold rk_choice. repeat (match goal with |- context [if ?c then _ else _] => destruct c; [discriminate|] end). discriminate.
    Qed.
    Lemma visits_inv rk cfl tf nout sol0 k tout touts s sc evs : Ps sol0 -> Pk sol0 ->
      PK (zeros2 (nrows (s_u sol0)) (ncols (s_u sol0))) ->
      visits gamma rk d l cfl tf nout sol0 k tout touts s sc evs ->
      Ps s /\ Psc sc /\ sc_K sc <> [] /\ Forall (fun ev => Ps (ev_sol ev)) evs.
    Proof.
      intros H0 H0k HK V. induction V as [ev tout touts Hp Hl|k tout touts s sc evs s' sc' dt V IH Hst|k tout tout' touts s sc evs s' sc' dt ev V IH Hst Hp].
      - split; [exact H0|]. split; [|split].
        + split; [exact H0k|]. split; [exact H0k|]. cbn [sc_K]. unfold rk_K0.
          destruct (String.eqb rk "low_storage_rk4"); [constructor; [exact HK|constructor]|].
          apply Forall_forall. intros x Hx. apply in_map_iff in Hx. destruct Hx as [? [<- _]]. exact HK.
        + apply K0_nonempty.
        + apply printer_Ok in Hp. subst ev. constructor; [exact H0|constructor].
      - destruct IH as [I1 [I2 [I3 I4]]]. destruct (time_step_inv _ _ _ _ _ _ _ _ _ I1 I2 I3 Hst) as [S1 [S2 S3]]. auto.
      - destruct IH as [I1 [I2 [I3 I4]]]. destruct (time_step_inv _ _ _ _ _ _ _ _ _ I1 I2 I3 Hst) as [S1 [S2 S3]].
        repeat split; try assumption; try apply S2. apply Forall_app. split; [exact I4|]. apply printer_Ok in Hp. subst ev. constructor; [exact S1|constructor].
    Qed.
    (** the snapshots and the final state of a run *)
    Lemma loop_inv_u rk cfl tf : forall fuel k tout touts s sc evs evs' out, Ps s -> Psc sc -> sc_K sc <> [] ->
      Forall (fun ev => Ps (ev_sol ev)) evs ->
      time_loop gamma (rk_inner gamma rk d l) l cfl tf fuel k tout touts s sc evs = (evs', out) ->
      Forall (fun ev => Ps (ev_sol ev)) evs' /\ (forall s', out = Finished s' -> Ps s').
    Proof.
      induction fuel as [|fuel IH]; intros k tout touts s sc evs evs' out Hs Hsc HK He H.
      - cbn in H. injection H as <- <-. split; [exact He|discriminate].
      - cbn [time_loop] in H. destruct (time_step _ _ _ _ _ _ _ _) as [[[s1 sc1] [[dt o] dn]]|e] eqn:Est.
        2: { injection H as <- <-. split; [exact He|discriminate]. }
        destruct (time_step_inv _ _ _ _ _ _ _ _ _ Hs Hsc HK Est) as [S1 [S2 S3]].
        destruct o.
        + destruct (printer k dt s1) as [ev|e] eqn:Ep.
          2: { injection H as <- <-. split; [exact He|discriminate]. }
          assert (He' : Forall (fun ev => Ps (ev_sol ev)) (evs ++ [ev])).
          { apply Forall_app. split; [exact He|]. apply printer_Ok in Ep. subst ev. constructor; [exact S1|constructor]. }
          destruct dn.
          * injection H as <- <-. split; [exact He'|]. intros s' E. injection E as <-. exact S1.
          * destruct touts as [|tout' touts']; [injection H as <- <-; split; [exact He'|discriminate]|].
            eapply IH; [exact S1|exact S2|exact S3|exact He'|exact H].
        + destruct dn.
          * injection H as <- <-. split; [exact He|]. intros s' E. injection E as <-. exact S1.
          * eapply IH; [exact S1|exact S2|exact S3|exact He|exact H].
    Qed.
    Lemma integrate_inv rk cfl tf nout fuel sol0 evs out : Ps sol0 -> Pk sol0 ->
      PK (zeros2 (nrows (s_u sol0)) (ncols (s_u sol0))) ->
      integrate gamma rk d l cfl tf nout fuel sol0 = (evs, out) ->
      Forall (fun ev => Ps (ev_sol ev)) evs /\ (forall s', out = Finished s' -> Ps s').
    Proof.
      intros H0 H0k HK H. rewrite integrate_run_rk in H. unfold run_rk in H.
      destruct (nout <? 0)%Z; [injection H as <- <-; split; [constructor|discriminate]|].
      destruct (printer 0 n0 sol0) as [ev|e] eqn:Ep; [|injection H as <- <-; split; [constructor|discriminate]].
      assert (He : Forall (fun ev => Ps (ev_sol ev)) [ev]).
      { apply printer_Ok in Ep. subst ev. constructor; [exact H0|constructor]. }
      destruct (slice_from _ _) as [|tout touts]; [injection H as <- <-; split; [exact He|discriminate]|].
      eapply loop_inv_u; [exact H0| | |exact He|exact H].
      - split; [exact H0k|]. split; [exact H0k|]. cbn [sc_K]. unfold rk_K0.
        destruct (String.eqb rk "low_storage_rk4"); [constructor; [exact HK|constructor]|].
        apply Forall_forall. intros x Hx. apply in_map_iff in Hx. destruct Hx as [? [<- _]]. exact HK.
      - apply K0_nonempty.
    Qed.
  End Unary.

  (** ** shapes *)
  Lemma shape_mscale r c a (m : mat A) : shape r c m -> shape r c (mscale a m).
  Proof.
    intros [H1 H2]. split; [unfold mscale; rewrite map_length; exact H1|].
    intros x Hx. apply in_map_iff in Hx. destruct Hx as [v [<- Hv]]. rewrite length_vscale. apply H2. exact Hv.
  Qed.
  Lemma shape_madd r c (m m' : mat A) : shape r c m -> shape r c m' -> shape r c (madd m m').
  Proof.
    intros [H1 H2] [H3 H4]. unfold madd. split; [rewrite length_map2; refine (eq_trans (f_equal2 Nat.min H1 H3) _); apply Nat.min_id|].
    intros x Hx. rewrite map2_combine in Hx. apply in_map_iff in Hx. destruct Hx as [[v w] [<- Hv]]. simpl.
    rewrite length_vadd, H2, H4; [apply Nat.min_id|eapply in_combine_r; exact Hv|eapply in_combine_l; exact Hv].
  Qed.
  Lemma at2_mscale r c a (m : mat A) i j : shape r c m -> i < r -> j < c -> at2 (mscale a m) i j = nmul a (at2 m i j).
  Proof.
    intros [H1 H2] Hi Hj. unfold at2, mscale. unfold row at 1.
    rewrite nth_indep with (d' := vscale a []) by (rewrite map_length; vlia). rewrite (map_nth (vscale a)).
    apply at1_vscale. rewrite H2; [exact Hj|apply nth_In; vlia].
  Qed.
  Lemma at2_madd r c (m m' : mat A) i j : shape r c m -> shape r c m' -> i < r -> j < c ->
    at2 (madd m m') i j = nadd (at2 m i j) (at2 m' i j).
  Proof.
    intros [H1 H2] [H3 H4] Hi Hj. unfold at2, madd. unfold row at 1.
    rewrite nth_map2 with (dx := []) (dy := []) by vlia. apply at1_vadd.
    - rewrite H2; [exact Hj|apply nth_In; vlia].
    - rewrite H4; [exact Hj|apply nth_In; vlia].
  Qed.
  Lemma shape_axpy r c (u : mat A) a (x : mat A) : shape r c u -> shape r c x -> shape r c (axpy_mat u a x).
  Proof. intros. unfold axpy_mat. destruct (nltb _ _); [|assumption]. apply shape_madd; [assumption|]. apply shape_mscale. assumption. Qed.
  Lemma shape_residual_mat ne s q : shape (s_Ns s) ((ne + 2) * s_NF s) (residual_mat gamma ne s q).
  Proof. apply shape_tab2. Qed.

  Lemma similar_refl s : similar s s.
  Proof. exists (s_t s), (s_n s), (s_sens s), (s_u s). destruct s as [a0 a1 a2 a3 a4 a5 a6 a7 a8 a9 a10 a11 a12 a13 a14 a15 [x|]]; split; reflexivity || exact I. Qed.
  Lemma similar_trans (a b c : solution A) : similar a b -> similar b c -> similar a c.
  Proof.
    intros [t [n [sn [u [-> H]]]]] [t' [n' [sn' [u' [-> H']]]]]. exists t', n', sn', u'. split; [reflexivity|].
    cbn in H'. destruct (s_sens a), sn, sn'; try contradiction; try exact I. congruence.
  Qed.
  Lemma similar_with_u s u : similar s (with_u s u).
  Proof. exists (s_t s), (s_n s), (s_sens s), u. destruct s as [a0 a1 a2 a3 a4 a5 a6 a7 a8 a9 a10 a11 a12 a13 a14 a15 [x|]]; split; reflexivity || exact I. Qed.
  Lemma similar_with_t s t : similar s (with_t s t).
  Proof. exists t, (s_n s), (s_sens s), (s_u s). destruct s as [a0 a1 a2 a3 a4 a5 a6 a7 a8 a9 a10 a11 a12 a13 a14 a15 [x|]]; split; reflexivity || exact I. Qed.
  Lemma similar_with_n s n : similar s (with_n s n).
  Proof. exists (s_t s), n, (s_sens s), (s_u s). destruct s as [a0 a1 a2 a3 a4 a5 a6 a7 a8 a9 a10 a11 a12 a13 a14 a15 [x|]]; split; reflexivity || exact I. Qed.
  Lemma similar_bc s s' : apply_bc s = Ok s' -> similar s s'.
  Proof. unfold apply_bc. intro H. inv_bind H. apply Ok_inj in H. subst s'. apply similar_with_u. Qed.
  Lemma sensing_thresholds eu (sn sn' : sensor A) u NF : sensing gamma eu sn u NF = Ok sn' -> sn_thresholds sn' = sn_thresholds sn.
  Proof. unfold sensing. intro H. inv_bind H. apply Ok_inj in H. subst sn'. reflexivity. Qed.
  Lemma similar_limit l s s' : limit gamma l s = Ok s' -> similar s s'.
  Proof.
    destruct l as [h|]; cbn [limit]; intro H; [|apply Ok_inj in H; subst; apply similar_refl].
    unfold adaptive_hr in H. destruct (s_sens s) as [sn|] eqn:Es; [|discriminate].
    inv_bind H. inv_bind H. apply similar_bc in H. eapply similar_trans; [|exact H].
    exists (s_t s), (s_n s), (Some x), (of_columns (nrows (s_u s)) x0). split; [destruct s; reflexivity|].
    rewrite Es. symmetry. eapply sensing_thresholds. exact Hx.
  Qed.
  Lemma similar_residual d s s' F : residual gamma d s = Ok (s', F) -> similar s s'.
  Proof. unfold residual. intro H. inv_bind H. inv_bind H. inv_bind H. inv_bind H. inv_bind H. apply Ok_inj in H. injection H as <- _. apply similar_bc. exact Hx. Qed.
  Lemma similar_NF s s' : similar s s' -> s_NF s' = s_NF s. Proof. intros [t [n [sn [u [-> _]]]]]. reflexivity. Qed.
  Lemma similar_Ns s s' : similar s s' -> s_Ns s' = s_Ns s. Proof. intros [t [n [sn [u [-> _]]]]]. reflexivity. Qed.

  Lemma wf_similar ne s s' : wf ne s -> similar s s' ->
    shape (s_Ns s) ((ne + 2) * s_NF s) (s_u s') ->
    match s_sens s' with None => True | Some x => List.length (sn_sensors x) = ne + 2 end -> wf ne s'.
  Proof. intros [] [t [n [sn [u [-> _]]]]] Hu Hsn. constructor; try assumption. Qed.

  Lemma length_mark v mask (x y : list Z) : mark v mask x = Ok y -> List.length y = List.length x.
  Proof. unfold mark. destruct (existsb _ _); [discriminate|]. intro H. apply Ok_inj in H. subst y. apply length_tab. Qed.
  Lemma length_sensing eu (sn sn' : sensor A) u NF : sensing gamma eu sn u NF = Ok sn' -> List.length (sn_sensors sn') = List.length (sn_sensors sn).
  Proof.
    unfold sensing. intro H. inv_bind H. apply Ok_inj in H. subst sn'. cbn [sn_sensors].
    destruct eu.
    - unfold euler_sensing in Hx. inv_bind Hx. inv_bind Hx. inv_bind Hx. apply length_mark in Hx. apply length_mark in Hx1.
      rewrite Hx, Hx1. apply map_length.
    - unfold adv_sensing in Hx. inv_bind Hx. apply length_mark in Hx. rewrite Hx. apply map_length.
  Qed.
  Lemma shape_of_columns Ns c (cols : list (vec A)) : List.length cols = c -> shape Ns c (of_columns Ns cols).
  Proof.
    intro H. unfold of_columns. split; [apply length_tab|]. intros x Hx. unfold tab in Hx. apply in_map_iff in Hx.
    destruct Hx as [n [<- _]]. rewrite map_length. exact H.
  Qed.
  Lemma wf_bc ne s s' : wf ne s -> apply_bc s = Ok s' -> wf ne s'.
  Proof. intros W H. rewrite (apply_bc_eq _ _ W) in H. apply Ok_inj in H. subst s'. apply wf_apply_bc. exact W. Qed.
  Lemma wf_limit ne l s s' : wf ne s -> limit gamma l s = Ok s' -> wf ne s'.
  Proof.
    intros W. destruct l as [h|]; cbn [limit]; intro H; [|apply Ok_inj in H; subst; exact W].
    unfold adaptive_hr in H. destruct (s_sens s) as [sn|] eqn:Es; [|discriminate].
    inv_bind H. inv_bind H. eapply wf_bc; [|exact H].
    apply (wf_similar ne s).
    - exact W.
    - exists (s_t s), (s_n s), (Some x), (of_columns (nrows (s_u s)) x0). split; [destruct s; reflexivity|].
      rewrite Es. symmetry. eapply sensing_thresholds. exact Hx.
    - cbn [s_u with_u]. pose proof (wf_u _ _ W) as Wu. replace (nrows (s_u s)) with (s_Ns s) by (symmetry; apply Wu).
      apply shape_of_columns. rewrite (mapM_Ok_length _ _ _ Hx0), seq_length. eapply shape_ncols; [exact Wu|apply Ns_pos].
    - cbn. rewrite (length_sensing _ _ _ _ _ Hx). pose proof (wf_sens _ _ W) as Ws. rewrite Es in Ws. exact Ws.
  Qed.
  Lemma wf_with_t ne s t : wf ne s -> wf ne (with_t s t). Proof. intros []. constructor; assumption. Qed.
  Lemma wf_with_n ne s n : wf ne s -> wf ne (with_n s n). Proof. intros []. constructor; assumption. Qed.
  Lemma wf_axpy ne s a x : wf ne s -> shape (s_Ns s) ((ne + 2) * s_NF s) x -> wf ne (smart_axpy s a x).
  Proof. intros W H. apply wf_with_u; [exact W|]. apply shape_axpy; [apply (wf_u _ _ W)|exact H]. Qed.
  Lemma wf_residual ne s d s' F : wf ne s -> wf_dg ne s d -> residual gamma d s = Ok (s', F) ->
    wf ne s' /\ shape (s_Ns s) ((ne + 2) * s_NF s) F.
  Proof.
    intros W D H. apply (residual_iff gamma ne s d s' F W D) in H. destruct H as [-> [q [_ ->]]].
    split; [apply wf_apply_bc; exact W|apply shape_tab2].
  Qed.

  (** every solution met in a run on a well-formed solution is well-formed and similar to it *)
  Section RunWf.
    Variables (ne : nat) (sol0 : solution A) (d : dg) (l : limiter (A:=A)).
    Hypothesis W0 : wf ne sol0.
    Hypothesis D0 : wf_dg ne sol0 d.
    Definition Wf (s : solution A) := wf ne s /\ similar sol0 s.
    Definition WfK (K : mat A) := shape (s_Ns sol0) ((ne + 2) * s_NF sol0) K.
    Lemma Wf_0 : Wf sol0. Proof. split; [exact W0|apply similar_refl]. Qed.
    Lemma Wf_copy s s' : Wf s -> Wf s' -> Wf (copy_data_only s s').
    Proof.
      intros [H1 H2] [H3 H4]. unfold copy_data_only. split; [|eapply similar_trans; [exact H2|apply similar_with_u]].
      apply wf_with_u; [exact H1|]. rewrite (similar_Ns _ _ H2), (similar_NF _ _ H2), <- (similar_Ns _ _ H4), <- (similar_NF _ _ H4).
      apply (wf_u _ _ H3).
    Qed.
    Lemma Wf_axpy s a K : Wf s -> WfK K -> Wf (smart_axpy s a K).
    Proof.
      intros [H1 H2] HK. split; [|eapply similar_trans; [exact H2|apply similar_with_u]].
      apply wf_axpy; [exact H1|]. rewrite (similar_Ns _ _ H2), (similar_NF _ _ H2). exact HK.
    Qed.
    Lemma Wf_t s t : Wf s -> Wf (with_t s t).
    Proof. intros [H1 H2]. split; [apply wf_with_t; exact H1|eapply similar_trans; [exact H2|apply similar_with_t]]. Qed.
    Lemma Wf_n s n : Wf s -> Wf (with_n s n).
    Proof. intros [H1 H2]. split; [apply wf_with_n; exact H1|eapply similar_trans; [exact H2|apply similar_with_n]]. Qed.
    Lemma Wf_lim s s' : Wf s -> limit gamma l s = Ok s' -> Wf s'.
    Proof. intros [H1 H2] H. split; [eapply wf_limit; eassumption|eapply similar_trans; [exact H2|eapply similar_limit; exact H]]. Qed.
    Lemma Wf_bc s s' : Wf s -> apply_bc s = Ok s' -> Wf s'.
    Proof. intros [H1 H2] H. split; [eapply wf_bc; eassumption|eapply similar_trans; [exact H2|eapply similar_bc; exact H]]. Qed.
    Lemma Wf_dg s : Wf s -> wf_dg ne s d.
    Proof. intros [H1 H2]. unfold wf_dg. rewrite (similar_Ns _ _ H2), (similar_NF _ _ H2). exact D0. Qed.
    Lemma Wf_res (dt : A) s s' F : True -> Wf s -> residual gamma d s = Ok (s', F) -> Wf s' /\ WfK (mscale dt F).
    Proof.
      intros _ [H1 H2] H. destruct (wf_residual _ _ _ _ _ H1 (Wf_dg _ (conj H1 H2)) H) as [R1 R2]. split.
      - split; [exact R1|]. eapply similar_trans; [exact H2|eapply similar_residual; exact H].
      - unfold WfK. apply shape_mscale. rewrite <- (similar_Ns _ _ H2), <- (similar_NF _ _ H2). exact R2.
    Qed.
    Lemma WfK_0 : WfK (zeros2 (nrows (s_u sol0)) (ncols (s_u sol0))).
    Proof.
      unfold WfK. pose proof (wf_u _ _ W0) as Wu. replace (nrows (s_u sol0)) with (s_Ns sol0) by (symmetry; apply Wu).
      rewrite (shape_ncols _ _ _ Wu (Ns_pos _)). apply shape_tab2.
    Qed.
    Definition Wf_sc := Psc Wf WfK.
    Lemma Wf_visits rk cfl tf nout k tout touts s sc evs :
      visits gamma rk d l cfl tf nout sol0 k tout touts s sc evs ->
      Wf s /\ Wf_sc sc /\ sc_K sc <> [] /\ Forall (fun ev => Wf (ev_sol ev)) evs.
    Proof.
      apply (visits_inv Wf Wf WfK (fun _ => True) d l).
      - exact Wf_copy. - exact Wf_copy. - exact Wf_axpy. - exact Wf_axpy. - exact Wf_t. - exact Wf_lim. - exact Wf_res.
      - intros. apply Wf_n, Wf_t. assumption.
      - exact Wf_bc. - exact Wf_lim. - auto. - exact Wf_0. - exact Wf_0. - exact WfK_0.
    Qed.
    Lemma Wf_time_step rk cfl tf tout s sc s' sc' r : Wf s -> Wf_sc sc -> sc_K sc <> [] ->
      time_step gamma (rk_inner gamma rk d l) l cfl tf tout s sc = Ok (s', sc', r) -> Wf s' /\ Wf_sc sc' /\ sc_K sc' <> [].
    Proof.
      apply (time_step_inv Wf Wf WfK (fun _ => True) d l).
      - exact Wf_copy. - exact Wf_copy. - exact Wf_axpy. - exact Wf_axpy. - exact Wf_t. - exact Wf_lim. - exact Wf_res.
      - intros. apply Wf_n, Wf_t. assumption.
      - exact Wf_bc. - exact Wf_lim. - auto.
    Qed.
  End RunWf.

  (** a well-formed solution can always be printed *)
  Lemma every_aux_len {Y} (s : nat) : 1 <= s -> forall (l : list Y) k, List.length (every_aux s k l) = (List.length l + s - 1 - k) / s.
  Proof.
    intros Hs l. induction l as [|x l IH]; intro k.
    - cbn. symmetry. apply Nat.div_small. lia.
    - cbn [every_aux List.length]. destruct k as [|k].
      + cbn [List.length]. rewrite IH. replace (S (List.length l) + s - 1 - 0) with (List.length l + 1 * s) by lia.
        rewrite Nat.div_add by lia. replace (List.length l + s - 1 - (s - 1)) with (List.length l) by lia. lia.
      + rewrite IH. f_equal. lia.
  Qed.
  Lemma field_row_length ne NF f (r : vec A) : 1 <= NF -> f < NF -> List.length r = (ne + 2) * NF ->
    List.length (field_row NF f r) = ne.
  Proof.
    intros H1 H2 Hr. unfold field_row, slice_step, stride. rewrite every_aux_len by lia.
    unfold slice.
    replace (Z.of_nat NF + Z.of_nat f)%Z with (Z.of_nat (NF + f)) by lia.
    replace (-2 * Z.of_nat NF + 1 + Z.of_nat f)%Z with (- Z.of_nat (2 * NF - 1 - f))%Z by lia.
    rewrite bound_nonneg. destruct (Nat.eq_dec (2 * NF - 1 - f) 0) as [E|E].
    - lia.
    - rewrite bound_neg by lia. rewrite firstn_length, skipn_length, Hr.
      destruct ne as [|ne].
      + rewrite Nat.div_small; lia.
      + replace (Nat.min ((S ne + 2) * NF - (2 * NF - 1 - f) - Nat.min ((S ne + 2) * NF) (NF + f))
                   ((S ne + 2) * NF - Nat.min ((S ne + 2) * NF) (NF + f)) + NF - 1 - 0) with (0 + S ne * NF) by lia.
        rewrite Nat.div_add by lia. rewrite Nat.div_small by lia. lia.
  Qed.
  Lemma printer_total ne k (dt : A) s : wf ne s -> printer k dt s = Ok {| ev_nout := k; ev_dt := dt; ev_sol := s |}.
  Proof.
    intro W. unfold printer. pose proof (wf_u _ _ W) as [U1 U2]. pose proof (wf_ne _ _ W) as Hne.
    assert (E : forallb (fun field => forallb (fun r =>
          Nat.eqb (List.length (field_row (s_NF s) field r)) (List.length (s_xc s))) (s_u s)) (seq 0 (s_NF s)) = true).
    { apply forallb_forall. intros f Hf. apply in_seq in Hf. apply forallb_forall. intros r Hr. apply Nat.eqb_eq.
      rewrite (wf_xc _ _ W). apply field_row_length; [apply NF_pos|lia|apply U2; exact Hr]. }
    rewrite E. cbn [negb]. pose proof (wf_sens _ _ W) as Ws. destruct (s_sens s) as [sn|]; [|reflexivity].
    rewrite (wf_xc _ _ W).
    assert (El : List.length (slice (sn_sensors sn) 1 (-1)) = ne).
    { change 1%Z with (Z.of_nat 1). change (-1)%Z with (- Z.of_nat 1)%Z. rewrite slice_nat_neg by lia.
      rewrite firstn_length, skipn_length, Ws. lia. }
    rewrite El, Nat.eqb_refl. cbn [negb]. destruct (Nat.eqb_spec ne 0); [lia|reflexivity].
  Qed.
End Inv.
