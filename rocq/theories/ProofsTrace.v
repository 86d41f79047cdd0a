(** Invariants of runs that rely on a property of the states at which the residual is evaluated. *)
From Coq Require Import ZArith List Bool Arith String Lia.
From Verif Require Import Num Py Lib LegNumpy Ext Basis Solution Limiting Solver RKCoeffs RK SpecDG SpecTime SpecTrace ProofsTime ProofsTime2 ProofsDG ProofsRun ProofsWf ProofsMonotone.
Import ListNotations.
Open Scope list_scope.
Open Scope nat_scope.

Section Trace.
  Context {A : Type} {N : Num A} {L : Libm A}.
  Variable gamma : A.
  Variables (Ps Pk : solution A -> Prop) (PK : mat A -> Prop) (Good : solution A -> Prop).
  Variables (d : dg) (l : limiter (A:=A)).
  Hypothesis Hcopy : forall s s', Pk s -> Pk s' -> Pk (copy_data_only s s').
  Hypothesis Hcopys : forall s s', Pk s -> Ps s' -> Pk (copy_data_only s s').
  Hypothesis Haxk : forall s a K, Pk s -> PK K -> Pk (smart_axpy s a K).
  Hypothesis Haxs : forall s a K, Ps s -> PK K -> Ps (smart_axpy s a K).
  Hypothesis Ht : forall s t, Pk s -> Pk (with_t s t).
  Hypothesis Hlim : forall s s', Pk s -> limit gamma l s = Ok s' -> Pk s'.
  Hypothesis Hres : forall dt s s' F, Good s -> Pk s -> residual gamma d s = Ok (s', F) -> Pk s' /\ PK (mscale dt F).
  Notation Psc := (Psc Pk PK).

  Lemma classic_good betas dt cas k sol sc sol' sc' : Forall Good (classic_inputs gamma d l betas dt k cas sc) -> Ps sol -> Psc sc ->
    classic_stages gamma d l betas dt k cas sol sc = Ok (sol', sc') -> Ps sol' /\ Psc sc'.
  Proof.
    revert k sol sc. induction cas as [|[c a] cas IH]; intros k sol sc HG Hs Hsc H.
    - injection H as <- <-. auto.
    - cbn [classic_stages] in H. destruct Hsc as [H1 [H2 H3]]. inv_bind H. inv_bind H. destruct x0 as [uk F].
      cbn [classic_inputs] in HG. rewrite Hx in HG. rewrite Hx0 in HG. inversion HG as [|? ? G1 G2]; subst.
      match type of Hx with (if _ then limit _ _ ?u else _) = _ => assert (Hu : Pk u) end.
      { apply Ht. apply (fold_axpy_inv Pk PK Haxk); [apply Hcopy; assumption|].
        apply Forall_forall. intros [b K] Hin. apply in_combine_r in Hin. rewrite Forall_forall in H3. apply H3. exact Hin. }
      assert (Hu' : Pk x).
      { destruct (0 <? k); [eapply Hlim; [exact Hu|exact Hx]|]. apply Ok_inj in Hx. subst x. exact Hu. }
      destruct (Hres dt _ _ _ G1 Hu' Hx0) as [R1 R2].
      eapply IH; [exact G2| | |exact H].
      + apply Haxs; assumption.
      + split; [exact H1|]. split; [exact R1|]. apply Forall_lset; assumption.
  Qed.
  Lemma low_storage_good dt bgs k sol sc sol' sc' : sc_K sc <> [] -> Forall Good (low_storage_inputs gamma d l dt k bgs sc) -> Ps sol -> Psc sc ->
    low_storage_stages gamma d l dt k bgs sol sc = Ok (sol', sc') -> Ps sol' /\ Psc sc' /\ sc_K sc' <> [].
  Proof.
    revert k sol sc. induction bgs as [|[b g] bgs IH]; intros k sol sc HK HG Hs Hsc H.
    - injection H as <- <-. auto.
    - cbn [low_storage_stages] in H. destruct Hsc as [H1 [H2 H3]]. inv_bind H. inv_bind H. destruct x0 as [uk F].
      cbn [low_storage_inputs] in HG. rewrite Hx in HG. rewrite Hx0 in HG. inversion HG as [|? ? G1 G2]; subst.
      match type of Hx with (if _ then limit _ _ ?u else _) = _ => assert (Hu : Pk u) end.
      { apply Ht. apply Haxk; [apply Hcopy; assumption|].
        destruct (sc_K sc) as [|K Ks]; [contradiction|]. inversion H3; assumption. }
      assert (Hu' : Pk x).
      { destruct (0 <? k); [eapply Hlim; [exact Hu|exact Hx]|]. apply Ok_inj in Hx. subst x. exact Hu. }
      destruct (Hres dt _ _ _ G1 Hu' Hx0) as [R1 R2].
      eapply IH; [|exact G2| | |exact H].
      + discriminate.
      + apply Haxs; assumption.
      + split; [exact H1|]. split; [exact R1|]. constructor; [exact R2|constructor].
  Qed.
  Lemma classic_nonempty betas dt cas k sol sc sol' sc' : sc_K sc <> [] -> classic_stages gamma d l betas dt k cas sol sc = Ok (sol', sc') -> sc_K sc' <> [].
  Proof.
    revert k sol sc. induction cas as [|[c a] cas IH]; intros k sol sc HK H.
    - injection H as _ <-. exact HK.
    - cbn [classic_stages] in H. inv_bind H. inv_bind H. destruct x0 as [uk F]. eapply IH; [|exact H].
      cbn [sc_K]. unfold lset. intro E. apply app_eq_nil in E. destruct E as [_ E]. discriminate E.
  Qed.
  Lemma inner_good rk dt sol sc sol' sc' : Forall Good (inner_inputs gamma rk d l dt sc) -> Ps sol -> Psc sc -> sc_K sc <> [] ->
    rk_inner gamma rk d l dt sol sc = Ok (sol', sc') -> Ps sol' /\ Psc sc' /\ sc_K sc' <> [].
  Proof.
    intros HG Hs Hsc HK. unfold rk_inner. unfold inner_inputs in HG. destruct (String.eqb rk "low_storage_rk4").
    - intro H. eapply low_storage_good; eassumption.
    - intro H. destruct (classic_good _ _ _ _ _ _ _ _ HG Hs Hsc H) as [P1 P2]. split; [exact P1|]. split; [exact P2|]. eapply classic_nonempty; eassumption.
  Qed.

  Hypothesis Hclock : forall s t n, Ps s -> Ps (with_n (with_t s t) n).
  Hypothesis Hbc : forall s s', Ps s -> apply_bc s = Ok s' -> Ps s'.
  Hypothesis Hlims : forall s s', Ps s -> limit gamma l s = Ok s' -> Ps s'.
  Lemma time_step_good rk cfl tf tout s sc s' sc' r :
    (forall dt o dn, get_next_time_step gamma s tout cfl tf = Ok (dt, o, dn) -> Forall Good (inner_inputs gamma rk d l dt (set_us sc s))) ->
    Ps s -> Psc sc -> sc_K sc <> [] ->
    time_step gamma (rk_inner gamma rk d l) l cfl tf tout s sc = Ok (s', sc', r) -> Ps s' /\ Psc sc' /\ sc_K sc' <> [].
  Proof.
    intros HG Hs Hsc HK H. unfold time_step in H. inv_bind H. destruct x as [[dt o] dn]. inv_bind H. destruct x as [s1 sc1].
    inv_bind H. inv_bind H. apply Ok_inj in H. injection H as <- <- <-.
    assert (Hsc' : Psc (set_us sc s)).
    { destruct Hsc as [H1 [H2 H3]]. split; [apply Hcopys; assumption|]. split; assumption. }
    destruct (inner_good _ _ _ _ _ _ (HG _ _ _ Hx) Hs Hsc' HK Hx0) as [P1 [P2 P3]].
    split; [|split; assumption]. eapply Hlims; [|exact Hx2]. eapply Hbc; [|exact Hx1]. apply Hclock. exact P1.
  Qed.

  Section Run.
    Variables (rk : string) (cfl tf : A) (nout : Z) (sol0 : solution A).
    Hypothesis HG : forall x, evaluated gamma rk d l cfl tf nout sol0 x -> Good x.
    Hypothesis H0 : Ps sol0.
    Hypothesis H0k : Pk sol0.
    Hypothesis HK : PK (zeros2 (nrows (s_u sol0)) (ncols (s_u sol0))).
    Lemma step_inputs_good k tout touts s sc evs : visits gamma rk d l cfl tf nout sol0 k tout touts s sc evs ->
      forall dt o dn, get_next_time_step gamma s tout cfl tf = Ok (dt, o, dn) -> Forall Good (inner_inputs gamma rk d l dt (set_us sc s)).
    Proof. intros V dt o dn H. apply Forall_forall. intros x Hx. apply HG. exists k, tout, touts, s, sc, evs, dt, o, dn. auto. Qed.
    Lemma visits_good k tout touts s sc evs : visits gamma rk d l cfl tf nout sol0 k tout touts s sc evs ->
      Ps s /\ Psc sc /\ sc_K sc <> [] /\ Forall (fun ev => Ps (ev_sol ev)) evs.
    Proof.
      intro V. induction V as [ev tout touts Hp Hl|k tout touts s sc evs s' sc' dt V IH Hst|k tout tout' touts s sc evs s' sc' dt ev V IH Hst Hp].
      - split; [exact H0|]. split; [|split].
        + split; [exact H0k|]. split; [exact H0k|]. cbn [sc_K]. unfold rk_K0.
          destruct (String.eqb rk "low_storage_rk4"); [constructor; [exact HK|constructor]|].
          apply Forall_forall. intros x Hx. apply in_map_iff in Hx. destruct Hx as [? [<- _]]. exact HK.
        + apply K0_nonempty.
        + apply printer_Ok in Hp. subst ev. constructor; [exact H0|constructor].
      - destruct IH as [I1 [I2 [I3 I4]]]. destruct (time_step_good _ _ _ _ _ _ _ _ _ (step_inputs_good _ _ _ _ _ _ V) I1 I2 I3 Hst) as [S1 [S2 S3]]. auto.
      - destruct IH as [I1 [I2 [I3 I4]]]. destruct (time_step_good _ _ _ _ _ _ _ _ _ (step_inputs_good _ _ _ _ _ _ V) I1 I2 I3 Hst) as [S1 [S2 S3]].
        repeat split; try assumption; try apply S2. apply Forall_app. split; [exact I4|]. apply printer_Ok in Hp. subst ev. constructor; [exact S1|constructor].
    Qed.
    Lemma integrate_good fuel evs out : integrate gamma rk d l cfl tf nout fuel sol0 = (evs, out) ->
      Forall (fun ev => Ps (ev_sol ev)) evs /\ (forall s', out = Finished s' -> Ps s').
    Proof.
      apply (run_states gamma rk d l cfl tf nout sol0 Ps H0).
      intros k tout touts s sc evs0 s' sc' r V _ T. destruct (visits_good _ _ _ _ _ _ V) as [V1 [V2 [V3 _]]].
      eapply time_step_good; [exact (step_inputs_good _ _ _ _ _ _ V)|exact V1|exact V2|exact V3|exact T].
    Qed.
  End Run.
End Trace.

(** the evaluated states keep what every stage keeps *)
Section Inputs.
  Context {A : Type} {N : Num A} {L : Libm A}.
  Variable gamma : A.
  Variables (Pk : solution A -> Prop) (PK : mat A -> Prop).
  Variables (d : dg) (l : limiter (A:=A)).
  Hypothesis Hcopy : forall s s', Pk s -> Pk s' -> Pk (copy_data_only s s').
  Hypothesis Haxk : forall s a K, Pk s -> PK K -> Pk (smart_axpy s a K).
  Hypothesis Ht : forall s t, Pk s -> Pk (with_t s t).
  Hypothesis Hlim : forall s s', Pk s -> limit gamma l s = Ok s' -> Pk s'.
  Hypothesis Hres : forall dt s s' F, Pk s -> residual gamma d s = Ok (s', F) -> Pk s' /\ PK (mscale dt F).
  Lemma classic_inputs_in betas dt cas : forall k sc, Psc Pk PK sc -> Forall Pk (classic_inputs gamma d l betas dt k cas sc).
  Proof.
    induction cas as [|[c a] cas IH]; intros k sc Hsc; [constructor|]. cbn [classic_inputs]. destruct Hsc as [H1 [H2 H3]].
    match goal with |- context [if (0 <? k) then limit gamma l ?u else _] => assert (Hu : Pk u) end.
    { apply Ht. apply (fold_axpy_inv Pk PK Haxk); [apply Hcopy; assumption|].
      apply Forall_forall. intros [b K] Hin. apply in_combine_r in Hin. rewrite Forall_forall in H3. apply H3. exact Hin. }
    match goal with |- context [if (0 <? k) then limit gamma l ?u else _] => set (w := u) in * end.
    destruct (if (0 <? k) then limit gamma l w else Ok w) as [u3|er] eqn:E3; [|constructor].
    assert (Hu' : Pk u3) by (destruct (0 <? k); [eapply Hlim; [exact Hu|exact E3]|apply Ok_inj in E3; subst u3; exact Hu]).
    constructor; [exact Hu'|]. destruct (residual gamma d u3) as [[u4 F]|er] eqn:E4; [|constructor].
    destruct (Hres dt _ _ _ Hu' E4) as [R1 R2]. apply IH. split; [exact H1|]. split; [exact R1|]. apply Forall_lset; assumption.
  Qed.
  Lemma low_storage_inputs_in dt bgs : forall k sc, sc_K sc <> [] -> Psc Pk PK sc -> Forall Pk (low_storage_inputs gamma d l dt k bgs sc).
  Proof.
    induction bgs as [|[b g] bgs IH]; intros k sc HK Hsc; [constructor|]. cbn [low_storage_inputs]. destruct Hsc as [H1 [H2 H3]].
    match goal with |- context [if (0 <? k) then limit gamma l ?u else _] => assert (Hu : Pk u) end.
    { apply Ht. apply Haxk; [apply Hcopy; assumption|]. destruct (sc_K sc) as [|K Ks]; [contradiction|]. inversion H3; assumption. }
    match goal with |- context [if (0 <? k) then limit gamma l ?u else _] => set (w := u) in * end.
    destruct (if (0 <? k) then limit gamma l w else Ok w) as [u3|er] eqn:E3; [|constructor].
    assert (Hu' : Pk u3) by (destruct (0 <? k); [eapply Hlim; [exact Hu|exact E3]|apply Ok_inj in E3; subst u3; exact Hu]).
    constructor; [exact Hu'|]. destruct (residual gamma d u3) as [[u4 F]|er] eqn:E4; [|constructor].
    destruct (Hres dt _ _ _ Hu' E4) as [R1 R2]. apply IH; [discriminate|]. split; [exact H1|]. split; [exact R1|]. constructor; [exact R2|constructor].
  Qed.
  Lemma inner_inputs_in rk dt sc : sc_K sc <> [] -> Psc Pk PK sc -> Forall Pk (inner_inputs gamma rk d l dt sc).
  Proof.
    intros HK Hsc. unfold inner_inputs. destruct (String.eqb rk "low_storage_rk4"); [apply low_storage_inputs_in; assumption|apply classic_inputs_in; assumption].
  Qed.
End Inputs.
