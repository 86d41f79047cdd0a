(** Time integration: termination, output times, step bounds (real arithmetic). *)
From Coq Require Import ZArith List Bool Arith String Lia Reals Lra.
From Verif Require Import Num Py Lib LegNumpy Ext Basis Sensor Enhance Limiting Solution Solver RKCoeffs RK SpecTime.
Import ListNotations.
Open Scope list_scope.
Open Scope nat_scope.

Section Frame.
  Context {A : Type} {N : Num A} {L : Libm A} {X : Ext A}.
  Variable gamma : A.

  (** s' differs from s at most in the coefficients and the sensors *)
  Definition frame (s s' : solution A) : Prop := exists sn u, s' = with_u (with_sens s sn) u.

  Lemma frame_refl s : frame s s.
  Proof. exists (s_sens s), (s_u s). destruct s; reflexivity. Qed.
  Lemma frame_trans a b c : frame a b -> frame b c -> frame a c.
  Proof. intros [sn [u ->]] [sn' [u' ->]]. exists sn', u'. reflexivity. Qed.
  Lemma frame_with_u s u : frame s (with_u s u).
  Proof. exists (s_sens s), u. destruct s; reflexivity. Qed.
  Lemma frame_axpy s a x : frame s (smart_axpy s a x).
  Proof. apply frame_with_u. Qed.
  Lemma frame_bc s s' : apply_bc s = Ok s' -> frame s s'.
  Proof. unfold apply_bc. intro H. inv_bind H. injection H as <-. apply frame_with_u. Qed.
  Lemma frame_limit l s s' : limit gamma l s = Ok s' -> frame s s'.
  Proof.
    destruct l as [h|]; simpl; intro H; [|injection H as <-; apply frame_refl].
    unfold adaptive_hr in H. destruct (s_sens s) as [sn|]; [|discriminate].
    inv_bind H. inv_bind H. apply frame_bc in H. eapply frame_trans; [|exact H].
    eexists _, _. reflexivity.
  Qed.
  Lemma frame_t s s' : frame s s' -> s_t s' = s_t s.
  Proof. intros [sn [u ->]]. reflexivity. Qed.
  Lemma frame_n s s' : frame s s' -> s_n s' = s_n s.
  Proof. intros [sn [u ->]]. reflexivity. Qed.

  Lemma frame_classic d l betas dt cas k sol sc sol' sc' :
    classic_stages gamma d l betas dt k cas sol sc = Ok (sol', sc') -> frame sol sol'.
  Proof.
    revert k sol sc. induction cas as [|[c a] cas IH]; intros k sol sc H.
    - injection H as <- <-. apply frame_refl.
    - cbn [classic_stages] in H. inv_bind H. inv_bind H. destruct x0 as [uk F].
      apply IH in H. eapply frame_trans; [apply frame_axpy | exact H].
  Qed.
  Lemma frame_low_storage d l dt bgs k sol sc sol' sc' :
    low_storage_stages gamma d l dt k bgs sol sc = Ok (sol', sc') -> frame sol sol'.
  Proof.
    revert k sol sc. induction bgs as [|[b g] bgs IH]; intros k sol sc H.
    - injection H as <- <-. apply frame_refl.
    - cbn [low_storage_stages] in H. inv_bind H. inv_bind H. destruct x0 as [uk F].
      apply IH in H. eapply frame_trans; [apply frame_axpy | exact H].
  Qed.
  Lemma frame_inner rk d l dt s sc s' sc' : rk_inner gamma rk d l dt s sc = Ok (s', sc') -> frame s s'.
  Proof.
    unfold rk_inner. destruct (String.eqb rk "low_storage_rk4").
    - apply frame_low_storage.
    - apply frame_classic.
  Qed.

  (** integrate is run_rk with the selected inner loop *)
  Lemma integrate_run_rk rk d l cfl tf nout fuel sol :
    integrate gamma rk d l cfl tf nout fuel sol
    = run_rk gamma (rk_inner gamma rk d l) (rk_K0 rk sol) l cfl tf nout fuel sol.
  Proof.
    unfold integrate, rk_inner, rk_K0. destruct (String.eqb rk "low_storage_rk4"); [reflexivity|].
    unfold classic_rk. rewrite map_map. reflexivity.
  Qed.

  (** one step: clock and counter *)
  Lemma time_step_clock inner l cfl tf tout s sc s' sc' dt o dn :
    (forall dt s sc s' sc', inner dt s sc = Ok (s', sc') -> frame s s') ->
    time_step gamma inner l cfl tf tout s sc = Ok (s', sc', (dt, o, dn)) ->
    get_next_time_step gamma s tout cfl tf = Ok (dt, o, dn)
    /\ s_t s' = nadd (s_t s) dt /\ s_n s' = s_n s + 1
    /\ exists sn u, s' = with_u (with_sens (with_n (with_t s (nadd (s_t s) dt)) (s_n s + 1)) sn) u.
  Proof.
    intros Hin H. unfold time_step in H. inv_bind H. destruct x as [[dt' o'] dn'].
    inv_bind H. destruct x as [s1 sc1]. inv_bind H. inv_bind H.
    injection H as <- <- <- <- <-. apply Hin in Hx0. apply frame_bc in Hx1. apply frame_limit in Hx2.
    destruct Hx0 as [sn1 [u1 ->]]. destruct Hx1 as [sn2 [u2 ->]]. destruct Hx2 as [sn3 [u3 ->]].
    split; [exact Hx|]. split; [reflexivity|]. split; [reflexivity|]. exists sn3, u3. reflexivity.
  Qed.

  Lemma printer_Ok k (dt : A) s ev : printer k dt s = Ok ev -> ev = {| ev_nout := k; ev_dt := dt; ev_sol := s |}.
  Proof.
    unfold printer. intro H.
    match type of H with (if ?c then _ else _) = _ => destruct c; [discriminate|] end.
    destruct (s_sens s); [|injection H as <-; reflexivity].
    match type of H with (if ?c then _ else _) = _ => destruct c; [discriminate|] end.
    match type of H with (if ?c then _ else _) = _ => destruct c; [discriminate|] end.
    injection H as <-. reflexivity.
  Qed.
End Frame.

(** ** real arithmetic *)
Section TimeR.
  Context {X : Ext R}.
  Variable gamma : R.
  Local Open Scope R_scope.

  Definition eps_dt : R := 1 / 100000000000000.

  Lemma next_step_cases s tout cfl tf dt o dn :
    get_next_time_step gamma s tout cfl tf = Ok (dt, o, dn) ->
    exists v, max_wave_speed gamma s = Ok v /\
    let c := s_dx s * cfl / (v * INR (2 * b_p (s_basis s) + 1)) in
    eps_dt <= c /\
    ((tf - s_t s < c /\ dt = tf - s_t s /\ o = true /\ dn = true) \/
     (c <= tf - s_t s /\ tout - s_t s < c /\ dt = tout - s_t s /\ o = true /\ dn = false) \/
     (c <= tf - s_t s /\ c <= tout - s_t s /\ dt = c /\ o = false /\ dn = false)).
  Proof.
    unfold get_next_time_step. intro H. inv_bind H. inv_bind H. destruct x0.
    unfold cfl_time_step in Hx. inv_bind Hx. exists x0. split; [assumption|].
    injection Hx as Hx. cbv zeta.
    assert (Ec : s_dx s * cfl / (x0 * INR (2 * b_p (s_basis s) + 1)) = x).
    { rewrite <- Hx. unfold nnat. numR. rewrite <- INR_IZR_INZ. reflexivity. }
    rewrite Ec. clear Ec Hx. unfold sanity_check_dt in Hx0. numR.
    Rcase x (1 / 100000000000000); [discriminate|]. clear Hx0. split; [exact E|].
    injection H as H. unfold adjust_for_output in H. numR.
    Rcase (tf - s_t s) x.
    - injection H as <- <- <-. left. repeat split; assumption.
    - Rcase (tout - s_t s) x; injection H as <- <- <-.
      + right; left. repeat split; assumption.
      + right; right. repeat split; assumption.
  Qed.

  (** the grid of output times *)
  Lemma linspace_R a b n i : (2 <= n)%nat -> (i < n)%nat ->
    at1 (linspace a b n) i = a + INR i * ((b - a) / INR (n - 1)).
  Proof.
    intros Hn Hi. destruct n as [|[|n]]; [lia|lia|]. unfold linspace. rewrite at1_tab by lia.
    numR. rewrite <- INR_IZR_INZ. replace (S (S n) - 1)%nat with (S n) by lia.
    assert (INR (S n) <> 0) by (apply not_0_INR; lia).
    destruct (Nat.eqb_spec i (S n)) as [->|].
    - field. assumption.
    - rewrite <- INR_IZR_INZ. lra.
  Qed.
  Lemma length_linspace (a b : R) n : List.length (linspace a b n) = n.
  Proof. destruct n as [|[|n]]; [reflexivity|reflexivity|]. apply length_tab. Qed.

  Section Run.
    Variables (rk : string) (d : dg) (l : limiter (A:=R)) (cfl tf : R) (nout : Z) (sol0 : solution R).
    Hypothesis Hnout : (2 <= nout)%Z.
    Hypothesis Htf : s_t sol0 <= tf.
    Let n := Z.to_nat nout.
    Let h := (tf - s_t sol0) / INR (n - 1).
    Definition out_time (i : nat) : R := s_t sol0 + INR i * h.
    Notation visits := (visits gamma rk d l cfl tf nout sol0).

    Lemma n_ge2 : (2 <= n)%nat. Proof. unfold n. lia. Qed.
    Lemma h_nonneg : 0 <= h.
    Proof.
      unfold h. pose proof n_ge2. apply Rmult_le_pos; [lra|].
      apply Rlt_le, Rinv_0_lt_compat, lt_0_INR. lia.
    Qed.
    Lemma out_time_last : out_time (n - 1) = tf.
    Proof. unfold out_time, h. pose proof n_ge2. field. apply not_0_INR. lia. Qed.
    Lemma out_time_mono i j : (i <= j)%nat -> out_time i <= out_time j.
    Proof.
      intro H. unfold out_time. apply Rplus_le_compat_l, Rmult_le_compat_r; [apply h_nonneg|].
      apply le_INR. exact H.
    Qed.
    Lemma out_time_S i : out_time (S i) = out_time i + h.
    Proof. unfold out_time. rewrite S_INR. lra. Qed.
    Lemma out_time_le_tf i : (i <= n - 1)%nat -> out_time i <= tf.
    Proof. intro. rewrite <- out_time_last. apply out_time_mono. assumption. Qed.
    Lemma at1_linspace_out i : (i < n)%nat -> at1 (linspace (s_t sol0) tf n) i = out_time i.
    Proof. intro. rewrite linspace_R by (assumption || apply n_ge2). reflexivity. Qed.

    (** touts = linspace(..)[k+1:] and tout = linspace(..)[k] *)
    Lemma skipn_cons_linspace k tout touts :
      skipn k (linspace (s_t sol0) tf n) = tout :: touts ->
      (k < n)%nat /\ tout = out_time k /\ touts = skipn (S k) (linspace (s_t sol0) tf n).
    Proof.
      intro H.
      assert (Hk : (k < n)%nat).
      { apply (f_equal (@List.length R)) in H. rewrite skipn_length, length_linspace in H. simpl in H. lia. }
      split; [assumption|]. split.
      - rewrite <- at1_linspace_out by assumption. unfold at1.
        pose proof (nth_skipn' (linspace (s_t sol0) tf n) k 0 n0) as E. rewrite H, Nat.add_0_r in E. exact E.
      - transitivity (skipn 1 (skipn k (linspace (s_t sol0) tf n))); [rewrite H; reflexivity|].
        rewrite skipn_skipn. reflexivity.
    Qed.

    (** what holds every time the loop is entered *)
    Record loop_inv (k : nat) (tout : R) (touts : list R) (s : solution R) (evs : list (event R)) : Prop := {
      li_k : (1 <= k < n)%nat;
      li_tout : tout = out_time k;
      li_touts : touts = skipn (S k) (linspace (s_t sol0) tf n);
      li_t : s_t s <= tout;
      li_t_lo : out_time (k - 1) <= s_t s;
      li_len : List.length evs = k;
      li_ev : forall i ev, nth_error evs i = Some ev -> ev_nout ev = i /\ s_t (ev_sol ev) = out_time i
    }.

    Lemma visits_inv k tout touts s sc evs : visits k tout touts s sc evs -> loop_inv k tout touts s evs.
    Proof.
      induction 1 as [ev tout touts Hp Hs | k tout touts s sc evs s' sc' dt Hv IH Hs
                      | k tout tout' touts s sc evs s' sc' dt ev Hv IH Hs Hp].
      - change 1%Z with (Z.of_nat 1) in Hs. rewrite slice_from_nat in Hs. fold n in Hs.
        apply skipn_cons_linspace in Hs. destruct Hs as [H1 [H2 H3]].
        apply printer_Ok in Hp. subst ev.
        constructor; [lia|exact H2|exact H3| | | reflexivity |].
        + rewrite H2, out_time_S. unfold out_time. simpl. pose proof h_nonneg. lra.
        + unfold out_time. simpl. lra.
        + intros i ev. destruct i as [|[|i]]; [|discriminate|discriminate].
          intro Hi. injection Hi as <-. simpl. split; [reflexivity|]. unfold out_time. simpl. lra.
      - apply time_step_clock in Hs; [|intros *; apply frame_inner]. destruct Hs as [Hn [Ht _]].
        apply next_step_cases in Hn. destruct Hn as [v [_ [He Hc]]]. numR. unfold eps_dt in He.
        destruct Hc as [[_ [_ [Ho _]]] | [[_ [_ [_ [Ho _]]]] | [H1 [H2 [H3 _]]]]]; try discriminate.
        destruct IH. constructor; try assumption; rewrite Ht, H3; lra.
      - apply time_step_clock in Hs; [|intros *; apply frame_inner]. destruct Hs as [Hn [Ht _]].
        apply next_step_cases in Hn. destruct Hn as [v [_ [He Hc]]]. numR.
        destruct Hc as [[_ [_ [_ Ho]]] | [[H1 [H2 [H3 _]]] | [_ [_ [_ [Ho _]]]]]]; try discriminate.
        apply printer_Ok in Hp. subst ev.
        destruct IH as [Ik Itout Itouts It Ilo Ilen Iev]. symmetry in Itouts.
        apply skipn_cons_linspace in Itouts. destruct Itouts as [J1 [J2 J3]].
        rewrite Nat.add_1_r. subst dt.
        assert (Ht' : s_t s' = out_time k) by (rewrite Ht, <- Itout; lra).
        constructor; [lia|assumption|assumption| | | |].
        + rewrite Ht', J2. apply out_time_mono. lia.
        + rewrite Ht'. replace (S k - 1)%nat with k by lia. lra.
        + rewrite app_length. simpl. lia.
        + intros i ev Hi. destruct (lt_dec i k) as [Hlt|Hge].
          * rewrite nth_error_app1 in Hi by lia. apply Iev. exact Hi.
          * rewrite nth_error_app2 in Hi by lia. rewrite Ilen in Hi.
            destruct (i - k)%nat as [|m] eqn:Em; [|destruct m; discriminate].
            injection Hi as <-. simpl. assert (i = k) by lia. subst i. split; [reflexivity|assumption].
    Qed.

    (** C02 *)
    Lemma step_times k tout touts s sc evs s' sc' dt o dn :
      visits k tout touts s sc evs ->
      time_step gamma (rk_inner gamma rk d l) l cfl tf tout s sc = Ok (s', sc', (dt, o, dn)) ->
      0 <= dt /\ s_t s' = s_t s + dt /\ s_n s' = (s_n s + 1)%nat /\ s_t s' <= tf
      /\ (dn = false -> s_t s' <= tout) /\ (dn = true -> s_t s' = tf /\ o = true).
    Proof.
      intros Hv Hs. apply visits_inv in Hv. apply time_step_clock in Hs; [|intros *; apply frame_inner].
      destruct Hs as [Hn [Ht [Hnn _]]].
      apply next_step_cases in Hn. destruct Hn as [v [_ [He Hc]]]. numR. unfold eps_dt in He.
      assert (Htt : tout <= tf) by (rewrite (li_tout _ _ _ _ _ Hv); apply out_time_le_tf; pose proof (li_k _ _ _ _ _ Hv); lia).
      pose proof (li_t _ _ _ _ _ Hv) as Hle.
      destruct Hc as [[H1 [-> [-> ->]]] | [[H1 [H2 [-> [-> ->]]]] | [H1 [H2 [-> [-> ->]]]]]].
      - split; [lra|]. split; [assumption|]. split; [assumption|]. rewrite Ht. split; [lra|]. split; [discriminate|].
        intros _. split; [lra|reflexivity].
      - split; [lra|]. split; [assumption|]. split; [assumption|]. rewrite Ht. split; [lra|].
        split; [intros _; lra|discriminate].
      - split; [lra|]. split; [assumption|]. split; [assumption|]. rewrite Ht. split; [lra|].
        split; [intros _; lra|discriminate].
    Qed.

    (** the loop function follows [visits] *)
    Definition good_end (r : list (event R) * outcome R) : Prop :=
      match r with
      | (evs, Finished s) =>
          exists k tout touts s0 sc evs0 sc' dt,
            visits k tout touts s0 sc evs0 /\
            time_step gamma (rk_inner gamma rk d l) l cfl tf tout s0 sc = Ok (s, sc', (dt, true, true)) /\
            evs = evs0 ++ [{| ev_nout := k; ev_dt := dt; ev_sol := s |}]
      | (evs, Failed e) => exists k tout touts s sc, visits k tout touts s sc evs /\
            (time_step gamma (rk_inner gamma rk d l) l cfl tf tout s sc = Raise e \/
             exists s' sc' dt b, time_step gamma (rk_inner gamma rk d l) l cfl tf tout s sc
                               = Ok (s', sc', (dt, true, b)) /\ printer k dt s' = Raise e)
      | (_, OutOfFuel) => False
      end.

    Lemma loop_terminates :
      forall fuel k tout touts s sc evs m,
      visits k tout touts s sc evs ->
      tf - s_t s <= INR m * eps_dt ->
      (m + (n - k) < fuel)%nat ->
      good_end (time_loop gamma (rk_inner gamma rk d l) l cfl tf fuel k tout touts s sc evs).
    Proof.
      induction fuel as [|fuel IH]; intros k tout touts s sc evs m Hv Hm Hf; [lia|].
      pose proof (visits_inv _ _ _ _ _ _ Hv) as Hi. cbn [time_loop].
      destruct (time_step gamma (rk_inner gamma rk d l) l cfl tf tout s sc) as [[[s' sc'] [[dt o] dn]]|e] eqn:Es;
        [|exists k, tout, touts, s, sc; split; [exact Hv | left; exact Es]].
      pose proof (time_step_clock gamma _ _ _ _ _ _ _ _ _ _ _ _ (fun _ _ _ _ _ => frame_inner gamma rk d l _ _ _ _ _) Es) as [Hn [Ht _]].
      apply next_step_cases in Hn. destruct Hn as [v [_ [He Hc]]]. numR.
      destruct Hc as [[H1 [H3 [-> ->]]] | [[H1 [H2 [H3 [-> ->]]]] | [H1 [H2 [H3 [-> ->]]]]]].
      - destruct (printer k dt s') as [ev|e] eqn:Ep.
        + apply printer_Ok in Ep. subst ev. exists k, tout, touts, s, sc, evs, sc', dt. auto.
        + exists k, tout, touts, s, sc. split; [exact Hv|]. right. exists s', sc', dt, true. auto.
      - destruct (printer k dt s') as [ev|e] eqn:Ep;
          [|exists k, tout, touts, s, sc; split; [exact Hv|]; right; exists s', sc', dt, false; auto].
        destruct touts as [|tout' touts'].
        + (* no later output time: then tout = tf and the previous case applies *)
          exfalso. destruct Hi as [Ik Itout Itouts It _ _ _].
          apply (f_equal (@List.length R)) in Itouts. rewrite skipn_length, length_linspace in Itouts. simpl in Itouts.
          assert (k = n - 1)%nat by lia. subst k. rewrite out_time_last in Itout. lra.
        + apply (IH _ _ _ _ _ _ m).
          * econstructor; [exact Hv|exact Es|exact Ep].
          * pose proof (li_t _ _ _ _ _ Hi). lra.
          * destruct Hi as [Ik _ Itouts _ _ _ _].
            apply (f_equal (@List.length R)) in Itouts. rewrite skipn_length, length_linspace in Itouts. simpl in Itouts. lia.
      - destruct m as [|m].
        + exfalso. simpl in Hm. unfold eps_dt in *. lra.
        + apply (IH _ _ _ _ _ _ m).
          * econstructor; [exact Hv|exact Es].
          * rewrite S_INR in Hm. unfold eps_dt in *. lra.
          * lia.
    Qed.

    Lemma loop_fuel_mono inner l' cfl' tf' : forall f1 f2 k tout touts s sc evs r o,
      (f1 <= f2)%nat -> time_loop gamma inner l' cfl' tf' f1 k tout touts s sc evs = (r, o) -> o <> OutOfFuel ->
      time_loop gamma inner l' cfl' tf' f2 k tout touts s sc evs = (r, o).
    Proof.
      induction f1 as [|f1 IH]; intros f2 k tout touts s sc evs r o Hle H Ho.
      - cbn in H. injection H as <- <-. contradiction.
      - destruct f2 as [|f2]; [lia|]. cbn [time_loop] in *.
        destruct (time_step gamma inner l' cfl' tf' tout s sc) as [[[s' sc'] [[dt out] dn]]|e]; [|exact H].
        destruct out.
        + destruct (printer k dt s'); [|exact H]. destruct dn; [exact H|].
          destruct touts; [exact H|]. apply IH; [lia|exact H|exact Ho].
        + destruct dn; [exact H|]. apply IH; [lia|exact H|exact Ho].
    Qed.

    Lemma archimed_steps : exists m, tf - s_t sol0 <= INR m * eps_dt /\ INR m <= (tf - s_t sol0) / eps_dt + 1.
    Proof.
      exists (Z.to_nat (up ((tf - s_t sol0) / eps_dt))).
      assert (0 < eps_dt) by (unfold eps_dt; lra).
      set (y := (tf - s_t sol0) / eps_dt).
      assert (0 <= y) by (unfold y; apply Rmult_le_pos; [lra|apply Rlt_le, Rinv_0_lt_compat; assumption]).
      pose proof (archimed y) as [Hu Hu2].
      assert (0 <= up y)%Z by (apply le_IZR; lra).
      rewrite INR_IZR_INZ, Z2Nat.id by assumption. split; [|lra].
      replace (tf - s_t sol0) with (y * eps_dt) by (unfold y; field; lra).
      apply Rmult_le_compat_r; lra.
    Qed.

    Lemma integrate_start fuel :
      integrate gamma rk d l cfl tf nout fuel sol0 =
      match printer 0 (IZR 0) sol0 with
      | Raise e => ([], Failed e)
      | Ok ev => time_loop gamma (rk_inner gamma rk d l) l cfl tf fuel 1 (out_time 1)
                   (skipn 2 (linspace (s_t sol0) tf n)) sol0
                   {| sc_us := sol0; sc_uk := sol0; sc_K := rk_K0 rk sol0 |} [ev]
      end.
    Proof.
      rewrite integrate_run_rk. unfold run_rk. destruct (Z.ltb_spec nout 0); [lia|].
      change 1%Z with (Z.of_nat 1). rewrite slice_from_nat. fold n. unfold n0. cbn [nofZ NumR].
      destruct (printer 0 0 sol0); [|reflexivity].
      destruct (skipn 1 (linspace (s_t sol0) tf n)) as [|tout touts] eqn:E.
      - apply (f_equal (@List.length R)) in E. rewrite skipn_length, length_linspace in E.
        pose proof n_ge2. simpl in E. lia.
      - apply skipn_cons_linspace in E. destruct E as [_ [-> ->]]. reflexivity.
    Qed.

    Lemma visits_first ev : printer 0 (IZR 0) sol0 = Ok ev ->
      visits 1 (out_time 1) (skipn 2 (linspace (s_t sol0) tf n)) sol0
             {| sc_us := sol0; sc_uk := sol0; sc_K := rk_K0 rk sol0 |} [ev].
    Proof.
      intro H. constructor; [exact H|]. change 1%Z with (Z.of_nat 1). rewrite slice_from_nat. fold n.
      destruct (skipn 1 (linspace (s_t sol0) tf n)) as [|tout touts] eqn:E.
      - apply (f_equal (@List.length R)) in E. rewrite skipn_length, length_linspace in E.
        pose proof n_ge2. simpl in E. lia.
      - apply skipn_cons_linspace in E. destruct E as [_ [-> ->]]. reflexivity.
    Qed.

    (** the run ends, the same way for every sufficiently large fuel *)
    Lemma integrate_ends : exists F r,
      INR F <= (tf - s_t sol0) / eps_dt + IZR nout + 2 /\
      (forall fuel, (F <= fuel)%nat -> integrate gamma rk d l cfl tf nout fuel sol0 = r) /\
      ((exists e, printer 0 (IZR 0) sol0 = Raise e /\ r = ([], Failed e)) \/ good_end r).
    Proof.
      destruct (printer 0 (IZR 0) sol0) as [ev|e] eqn:Ep.
      - destruct archimed_steps as [m [Hm Hm2]].
        exists (m + n + 1)%nat.
        set (F := (m + n + 1)%nat).
        exists (integrate gamma rk d l cfl tf nout F sol0).
        assert (Hg : good_end (integrate gamma rk d l cfl tf nout F sol0)).
        { rewrite integrate_start, Ep. apply loop_terminates with (m := m).
          - apply visits_first. exact Ep.
          - exact Hm.
          - unfold F. lia. }
        split.
        { unfold F. rewrite !plus_INR. unfold n. rewrite (INR_IZR_INZ (Z.to_nat nout)), Z2Nat.id by lia. simpl. lra. }
        split; [|right; exact Hg].
        intros fuel Hfuel. rewrite (integrate_start fuel). rewrite (integrate_start F) in *. rewrite Ep in *.
        set (r := time_loop gamma (rk_inner gamma rk d l) l cfl tf F 1 (out_time 1) _ _ _ _) in *.
        destruct r as [evs o] eqn:Er. apply (loop_fuel_mono _ _ _ _ F fuel); [lia|exact Er|].
        intros ->. exact Hg.
      - exists 0%nat, ([], Failed e). split.
        { simpl. assert (0 < eps_dt) by (unfold eps_dt; lra).
          assert (0 <= (tf - s_t sol0) / eps_dt) by (apply Rmult_le_pos; [lra|apply Rlt_le, Rinv_0_lt_compat; assumption]).
          assert (2 <= IZR nout) by (apply IZR_le; lia). lra. }
        split.
        + intros fuel _. rewrite integrate_start, Ep. reflexivity.
        + left. exists e. auto.
    Qed.

    (** C01 *)
    Lemma run_terminates : exists F evs out,
      INR F <= (tf - s_t sol0) * 100000000000000 + IZR nout + 2 /\
      (forall fuel, (F <= fuel)%nat -> integrate gamma rk d l cfl tf nout fuel sol0 = (evs, out)) /\
      ((exists e, out = Failed e) \/ (exists s, out = Finished s /\ s_t s = tf)).
    Proof.
      destruct integrate_ends as [F [[evs out] [HF [H Hr]]]]. exists F, evs, out. split.
      { unfold eps_dt in HF. lra. }
      split; [exact H|]. destruct Hr as [[e [_ He]]|Hr]; [injection He as _ ->; left; eauto|].
      destruct out as [s|e|]; [|left; eauto|contradiction].
      right. exists s. split; [reflexivity|].
      destruct Hr as [k [tout [touts [s0 [sc [evs0 [sc' [dt [Hv [Hs _]]]]]]]]]].
      apply (step_times _ _ _ _ _ _ _ _ _ _ _ Hv Hs). reflexivity.
    Qed.

    (** snapshots of a completed run *)
    Lemma finished_events fuel evs s :
      integrate gamma rk d l cfl tf nout fuel sol0 = (evs, Finished s) -> good_end (evs, Finished s).
    Proof.
      destruct integrate_ends as [F [r [_ [HF Hr]]]]. intro H.
      assert (Hmax : integrate gamma rk d l cfl tf nout (Nat.max F fuel) sol0 = (evs, Finished s)).
      { rewrite integrate_start in *. destruct (printer 0 0 sol0); [|discriminate].
        apply (loop_fuel_mono _ _ _ _ fuel); [lia|exact H|discriminate]. }
      rewrite HF in Hmax by lia. subst r. destruct Hr as [[e [_ Hr]]|Hr]; [discriminate|exact Hr].
    Qed.

    (** C03, what always holds: snapshots 0..k-1 lie at the grid times, the last one at tf *)
    Lemma finished_snapshots fuel evs s :
      integrate gamma rk d l cfl tf nout fuel sol0 = (evs, Finished s) ->
      exists k, (1 <= k <= n - 1)%nat /\ List.length evs = S k /\ s_t s = tf /\
        (forall i ev, nth_error evs i = Some ev ->
           ev_nout ev = i /\ ((i < k)%nat -> s_t (ev_sol ev) = out_time i) /\ (i = k -> ev_sol ev = s)).
    Proof.
      intro H. apply finished_events in H.
      destruct H as [k [tout [touts [s0 [sc [evs0 [sc' [dt [Hv [Hs ->]]]]]]]]]].
      pose proof (step_times _ _ _ _ _ _ _ _ _ _ _ Hv Hs) as [_ [_ [_ [_ [_ Ht]]]]].
      apply visits_inv in Hv. destruct Hv as [Ik _ _ _ _ Ilen Iev].
      exists k. split; [lia|]. split; [rewrite app_length; simpl; lia|]. split; [apply Ht; reflexivity|].
      intros i ev Hi. destruct (lt_dec i k) as [Hlt|Hge].
      - rewrite nth_error_app1 in Hi by lia. apply Iev in Hi. destruct Hi as [H1 H2].
        split; [exact H1|]. split; [intros _; exact H2|]. intros ->. lia.
      - rewrite nth_error_app2 in Hi by lia. rewrite Ilen in Hi.
        destruct (i - k)%nat as [|m] eqn:Em; [|destruct m; discriminate].
        injection Hi as <-. simpl. split; [lia|]. split; [intro; lia|]. reflexivity.
    Qed.

    (** C03, full, when no CFL step exceeds the output spacing *)
    Lemma all_snapshots fuel evs s :
      (forall k tout touts s sc evs v, visits k tout touts s sc evs -> max_wave_speed gamma s = Ok v ->
         s_dx s * cfl / (v * INR (2 * b_p (s_basis s) + 1)) <= h) ->
      integrate gamma rk d l cfl tf nout fuel sol0 = (evs, Finished s) ->
      List.length evs = n /\
      forall i ev, nth_error evs i = Some ev -> ev_nout ev = i /\ s_t (ev_sol ev) = out_time i.
    Proof.
      intros Hcfl H. apply finished_events in H.
      destruct H as [k [tout [touts [s0 [sc [evs0 [sc' [dt [Hv [Hs ->]]]]]]]]]].
      pose proof (step_times _ _ _ _ _ _ _ _ _ _ _ Hv Hs) as [_ [_ [_ [_ [_ Ht]]]]].
      destruct (Ht eq_refl) as [Htf' _].
      pose proof Hv as Hv'. apply visits_inv in Hv. destruct Hv as [Ik Itout _ It _ Ilen Iev].
      assert (Hk : k = (n - 1)%nat).
      { destruct (Nat.eq_dec k (n - 1)) as [|Hne]; [assumption|exfalso].
        apply time_step_clock in Hs; [|intros *; apply frame_inner]. destruct Hs as [Hn _].
        apply next_step_cases in Hn. destruct Hn as [v [Hw [_ Hc]]].
        specialize (Hcfl _ _ _ _ _ _ _ Hv' Hw). cbv zeta in Hc.
        destruct Hc as [[H1 _] | [[_ [_ [_ [_ Hb]]]] | [_ [_ [_ [Hb _]]]]]]; try discriminate.
        assert (out_time (S k) <= tf) by (apply out_time_le_tf; lia).
        rewrite out_time_S in *. subst tout. lra. }
      split; [rewrite app_length; simpl; pose proof n_ge2; lia|].
      intros i ev Hi. destruct (lt_dec i k) as [Hlt|Hge].
      - rewrite nth_error_app1 in Hi by lia. apply Iev in Hi. exact Hi.
      - rewrite nth_error_app2 in Hi by lia. rewrite Ilen in Hi.
        destruct (i - k)%nat as [|m] eqn:Em; [|destruct m; discriminate].
        injection Hi as <-. simpl. assert (i = k) by lia. subst i. split; [reflexivity|].
        rewrite Htf', Hk, out_time_last. reflexivity.
    Qed.
  End Run.
End TimeR.
