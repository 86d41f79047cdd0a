(** Time integration over any arithmetic: file names, adequacy of [visits], aborts; NaN handling. *)
From Coq Require Import ZArith List Bool Arith String Ascii Lia Reals Lra Floats.SpecFloat.
From Verif Require Import Num Py Lib PyStr ProofsStr Constants LegNumpy Ext Basis Sensor Enhance Limiting AdvectionPhysics
  EulerPhysics Solution Solver RKCoeffs RK IO SpecTime ProofsTime.
Import ListNotations.
Open Scope list_scope.
Open Scope nat_scope.

(** ** names *)
Lemma format_fname_inj n m f g :
  all_chars (fun c => negb (is_digit c)) f = true -> all_chars (fun c => negb (is_digit c)) g = true ->
  format_fname n f = format_fname m g -> n = m /\ f = g.
Proof.
  unfold format_fname. intros Hf Hg H.
  assert (E : forall k h, all_chars (fun c => negb (is_digit c)) h = true ->
                span is_digit (h ++ show_nat_pad 10 k ++ ".dat") = (h, (show_nat_pad 10 k ++ ".dat")%string)).
  { intros k h Hh. pose proof (show_nat_pad_digits 10 k) as Hd. pose proof (show_nat_pad_nonempty 10 k) as Hn.
    destruct (show_nat_pad 10 k) as [|c r]; [congruence|]. cbn [append]. apply span_app; [exact Hh|].
    cbn [all_chars] in Hd. apply andb_true_iff in Hd. apply Hd. }
  apply (f_equal (span is_digit)) in H. rewrite !E in H by assumption. injection H as Hfg Hs.
  split; [|exact Hfg].
  apply (f_equal (span (fun c => negb (is_digit c)))) in Hs.
  assert (E2 : forall k, span (fun c => negb (is_digit c)) (show_nat_pad 10 k ++ ".dat") = (show_nat_pad 10 k, ".dat"%string)).
  { intro k. apply span_app; [|reflexivity].
    eapply all_chars_ext; [|apply show_nat_pad_digits]. intros c Hc. rewrite Hc. reflexivity. }
  rewrite !E2 in Hs. injection Hs as Hs. eapply show_nat_pad_inj. exact Hs.
Qed.

Section Names.
  Context {A : Type} {N : Num A} {L : Libm A} {X : Ext A}.
  Variable gamma : A.

  Definition event_names (ev : event A) : list string := map fst (printed_files ev).

  Lemma map_fst_combine {P Q} (a : list P) (b : list Q) : List.length a = List.length b -> map fst (combine a b) = a.
  Proof. revert b. induction a; destruct b; simpl; intros; try lia; [reflexivity|]. f_equal. apply IHa. lia. Qed.

  Lemma event_names_eq ev : event_names ev =
    format_fnames (ev_nout ev) (s_fields (ev_sol ev) ++ match s_sens (ev_sol ev) with Some _ => ["sensor"%string] | None => [] end).
  Proof.
    unfold event_names, printed_files. rewrite map_app.
    rewrite map_fst_combine by (unfold format_fnames; rewrite !map_length, seq_length; reflexivity).
    unfold format_fnames. rewrite map_app. f_equal. destruct (s_sens (ev_sol ev)); reflexivity.
  Qed.

  Definition digit_free (f : string) := all_chars (fun c => negb (is_digit c)) f = true.
  Lemma fields_digit_free (ev : event A) f :
    In f (s_fields (ev_sol ev) ++ match s_sens (ev_sol ev) with Some _ => ["sensor"%string] | None => [] end) ->
    digit_free f.
  Proof.
    unfold s_fields. intro H. apply in_app_or in H. destruct H as [H|H].
    - destruct (s_euler (ev_sol ev)); simpl in H; repeat (destruct H as [<-|H]; [reflexivity|]); contradiction.
    - destruct (s_sens (ev_sol ev)); simpl in H; [destruct H as [<-|[]]; reflexivity | contradiction].
  Qed.
  Lemma fields_nodup (ev : event A) :
    NoDup (s_fields (ev_sol ev) ++ match s_sens (ev_sol ev) with Some _ => ["sensor"%string] | None => [] end).
  Proof.
    unfold s_fields. destruct (s_euler (ev_sol ev)), (s_sens (ev_sol ev)); simpl;
      repeat (constructor; [simpl; intuition discriminate|]); constructor.
  Qed.
  Lemma nodup_map_in {P Q} (f : P -> Q) l :
    (forall x y, In x l -> In y l -> f x = f y -> x = y) -> NoDup l -> NoDup (map f l).
  Proof.
    induction l as [|a l IH]; simpl; intros Hi Hd; [constructor|].
    inversion Hd; subst. constructor.
    - intro Hin. apply in_map_iff in Hin. destruct Hin as [y [Hy1 Hy2]].
      apply Hi in Hy1; [subst; contradiction | right; assumption | left; reflexivity].
    - apply IH; [|assumption]. intros x y Hx Hy. apply Hi; right; assumption.
  Qed.
  Lemma event_names_nodup ev : NoDup (event_names ev).
  Proof.
    rewrite event_names_eq. apply nodup_map_in; [|apply fields_nodup].
    intros x y Hx Hy H. apply format_fname_inj in H; [apply H | |]; eapply fields_digit_free; eassumption.
  Qed.
  Lemma event_names_disjoint e1 e2 nm : In nm (event_names e1) -> In nm (event_names e2) -> ev_nout e1 = ev_nout e2.
  Proof.
    rewrite !event_names_eq. unfold format_fnames. intros H1 H2.
    apply in_map_iff in H1. apply in_map_iff in H2. destruct H1 as [f [E1 H1]]. destruct H2 as [g [E2 H2]].
    rewrite <- E2 in E1. apply format_fname_inj in E1; [apply E1 | |]; eapply fields_digit_free; eassumption.
  Qed.

  Lemma nodup_app {P} (a b : list P) : NoDup a -> NoDup b -> (forall x, In x a -> In x b -> False) -> NoDup (a ++ b).
  Proof.
    induction a; simpl; intros Ha Hb H; [assumption|]. inversion Ha; subst. constructor.
    - intro Hin. apply in_app_or in Hin. destruct Hin as [Hin|Hin]; [contradiction|]. eapply H; [left; reflexivity|exact Hin].
    - apply IHa; [assumption|assumption|]. intros x Hx. apply H. right. exact Hx.
  Qed.
  Lemma nodup_flat (evs : list (event A)) :
    NoDup (map ev_nout evs) -> NoDup (map fst (flat_map printed_files evs)).
  Proof.
    induction evs as [|e evs IH]; simpl; intro H; [constructor|]. inversion H; subst.
    rewrite map_app. apply nodup_app; [apply event_names_nodup | apply IH; assumption |].
    intros nm H1 H4. apply in_map_iff in H4. destruct H4 as [p [Hp H4]]. apply in_flat_map in H4.
    destruct H4 as [e' [He' Hin]]. assert (In nm (event_names e')) by (subst nm; apply in_map; assumption).
    pose proof (event_names_disjoint e e' nm H1 H0) as E. apply H2. rewrite E. apply in_map. assumption.
  Qed.

  (** snapshots are numbered consecutively from 0 *)
  Definition numbered (evs : list (event A)) := map ev_nout evs = seq 0 (List.length evs).
  Lemma numbered_snoc evs ev : numbered evs -> ev_nout ev = List.length evs -> numbered (evs ++ [ev]).
  Proof.
    unfold numbered. intros H1 H2. rewrite map_app, app_length, H1. simpl. rewrite H2.
    rewrite Nat.add_1_r, seq_S. reflexivity.
  Qed.
  Lemma loop_numbered inner l cfl tf : forall fuel k tout touts s sc evs,
    numbered evs -> List.length evs = k ->
    numbered (fst (time_loop gamma inner l cfl tf fuel k tout touts s sc evs)).
  Proof.
    induction fuel as [|fuel IH]; intros k tout touts s sc evs Hn Hk; [exact Hn|]. cbn [time_loop].
    destruct (time_step gamma inner l cfl tf tout s sc) as [[[s' sc'] [[dt o] dn]]|e]; [|exact Hn].
    destruct o.
    - destruct (printer k dt s') as [ev|e] eqn:Ep; [|exact Hn]. apply printer_Ok in Ep. subst ev.
      assert (numbered (evs ++ [{| ev_nout := k; ev_dt := dt; ev_sol := s' |}])) by (apply numbered_snoc; [assumption|simpl; lia]).
      destruct dn; [assumption|]. destruct touts; [assumption|].
      apply IH; [assumption|]. rewrite app_length. simpl. lia.
    - destruct dn; [assumption|]. apply IH; assumption.
  Qed.
  Lemma integrate_numbered rk d l cfl tf nout fuel sol :
    numbered (fst (integrate gamma rk d l cfl tf nout fuel sol)).
  Proof.
    rewrite integrate_run_rk. unfold run_rk. destruct (nout <? 0)%Z; [reflexivity|].
    destruct (printer 0 n0 sol) as [ev|e] eqn:Ep; [|reflexivity]. apply printer_Ok in Ep. subst ev.
    destruct (slice_from _ 1); [reflexivity|]. apply loop_numbered; reflexivity.
  Qed.
  Lemma numbered_nth evs i ev : numbered evs -> nth_error evs i = Some ev -> ev_nout ev = i.
  Proof.
    unfold numbered. intros H Hi. assert (Hl : i < List.length evs) by (apply nth_error_Some; congruence).
    apply (map_nth_error ev_nout) in Hi. rewrite H in Hi.
    rewrite nth_error_nth' with (d := 0) in Hi by (rewrite seq_length; exact Hl).
    rewrite seq_nth in Hi by exact Hl. injection Hi. lia.
  Qed.
  Lemma integrate_files rk d l cfl tf nout fuel sol evs out :
    integrate gamma rk d l cfl tf nout fuel sol = (evs, out) ->
    NoDup (map fst (flat_map printed_files evs)) /\
    (forall i ev, nth_error evs i = Some ev -> ev_nout ev = i).
  Proof.
    intro H. pose proof (integrate_numbered rk d l cfl tf nout fuel sol) as Hn. rewrite H in Hn. cbn [fst] in Hn.
    split.
    - apply nodup_flat. rewrite Hn. apply seq_NoDup.
    - intros i ev. apply numbered_nth. exact Hn.
  Qed.

  (** ** visits is what the loop does *)
  Lemma visits_loop rk d l cfl tf nout sol0 k tout touts s sc evs : (0 <= nout)%Z ->
    visits gamma rk d l cfl tf nout sol0 k tout touts s sc evs ->
    exists m, forall fuel, integrate gamma rk d l cfl tf nout (m + fuel) sol0
                         = time_loop gamma (rk_inner gamma rk d l) l cfl tf fuel k tout touts s sc evs.
  Proof.
    intros Hn. induction 1 as [ev tout touts Hp Hs | k tout touts s sc evs s' sc' dt Hv IH Hs
                      | k tout tout' touts s sc evs s' sc' dt ev Hv IH Hs Hp].
    - exists 0. intro fuel. rewrite integrate_run_rk. unfold run_rk.
      destruct (Z.ltb_spec nout 0); [lia|]. rewrite Hp, Hs. reflexivity.
    - destruct IH as [m IH]. exists (S m). intro fuel. replace (S m + fuel) with (m + S fuel) by lia.
      rewrite IH. cbn [time_loop]. rewrite Hs. reflexivity.
    - destruct IH as [m IH]. exists (S m). intro fuel. replace (S m + fuel) with (m + S fuel) by lia.
      rewrite IH. cbn [time_loop]. rewrite Hs, Hp. reflexivity.
  Qed.

  Lemma visits_step_raise rk d l cfl tf nout sol0 k tout touts s sc evs e : (0 <= nout)%Z ->
    visits gamma rk d l cfl tf nout sol0 k tout touts s sc evs ->
    time_step gamma (rk_inner gamma rk d l) l cfl tf tout s sc = Raise e ->
    exists F, forall fuel, F <= fuel -> integrate gamma rk d l cfl tf nout fuel sol0 = (evs, Failed e).
  Proof.
    intros Hn Hv He. destruct (visits_loop _ _ _ _ _ _ _ _ _ _ _ _ _ Hn Hv) as [m Hm]. exists (S m).
    intros fuel Hf. replace fuel with (m + S (fuel - S m)) by lia. rewrite Hm. cbn [time_loop]. rewrite He. reflexivity.
  Qed.

  (** a CFL step that fails the sanity check stops the step whatever the inner loop is *)
  Lemma bad_dt_raises inner l cfl tf tout s sc dt e :
    cfl_time_step gamma s cfl = Ok dt -> sanity_check_dt dt = Raise e ->
    time_step gamma inner l cfl tf tout s sc = Raise e.
  Proof. intros H1 H2. unfold time_step, get_next_time_step. rewrite H1. cbn [rbind]. rewrite H2. reflexivity. Qed.
End Names.

(** ** C05, real arithmetic *)
Section C05.
  Context {X : Ext R}.
  Variable gamma : R.
  Local Open Scope R_scope.
  Lemma step_cfl_bound inner l cfl tf tout s sc s' sc' dt o dn :
    time_step gamma inner l cfl tf tout s sc = Ok (s', sc', (dt, o, dn)) ->
    exists v, max_wave_speed gamma s = Ok v /\
      dt <= s_dx s * cfl / (v * INR (2 * b_p (s_basis s) + 1)) /\
      1 / 100000000000000 <= s_dx s * cfl / (v * INR (2 * b_p (s_basis s) + 1)).
  Proof.
    intro H. unfold time_step in H. inv_bind H. destruct x as [[dt' o'] dn'].
    inv_bind H. destruct x as [s1 sc1]. inv_bind H. inv_bind H. injection H as <- <- <- <- <-.
    apply next_step_cases in Hx. destruct Hx as [v [Hv [He Hc]]]. exists v. split; [exact Hv|].
    cbv zeta in Hc. unfold eps_dt in He. split; [|exact He].
    destruct Hc as [[H1 [-> _]] | [[H1 [H2 [-> _]]] | [H1 [H2 [-> _]]]]]; lra.
  Qed.
  Lemma small_cfl_raises inner l cfl tf tout s sc v :
    max_wave_speed gamma s = Ok v ->
    s_dx s * cfl / (v * INR (2 * b_p (s_basis s) + 1)) < 1 / 100000000000000 ->
    time_step gamma inner l cfl tf tout s sc = Raise (SysExit "Next time step is too small").
  Proof.
    intros Hv Hc. eapply bad_dt_raises.
    - unfold cfl_time_step. rewrite Hv. reflexivity.
    - unfold sanity_check_dt, nnat. numR. rewrite <- INR_IZR_INZ.
      Rcase (s_dx s * cfl / (v * INR (2 * b_p (s_basis s) + 1))) (1 / 100000000000000); [reflexivity|lra].
  Qed.
End C05.

(** ** C11 *)
Section C11.
  Context {A : Type} {N : Num A} {L : Libm A} {X : Ext A}.
  Variable gamma : A.
  Lemma unknown_rk rk : ~ In rk ["low_storage_rk4"; "rk3"; "rk4"; "rk5"; "rk6"; "rk8"; "rk10"; "rk12"; "rk14"]%string ->
    forall d l cfl tf nout fuel sol,
    integrate gamma rk d l cfl tf nout fuel sol = integrate gamma "rk4" d l cfl tf nout fuel sol.
  Proof.
    intros H *.
    assert (E : forall s, In s ["low_storage_rk4"; "rk3"; "rk4"; "rk5"; "rk6"; "rk8"; "rk10"; "rk12"; "rk14"]%string ->
                String.eqb rk s = false).
    { intros s Hs. apply String.eqb_neq. intros ->. contradiction. }
    unfold integrate, rk_choice. rewrite !E by (simpl; tauto). reflexivity.
  Qed.
  Lemma unknown_riemann r : r <> "rusanov"%string -> r <> "godunov"%string ->
    forall icline system order enh th,
    Solution (A:=A) icline system order r enh th = Solution icline system order "roe" enh th.
  Proof.
    intros H1 H2 *. apply String.eqb_neq in H1. apply String.eqb_neq in H2.
    unfold Solution, riemann_choice. rewrite H1, H2. reflexivity.
  Qed.
  Lemma unknown_limiter t (s : solution A) : t <> "adaptive_hr"%string -> Limiter t s = Ok None.
  Proof. intro H. apply String.eqb_neq in H. unfold Limiter. rewrite H. reflexivity. Qed.
  Lemma unknown_system sys : sys <> "euler"%string -> forall icline order r enh th,
    Solution (A:=A) icline sys order r enh th = Solution icline "advection" order r enh th.
  Proof. intros H *. apply String.eqb_neq in H. unfold Solution. rewrite H. reflexivity. Qed.

  Lemma solution_meta icline sys order r enh th s g : Solution (A:=A) icline sys order r enh th = Ok (s, g) ->
    s_euler s = String.eqb sys "euler" /\ s_riemann s = riemann_choice (String.eqb sys "euler") r.
  Proof.
    unfold Solution. destruct (split_ws icline) as [|nm ps]; [discriminate|].
    set (s0 := blank_solution nm ps (String.eqb sys "euler") _ order).
    assert (H0 : forall s1 g1 e, run_ic s0 gamma_default = (s1, g1, e) ->
              s_euler s1 = s_euler s0 /\ s_riemann s1 = s_riemann s0).
    { unfold run_ic. destruct (IC.ic_lookup _ _ _) as [ic|e0]; intros s1 g1 e.
      - match goal with |- context [setup_common_ic ?a ?b ?c ?d] => remember (setup_common_ic a b c d) as r0 eqn:Er end.
        destruct r0 as [s2 e2]. intro H. injection H as <- <- <-.
        unfold setup_common_ic in Er.
        destruct (nth_error _ 0); [|injection Er as -> _; split; reflexivity].
        destruct (parse_int _); [|injection Er as -> _; split; reflexivity].
        destruct (_ <? 0)%Z; [injection Er as -> _; split; reflexivity|].
        destruct (_ <? 0)%Z; [injection Er as -> _; split; reflexivity|].
        destruct (populate _ _ _ _ _ _) as [u [e1|]]; injection Er as -> _; split; reflexivity.
      - intro H. injection H as <- <- <-. split; reflexivity. }
    destruct (run_ic s0 gamma_default) as [[s1 g1] e] eqn:E.
    specialize (H0 _ _ _ eq_refl).
    assert (H1 : forall (th : list A), (let! s2 := (if String.eqb enh "" then Ok s1
                        else let! e := Enhance order enh in Ok (with_enh s1 (Some e))) in
            match th with
            | [] => Ok (s2, g1)
            | _ => if (s_NE s2 + 2 <? 0)%Z then Raise ValueError
                   else Ok (with_sens s2 (Some (Sensor th (Z.to_nat (s_NE s2 + 2)))), g1)
            end) = Ok (s, g) -> s_euler s = s_euler s1 /\ s_riemann s = s_riemann s1).
    { intros th' H. inv_bind H.
      assert (Hx' : s_euler x = s_euler s1 /\ s_riemann x = s_riemann s1).
      { destruct (String.eqb enh ""); [injection Hx as <-; auto|]. inv_bind Hx. injection Hx as <-. auto. }
      destruct th'; [injection H as <- <-; exact Hx'|].
      destruct (_ <? 0)%Z; [discriminate|]. injection H as <- <-. exact Hx'. }
    intro H.
    assert (H2 : s_euler s = s_euler s1 /\ s_riemann s = s_riemann s1).
    { destruct e as [[]|]; try discriminate; apply (H1 th); exact H. }
    destruct H0 as [E1 E2]. rewrite E1, E2 in H2. exact H2.
  Qed.
End C11.

(** ** C06, IEEE doubles *)
Section C06.
  Context {L : Libm spec_float} {X : Ext spec_float}.
  Notation sf := spec_float.

  Definition is_nan (x : sf) := x = S754_nan.
  Lemma add_nan_l y : SFadd prec64 emax64 S754_nan y = S754_nan. Proof. destruct y; reflexivity. Qed.
  Lemma add_nan_r x : SFadd prec64 emax64 x S754_nan = S754_nan. Proof. destruct x; reflexivity. Qed.
  Lemma sub_nan_l y : SFsub prec64 emax64 S754_nan y = S754_nan. Proof. destruct y; reflexivity. Qed.
  Lemma sub_nan_r x : SFsub prec64 emax64 x S754_nan = S754_nan. Proof. destruct x; reflexivity. Qed.
  Lemma mul_nan_l y : SFmul prec64 emax64 S754_nan y = S754_nan. Proof. destruct y; reflexivity. Qed.
  Lemma mul_nan_r x : SFmul prec64 emax64 x S754_nan = S754_nan. Proof. destruct x; reflexivity. Qed.
  Lemma div_nan_l y : SFdiv prec64 emax64 S754_nan y = S754_nan. Proof. destruct y; reflexivity. Qed.
  Lemma div_nan_r x : SFdiv prec64 emax64 x S754_nan = S754_nan. Proof. destruct x; reflexivity. Qed.

  (** a result that is NaN or +infinity cannot lead to an accepted time step *)
  Definition runaway (x : sf) : Prop := x = S754_nan \/ x = S754_infinity false.

  Lemma maximum_nan_l y : npmaximum S754_nan y = S754_nan. Proof. reflexivity. Qed.
  Lemma maximum_nan_r x : npmaximum x S754_nan = S754_nan. Proof. destruct x; reflexivity. Qed.
  Lemma maximum_runaway_l x y : runaway x -> runaway (npmaximum x y).
  Proof.
    intros [-> | ->]; [left; reflexivity|]. unfold npmaximum. cbn.
    destruct y as [s|s| |s m e]; cbn; try (right; reflexivity); try (left; reflexivity).
    all: try (destruct s; right; reflexivity).
  Qed.
  Lemma maximum_runaway_r x y : runaway y -> runaway (npmaximum x y).
  Proof.
    intros [-> | ->]; [left; apply maximum_nan_r|]. unfold npmaximum. cbn.
    destruct x as [s|s| |s m e]; cbn; try (right; reflexivity); try (left; reflexivity).
    all: destruct s; right; reflexivity.
  Qed.
  Lemma fold_max_runaway l x : runaway x -> runaway (fold_left npmaximum l x).
  Proof. revert x. induction l; intros x H; [exact H|]. simpl. apply IHl. apply maximum_runaway_l. exact H. Qed.
  Lemma fold_max_runaway_in l : forall x y, In y l -> runaway y -> runaway (fold_left npmaximum l x).
  Proof.
    induction l as [|a l IH]; intros x y Hin H; [contradiction|]. simpl. destruct Hin as [->|Hin].
    - apply fold_max_runaway. apply maximum_runaway_r. exact H.
    - eapply IH; eassumption.
  Qed.
  Lemma npmax_runaway l y : In y l -> runaway y -> exists m, npmax l = Some m /\ runaway m.
  Proof.
    destruct l as [|a l]; intros Hin H; [contradiction|]. eexists. split; [reflexivity|].
    destruct Hin as [->|Hin]; [apply fold_max_runaway; exact H | eapply fold_max_runaway_in; eassumption].
  Qed.

  (** sign of rounded results *)
  Definition signed (s : bool) (x : sf) : Prop :=
    match x with S754_zero s' => s' = s | S754_infinity s' => s' = s | S754_finite s' _ _ => s' = s | S754_nan => True end.
  Lemma round_aux_signed s m e l : signed s (binary_round_aux prec64 emax64 s m e l).
  Proof.
    unfold binary_round_aux. destruct (shr_fexp _ _ _ _ _) as [mrs' e'].
    destruct (shr_fexp _ _ _ _ _) as [mrs'' e'']. destruct (shr_m mrs''); simpl; [reflexivity| |exact I].
    destruct (_ <=? _)%Z; reflexivity.
  Qed.
  Lemma mul_signed s1 s2 x y : signed s1 x -> signed s2 y -> signed (xorb s1 s2) (SFmul prec64 emax64 x y).
  Proof.
    destruct x, y; simpl; intros; subst; try reflexivity; try exact I. apply round_aux_signed.
  Qed.
  Lemma div_signed s1 s2 x y : signed s1 x -> signed s2 y -> signed (xorb s1 s2) (SFdiv prec64 emax64 x y).
  Proof.
    destruct x, y; simpl; intros; subst; try reflexivity; try exact I.
    destruct (SFdiv_core_binary _ _ _ _ _ _) as [[q e'] l]. apply round_aux_signed.
  Qed.

  Definition nonfinite (x : sf) : Prop := match x with S754_finite _ _ _ | S754_zero _ => False | _ => True end.
  Definition sf_zero (x : sf) : Prop := match x with S754_zero _ => True | _ => False end.

  Section Gamma.
    Variable gamma : sf.
    (** gamma - 1 and gamma are positive finite numbers *)
    Hypothesis Hg : exists m e, gamma = S754_finite false m e.
    Hypothesis Hg1 : exists m e, nsub gamma n1 = S754_finite false m e.

    Lemma wave_speed_of_nan_p rho m E : pres gamma (rho, m, E) = S754_nan -> wave_speed gamma (rho, m, E) = S754_nan.
    Proof.
      intro H. unfold wave_speed, sound. rewrite H. cbn [nadd nmul ndiv nsqrt NumSF].
      rewrite mul_nan_r, div_nan_l. simpl. apply add_nan_r.
    Qed.
    Lemma pres_eq (rho m E : sf) : pres gamma (rho, m, E) =
      nmul (nsub gamma n1) (nsub E (nmul (nmul (nmul nhalf rho) (ndiv m rho)) (ndiv m rho))).
    Proof. reflexivity. Qed.

    Lemma nhalf_eq : (nhalf : sf) = S754_finite false 4503599627370496 (-53).
    Proof. reflexivity. Qed.

    (** zero or non-finite density, NaN or infinite momentum, NaN or infinite energy *)
    Lemma wave_speed_bad rho m E : nonfinite rho \/ sf_zero rho \/ nonfinite m \/ nonfinite E ->
      runaway (wave_speed gamma (rho, m, E)).
    Proof.
      intro H.
      destruct Hg as [gm [ge Egam]]. destruct Hg1 as [hm [he Eh]].
      (* rho *)
      assert (Hrho : nonfinite rho \/ sf_zero rho -> runaway (wave_speed gamma (rho, m, E))).
      { intro Hr. left. apply wave_speed_of_nan_p. rewrite pres_eq, nhalf_eq. cbn [nadd nmul ndiv nsub NumSF].
        replace (SFmul prec64 emax64 (SFmul prec64 emax64 (SFmul prec64 emax64 (S754_finite false 4503599627370496 (-53)) rho) (SFdiv prec64 emax64 m rho)) (SFdiv prec64 emax64 m rho)) with S754_nan.
        - rewrite sub_nan_r, mul_nan_r. reflexivity.
        - destruct rho as [s|s| |s mm e]; destruct m as [s'|s'| |s' mm' e'], Hr as [Hr|Hr]; try contradiction Hr; reflexivity. }
      (* m *)
      assert (Hm : nonfinite m -> runaway (wave_speed gamma (rho, m, E))).
      { intro Hm'. destruct rho as [s|s| |s mm e];
          [apply Hrho; right; exact I | apply Hrho; left; exact I | apply Hrho; left; exact I |].
        destruct m as [s'|s'| |s' mm' e']; try contradiction Hm'.
        - (* infinite momentum: 0.5*rho*v*v is NaN or infinite with the sign of rho *)
          unfold wave_speed, sound.
          assert (Hk : exists k, k = pres gamma (S754_finite s mm e, S754_infinity s', E)
             /\ (k = S754_nan \/ k = S754_infinity (negb s) \/ (exists s2, E = S754_infinity s2 /\ (k = S754_infinity s2 \/ k = S754_nan)))).
          { eexists. split; [reflexivity|]. rewrite pres_eq, Eh, nhalf_eq. cbn [nadd nmul ndiv nsub NumSF].
            pose proof (mul_signed false s (S754_finite false 4503599627370496 (-53)) (S754_finite s mm e) eq_refl eq_refl) as Hs.
            destruct (SFmul prec64 emax64 (S754_finite false 4503599627370496 (-53)) (S754_finite s mm e)) as [t|t| |t tm te];
              cbn [signed xorb] in Hs; subst; cbn [SFdiv SFmul].
            all: destruct E as [q|q| |q qm qe]; destruct s, s'; try destruct q; cbn;
                first [left; reflexivity | right; left; reflexivity | right; right; eexists; split; [reflexivity|first [left; reflexivity|right; reflexivity]]]. }
          destruct Hk as [k [Ek Hk]]. rewrite <- Ek, Egam. cbn [nadd nmul ndiv nsqrt nabs NumSF].
          destruct Hk as [-> | [-> | [s2 [_ [-> | ->]]]]].
          + left. rewrite mul_nan_r, div_nan_l. apply add_nan_r.
          + left. destruct s; cbn; destruct s'; reflexivity.
          + destruct s, s2; cbn; destruct s'; first [left; reflexivity | right; reflexivity].
          + left. rewrite mul_nan_r, div_nan_l. apply add_nan_r.
        - left. unfold wave_speed, vel. cbn [ndiv nabs nadd NumSF]. rewrite div_nan_l. apply add_nan_l. }
      destruct H as [H|[H|[H|H]]]; [apply Hrho; auto | apply Hrho; auto | apply Hm; exact H |].
      destruct rho as [s|s| |s mm e];
          [apply Hrho; right; exact I | apply Hrho; left; exact I | apply Hrho; left; exact I |].
      destruct m as [s'|s'| |s' mm' e']; [ | apply Hm; exact I | apply Hm; exact I | ].
      - destruct E as [q|q| |q qm qe]; try contradiction H.
        + assert (Hp : pres gamma (S754_finite s mm e, S754_zero s', S754_infinity q) = S754_nan \/
                        pres gamma (S754_finite s mm e, S754_zero s', S754_infinity q) = S754_infinity q).
          { rewrite pres_eq, Eh, nhalf_eq. cbn [nadd nmul ndiv nsub NumSF].
            destruct (SFmul prec64 emax64 (SFmul prec64 emax64 _ _) _) as [t|t| |t tm te]; destruct q; try destruct t; cbn; auto. }
          destruct Hp as [Hp|Hp]; [left; apply wave_speed_of_nan_p; exact Hp|].
          unfold wave_speed, sound. rewrite Hp, Egam. cbn. destruct s, q, s'; first [left; reflexivity|right; reflexivity].
        + left. apply wave_speed_of_nan_p. rewrite pres_eq. cbn [nadd nmul ndiv nsub NumSF].
          rewrite sub_nan_l, mul_nan_r. reflexivity.
      - destruct E as [q|q| |q qm qe]; try contradiction H.
        + assert (Hp : pres gamma (S754_finite s mm e, S754_finite s' mm' e', S754_infinity q) = S754_nan \/
                        pres gamma (S754_finite s mm e, S754_finite s' mm' e', S754_infinity q) = S754_infinity q).
          { rewrite pres_eq, Eh, nhalf_eq. cbn [nadd nmul ndiv nsub NumSF].
            destruct (SFmul prec64 emax64 (SFmul prec64 emax64 _ _) _) as [t|t| |t tm te]; destruct q; try destruct t; cbn; auto. }
          destruct Hp as [Hp|Hp]; [left; apply wave_speed_of_nan_p; exact Hp|].
          unfold wave_speed, sound. rewrite Hp, Egam. cbn [vel nadd nmul ndiv nsqrt nabs NumSF].
          replace (SFsqrt prec64 emax64 (SFdiv prec64 emax64 (SFmul prec64 emax64 (S754_finite false gm ge) (S754_infinity q)) (S754_finite s mm e)))
            with (if xorb q s then S754_nan else S754_infinity false) by (destruct q, s; reflexivity).
          destruct (xorb q s); [left; apply add_nan_r|].
          pose proof (div_signed s' s (S754_finite s' mm' e') (S754_finite s mm e) eq_refl eq_refl) as Hs.
          destruct (SFdiv prec64 emax64 (S754_finite s' mm' e') (S754_finite s mm e)); cbn; first [right; reflexivity|left; reflexivity].
        + left. apply wave_speed_of_nan_p. rewrite pres_eq. cbn [nadd nmul ndiv nsub NumSF].
          rewrite sub_nan_l, mul_nan_r. reflexivity.
    Qed.

    (** negative gamma*p/rho *)
    Lemma wave_speed_neg rho m E :
      nltb (ndiv (nmul gamma (pres gamma (rho, m, E))) rho) n0 = true -> runaway (wave_speed gamma (rho, m, E)).
    Proof.
      intro H. left. unfold wave_speed, sound.
      destruct (ndiv (nmul gamma (pres gamma (rho, m, E))) rho) as [s|s| |s mm e]; cbn in H |- *; try discriminate.
      - destruct s; [|discriminate]. apply add_nan_r.
      - destruct s; [|discriminate]. apply add_nan_r.
    Qed.

    Lemma nnat_signed k : signed false (nnat k : sf).
    Proof.
      unfold nnat. cbn [nofZ NumSF]. unfold sf64_ofZ, binary_normalize.
      destruct (Z.of_nat k) eqn:E; [reflexivity| |lia].
      unfold binary_round. destruct (shl_align _ _ _). apply round_aux_signed.
    Qed.
    Lemma runaway_dt_fails (a b v : sf) : signed false b -> runaway v ->
      exists e, sanity_check_dt (ndiv a (nmul v b)) = Raise (SysExit e).
    Proof.
      intros Hb [-> | ->].
      - cbn [ndiv nmul NumSF]. rewrite mul_nan_l, div_nan_r. eexists. reflexivity.
      - cbn [ndiv nmul NumSF].
        destruct b as [sb|sb| |sb mb eb]; cbn in Hb; subst; destruct a as [s|s| |s m e]; try destruct s; cbn; eexists; reflexivity.
    Qed.

    Lemma bad_average_stops inner l cfl tf tout (s : solution sf) sc (c : sf * sf * sf) :
      s_euler s = true -> In c (split3 (row (s_u s) 0)) ->
      (let '(rho, m, E) := c in
         nonfinite rho \/ sf_zero rho \/ nonfinite m \/ nonfinite E \/
         nltb (ndiv (nmul gamma (pres gamma (rho, m, E))) rho) n0 = true) ->
      exists e, time_step gamma inner l cfl tf tout s sc = Raise (SysExit e).
    Proof.
      intros He Hin Hbad. destruct c as [[rho m] E].
      assert (Hr : runaway (wave_speed gamma (rho, m, E))).
      { destruct Hbad as [H|[H|[H|[H|H]]]]; [apply wave_speed_bad; auto ..| apply wave_speed_neg; exact H]. }
      destruct (npmax_runaway (map (wave_speed gamma) (split3 (row (s_u s) 0))) (wave_speed gamma (rho, m, E))) as [v [Hv Hrv]].
      { apply in_map. exact Hin. } { exact Hr. }
      assert (Hms : max_wave_speed gamma s = Ok v).
      { unfold max_wave_speed. rewrite He. unfold euler_max_wave_speed. rewrite Hv. reflexivity. }
      destruct (runaway_dt_fails (nmul (s_dx s) cfl) (nnat (2 * b_p (s_basis s) + 1)) v (nnat_signed _) Hrv) as [e Hse].
      exists e. eapply bad_dt_raises; [|exact Hse]. unfold cfl_time_step. rewrite Hms. reflexivity.
    Qed.
    Lemma bad_average_run rk d l cfl tf nout sol0 k tout touts (s : solution sf) sc evs (c : sf * sf * sf) : (0 <= nout)%Z ->
      visits gamma rk d l cfl tf nout sol0 k tout touts s sc evs ->
      s_euler s = true -> In c (split3 (row (s_u s) 0)) ->
      (let '(rho, m, E) := c in
         nonfinite rho \/ sf_zero rho \/ nonfinite m \/ nonfinite E \/
         nltb (ndiv (nmul gamma (pres gamma (rho, m, E))) rho) n0 = true) ->
      exists F msg, forall fuel, F <= fuel ->
        integrate gamma rk d l cfl tf nout fuel sol0 = (evs, Failed (SysExit msg)).
    Proof.
      intros Hn Hv He Hin Hbad.
      destruct (bad_average_stops (rk_inner gamma rk d l) l cfl tf tout s sc c He Hin Hbad) as [e Hs].
      destruct (visits_step_raise gamma _ _ _ _ _ _ _ _ _ _ _ _ _ _ Hn Hv Hs) as [F HF].
      exists F, e. exact HF.
    Qed.
  End Gamma.

End C06.
