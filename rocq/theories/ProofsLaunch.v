(** Regression tests *)
From Coq Require Import ZArith List Bool Arith String Ascii Lia Reals.
From Verif Require Import Num Py Lib PyStr ProofsStr LegNumpy Ext Basis Sensor Enhance Limiting AdvectionPhysics EulerPhysics IC Solution Solver RK IO Deck Main Scripts Launch
  SpecLaunch SpecTime ProofsTime ProofsTime2 SpecIO ProofsIO ProofsScripts2 SpecDG ProofsWf ProofsDG.
Import ListNotations.
Open Scope string_scope.
Open Scope list_scope.

(** *** names *)
Lemma ends_with_spec suf s : ends_with suf s = true <-> exists p, s = (p ++ suf)%string.
Proof.
  induction s as [|c s IH]; cbn [ends_with].
  - rewrite orb_false_r, String.eqb_eq. split; [intros ->; exists ""; reflexivity|]. intros [p E]. destruct p; [symmetry; exact E|discriminate].
  - rewrite orb_true_iff, String.eqb_eq, IH. split.
    + intros [->|[p ->]]; [exists ""; reflexivity|exists (String c p); reflexivity].
    + intros [[|d p] E]; [left; symmetry; exact E|right]. injection E as -> E. exists p. exact E.
Qed.
Lemma is_prefix_spec p s : is_prefix p s = true <-> exists r, s = (p ++ r)%string.
Proof.
  revert s. induction p as [|c p IH]; intro s; cbn [is_prefix append].
  - split; [intros _; exists s; reflexivity|reflexivity].
  - destruct s as [|d s]; [split; [discriminate|intros [r E]; discriminate]|]. rewrite andb_true_iff, Ascii.eqb_eq, IH. split.
    + intros [-> [r ->]]. exists r. reflexivity.
    + intros [r E]. injection E as -> E. split; [reflexivity|exists r; exact E].
Qed.
Lemma is_dat_spec name : is_dat name = true <-> dat_file name.
Proof.
  unfold is_dat, dat_file. rewrite andb_true_iff, negb_true_iff, ends_with_spec. apply and_iff_compat_l. rewrite <- is_prefix_spec. destruct (is_prefix "." name); split; intro H; congruence.
Qed.
Lemma append_assoc_s a b c : ((a ++ b) ++ c = a ++ (b ++ c))%string.
Proof. induction a; cbn; [reflexivity|]. f_equal. exact IHa. Qed.
Lemma last_char_app a c : exists b d, (a ++ String c "")%string = String b d. Proof. destruct a; do 2 eexists; reflexivity. Qed.
Lemma fname_dat n f : f <> "" -> is_prefix "." f = false -> is_dat (format_fname n f) = true.
Proof.
  intros H1 H2. apply is_dat_spec. split.
  - exists (f ++ show_nat_pad 10 n)%string. unfold format_fname. symmetry. apply append_assoc_s.
  - intros [r E]. destruct f as [|c f]; [congruence|]. cbn in H2. unfold format_fname in E. injection E as -> _. cbn in H2. discriminate.
Qed.

Section Read.
  Lemma read_app (a b : directory) name : read_file (a ++ b) name = match read_file b name with Some c => Some c | None => read_file a name end.
  Proof.
    induction a as [|[n c] a IH]; cbn [app read_file]; [destruct (read_file b name); reflexivity|]. rewrite IH. destruct (read_file b name); reflexivity.
  Qed.
  Lemma read_filter (d : directory) (keep : string -> bool) name : read_file (filter (fun f => keep (fst f)) d) name = if keep name then read_file d name else None.
  Proof.
    induction d as [|[n c] d IH]; cbn [filter read_file fst]; [destruct (keep name); reflexivity|].
    destruct (keep n) eqn:K; cbn [read_file]; rewrite IH.
    - destruct (keep name) eqn:K2; [reflexivity|]. destruct (String.eqb_spec n name); [congruence|reflexivity].
    - destruct (keep name) eqn:K2; [|reflexivity]. destruct (read_file d name); [reflexivity|]. destruct (String.eqb_spec n name); [congruence|reflexivity].
  Qed.
  Lemma read_remove (d : directory) name : read_file (remove_dats d) name = if is_dat name then None else read_file d name.
  Proof. unfold remove_dats. rewrite (read_filter d (fun n => negb (is_dat n))). destruct (is_dat name); reflexivity. Qed.
  Lemma read_Some_In (d : directory) name c : read_file d name = Some c -> In (name, c) d.
  Proof.
    induction d as [|[n c'] d IH]; cbn [read_file]; [discriminate|]. destruct (read_file d name) as [c2|]; intro H.
    - right. apply IH. exact H.
    - destruct (String.eqb_spec n name); [|discriminate]. injection H as <-. left. subst. reflexivity.
  Qed.
End Read.

Section Launch.
  Context {A : Type} {N : Num A} {L : Libm A} {X : Ext A}.

  Lemma printed_In (ev : event A) name c : In (name, c) (printed_files ev) ->
    (exists f fld, nth_error (s_fields (ev_sol ev)) f = Some fld /\ name = format_fname (ev_nout ev) fld /\ c = field_file (ev_sol ev) f) \/ name = format_fname (ev_nout ev) "sensor".
  Proof.
    unfold printed_files. intro H. apply in_app_or in H. destruct H as [H|H].
    - left. apply In_nth_error in H. destruct H as [f H]. exists f.
      assert (H1 : nth_error (format_fnames (ev_nout ev) (s_fields (ev_sol ev))) f = Some name /\ nth_error (map (field_file (ev_sol ev)) (seq 0 (List.length (s_fields (ev_sol ev))))) f = Some c).
      { revert H. generalize (format_fnames (ev_nout ev) (s_fields (ev_sol ev))) (map (field_file (ev_sol ev)) (seq 0 (List.length (s_fields (ev_sol ev))))). intros a.
        generalize f. induction a as [|x a IH]; intros [|k] [|y b] H; cbn in *; try discriminate.
        - injection H as -> ->. split; reflexivity.
        - apply IH. exact H. }
      destruct H1 as [H1 H2]. unfold format_fnames in H1. rewrite nth_error_map in H1. destruct (nth_error (s_fields (ev_sol ev)) f) as [fld|] eqn:E; [|discriminate].
      exists fld. split; [reflexivity|]. injection H1 as <-. split; [reflexivity|].
      assert (Hf : (f < List.length (s_fields (ev_sol ev)))%nat) by (apply nth_error_Some; congruence).
      rewrite nth_error_map, (nth_error_nth' _ 0%nat) in H2 by (rewrite seq_length; exact Hf). rewrite seq_nth in H2 by exact Hf. injection H2 as <-. reflexivity.
    - right. destruct (s_sens (ev_sol ev)); [|contradiction]. destruct H as [H|[]]. injection H as <- _. reflexivity.
  Qed.
  Lemma printed_dat (ev : event A) name c : In (name, c) (printed_files ev) -> is_dat name = true.
  Proof.
    intro H. apply printed_In in H. destruct H as [[f [fld [H [-> _]]]]| ->]; [|apply fname_dat; [discriminate|reflexivity]]. apply nth_error_In in H.
    unfold s_fields in H. destruct (s_euler (ev_sol ev)); cbn [In] in H; repeat (destruct H as [<-|H]; [apply fname_dat; [discriminate|reflexivity]|]); contradiction.
  Qed.
  Lemma run_read_other (evs : list (event A)) name : is_dat name = false -> read_file (flat_map printed_files evs) name = None.
  Proof.
    intro H. destruct (read_file _ name) as [c|] eqn:E; [|reflexivity]. apply read_Some_In, in_flat_map in E. destruct E as [ev [_ E]]. apply printed_dat in E. congruence.
  Qed.
  Definition three_names := ["rho"; "rhou"; "E"].
  Lemma three_cases f name : nth_error three_names f = Some name -> (f = 0%nat /\ name = "rho") \/ (f = 1%nat /\ name = "rhou") \/ (f = 2%nat /\ name = "E").
  Proof. destruct f as [|[|[|f]]]; cbn; intro H; try (injection H as <-; tauto). destruct f; discriminate. Qed.
  Lemma run_read_one (evs : list (event A)) f name c : numbered evs -> nth_error three_names f = Some name ->
    read_file (flat_map printed_files evs) (name ++ "0000000001.dat")%string = Some c <->
    exists ev, nth_error evs 1 = Some ev /\ s_euler (ev_sol ev) = true /\ c = field_file (ev_sol ev) f.
  Proof.
    intros HN Hf. assert (Hn : (name ++ "0000000001.dat")%string = format_fname 1 name) by (apply three_cases in Hf; destruct Hf as [[_ ->]|[[_ ->]|[_ ->]]]; reflexivity).
    assert (Hd : all_chars (fun c => negb (is_digit c)) name = true) by (apply three_cases in Hf; destruct Hf as [[_ ->]|[[_ ->]|[_ ->]]]; reflexivity).
    rewrite Hn. split.
    - intro H. apply read_Some_In, in_flat_map in H. destruct H as [ev [Hev H]]. exists ev.
      assert (Q : ev_nout ev = 1%nat /\ s_euler (ev_sol ev) = true /\ c = field_file (ev_sol ev) f).
      { apply printed_In in H. destruct H as [[f' [fld [H1 [H2 ->]]]]|H2].
        - apply format_fname_inj in H2; [|exact Hd|apply (fields_digit_free ev); apply in_or_app; left; eapply nth_error_In; exact H1]. destruct H2 as [H2 <-].
          split; [symmetry; exact H2|]. unfold s_fields in H1. destruct (s_euler (ev_sol ev)).
          + split; [reflexivity|]. f_equal. change (nth_error three_names f' = Some name) in H1. apply three_cases in H1. apply three_cases in Hf. intuition congruence.
          + exfalso. destruct f' as [|[|?]]; cbn in H1; try discriminate. injection H1 as <-. apply three_cases in Hf. intuition congruence.
        - exfalso. apply format_fname_inj in H2; [|exact Hd|reflexivity]. destruct H2 as [_ ->]. apply three_cases in Hf. intuition congruence. }
      destruct Q as [Q1 Q2]. split; [|exact Q2]. apply In_nth_error in Hev. destruct Hev as [i Hi]. rewrite <- Q1, (numbered_nth _ _ _ HN Hi). exact Hi.
    - intros [ev [H1 [H2 ->]]]. pose proof (numbered_nth _ _ _ HN H1) as E. apply read_In.
      + apply nodup_flat. rewrite HN. apply seq_NoDup.
      + apply in_flat_map. exists ev. split; [eapply nth_error_In; exact H1|]. apply printed_field. rewrite E. unfold format_fnames, s_fields. rewrite H2, nth_error_map.
        change ["rho"; "rhou"; "E"] with three_names. rewrite Hf. reflexivity.
  Qed.

  Lemma all2_spec {Y Z} (p : Y -> Z -> bool) a b : all2 p a b = true <-> Forall2 (fun x y => p x y = true) a b.
  Proof.
    revert b. induction a as [|x a IH]; intros [|y b]; cbn [all2]; try (split; [discriminate|intro H; inversion H]).
    - split; [constructor|reflexivity].
    - rewrite andb_true_iff, IH. split; [intros [H1 H2]; constructor; assumption|intro H; inversion H; subst; tauto].
  Qed.
  Lemma same_spec (a b : list (list A)) : same_table a b = true <-> Forall2 (Forall2 (fun x y => almost_equal x y = true)) a b.
  Proof.
    unfold same_table. rewrite all2_spec. split; intro H; induction H; constructor; try assumption; apply all2_spec; assumption.
  Qed.
  Lemma field_spec (dir : directory) name : compare_field dir name = Ok true <->
    exists c t gold g, read_file dir (name ++ "0000000001.dat")%string = Some c /\ loadtxt c = Ok t /\
      read_file dir (name ++ "0000000001.gold")%string = Some gold /\ loadtxt gold = Ok g /\ Forall2 (Forall2 (fun x y => almost_equal x y = true)) t g.
  Proof.
    unfold compare_field, read. split.
    - intro H. inv_bind H. inv_bind H. inv_bind H. inv_bind H. destruct (read_file dir (name ++ "0000000001.dat")) as [c|]; [|discriminate]. destruct (read_file dir (name ++ "0000000001.gold")) as [gd|]; [|discriminate].
      apply Ok_inj in H, Hx, Hx1. subst. exists x, x0, x1, x2. apply same_spec in H. tauto.
    - intros [c [t [gold [g [-> [E1 [-> [E2 H]]]]]]]]. cbn [rbind]. rewrite E1. cbn [rbind]. rewrite E2. cbn [rbind]. apply same_spec in H. rewrite H. reflexivity.
  Qed.
  Lemma compare_spec (dir : directory) : compare_with_golds dir = Ok true <-> forall f name, nth_error three_names f = Some name -> compare_field dir name = Ok true.
  Proof.
    unfold compare_with_golds. split.
    - intro H. inv_bind H. destruct x; [|discriminate]. inv_bind H. destruct x; [|discriminate]. intros f name Hf. apply three_cases in Hf. destruct Hf as [[_ ->]|[[_ ->]|[_ ->]]]; assumption.
    - intro H. rewrite (H 0%nat "rho" eq_refl). cbn [rbind]. rewrite (H 1%nat "rhou" eq_refl). cbn [rbind]. apply (H 2%nat). reflexivity.
  Qed.

  Lemma main_numbered fuel content evs out : main fuel content = (evs, out) -> numbered evs.
  Proof.
    unfold main, run_deck. destruct (parser content Deck) as [d|e]; [|injection 1 as <- <-; reflexivity].
    destruct (setup d) as [[[[s g] dgs] l]|e]; [|injection 1 as <- <-; reflexivity]. intro H. pose proof (integrate_numbered g (dk_rk d) dgs l (dk_cfl d) (dk_finaltime d) (dk_nout d) fuel s) as Q. rewrite H in Q. exact Q.
  Qed.

  (** the directory in which the comparison takes place *)
  Definition after (dir : directory) (evs : list (event A)) : directory := (remove_dats dir ++ [("logfile", "")]) ++ flat_map printed_files evs.
  Lemma read_before (dir : directory) name : name <> "logfile" -> is_dat name = false -> read_file (remove_dats dir ++ [("logfile", "")]) name = read_file dir name.
  Proof.
    intros H1 H2. rewrite read_app. cbn [read_file]. destruct (String.eqb_spec "logfile" name); [congruence|]. rewrite read_remove, H2. reflexivity.
  Qed.
  Lemma read_before_dat (dir : directory) name : is_dat name = true -> read_file (remove_dats dir ++ [("logfile", "")]) name = None.
  Proof.
    intro H2. rewrite read_app. cbn [read_file]. destruct (String.eqb_spec "logfile" name); [subst; discriminate|]. rewrite read_remove, H2. reflexivity.
  Qed.
  Lemma golds_after (dir : directory) (evs : list (event A)) : numbered evs ->
    compare_with_golds (after dir evs) = Ok true <-> exists ev, nth_error evs 1 = Some ev /\ s_euler (ev_sol ev) = true /\ golds_match dir (ev_sol ev).
  Proof.
    intro HN. rewrite compare_spec.
    assert (RD : forall f name, nth_error three_names f = Some name -> read_file (after dir evs) (name ++ "0000000001.dat")%string = read_file (flat_map printed_files evs) (name ++ "0000000001.dat")%string).
    { intros f name Hf. unfold after. rewrite read_app, (read_before_dat dir); [destruct (read_file (flat_map printed_files evs) _); reflexivity|].
      apply three_cases in Hf. destruct Hf as [[_ ->]|[[_ ->]|[_ ->]]]; reflexivity. }
    assert (RG : forall f name, nth_error three_names f = Some name -> read_file (after dir evs) (name ++ "0000000001.gold")%string = read_file dir (name ++ "0000000001.gold")%string).
    { intros f name Hf. unfold after. rewrite read_app, run_read_other.
      - apply read_before; apply three_cases in Hf; destruct Hf as [[_ ->]|[[_ ->]|[_ ->]]]; (discriminate || reflexivity).
      - apply three_cases in Hf; destruct Hf as [[_ ->]|[[_ ->]|[_ ->]]]; reflexivity. }
    split.
    - intro H. assert (K := H 0%nat "rho" eq_refl). apply field_spec in K. destruct K as [c [_ [_ [_ [K _]]]]].
      rewrite (RD 0%nat "rho" eq_refl) in K. apply (run_read_one evs 0 "rho" c HN eq_refl) in K. destruct K as [ev [K1 [K2 _]]]. exists ev. split; [exact K1|]. split; [exact K2|].
      intros f name Hf. specialize (H f name Hf). apply field_spec in H. destruct H as [c' [t [gold [g [Q1 Q]]]]]. rewrite (RD f name Hf) in Q1. rewrite (RG f name Hf) in Q.
      apply (run_read_one evs f name c' HN Hf) in Q1. destruct Q1 as [ev' [E1 [_ ->]]]. replace ev' with ev in Q by congruence. exists t, gold, g. exact Q.
    - intros [ev [K1 [K2 K3]]] f name Hf. apply field_spec. destruct (K3 f name Hf) as [t [gold [g Q]]]. exists (field_file (ev_sol ev) f), t, gold, g.
      rewrite (RD f name Hf), (RG f name Hf). split; [|exact Q]. apply (run_read_one evs f name _ HN Hf). exists ev. tauto.
  Qed.

  Lemma launch_eq fuel (dir : directory) : launch fuel dir =
    match read_file dir "deck.inp" with
    | None => (after dir [], match compare_with_golds (after dir []) with Ok true => Passed | Ok false => NotEqual | Raise e => Error e end)
    | Some content => let evs := fst (main fuel content) in
        (after dir evs, match snd (main fuel content) with OutOfFuel => Hangs | _ => match compare_with_golds (after dir evs) with Ok true => Passed | Ok false => NotEqual | Raise e => Error e end end)
    end.
  Proof.
    unfold launch, run_main. rewrite read_before by (discriminate || reflexivity). destruct (read_file dir "deck.inp") as [content|].
    - destruct (main fuel content) as [evs out]. cbn [fst snd]. unfold after. destruct out; reflexivity.
    - unfold after. cbn [flat_map]. rewrite app_nil_r. reflexivity.
  Qed.

  Lemma passes fuel (dir : directory) : snd (launch fuel dir) = Passed <->
    exists content evs out ev, read_file dir "deck.inp" = Some content /\ main fuel content = (evs, out) /\ out <> OutOfFuel /\
      nth_error evs 1 = Some ev /\ s_euler (ev_sol ev) = true /\ golds_match dir (ev_sol ev).
  Proof.
    rewrite launch_eq. destruct (read_file dir "deck.inp") as [content|].
    - cbv zeta. destruct (main fuel content) as [evs out] eqn:E. cbn [fst snd]. pose proof (golds_after dir evs (main_numbered _ _ _ _ E)) as G. split.
      + intro H. assert (Q : out <> OutOfFuel /\ compare_with_golds (after dir evs) = Ok true).
        { destruct out; [split; [discriminate|]|split; [discriminate|]|discriminate]; destruct (compare_with_golds (after dir evs)) as [[|]|]; congruence. }
        destruct Q as [Q1 Q2]. apply G in Q2. destruct Q2 as [ev Q2]. exists content, evs, out, ev. tauto.
      + intros [content' [evs' [out' [ev [E1 [E2 [E3 E4]]]]]]]. injection E1 as <-. rewrite E2 in E. injection E as <- <-. rewrite (proj2 G) by (exists ev; exact E4). destruct out'; congruence.
    - cbn [snd]. split.
      + intro H. assert (Q : compare_with_golds (after dir []) = Ok true) by (destruct (compare_with_golds (after dir [])) as [[|]|]; congruence).
        apply (golds_after dir [] eq_refl) in Q. destruct Q as [ev [Q _]]. discriminate.
      + intros [content [_ [_ [_ [E _]]]]]. discriminate.
  Qed.

  (** *** nothing depends on files left behind *)
  Lemma not_dat name : is_dat name = false -> ~ dat_file name. Proof. intros H K. apply is_dat_spec in K. congruence. Qed.
  Lemma compare_reads (a b : directory) : (forall name, read_file a name = read_file b name) -> compare_with_golds a = compare_with_golds b.
  Proof. intro H. unfold compare_with_golds, compare_field, read. rewrite !H. reflexivity. Qed.
  Lemma after_reads (a b : directory) (evs : list (event A)) : same_kept a b -> forall name, read_file (after a evs) name = read_file (after b evs) name.
  Proof.
    intros H name. unfold after. rewrite !read_app. destruct (read_file (flat_map printed_files evs) name); [reflexivity|]. destruct (read_file [("logfile", "")] name); [reflexivity|].
    rewrite !read_remove. destruct (is_dat name) eqn:E; [reflexivity|]. apply H, not_dat, E.
  Qed.
  Lemma launch_stale fuel (a b : directory) : same_kept a b ->
    snd (launch fuel a) = snd (launch fuel b) /\ forall name, read_file (fst (launch fuel a)) name = read_file (fst (launch fuel b)) name.
  Proof.
    intro H. rewrite !launch_eq. rewrite <- (H "deck.inp") by (apply not_dat; reflexivity). destruct (read_file a "deck.inp") as [content|].
    - cbv zeta. cbn [fst snd]. rewrite (compare_reads _ _ (after_reads a b (fst (main fuel content)) H)). split; [reflexivity|]. apply after_reads. exact H.
    - cbn [fst snd]. rewrite (compare_reads _ _ (after_reads a b [] H)). split; [reflexivity|]. apply after_reads. exact H.
  Qed.
  (** the deck, the golds and everything else stay as they are *)
  Lemma launch_keeps fuel (dir : directory) name : ~ dat_file name -> name <> "logfile" -> read_file (fst (launch fuel dir)) name = read_file dir name.
  Proof.
    intros H1 H2. assert (E : is_dat name = false) by (destruct (is_dat name) eqn:E; [apply is_dat_spec in E; contradiction|reflexivity]).
    assert (Q : forall evs, read_file (after dir evs) name = read_file dir name) by (intro evs; unfold after; rewrite read_app, run_read_other by exact E; apply read_before; assumption).
    rewrite launch_eq. destruct (read_file dir "deck.inp"); cbv zeta; cbn [fst]; apply Q.
  Qed.
  (** without a first snapshot of an Euler state the test ends in an error *)
  Lemma launch_missing fuel (dir : directory) content evs out : read_file dir "deck.inp" = Some content -> main fuel content = (evs, out) -> out <> OutOfFuel ->
    (forall ev, nth_error evs 1 = Some ev -> s_euler (ev_sol ev) = false) -> snd (launch fuel dir) = Error FileNotFound.
  Proof.
    intros E1 E2 E3 H. rewrite launch_eq, E1, E2. cbv zeta. cbn [fst snd].
    assert (Q : compare_with_golds (after dir evs) = Raise FileNotFound).
    { unfold compare_with_golds, compare_field, read. unfold after at 1. rewrite read_app.
      destruct (read_file (flat_map printed_files evs) ("rho" ++ "0000000001.dat")) as [c|] eqn:E.
      - apply (run_read_one evs 0 "rho" c (main_numbered _ _ _ _ E2) eq_refl) in E. destruct E as [ev [K1 [K2 _]]]. rewrite (H ev K1) in K2. discriminate.
      - rewrite read_before_dat by reflexivity. reflexivity. }
    rewrite Q. destruct out; congruence.
  Qed.

  (** *** with two outputs, the second snapshot is the final state of a completed run *)
  Variable gamma : A.
  Lemma next_two s cfl tf dt o dn : get_next_time_step gamma s tf cfl tf = Ok (dt, o, dn) -> o = dn.
  Proof.
    unfold get_next_time_step. intro H. inv_bind H. inv_bind H. apply Ok_inj in H. unfold adjust_for_output in H. destruct (nltb _ _); injection H as _ <- <-; reflexivity.
  Qed.
  Lemma loop_two inner l cfl tf : forall fuel k s sc evs evs' out, time_loop gamma inner l cfl tf fuel k tf [] s sc evs = (evs', out) ->
    (evs' = evs /\ forall s', out <> Finished s') \/ exists ev, evs' = evs ++ [ev] /\ out = Finished (ev_sol ev).
  Proof.
    induction fuel as [|fuel IH]; intros k s sc evs evs' out H; cbn [time_loop] in H; [injection H as <- <-; left; split; [reflexivity|discriminate]|].
    destruct (time_step gamma inner l cfl tf tf s sc) as [[[s' sc'] [[dt o] dn]]|e] eqn:E; [|injection H as <- <-; left; split; [reflexivity|discriminate]].
    assert (o = dn) as ->.
    { unfold time_step in E. inv_bind E. destruct x as [[dt0 o0] dn0]. inv_bind E. destruct x. inv_bind E. inv_bind E. apply Ok_inj in E. injection E as _ _ _ <- <-. eapply next_two. exact Hx. }
    destruct dn; [|apply IH in H; exact H]. destruct (printer k dt s') as [ev|e] eqn:P; [|injection H as <- <-; left; split; [reflexivity|discriminate]].
    injection H as <- <-. right. exists ev. split; [reflexivity|]. apply printer_Ok in P. subst ev. reflexivity.
  Qed.
  Lemma loop_steps rk d l cfl tf : forall fuel k tout touts s sc evs evs' s', time_loop gamma (rk_inner gamma rk d l) l cfl tf fuel k tout touts s sc evs = (evs', Finished s') -> (s_n s < s_n s')%nat.
  Proof.
    induction fuel as [|fuel IH]; intros k tout touts s sc evs evs' s' H; cbn [time_loop] in H; [discriminate|].
    destruct (time_step gamma (rk_inner gamma rk d l) l cfl tf tout s sc) as [[[s1 sc1] [[dt o] dn]]|e] eqn:E; [|discriminate].
    apply time_step_clock in E; [|intros *; apply frame_inner]. destruct E as [_ [_ [En _]]].
    destruct o.
    - destruct (printer k dt s1) as [ev|e]; [|discriminate]. destruct dn; [injection H as _ <-; lia|]. destruct touts; [discriminate|]. apply IH in H. lia.
    - destruct dn; [injection H as _ <-; lia|]. apply IH in H. lia.
  Qed.
  (** one step exactly when the final time is nearer than the first CFL step *)
  Lemma run_one_step rk d l cfl tf fuel sol evs s' : integrate gamma rk d l cfl tf 2 fuel sol = (evs, Finished s') ->
    exists c ev0, cfl_time_step gamma sol cfl = Ok c /\ hd_error evs = Some ev0 /\ ev_sol ev0 = sol /\ (s_n s' = S (s_n sol) <-> nltb (nsub tf (s_t sol)) c = true).
  Proof.
    intro H. rewrite integrate_run_rk in H. unfold run_rk in H. change (2 <? 0)%Z with false in H. cbv iota in H. destruct (printer 0 n0 sol) as [ev0|e] eqn:P; [|discriminate].
    change (slice_from (linspace (s_t sol) tf (Z.to_nat 2)) 1) with [tf] in H. cbv iota in H. apply printer_Ok in P.
    assert (Hh : hd_error evs = Some ev0). { apply loop_two in H. destruct H as [[-> _]|[ev [-> _]]]; reflexivity. }
    destruct fuel as [|fuel]; [discriminate|]. cbn [time_loop] in H.
    destruct (time_step gamma (rk_inner gamma rk d l) l cfl tf tf sol _) as [[[s1 sc1] [[dt o] dn]]|e] eqn:E; [|discriminate].
    apply time_step_clock in E; [|intros *; apply frame_inner]. destruct E as [Hn [_ [En _]]].
    unfold get_next_time_step in Hn. inv_bind Hn. inv_bind Hn. apply Ok_inj in Hn. exists x, ev0. split; [exact Hx|]. split; [exact Hh|]. split; [subst ev0; reflexivity|].
    unfold adjust_for_output in Hn. destruct (nltb (nsub tf (s_t sol)) x).
    - injection Hn as <- <- <-. destruct (printer 1 _ s1) as [ev|e]; [|discriminate]. injection H as _ <-. split; [reflexivity|intros _; lia].
    - injection Hn as <- <- <-. apply loop_steps in H. split; [lia|discriminate].
  Qed.
  Lemma run_two rk d l cfl tf fuel sol evs out : integrate gamma rk d l cfl tf 2 fuel sol = (evs, out) ->
    ((List.length evs <= 1)%nat /\ forall s', out <> Finished s') \/ exists ev0 ev, evs = [ev0; ev] /\ out = Finished (ev_sol ev).
  Proof.
    rewrite integrate_run_rk. unfold run_rk. change (2 <? 0)%Z with false. cbv iota. destruct (printer 0 n0 sol) as [ev0|e]; [|injection 1 as <- <-; left; split; [cbn; lia|discriminate]].
    change (slice_from (linspace (s_t sol) tf (Z.to_nat 2)) 1) with [tf]. cbv iota. intro H. apply loop_two in H. destruct H as [[-> H]|[ev [-> ->]]]; [left; split; [cbn; lia|exact H]|right].
    exists ev0, ev. split; reflexivity.
  Qed.
End Launch.

Section Two.
  Context {A : Type} {N : Num A} {L : Libm A} {X : Ext A}.
  Lemma main_two fuel content (dk : deck A) evs out : parser content Deck = Ok dk -> dk_nout dk = 2%Z -> main fuel content = (evs, out) ->
    ((List.length evs <= 1)%nat /\ forall s', out <> Finished s') \/ exists ev0 ev, evs = [ev0; ev] /\ out = Finished (ev_sol ev).
  Proof.
    intros E1 E2. unfold main, run_deck. rewrite E1. destruct (setup dk) as [[[[s g] dgs] l]|e]; [|injection 1 as <- <-; left; split; [cbn; lia|discriminate]]. rewrite E2. apply run_two.
  Qed.
  Lemma passes_two fuel (dir : directory) content (dk : deck A) : read_file dir "deck.inp" = Some content -> parser content Deck = Ok dk -> dk_nout dk = 2%Z ->
    snd (launch fuel dir) = Passed <-> exists evs s, main fuel content = (evs, Finished s) /\ s_euler s = true /\ golds_match dir s.
  Proof.
    intros E1 E2 E3. rewrite passes. split.
    - intros [content' [evs [out [ev [K1 [K2 [K3 [K4 K5]]]]]]]]. rewrite K1 in E1. injection E1 as ->. destruct (main_two _ _ _ _ _ E2 E3 K2) as [[Q _]|[ev0 [ev' [-> ->]]]].
      + exfalso. assert (1 < List.length evs)%nat by (apply nth_error_Some; congruence). lia.
      + injection K4 as ->. exists [ev0; ev], (ev_sol ev). tauto.
    - intros [evs [s [K1 K2]]]. destruct (main_two _ _ _ _ _ E2 E3 K1) as [[_ Q]|[ev0 [ev [-> Q]]]]; [exfalso; eapply Q; reflexivity|]. injection Q as ->.
      exists content, [ev0; ev], (Finished (ev_sol ev)), ev. split; [exact E1|]. split; [exact K1|]. split; [discriminate|]. split; [reflexivity|]. exact K2.
  Qed.
End Two.

(** *** golds written from a state *)
Section State.
  Context {A : Type} {N : Num A} {L : Libm A} {X : Ext A}.
  Lemma golds_state ne ne' (s g : solution A) (dir : directory) : wf ne s -> wf ne' g -> s_euler s = true -> s_euler g = true ->
    texts_ok ne s -> texts_ok ne' g -> bc_name_ok (s_bcl s) -> bc_name_ok (s_bcr s) -> bc_name_ok (s_bcl g) -> bc_name_ok (s_bcr g) ->
    (forall f name, nth_error three_names f = Some name -> read_file dir (name ++ "0000000001.gold")%string = Some (field_file g f)) ->
    golds_match dir s <-> forall f, (f < 3)%nat -> Forall2 (Forall2 (fun x y => almost_equal x y = true)) (field_table s f) (field_table g f).
  Proof.
    intros W W' Es Eg T T' B1 B2 B3 B4 R.
    assert (LS : forall f, (f < 3)%nat -> loadtxt (field_file s f) = Ok (field_table s f)).
    { intros f Hf. apply file_loadtxt; [apply T|assumption|assumption|apply (field_table_ok ne); [assumption|assumption|unfold s_NF; rewrite Es; exact Hf]]. }
    assert (LG : forall f, (f < 3)%nat -> loadtxt (field_file g f) = Ok (field_table g f)).
    { intros f Hf. apply file_loadtxt; [apply T'|assumption|assumption|apply (field_table_ok ne'); [assumption|assumption|unfold s_NF; rewrite Eg; exact Hf]]. }
    unfold golds_match. split.
    - intros H f Hf. destruct (nth_error three_names f) as [name|] eqn:E; [|apply nth_error_None in E; cbn in E; lia].
      destruct (H f name E) as [t [gold [g' [K1 [K2 [K3 K4]]]]]]. rewrite (LS f Hf) in K1. rewrite (R f name E) in K2. injection K2 as <-. rewrite (LG f Hf) in K3. apply Ok_inj in K1, K3. subst. exact K4.
    - intros H f name E. assert (Hf : (f < 3)%nat) by (change 3%nat with (List.length three_names); apply nth_error_Some; unfold three_names; congruence).
      exists (field_table s f), (field_file g f), (field_table g f). split; [apply LS; exact Hf|]. split; [apply R; exact E|]. split; [apply LG; exact Hf|]. apply H. exact Hf.
  Qed.
End State.
