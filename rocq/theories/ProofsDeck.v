(** deck.py: what the parser reads from what write_deck wrote. *)
From Coq Require Import ZArith List Bool Arith String Ascii Lia.
From Verif Require Import Num Py PyStr ProofsStr Lib Ext Deck SpecText ProofsText SpecDeck.
Import ListNotations.
Open Scope string_scope.
Open Scope list_scope.

Lemma split_ws_rstrip s : split_ws (rstrip s) = split_ws s.
Proof.
  unfold split_ws. enough (G : forall w, split_ws_aux (rstrip s) w = split_ws_aux s w) by apply G. induction s as [|c r IH]; intro w; [reflexivity|].
  cbn [rstrip split_ws_aux]. destruct (is_space c) eqn:Ec.
  - destruct (rstrip r) as [|x r'] eqn:E.
    + rewrite <- IH. cbn. destruct w; reflexivity.
    + cbn [split_ws_aux]. rewrite Ec. cbn [split_ws_aux] in IH. destruct w; [exact (IH ""%string)|f_equal; exact (IH ""%string)].
  - rewrite <- IH. destruct (rstrip r) as [|x r'] eqn:E; cbn [split_ws_aux]; rewrite Ec; reflexivity.
Qed.
Lemma strip_nl s : strip (s ++ nl) = strip s.
Proof. unfold strip. rewrite rstrip_nl. reflexivity. Qed.
Lemma parse_int_nl s : parse_int (s ++ nl) = parse_int s.
Proof. unfold parse_int. rewrite strip_nl. reflexivity. Qed.

(** a final newline creates no heading *)
Lemma prefix_nl p s : one_line p = true -> is_prefix p (s ++ nl) = is_prefix p s.
Proof.
  revert s. induction p as [|a p IH]; intros s H; [reflexivity|]. cbn [one_line all_chars] in H. apply andb_prop in H. destruct H as [H1 H2].
  destruct s as [|b s]; cbn [append nl is_prefix]; [|rewrite IH by exact H2; reflexivity].
  destruct (Ascii.eqb a newline); [discriminate|reflexivity].
Qed.
Lemma contains_nl p s : p <> ""%string -> one_line p = true -> contains p (s ++ nl) = contains p s.
Proof.
  intros Hp H. induction s as [|b s IH].
  - cbn [append]. change (contains p nl) with (is_prefix p ("" ++ nl) || contains p "")%bool. rewrite prefix_nl by exact H. destruct p; [congruence|reflexivity].
  - cbn [append contains]. change (String b (s ++ nl)) with (String b s ++ nl)%string. rewrite prefix_nl by exact H. rewrite IH. reflexivity.
Qed.
Lemma no_heading_find s : no_heading s -> find_key headings (s ++ nl) = None.
Proof.
  intro H.
  assert (G : forall h k, In (h, k) headings -> contains h (s ++ nl) = false).
  { intros h k Hin. assert (E : exists n, In n deck_names /\ h = ("#" ++ n)%string /\ one_line h = true).
    { cbn [headings In] in Hin. decompose [or] Hin; try contradiction; (match goal with E : _ = (h, k) |- _ => injection E as <- <- end);
        match goal with |- exists n, _ /\ ?s = _ /\ _ => match s with String _ ?t => exists t end end;
        (split; [cbn; tauto|split; reflexivity]). }
    destruct E as [n [Hn [-> Hl]]]. rewrite contains_nl; [apply H; exact Hn|discriminate|exact Hl]. }
  revert G. generalize headings. induction l as [|[h k] l IH]; intro G; [reflexivity|]. cbn [find_key]. rewrite (G h k) by (left; reflexivity).
  apply IH. intros h' k' Hin. apply (G h' k'). right. exact Hin.
Qed.

Section Deck.
  Context {A : Type} {N : Num A} {X : Ext A}.

  Definition key_of_name (h : string) : option key := find_key headings ("#" ++ h ++ nl).
  Definition name_table : list (string * key) :=
    [ ("PDE system", KSystem); ("RK scheme", KRk); ("riemann solver", KRiemann); ("initial condition", KIc);
      ("limiting", KLimiting); ("enhancement", KEnhance); ("number of outputs", KNout); ("order", KOrder);
      ("final time", KTf); ("Courant-Friedrichs-Lewy condition", KCfl); ("sensor thresholds", KThresholds) ].
  Lemma name_key h : In h deck_names -> exists k, In (h, k) name_table /\ key_of_name h = Some k.
  Proof.
    intro H. cbn [deck_names text_names int_names float_names app In] in H.
    decompose [or] H; try contradiction; subst h;
      match goal with |- exists k, In (?h, k) _ /\ _ => let v := eval vm_compute in (key_of_name h) in match v with Some ?k => exists k end end;
      (split; [cbn; tauto|vm_compute; reflexivity]).
  Qed.

  Lemma write_lines defs : (forall d, In d defs -> one_line (fst d) = true /\ one_line (snd d) = true) ->
    file_lines (write_deck defs) = List.concat (map (fun d => [("#" ++ fst d) ++ nl; snd d ++ nl]%string) defs).
  Proof.
    unfold write_deck. induction defs as [|[h v] defs IH]; intro H; [reflexivity|]. cbn [map List.concat].
    rewrite concat_nil_cons. destruct (H (h, v) (or_introl eq_refl)) as [H1 H2]. cbn [fst snd] in *.
    replace (("#" ++ h ++ nl ++ v ++ nl) ++ String.concat "" (map (fun l => "#" ++ fst l ++ nl ++ snd l ++ nl) defs))%string
      with (("#" ++ h) ++ nl ++ v ++ nl ++ String.concat "" (map (fun l => "#" ++ fst l ++ nl ++ snd l ++ nl) defs))%string
      by (rewrite !sapp_assoc; reflexivity).
    rewrite lines_app by exact H1. rewrite lines_app by exact H2. rewrite IH by (intros d Hd; apply H; right; exact Hd). reflexivity.
  Qed.

  (** what a deck holds after definitions, starting from [d0] *)
  Lemma read_all_mapM ws : mapM (float_of (A := A)) ws = match read_all (fun w => parse_float (strip w)) ws with Some l => Ok l | None => Raise ValueError end.
  Proof.
    induction ws as [|w ws IH]; [reflexivity|]. cbn [mapM read_all]. unfold float_of at 1. destruct (parse_float (strip w)); [|reflexivity].
    cbn [rbind]. rewrite IH. destruct (read_all _ ws); reflexivity.
  Qed.

  Lemma given_cons_other {Y} k v defs h (rd : string -> option Y) x0 x : String.eqb k h = false -> given defs h rd x0 x -> given ((k, v) :: defs) h rd x0 x.
  Proof. intro E. unfold given. cbn [last_value]. rewrite E. destruct (last_value h defs); intro H; exact H. Qed.
  Lemma given_cons_same {Y} v defs h (rd : string -> option Y) x0 x1 x : rd v = Some x1 -> given defs h rd x1 x -> given ((h, v) :: defs) h rd x0 x.
  Proof. intro E. unfold given. cbn [last_value]. rewrite String.eqb_refl. destruct (last_value h defs); [intro H; exact H|]. intros ->. exact E. Qed.

  Lemma set_given h k v d0 : In (h, k) name_table ->
    (if readable (h, v) then exists d1, set_key d0 k (v ++ nl) = Ok d1 /\
        (forall defs d, deck_given defs d1 d -> deck_given ((h, v) :: defs) d0 d)
     else set_key d0 k (v ++ nl) = Raise ValueError).
  Proof.
    intro H. destruct d0 as [system rk riemann ic nout tf cfl order lim enh thr]. cbn [name_table In] in H.
    decompose [or] H; try contradiction; match goal with E : _ = (h, k) |- _ => injection E as <- <- end; clear H.
    Local Ltac step := first [ apply given_cons_other; [reflexivity|assumption] | eapply given_cons_same; [|eassumption]; first [reflexivity|assumption] ].
    Local Ltac fin v := (exists v || idtac); eexists; split; [reflexivity|]; intros defs d HG; unfold deck_given in HG |- *; cbn [dk_system dk_rk dk_riemann dk_ic dk_nout dk_finaltime dk_cfl dk_order dk_limiting dk_enhance dk_thresholds] in HG |- *;
      decompose [and] HG; repeat split; step.
    all: unfold readable; cbn [fst snd]; cbn [set_key]; rewrite ?rstrip_nl.
    1,2,3,4,5,6: (match goal with |- if ?b then _ else _ => change b with true end; cbn match; fin 0).
    - unfold int_of. rewrite parse_int_nl. destruct (parse_int v) as [z|] eqn:E; [cbn; fin 0|reflexivity].
    - unfold int_of. rewrite parse_int_nl. destruct (parse_int v) as [z|] eqn:E; [cbn; fin 0|reflexivity].
    - unfold float_of. rewrite strip_nl. destruct (parse_float (strip v)) as [z|] eqn:E; [cbn; fin 0|reflexivity].
    - unfold float_of. rewrite strip_nl. destruct (parse_float (strip v)) as [z|] eqn:E; [cbn; fin 0|reflexivity].
    - rewrite read_all_mapM, split_ws_rstrip. destruct (read_all _ (split_ws v)) as [z|] eqn:E; [cbn; fin 0|reflexivity].
  Qed.

  Lemma not_name_given h v defs d0 d : ~ In h deck_names -> deck_given defs d0 d -> deck_given ((h, v) :: defs) d0 d.
  Proof.
    intros H HG. unfold deck_given in *. decompose [and] HG. clear HG.
    assert (K : forall n, In n deck_names -> String.eqb h n = false) by (intros n Hn; apply String.eqb_neq; intros ->; exact (H Hn)).
    repeat split; apply given_cons_other; try assumption; apply K; cbn; tauto.
  Qed.
  Lemma heading_in n : In n deck_names -> contains ("#" ++ n) ("#" ++ n) = true.
  Proof.
    intros _. cbn [append contains]. assert (E : forall s, is_prefix s s = true) by (induction s as [|c s IH]; cbn; [|rewrite Ascii.eqb_refl]; trivial).
    change (String "#" n) with ("#" ++ n)%string. rewrite E. reflexivity.
  Qed.

  Lemma parse_written defs : Forall def_ok defs -> forall d0,
    if forallb readable defs then exists d, parser (write_deck defs) d0 = Ok d /\ deck_given defs d0 d
    else parser (write_deck defs) d0 = Raise ValueError.
  Proof.
    intros Hok. unfold parser. rewrite write_lines.
    2:{ intros d Hd. rewrite Forall_forall in Hok. specialize (Hok d Hd). unfold def_ok in Hok. tauto. }
    induction Hok as [|[h v] defs [H1 [H2 H3]] _ IH]; intro d0.
    - cbn. exists d0. split; [reflexivity|]. unfold deck_given, given. cbn. repeat split.
    - cbn [fst snd] in *. cbn [forallb map List.concat app parse_lines fst snd]. destruct (in_dec string_dec h deck_names) as [Hin|Hout].
      + clear H3. destruct (name_key h Hin) as [k [Hk Ek]]. unfold key_of_name in Ek. replace (("#" ++ h) ++ nl)%string with ("#" ++ h ++ nl)%string by reflexivity. rewrite Ek.
        pose proof (set_given h k v d0 Hk) as HS. destruct (readable (h, v)).
        * destruct HS as [d1 [E1 HG]]. rewrite E1. cbn [rbind andb]. specialize (IH d1). destruct (forallb readable defs); [|exact IH].
          destruct IH as [d [Ed Gd]]. exists d. split; [exact Ed|apply HG; exact Gd].
        * rewrite HS. reflexivity.
      + destruct H3 as [H3|[H3 H4]]; [contradiction|]. rewrite (no_heading_find _ H3), (no_heading_find _ H4).
        assert (R : readable (h, v) = true).
        { unfold readable. cbn [fst snd].
          assert (K : forall n, In n deck_names -> String.eqb h n = false) by (intros n Hn; apply String.eqb_neq; intros ->; exact (Hout Hn)).
          cbn [int_names float_names existsb]. rewrite !K by (cbn; tauto). reflexivity. }
        rewrite R. cbn [andb]. specialize (IH d0). destruct (forallb readable defs); [|exact IH].
        destruct IH as [d [Ed Gd]]. exists d. split; [exact Ed|]. apply not_name_given; assumption.
  Qed.
End Deck.
