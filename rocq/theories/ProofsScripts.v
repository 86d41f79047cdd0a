(** The convergence study and the files it reads. *)
From Coq Require Import ZArith List Bool Arith String Ascii Lia Reals Lra Psatz.
From Verif Require Import Num Py PyStr ProofsStr Lib RealLib Constants LegNumpy Ext Basis Sensor Enhance Limiting AdvectionPhysics IC Solution Solver RKCoeffs RK IO Deck Main Scripts
  SpecDG SpecText SpecDeck SpecIO SpecMonotone SpecTime SpecPoly SpecScripts
  ProofsText ProofsDeck ProofsIO ProofsTime ProofsTime2 ProofsDG ProofsCons ProofsWf ProofsSol ProofsIC ProofsMain ProofsIC2 ProofsRun ProofsMonotone ProofsConverge2.
Import ListNotations.
Open Scope list_scope.
Open Scope R_scope.

(** * files whose numbers are read up to rounding *)
Section Near.
  Context {X : Ext R}.
  Variable delta : R.
  Definition close (v w : R) : Prop := Rabs (w - v) <= delta.
  Lemma near_row_chars vals (P : ascii -> bool) : Forall (near_text delta) vals -> (forall c, plain_char c = true -> P c = true) -> P ","%char = true -> all_chars P (row_text vals) = true.
  Proof.
    intros H HP Hc. apply all_concat; [cbn; rewrite Hc; reflexivity|]. apply forallb_forall. intros w Hw. apply in_map_iff in Hw.
    destruct Hw as [v [<- Hv]]. rewrite Forall_forall in H. destruct (H v Hv) as [_ [Hp _]]. exact (all_impl _ _ _ HP Hp).
  Qed.
  Lemma near_row_one_line vals : Forall (near_text delta) vals -> one_line (row_text vals) = true.
  Proof. intro H. apply near_row_chars; [exact H| |reflexivity]. intros c Hc. rewrite (plain_no newline c eq_refl Hc). reflexivity. Qed.
  Lemma near_strip vals : Forall (near_text delta) vals -> rstrip (strip_comment (row_text vals ++ nl)) = row_text vals.
  Proof.
    intro H. unfold strip_comment. rewrite split_word.
    - cbn [hd]. rewrite rstrip_nl. apply rstrip_id. apply near_row_chars; [exact H| |reflexivity]. intros c Hc. unfold plain_char in Hc. unfold no_space.
      destruct (is_space c); [rewrite !orb_true_r in Hc; discriminate|reflexivity].
    - rewrite all_app. rewrite near_row_chars; [reflexivity|exact H| |reflexivity]. intros c Hc. unfold is_char. rewrite (plain_no "#"%char c eq_refl Hc). reflexivity.
  Qed.
  Lemma near_nonempty vals : vals <> [] -> Forall (near_text delta) vals -> row_text vals <> ""%string.
  Proof.
    intros Hn H. destruct vals as [|v vals]; [congruence|]. inversion H as [|? ? [Hv _] _]; subst. unfold row_text.
    cbn [map]. destruct vals as [|v' vals]; [exact Hv|]. cbn [map].
    change (String.concat "," (fmt_e18 v :: fmt_e18 v' :: map fmt_e18 vals)) with (fmt_e18 v ++ "," ++ String.concat "," (fmt_e18 v' :: map fmt_e18 vals))%string.
    destruct (fmt_e18 v); [congruence|discriminate].
  Qed.
  Lemma near_parse vals : vals <> [] -> Forall (near_text delta) vals -> exists ws, parse_row (row_text vals) = Ok ws /\ Forall2 close vals ws.
  Proof.
    intros Hn H. unfold parse_row, row_text. rewrite split_concat; [|reflexivity|destruct vals; [congruence|discriminate]|].
    - clear Hn. induction H as [|v vals [_ [_ [w [Hw Hc]]]] _ [ws [IH1 IH2]]]; [exists []; split; [reflexivity|constructor]|].
      exists (w :: ws). cbn [map mapM]. rewrite Hw. cbn [rbind]. rewrite IH1. split; [reflexivity|constructor; assumption].
    - apply forallb_forall. intros w Hw. apply in_map_iff in Hw. destruct Hw as [v [<- Hv]]. rewrite Forall_forall in H. apply plain_comma. apply (H v Hv).
  Qed.
  Lemma near_load tb : Forall (fun r => r <> [] /\ Forall (near_text delta) r) tb ->
    exists tb', mapM parse_row (filter (fun l => negb (String.eqb l EmptyString))
      (map (fun l => rstrip (strip_comment l)) (map (fun l => l ++ nl)%string (map row_text tb)))) = Ok tb' /\ Forall2 (Forall2 close) tb tb'.
  Proof.
    intro HT. induction HT as [|r tb [H1 H2] _ [tb' [IH1 IH2]]]; [exists []; split; [reflexivity|constructor]|].
    destruct (near_parse r H1 H2) as [ws [P1 P2]]. exists (ws :: tb'). split; [|constructor; assumption].
    cbn [map]. rewrite near_strip by assumption. cbn [filter].
    destruct (String.eqb_spec (row_text r) "") as [E|E]; [exfalso; exact (near_nonempty r H1 H2 E)|]. cbn [negb mapM].
    rewrite P1. cbn [rbind]. rewrite IH1. reflexivity.
  Qed.
  Lemma near_file s f : near_text delta (s_t s) -> bc_name_ok (s_bcl s) -> bc_name_ok (s_bcr s) -> Forall (fun r => r <> [] /\ Forall (near_text delta) r) (field_table s f) ->
    exists tb', loadtxt (field_file s f) = Ok tb' /\ Forall2 (Forall2 close) (field_table s f) tb'.
  Proof.
    intros [_ [Ht _]] Hl Hr HT. destruct (near_load _ HT) as [tb' [E1 E2]]. exists tb'. split; [|exact E2].
    unfold loadtxt. rewrite file_text, lines_concat.
    - cbn [map]. replace (rstrip (strip_comment (head1 s ++ nl))) with ""%string by reflexivity.
      replace (rstrip (strip_comment (head2 (s_Ns s) ++ nl))) with ""%string by reflexivity.
      cbn [filter]. rewrite String.eqb_refl. cbn [negb]. exact E1.
    - cbn [forallb]. rewrite head2_one_line. replace (one_line (head1 s)) with true.
      + cbn [andb]. apply forallb_forall. intros w Hw. apply in_map_iff in Hw. destruct Hw as [r [<- Hin]]. rewrite Forall_forall in HT. apply near_row_one_line. apply (HT r Hin).
      + symmetry. unfold head1, one_line. rewrite !all_app. change (all_chars (fun c => negb (Ascii.eqb c newline))) with one_line.
        rewrite (plain_one_line _ (show_plain _)), (plain_one_line _ Ht), (proj1 (bc_sep _ Hl)), (proj1 (bc_sep _ Hr)). reflexivity.
  Qed.
  Lemma near_table ne s f : wf ne s -> texts_near delta ne s -> (f < s_NF s)%nat -> Forall (fun r => r <> [] /\ Forall (near_text delta) r) (field_table s f).
  Proof.
    intros W [_ [Hx Hu]] Hf. pose proof (wf_u _ _ W) as [U1 U2]. unfold field_table. rewrite (wf_xc _ _ W). apply Forall_forall. intros r Hin.
    unfold tab in Hin. apply in_map_iff in Hin. destruct Hin as [e [<- He]]. apply in_seq in He. split; [discriminate|]. constructor; [apply Hx; lia|].
    apply Forall_forall. intros v Hv. apply in_map_iff in Hv. destruct Hv as [r [<- Hr]].
    rewrite (field_row_at ne); [|apply NF_pos|exact Hf|apply U2; exact Hr|lia].
    destruct (In_nth _ _ [] Hr) as [n [Hn <-]]. apply (Hu n); [lia|]. unfold interior_col. pose proof (NF_pos s). nia.
  Qed.
  (** the column of cell averages *)
  Lemma Forall2_nth {Y Z} (P : Y -> Z -> Prop) a b : Forall2 P a b -> List.length a = List.length b /\ forall i dy dz, (i < List.length a)%nat -> P (nth i a dy) (nth i b dz).
  Proof.
    intro H. induction H as [|y z a b Hp _ [IH1 IH2]]; [split; [reflexivity|cbn; lia]|]. split; [cbn; lia|]. intros [|i] dy dz Hi; [exact Hp|]. cbn in *. apply IH2. lia.
  Qed.
  Lemma near_column ne s : wf ne s -> (2 <= ne)%nat -> s_euler s = false -> texts_near delta ne s -> bc_name_ok (s_bcl s) -> bc_name_ok (s_bcr s) ->
    forall dir name, read_file dir name = Some (field_file s 0) ->
    exists us, study_column dir name = Ok us /\ List.length us = ne /\ forall i, (i < ne)%nat -> Rabs (at1 us i - average s (i + 1)) <= delta.
  Proof.
    intros W Hne He T Hl Hr dir name Hd. assert (NF : s_NF s = 1%nat) by (unfold s_NF; rewrite He; reflexivity).
    pose proof (near_table ne s 0 W T ltac:(lia)) as HT. destruct (near_file s 0 (proj1 T) Hl Hr HT) as [tb' [E1 E2]].
    destruct (Forall2_nth _ _ _ E2) as [L1 L2]. unfold field_table in L1, L2. rewrite length_tab, (wf_xc _ _ W) in L1, L2.
    exists (tab ne (fun i => nth 1 (nth i tb' []) 0)). split; [|split; [apply length_tab|]].
    - unfold study_column, read. rewrite Hd. cbn [rbind]. rewrite E1. cbn [rbind]. destruct (Nat.eqb_spec (List.length tb') 1); [lia|].
      apply mapM_id; [rewrite length_tab; lia|]. intros i dy dz Hi. specialize (L2 i [] dy ltac:(lia)). rewrite nth_tab in L2 by lia.
      rewrite nth_tab by lia. rewrite (nth_indep tb' [] dy) by lia.
      pose proof (wf_u _ _ W) as [U1 U2]. destruct (s_u s) as [|r0 u] eqn:Eu; [unfold s_Ns, b_Ns in U1; cbn in U1; lia|]. cbn [map] in L2.
      inversion L2 as [|? ? ? ? ? K]; subst. inversion K; subst. unfold nth_res. cbn. reflexivity.
    - intros i Hi. specialize (L2 i [] [] ltac:(lia)). clear L1. rewrite nth_tab in L2 by lia.
      unfold at1 at 1. rewrite nth_tab by lia.
      pose proof (wf_u _ _ W) as [U1 U2]. destruct (s_u s) as [|r0 u] eqn:Eu; [unfold s_Ns, b_Ns in U1; cbn in U1; lia|]. cbn [map] in L2.
      destruct (nth i tb' []) as [|w0 [|w1 ws]]; inversion L2 as [|? ? ? ? ? K]; subst; inversion K; subst. cbn [nth].
      pose proof (field_row_at ne (s_NF s) 0 r0 i (NF_pos s) (NF_pos s) (U2 r0 (or_introl eq_refl)) Hi) as EF.
      match goal with H : close (at1 (field_row _ _ r0) _) w1 |- _ => unfold close in H; rewrite EF in H end.
      unfold average, modes, col. rewrite Eu. cbn [map at1 nth]. unfold at1 in *. assumption.
  Qed.
End Near.

(** * root mean squares *)
Lemma rms_bound n (f : nat -> R) r D (g : nat -> R) : (1 <= n)%nat -> 0 <= D -> 0 <= r -> Rsum n (fun i => g i * g i) = INR n * (r * r) ->
  (forall i, (i < n)%nat -> Rabs (f i - g i) <= D) -> Rsum n (fun i => f i * f i) <= INR n * ((r + D) * (r + D)).
Proof.
  intros Hn HD Hr Hg Hc. assert (P : 0 < INR n) by (apply lt_0_INR; lia). destruct (Req_dec r 0) as [->|Hr0].
  - assert (Z : forall i, (i < n)%nat -> g i * g i = 0) by (apply Rsum_nonneg_0; [intros; nra|rewrite Hg; ring]).
    replace (INR n * ((0 + D) * (0 + D))) with (Rsum n (fun _ => D * D)) by (rewrite Rsum_const; ring). apply Rsum_le. intros i Hi.
    assert (G0 : g i = 0) by (specialize (Z i Hi); nra). specialize (Hc i Hi). rewrite G0, Rminus_0_r in Hc. pose proof (Rabs_pos (f i)).
    replace (f i * f i) with (Rabs (f i) * Rabs (f i)) by (rewrite <- Rabs_mult; apply Rabs_pos_eq; nra). nra.
  - assert (0 < r) by lra.
    apply Rle_trans with (Rsum n (fun i => g i * g i + D * (g i * g i / r + r) + D * D)).
    + apply Rsum_le. intros i Hi. specialize (Hc i Hi). set (d := f i - g i) in *. replace (f i) with (g i + d) by (unfold d; ring).
      assert (A1 : d * d <= D * D) by (pose proof (Rabs_pos d); replace (d * d) with (Rabs d * Rabs d) by (rewrite <- Rabs_mult; apply Rabs_pos_eq; nra); nra).
      assert (A2 : 2 * (g i * d) <= 2 * (Rabs (g i) * D)).
      { apply Rmult_le_compat_l; [lra|]. eapply Rle_trans; [apply Rle_abs|]. rewrite Rabs_mult. apply Rmult_le_compat_l; [apply Rabs_pos|exact Hc]. }
      assert (A3 : 2 * Rabs (g i) <= g i * g i / r + r).
      { replace (g i * g i) with (Rabs (g i) * Rabs (g i)) by (rewrite <- Rabs_mult; apply Rabs_pos_eq; nra). set (a := Rabs (g i)).
        replace (a * a / r + r) with (2 * a + (a - r) * (a - r) / r) by (field; lra). assert (0 <= (a - r) * (a - r) / r); [|lra].
        apply Rmult_le_pos; [apply (Rle_0_sqr (a - r))|]. left. apply Rinv_0_lt_compat. exact H. }
      nra.
    + right. rewrite (Rsum_ext n _ (fun i => (1 + D / r) * (g i * g i) + (D * r + D * D))).
      2:{ intros i Hi. field. lra. }
      rewrite Rsum_plus, Rsum_scale, Rsum_const, Hg. field. lra.
Qed.
Definition rms0 (n : nat) (f : nat -> R) : R := sqrt (Rsum n (fun i => f i * f i) / INR n).
Lemma rms0_sq n f : (1 <= n)%nat -> 0 <= rms0 n f /\ Rsum n (fun i => f i * f i) = INR n * (rms0 n f * rms0 n f).
Proof.
  intro Hn. assert (P : 0 < INR n) by (apply lt_0_INR; lia). split; [apply sqrt_pos|]. unfold rms0. rewrite sqrt_def.
  - field. lra.
  - apply Rmult_le_pos; [apply Rsum_nonneg; intros; nra|]. left. apply Rinv_0_lt_compat. exact P.
Qed.
Lemma rms0_near n f g D : (1 <= n)%nat -> 0 <= D -> (forall i, (i < n)%nat -> Rabs (f i - g i) <= D) -> Rabs (rms0 n f - rms0 n g) <= D.
Proof.
  intros Hn HD Hc. assert (P : 0 < INR n) by (apply lt_0_INR; lia).
  assert (Q : forall f g, (forall i, (i < n)%nat -> Rabs (f i - g i) <= D) -> rms0 n f <= rms0 n g + D).
  { clear f g Hc. intros f g Hc. destruct (rms0_sq n f Hn) as [F1 F2], (rms0_sq n g Hn) as [G1 G2].
    pose proof (rms_bound n f (rms0 n g) D g Hn HD G1 G2 Hc) as B. rewrite F2 in B. apply Rmult_le_reg_l in B; [|exact P].
    destruct (Rle_or_lt (rms0 n f) (rms0 n g + D)) as [|C]; [assumption|nra]. }
  apply Rabs_le. pose proof (Q f g Hc). pose proof (Q g f ltac:(intros i Hi; rewrite Rabs_minus_sym; apply Hc; exact Hi)). lra.
Qed.

Lemma sumA_R (l : list R) : sumA l = Rsum (List.length l) (fun i => nth i l 0).
Proof.
  unfold sumA. assert (Q : forall l (a : R), fold_left nadd l a = a + Rsum (List.length l) (fun i => nth i l 0)).
  { clear l. induction l as [|x l IH]; intro a; cbn [fold_left List.length]; [cbn [Rsum]; lra|]. rewrite IH, Rsum_S_l. cbn [nth]. numR. ring. }
  rewrite Q. numR. ring.
Qed.
Lemma error_norm_L2 u0 uf ne : List.length u0 = ne -> List.length uf = ne -> (1 <= ne)%nat ->
  error_norm u0 uf ne "L2" = Ok (rms0 ne (fun i => / 2 * (at1 u0 i - at1 uf i))).
Proof.
  intros L0 Lf Hne. unfold error_norm. rewrite L0, Lf, Nat.eqb_refl. cbn [negb String.eqb Ascii.eqb Bool.eqb]. f_equal. unfold rms0. rewrite sumA_R.
  change (@nsqrt R NumR) with sqrt. f_equal. rewrite map_length. unfold half_diff. rewrite length_map2, L0, Lf, Nat.min_id. numR. rewrite <- INR_IZR_INZ. f_equal.
  apply Rsum_ext. intros i Hi.
  assert (Q : forall (h : R -> R) l, (i < List.length l)%nat -> nth i (map h l) 0 = h (nth i l 0)) by (intros h l Hl; rewrite (nth_indep _ 0 (h 0)) by (rewrite map_length; exact Hl); apply map_nth).
  rewrite Q by (rewrite length_map2; lia). rewrite (nth_map2 _ _ _ _ 0 0) by lia. unfold at1. numR. replace (IZR 1 / IZR 2) with (/ 2) by lra. ring.
Qed.

(** * the study *)
Section Study.
  Context {X : Ext R}.
  Hypothesis G : gauss_ok.
  Hypothesis FT : legfit_ok.
  Hypothesis P8 : parse_float "8" = Some 8.
  Hypothesis P05 : parse_float "0.5" = Some (1 / 2).

  Definition study_input (p ne : nat) : deck R := {| dk_system := "advection"; dk_rk := "rk12"; dk_riemann := "roe"; dk_ic := ("sinewave " ++ show_nat ne)%string;
    dk_nout := 11; dk_finaltime := 8; dk_cfl := 1 / 2; dk_order := Z.of_nat p; dk_limiting := "0"; dk_enhance := ""; dk_thresholds := [] |}.
  Lemma show_no_space n : all_chars no_space (show_nat n) = true.
  Proof. apply (all_impl is_digit); [|apply show_digits]. intros c Hc. unfold no_space. destruct (digit_char c Hc) as [-> _]. reflexivity. Qed.
  Lemma study_parsed p ne : parser (study_deck p ne) Deck = Ok (study_input p ne).
  Proof.
    pose proof (parse_written (X := X) (study_defs p ne)) as Q.
    assert (D : Forall def_ok (study_defs p ne)).
    { unfold study_defs. repeat (apply Forall_cons; [split; [reflexivity|split; [|left; cbn; tauto]]|]); try apply Forall_nil; try reflexivity.
      - cbn [snd]. unfold one_line. rewrite all_app. change (all_chars (fun c => negb (Ascii.eqb c newline))) with one_line. rewrite (plain_one_line _ (show_plain _)). reflexivity.
      - cbn [snd]. apply plain_one_line, show_plain. }
    specialize (Q D Deck).
    replace (forallb readable (study_defs p ne)) with true in Q.
    2:{ symmetry. unfold study_defs, readable. cbn [forallb fst snd existsb int_names float_names String.eqb Ascii.eqb Bool.eqb orb negb andb].
        rewrite parse_show. change (strip "8") with "8"%string. change (strip "0.5") with "0.5"%string. rewrite P8, P05. reflexivity. }
    destruct Q as [d [E K]]. unfold study_deck. rewrite E. f_equal. destruct d as [f1 f2 f3 f4 f5 f6 f7 f8 f9 f10 f11].
    unfold deck_given, given, study_defs in K. cbn [last_value String.eqb Ascii.eqb Bool.eqb dk_system dk_rk dk_riemann dk_ic dk_nout dk_finaltime dk_cfl dk_order dk_limiting dk_enhance dk_thresholds Deck] in K.
    change (strip "8") with "8"%string in K. change (strip "0.5") with "0.5"%string in K. rewrite P8, P05, parse_show in K.
    rewrite rstrip_app in K by (apply show_nonempty || apply show_no_space).
    destruct K as [K1 [K2 [K3 [K4 [K5 [K6 [K7 [K8 [K9 [K10 K11]]]]]]]]]].
    injection K1 as <-. injection K2 as <-. injection K4 as <-. injection K5 as <-. injection K6 as <-. injection K7 as <-. injection K8 as <-. injection K9 as <-. subst. reflexivity.
  Qed.

  Lemma split_aux_word w acc : all_chars no_space w = true -> (acc ++ w <> "")%string -> split_ws_aux w acc = [(acc ++ w)%string].
  Proof.
    revert acc. induction w as [|c w IH]; intros acc H Hn; cbn [split_ws_aux].
    - rewrite sapp_nil_r in *. destruct acc; [congruence|reflexivity].
    - cbn in H. apply andb_true_iff in H. destruct H as [H1 H2]. unfold no_space in H1. destruct (is_space c); [discriminate|]. rewrite IH; [|exact H2|].
      + rewrite sapp_assoc. reflexivity.
      + destruct acc; discriminate.
  Qed.
  Lemma sine_words ne : split_ws ("sinewave " ++ show_nat ne) = ["sinewave"; show_nat ne]%string.
  Proof.
    transitivity ("sinewave"%string :: split_ws_aux (show_nat ne) ""); [reflexivity|]. f_equal. apply (split_aux_word _ ""); [apply show_no_space|]. apply show_nonempty.
  Qed.
  Lemma study_setup p ne : (1 <= ne)%nat -> exists s g dgs, Main.setup (study_input p ne) = Ok (s, g, dgs, None) /\
    wf ne s /\ wf_dg ne s dgs /\ s_euler s = false /\ b_p (s_basis s) = p /\ s_bcl s = pylit "periodic" /\ s_bcr s = pylit "periodic" /\ s_t s = 0 /\ s_dx s = 2 / INR ne.
  Proof.
    intro Hne. set (ic := {| ic_A := nofZ (-1); ic_B := n1; ic_bc := "periodic"; ic_gamma := gamma_default; ic_gamma_after := gamma_default; ic_f := f_sinewave |} : ic_spec R).
    assert (Hl : ic_lookup (A:=R) "sinewave" [show_nat ne] gamma_default = Ok ic) by reflexivity.
    pose proof (sine_words ne) as Hs. pose proof (parse_show ne) as Hp.
    assert (Hf : ((if String.eqb "advection" "euler" then 3 else 1) <= ic_fields "sinewave")%nat) by (cbn; lia).
    pose proof (ic_ok _ "advection" p "roe" _ _ _ _ _ Hs Hl eq_refl Hp Hf) as Hic.
    destruct (Solution_ok _ "advection" p "roe" _ _ _ _ _ Hs Hl eq_refl Hp Hf) as [s0 [E0 EN]].
    assert (EN' : s_enh s0 = None /\ s_euler s0 = false /\ s_basis s0 = Basis p).
    { pose proof (Solution_Ok _ _ _ _ _ _ _ _ Hic E0) as [nm [ps [s1' [en [K1 [K2 [K3 K4]]]]]]]. rewrite Hs in K1. injection K1 as <- <-.
      apply run_ic_Ok in K2. destruct K2 as [ic' [NE [u [p0 [L1 [L2 [L3 [L4 _]]]]]]]]. cbn [String.eqb] in K3. unfold ic_state in L4. subst s1'. rewrite K4. split; [exact K3|]. split; reflexivity. }
    destruct EN' as [Een [Eeu Eb]]. assert (HNE : (1 <= s_NE s0)%Z) by lia.
    assert (W0 : wf ne s0).
    { rewrite <- (Nat2Z.id ne), <- EN. apply md_wf. apply (Solution_made _ _ _ _ _ _ _ _ (fun n Hn => gr_lx _ _ _ (G n Hn)) Hic E0 HNE). unfold enh_lengths. rewrite Een. exact I. }
    destruct (constructed_nodes G FT _ _ _ _ _ _ _ _ _ _ _ Hs Hl Hic E0 HNE) as [_ [Edx [Ebl [Ebr [Et _]]]]].
    rewrite EN, Nat2Z.id in Edx. cbn [ic_A ic_B ic_bc ic] in Edx, Ebl, Ebr.
    destruct (apply_bc_modes ne s0 W0) as [s1 [E1 [_ [W1 _]]]]. destruct (DG_total ne s1 W1) as [dgs Hd].
    pose proof (apply_bc_eq ne s0 W0) as Eu. rewrite E1 in Eu. apply Ok_inj in Eu.
    eexists s1, _, dgs. split.
    { unfold Main.setup. cbn [study_input dk_order dk_ic dk_system dk_riemann dk_enhance dk_thresholds dk_limiting].
      destruct (Z.ltb_spec (Z.of_nat p) 0) as [?|_]; [lia|]. rewrite Nat2Z.id, E0. cbn [rbind]. rewrite E1. cbn [rbind]. rewrite Hd. reflexivity. }
    split; [exact W1|]. split; [exact (DG_wf _ _ _ W1 Hd)|]. subst s1. cbn [with_u s_euler s_basis s_bcl s_bcr s_t s_dx].
    split; [exact Eeu|]. split; [rewrite Eb; apply b_p_Basis'|]. split; [exact Ebl|]. split; [exact Ebr|]. split; [exact Et|].
    rewrite Edx. unfold linspace_step. destruct (Nat.leb_spec (ne + 1) 1); [lia|]. numR. rewrite INR_IZR_INZ. replace (ne + 1 - 1)%nat with ne by lia. f_equal. lra.
  Qed.

  (** the study's deck runs to t = 8 and writes eleven snapshots, 0.8 apart; the error read from the files is half the root mean square of the change *)
  Theorem study_run p ne : (2 <= ne)%nat -> INR (ne * (2 * p + 1)) <= 100000000000000 ->
    exists F evs s, (forall fuel, (F <= fuel)%nat -> main fuel (study_deck p ne) = (evs, Finished s)) /\ s_t s = 8 /\ List.length evs = 11%nat /\
      (forall i ev, nth_error evs i = Some ev -> ev_nout ev = i /\ s_t (ev_sol ev) = INR i * (8 / 10) /\ (i = 10%nat -> ev_sol ev = s)) /\
      forall ev0 delta, 0 <= delta -> nth_error evs 0 = Some ev0 -> texts_near delta ne (ev_sol ev0) -> texts_near delta ne s ->
      exists err, study_error (flat_map printed_files evs) ne = Ok err /\ Rabs (err - / 2 * rms ne (fun e => average s e - average (ev_sol ev0) e)) <= delta.
  Proof.
    intros Hne Hsz. destruct (study_setup p ne ltac:(lia)) as [s0 [g [dgs [HS [W [D [Eu [Ep [Bl [Br [T0 Dx]]]]]]]]]]].
    assert (P1 : 0 < INR ne) by (apply lt_0_INR; lia). assert (P2 : 0 < INR (2 * p + 1)) by (apply lt_0_INR; lia).
    assert (Hq : s_dx s0 * (1 / 2) / INR (2 * b_p (s_basis s0) + 1) = / INR (ne * (2 * p + 1))) by (rewrite Dx, Ep, mult_INR; field; lra).
    assert (P3 : 0 < INR (ne * (2 * p + 1))) by (rewrite mult_INR; nra).
    destruct (advection_completes g ne s0 dgs "rk12" (1 / 2) 8 11 W D Eu ltac:(lia) ltac:(rewrite T0; lra)) as [F [evs [s [E H]]]].
    { rewrite Hq. unfold Rdiv. rewrite Rmult_1_l. apply Rinv_le_contravar; [exact P3|exact Hsz]. }
    exists F, evs, s.
    assert (HM : forall fuel, (F <= fuel)%nat -> main fuel (study_deck p ne) = (evs, Finished s)).
    { intros fuel Hf. unfold main. rewrite study_parsed. unfold run_deck. rewrite HS. apply H. exact Hf. }
    split; [exact HM|]. split; [exact E|]. specialize (H F (le_n F)).
    assert (Hcfl : forall k tout touts s1 sc evs1 v, visits g "rk12" dgs None (1 / 2) 8 11 s0 k tout touts s1 sc evs1 -> max_wave_speed g s1 = Ok v ->
      s_dx s1 * (1 / 2) / (v * INR (2 * b_p (s_basis s1) + 1)) <= (8 - s_t s0) / INR (Z.to_nat 11 - 1)).
    { intros k tout touts s1 sc evs1 v Hv Hm. destruct (Wf_visits g ne s0 dgs None W D _ _ _ _ _ _ _ _ _ _ Hv) as [[_ [t [n [sn [u [-> _]]]]]] _].
      unfold max_wave_speed in Hm. cbn [with_u with_sens with_n with_t s_euler s_u s_dx s_basis] in *. rewrite Eu in Hm. unfold adv_max_wave_speed in Hm. apply Ok_inj in Hm. subst v.
      numR. rewrite Rmult_1_l, Hq, T0. change (Z.to_nat 11 - 1)%nat with 10%nat. rewrite (INR_IZR_INZ 10). cbn [Z.of_nat Pos.of_succ_nat Pos.succ].
      assert (2 <= INR ne) by (change 2 with (INR 2); apply le_INR; lia). assert (1 <= INR (2 * p + 1)) by (change 1 with (INR 1); apply le_INR; lia).
      apply Rle_trans with (/ 2); [|lra]. apply Rinv_le_contravar; [lra|]. rewrite mult_INR. nra. }
    destruct (all_snapshots g "rk12" dgs None (1 / 2) 8 11 s0 ltac:(lia) ltac:(rewrite T0; lra) F evs s Hcfl H) as [L1 L2].
    change (Z.to_nat 11) with 11%nat in L1. split; [exact L1|].
    assert (L3 : forall i ev, nth_error evs i = Some ev -> ev_nout ev = i /\ s_t (ev_sol ev) = INR i * (8 / 10) /\ (i = 10%nat -> ev_sol ev = s)).
    { intros i ev Hi. destruct (L2 i ev Hi) as [A1 A2]. split; [exact A1|]. split.
      - rewrite A2. unfold out_time. rewrite T0. change (Z.to_nat 11 - 1)%nat with 10%nat. rewrite (INR_IZR_INZ 10). cbn [Z.of_nat Pos.of_succ_nat Pos.succ]. lra.
      - intros ->. destruct (finished_snapshots g "rk12" dgs None (1 / 2) 8 11 s0 ltac:(lia) ltac:(rewrite T0; lra) F evs s H) as [k [_ [K1 [_ K2]]]].
        assert (k = 10%nat) by lia. subst k. exact (proj2 (proj2 (K2 _ _ Hi)) eq_refl). }
    split; [exact L3|]. intros ev0 delta Hd H0 T1 T2.
    destruct (nth_error evs 10) as [ev10|] eqn:E10; [|apply nth_error_None in E10; lia]. destruct (L3 _ _ E10) as [N10 [_ S10]]. specialize (S10 eq_refl). destruct (L3 _ _ H0) as [N0 _].
    destruct (integrate_files g "rk12" dgs None (1 / 2) 8 11 F s0 evs (Finished s) H) as [ND _].
    destruct (Wf_integrate g ne dgs None s0 "rk12" (1 / 2) 8 11 F evs (Finished s) W D H) as [WE _]. rewrite Forall_forall in WE.
    assert (Q : forall i ev, nth_error evs i = Some ev -> ev_nout ev = i -> wf ne (ev_sol ev) /\ s_euler (ev_sol ev) = false /\ bc_name_ok (s_bcl (ev_sol ev)) /\ bc_name_ok (s_bcr (ev_sol ev)) /\
      read_file (flat_map printed_files evs) (format_fname i "u") = Some (field_file (ev_sol ev) 0)).
    { intros i ev Hi Hn. destruct (WE ev (nth_error_In _ _ Hi)) as [We Se].
      assert (Es : s_euler (ev_sol ev) = false /\ s_bcl (ev_sol ev) = s_bcl s0 /\ s_bcr (ev_sol ev) = s_bcr s0) by (destruct Se as [t [n [sn [u [-> _]]]]]; repeat split; exact Eu).
      destruct Es as [Es [Es1 Es2]]. split; [exact We|]. split; [exact Es|]. rewrite Es1, Es2, Bl, Br. split; [split; reflexivity|]. split; [split; reflexivity|].
      apply read_In; [exact ND|]. apply in_flat_map. exists ev. split; [exact (nth_error_In _ _ Hi)|]. apply printed_field. rewrite Hn. unfold s_fields. rewrite Es. reflexivity. }
    destruct (Q _ _ H0 N0) as [W0 [Ea [Ba [Bb Rd]]]]. destruct (Q _ _ E10 N10) as [W10 [Ea' [Ba' [Bb' Rd']]]]. rewrite S10 in *.
    destruct (near_column delta ne _ W0 Hne Ea T1 Ba Bb _ _ Rd) as [u0 [C1 [C2 C3]]]. destruct (near_column delta ne _ W10 Hne Ea' T2 Ba' Bb' _ _ Rd') as [uf [C1' [C2' C3']]].
    exists (rms0 ne (fun i => / 2 * (at1 u0 i - at1 uf i))). split.
    - unfold study_error. change "u0000000000.dat"%string with (format_fname 0 "u"). change "u0000000010.dat"%string with (format_fname 10 "u").
      rewrite C1. cbn [rbind]. rewrite C1'. cbn [rbind]. apply error_norm_L2; (assumption || lia).
    - replace (/ 2 * rms ne (fun e => average s e - average (ev_sol ev0) e)) with (rms0 ne (fun i => / 2 * (average (ev_sol ev0) (i + 1) - average s (i + 1)))).
      + apply rms0_near; [lia|exact Hd|]. intros i Hi. specialize (C3 i Hi). specialize (C3' i Hi).
        replace (/ 2 * (at1 u0 i - at1 uf i) - / 2 * (average (ev_sol ev0) (i + 1) - average s (i + 1))) with (/ 2 * ((at1 u0 i - average (ev_sol ev0) (i + 1)) - (at1 uf i - average s (i + 1)))) by ring.
        rewrite Rabs_mult, (Rabs_pos_eq (/ 2)) by lra. pose proof (Rabs_triang (at1 u0 i - average (ev_sol ev0) (i + 1)) (- (at1 uf i - average s (i + 1)))) as T.
        rewrite Rabs_Ropp in T. unfold Rminus at 1. lra.
      + unfold rms0, rms.
        rewrite (Rsum_ext ne _ (fun i => / 4 * ((average s (i + 1) - average (ev_sol ev0) (i + 1)) * (average s (i + 1) - average (ev_sol ev0) (i + 1))))) by (intros; field).
        rewrite Rsum_scale. replace (/ 4 * Rsum ne (fun i => (average s (i + 1) - average (ev_sol ev0) (i + 1)) * (average s (i + 1) - average (ev_sol ev0) (i + 1))) / INR ne)
          with ((/ 2 * / 2) * (Rsum ne (fun i => (average s (i + 1) - average (ev_sol ev0) (i + 1)) * (average s (i + 1) - average (ev_sol ev0) (i + 1))) / INR ne)) by (field; lra).
        rewrite sqrt_mult; [rewrite sqrt_square by lra; reflexivity|lra|]. apply Rmult_le_pos; [apply Rsum_nonneg; intros; match goal with |- 0 <= ?a * ?a => apply (Rle_0_sqr a) end|]. left. apply Rinv_0_lt_compat. exact P1.
  Qed.
End Study.
