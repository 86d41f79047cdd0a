(** solution.py: what loader reads from what printer wrote. *)
From Coq Require Import ZArith List Bool Arith String Ascii Lia Reals Lra PrimFloat FloatOps FloatAxioms.
From Verif Require Import Num Py PyStr ProofsStr Lib LegNumpy Ext Basis Sensor Enhance Solution Solver RK IO
  SpecDG ProofsDG ProofsWf SpecText SpecIO ProofsText ProofsTime2 ProofsSol ProofsMain FloatText ProofsFloatText.
Import ListNotations.
Open Scope string_scope.
Open Scope list_scope.
Open Scope nat_scope.

Lemma all_concat P sep ws : all_chars P sep = true -> forallb (all_chars P) ws = true -> all_chars P (String.concat sep ws) = true.
Proof.
  intro Hs. induction ws as [|w ws IH]; intro H; [reflexivity|]. cbn [forallb] in H. apply andb_prop in H. destruct H as [H1 H2].
  destruct ws as [|w' ws]; [exact H1|]. change (String.concat sep (w :: w' :: ws)) with (w ++ sep ++ String.concat sep (w' :: ws))%string.
  rewrite !all_app, H1, Hs, IH by exact H2. reflexivity.
Qed.
Lemma forallb_impl {Y} (P Q : Y -> bool) l : (forall y, P y = true -> Q y = true) -> forallb P l = true -> forallb Q l = true.
Proof. intros H E. rewrite forallb_forall in *. intros y Hy. apply H, E, Hy. Qed.
Lemma plain_no (c0 : ascii) c : plain_char c0 = false -> plain_char c = true -> Ascii.eqb c c0 = false.
Proof. intros H0 H. apply Ascii.eqb_neq. intros ->. rewrite H in H0. discriminate. Qed.
Lemma plain_one_line s : plain s = true -> one_line s = true.
Proof. apply all_impl. intros c H. rewrite (plain_no newline c eq_refl H). reflexivity. Qed.
Lemma plain_sep s : plain s = true -> all_chars (fun c => negb (is_char "="%char c || is_char ","%char c)) s = true.
Proof. apply all_impl. intros c H. unfold is_char. rewrite (plain_no "="%char c eq_refl H), (plain_no ","%char c eq_refl H). reflexivity. Qed.
Lemma plain_comma s : plain s = true -> all_chars (fun c => negb (is_char ","%char c)) s = true.
Proof. apply all_impl. intros c H. unfold is_char. rewrite (plain_no ","%char c eq_refl H). reflexivity. Qed.
Lemma digits_plain s : all_chars is_digit s = true -> plain s = true.
Proof.
  apply all_impl. intros c H. destruct (digit_char c H) as [H1 [H2 [H3 [H4 [H5 [H6 H7]]]]]]. unfold plain_char.
  rewrite H1. apply Ascii.eqb_neq in H5, H6, H7. rewrite H5, H6, H7. reflexivity.
Qed.
Lemma show_plain n : plain (show_nat n) = true. Proof. apply digits_plain, show_digits. Qed.
Lemma mapM_id {Y Z} (f : Y -> res Z) (l : list Y) (k : list Z) : List.length l = List.length k -> (forall i dy dz, i < List.length l -> f (nth i l dy) = Ok (nth i k dz)) -> mapM f l = Ok k.
Proof.
  revert k. induction l as [|y l IH]; intros [|z k] HL H; try discriminate; [reflexivity|]. cbn [mapM].
  pose proof (H 0 y z ltac:(cbn; lia)) as H0. cbn [nth] in H0. rewrite H0. cbn [rbind]. rewrite (IH k); [reflexivity|cbn in HL; lia|].
  intros i dy dz Hi. apply (H (S i) dy dz). cbn. lia.
Qed.

Section IO.
  Context {A : Type} {N : Num A} {L : Libm A} {X : Ext A}.

  (** ** the text of a file, line by line *)
  Definition head1 (s : solution A) : string :=
    ("# n=" ++ show_nat (s_n s) ++ ", t=" ++ fmt_e18 (s_t s) ++ ", bc_l=" ++ txt (s_bcl s) ++ ", bc_r=" ++ txt (s_bcr s))%string.
  Definition head2 (Ns : nat) : string := ("# xc" ++ String.concat "" (map (fun i => ", u" ++ show_nat i)%string (seq 0 Ns)))%string.
  Definition row_text (vals : list A) : string := String.concat "," (map fmt_e18 vals).
  Lemma file_text s f : field_file s f =
    String.concat "" (map (fun l => l ++ nl)%string (head1 s :: head2 (s_Ns s) :: map row_text (field_table s f))).
  Proof.
    unfold field_file, header_line1, header_line2. cbn [map]. rewrite !concat_nil_cons, map_map.
    change (fun x => (row_text x ++ nl)%string) with (fun x => data_line x).
    unfold head1, head2. rewrite !sapp_assoc. reflexivity.
  Qed.
  Lemma row_one_line vals : Forall text_ok vals -> one_line (row_text vals) = true /\ all_chars no_space (row_text vals) = true /\
    all_chars (fun c => negb (is_char "#"%char c)) (row_text vals) = true.
  Proof.
    intro H.
    assert (G : forall P : ascii -> bool, (forall c, plain_char c = true -> P c = true) -> P ","%char = true -> all_chars P (row_text vals) = true).
    { intros P HP Hc. apply all_concat; [cbn; rewrite Hc; reflexivity|]. apply forallb_forall. intros w Hw. apply in_map_iff in Hw.
      destruct Hw as [v [<- Hv]]. rewrite Forall_forall in H. destruct (H v Hv) as [_ [Hp _]]. exact (all_impl _ _ _ HP Hp). }
    split; [|split]; apply G; try reflexivity; intros c Hc.
    - rewrite (plain_no newline c eq_refl Hc). reflexivity.
    - unfold plain_char in Hc. unfold no_space. destruct (is_space c); [rewrite !orb_true_r in Hc; discriminate|reflexivity].
    - unfold is_char. rewrite (plain_no "#"%char c eq_refl Hc). reflexivity.
  Qed.
  Lemma row_nonempty vals : vals <> [] -> Forall text_ok vals -> row_text vals <> ""%string.
  Proof.
    intros Hn H. destruct vals as [|v vals]; [congruence|]. inversion H as [|? ? [Hv _] _]; subst. unfold row_text.
    cbn [map]. destruct vals as [|v' vals]; [exact Hv|]. cbn [map].
    change (String.concat "," (fmt_e18 v :: fmt_e18 v' :: map fmt_e18 vals)) with (fmt_e18 v ++ "," ++ String.concat "," (fmt_e18 v' :: map fmt_e18 vals))%string.
    destruct (fmt_e18 v); [congruence|discriminate].
  Qed.
  Lemma row_parse vals : vals <> [] -> Forall text_ok vals -> parse_row (row_text vals) = Ok vals.
  Proof.
    intros Hn H. unfold parse_row, row_text. rewrite split_concat; [|reflexivity|destruct vals; [congruence|discriminate]|].
    - rewrite <- (map_id vals) at 2. clear Hn. induction H as [|v vals [_ [_ Hv]] _ IH]; [reflexivity|]. cbn [map mapM]. rewrite Hv. cbn [rbind].
      rewrite IH. reflexivity.
    - apply forallb_forall. intros w Hw. apply in_map_iff in Hw. destruct Hw as [v [<- Hv]]. rewrite Forall_forall in H. apply plain_comma. apply (H v Hv).
  Qed.
  Lemma data_strip vals : vals <> [] -> Forall text_ok vals -> rstrip (strip_comment (row_text vals ++ nl)) = row_text vals.
  Proof.
    intros Hn H. destruct (row_one_line vals H) as [H1 [H2 H3]]. unfold strip_comment. rewrite split_word.
    - cbn [hd]. rewrite rstrip_nl. apply rstrip_id. exact H2.
    - rewrite all_app, H3. reflexivity.
  Qed.
  Lemma head_strip w : rstrip (strip_comment (String "#" w)) = ""%string.
  Proof. reflexivity. Qed.

  Lemma table_load tb : Forall (fun r => r <> [] /\ Forall text_ok r) tb ->
    mapM parse_row (filter (fun l => negb (String.eqb l EmptyString))
      (map (fun l => rstrip (strip_comment l)) (map (fun l => l ++ nl)%string (map row_text tb)))) = Ok tb.
  Proof.
    intro HT. induction HT as [|r tb [H1 H2] _ IH]; [reflexivity|]. cbn [map]. rewrite data_strip by assumption. cbn [filter].
    destruct (String.eqb_spec (row_text r) "") as [E|E]; [exfalso; exact (row_nonempty r H1 H2 E)|]. cbn [negb mapM].
    rewrite row_parse by assumption. cbn [rbind]. rewrite IH. reflexivity.
  Qed.

  Lemma bc_sep b : bc_name_ok b -> one_line (txt b) = true /\ all_chars (fun c => negb (is_char "="%char c || is_char ","%char c)) (txt b) = true.
  Proof.
    intros [H _]. split; apply (all_impl _ _ _) with (2 := H); intros c Hc; unfold is_char; destruct (Ascii.eqb c newline), (Ascii.eqb c ","%char), (Ascii.eqb c "="%char); try discriminate; reflexivity.
  Qed.
  Lemma head1_one_line s : text_ok (s_t s) -> bc_name_ok (s_bcl s) -> bc_name_ok (s_bcr s) -> one_line (head1 s) = true.
  Proof.
    intros [_ [Ht _]] Hl Hr. unfold head1, one_line. rewrite !all_app.
    change (all_chars (fun c => negb (Ascii.eqb c newline))) with one_line.
    rewrite (plain_one_line _ (show_plain _)), (plain_one_line _ Ht), (proj1 (bc_sep _ Hl)), (proj1 (bc_sep _ Hr)). reflexivity.
  Qed.
  Lemma head2_one_line Ns : one_line (head2 Ns) = true.
  Proof.
    unfold head2, one_line. rewrite all_app. rewrite all_concat; [reflexivity|reflexivity|]. apply forallb_forall. intros w Hw.
    apply in_map_iff in Hw. destruct Hw as [i [<- _]]. rewrite all_app. change (all_chars (fun c => negb (Ascii.eqb c newline))) with one_line.
    rewrite (plain_one_line _ (show_plain _)). reflexivity.
  Qed.

  Section File.
    Variables (s : solution A) (f : nat).
    Hypothesis Ht : text_ok (s_t s).
    Hypothesis Hl : bc_name_ok (s_bcl s).
    Hypothesis Hr : bc_name_ok (s_bcr s).
    Hypothesis HT : Forall (fun r => r <> [] /\ Forall text_ok r) (field_table s f).
    Lemma file_is_lines : file_lines (field_file s f) = map (fun l => l ++ nl)%string (head1 s :: head2 (s_Ns s) :: map row_text (field_table s f)).
    Proof.
      rewrite file_text. apply lines_concat. cbn [forallb]. rewrite head1_one_line, head2_one_line by assumption. cbn [andb].
      apply forallb_forall. intros w Hw. apply in_map_iff in Hw. destruct Hw as [r [<- Hin]]. rewrite Forall_forall in HT. apply row_one_line. apply (HT r Hin).
    Qed.
    Lemma file_loadtxt : loadtxt (field_file s f) = Ok (field_table s f).
    Proof.
      unfold loadtxt. rewrite file_is_lines. cbn [map].
      replace (rstrip (strip_comment (head1 s ++ nl))) with ""%string by reflexivity.
      replace (rstrip (strip_comment (head2 (s_Ns s) ++ nl))) with ""%string by reflexivity.
      cbn [filter]. rewrite String.eqb_refl. cbn [negb]. apply table_load. exact HT.
    Qed.
    Lemma file_header : split_on (fun c => is_char "="%char c || is_char ","%char c)%bool (nth 0 (file_lines (field_file s f)) EmptyString)
      = ["# n"; show_nat (s_n s); " t"; fmt_e18 (s_t s); " bc_l"; txt (s_bcl s); " bc_r"; txt (s_bcr s) ++ nl]%string.
    Proof.
      rewrite file_is_lines. cbn [map nth]. unfold head1. rewrite !sapp_assoc.
      set (sep := fun c => (is_char "="%char c || is_char ","%char c)%bool).
      replace ("# n=" ++ show_nat (s_n s) ++ ", t=" ++ fmt_e18 (s_t s) ++ ", bc_l=" ++ txt (s_bcl s) ++ ", bc_r=" ++ txt (s_bcr s) ++ nl)%string
        with ("# n" ++ String "=" (show_nat (s_n s) ++ String "," (" t" ++ String "=" (fmt_e18 (s_t s) ++ String "," (" bc_l" ++ String "=" (txt (s_bcl s) ++ String "," (" bc_r" ++ String "=" (txt (s_bcr s) ++ nl))))))))%string by reflexivity.
      rewrite !split_sep; try reflexivity.
      - rewrite split_word; [reflexivity|]. rewrite all_app. unfold sep. rewrite (proj2 (bc_sep _ Hr)). reflexivity.
      - exact (proj2 (bc_sep _ Hl)).
      - apply plain_sep. apply Ht.
      - apply plain_sep, show_plain.
    Qed.
    Lemma file_Ns : (List.length (split_on (is_char ","%char) (nth 1 (file_lines (field_file s f)) EmptyString)) - 1) = s_Ns s.
    Proof.
      rewrite file_is_lines. cbn [map nth]. unfold head2. rewrite sapp_assoc.
      assert (G : forall l w, all_chars (fun c => negb (is_char ","%char c)) w = true ->
         List.length (split_on (is_char ","%char) (w ++ String.concat "" (map (fun i => ", u" ++ show_nat i)%string l) ++ nl)) = List.length l + 1).
      { induction l as [|i l IH]; intros w Hw.
        - cbn [map String.concat append]. rewrite split_word; [reflexivity|]. rewrite all_app, Hw. reflexivity.
        - cbn [map]. rewrite concat_nil_cons, !sapp_assoc.
          replace (w ++ ", u" ++ show_nat i ++ String.concat "" (map (fun i0 => ", u" ++ show_nat i0) l) ++ nl)%string
            with (w ++ String "," ((" u" ++ show_nat i) ++ String.concat "" (map (fun i0 => ", u" ++ show_nat i0) l) ++ nl))%string by (rewrite sapp_assoc; reflexivity).
          rewrite split_sep by (try exact Hw; reflexivity). cbn [List.length]. rewrite IH; [reflexivity|]. rewrite all_app, (plain_comma _ (show_plain i)). reflexivity. }
      rewrite G by reflexivity. rewrite seq_length. lia.
    Qed.
  End File.

  (** ** the columns of one field *)
  Lemma nth_every {Y} (st : nat) (d : Y) : 1 <= st -> forall l k i, nth i (every_aux st k l) d = nth (k + i * st) l d.
  Proof.
    intros Hs. induction l as [|x l IH]; intros k i.
    - cbn [every_aux]. destruct i, (k + _); reflexivity.
    - cbn [every_aux]. destruct k as [|k].
      + destruct i as [|i]; [reflexivity|]. cbn [nth]. rewrite IH. replace (0 + S i * st) with (S (st - 1 + i * st)) by (cbn; lia). reflexivity.
      + rewrite IH. reflexivity.
  Qed.
  Lemma field_row_at ne NF f (r : vec A) e : 1 <= NF -> f < NF -> List.length r = (ne + 2) * NF -> e < ne ->
    at1 (field_row NF f r) e = at1 r ((e + 1) * NF + f).
  Proof.
    intros H1 H2 Hr He. unfold field_row, slice_step, stride, at1. rewrite nth_every by exact H1. unfold slice.
    replace (Z.of_nat NF + Z.of_nat f)%Z with (Z.of_nat (NF + f)) by lia.
    replace (-2 * Z.of_nat NF + 1 + Z.of_nat f)%Z with (- Z.of_nat (2 * NF - 1 - f))%Z by lia.
    rewrite bound_nonneg, bound_neg by lia. rewrite Hr.
    assert (K : NF + f <= (ne + 2) * NF) by nia. rewrite Nat.min_r by exact K.
    rewrite nth_firstn' by nia. rewrite nth_skipn'. f_equal. lia.
  Qed.
  Lemma field_table_ok ne s f : wf ne s -> texts_ok ne s -> f < s_NF s -> Forall (fun r => r <> [] /\ Forall text_ok r) (field_table s f).
  Proof.
    intros W [_ [Hx Hu]] Hf. pose proof (wf_u _ _ W) as [U1 U2]. unfold field_table. rewrite (wf_xc _ _ W). apply Forall_forall. intros r Hin.
    unfold tab in Hin. apply in_map_iff in Hin. destruct Hin as [e [<- He]]. apply in_seq in He. split; [discriminate|]. constructor; [apply Hx; lia|].
    apply Forall_forall. intros v Hv. apply in_map_iff in Hv. destruct Hv as [r [<- Hr]].
    rewrite (field_row_at ne); [|apply NF_pos|exact Hf|apply U2; exact Hr|lia].
    destruct (In_nth _ _ [] Hr) as [n [Hn <-]]. apply (Hu n); [lia|]. unfold interior_col. pose proof (NF_pos s). nia.
  Qed.
  Lemma field_table_xc ne s f : wf ne s -> mapM (fun r => nth_res r 0) (field_table s f) = Ok (s_xc s).
  Proof.
    intro W. unfold field_table. apply mapM_id; [apply length_tab|]. intros i dy dz Hi. rewrite length_tab in Hi. rewrite nth_tab by exact Hi.
    cbn. unfold at1. f_equal. apply nth_indep. exact Hi.
  Qed.

  (** ** storing the fields *)
  Definition part (ne : nat) (s : solution A) (k : nat) : mat A :=
    tab2 (s_Ns s) ((ne + 2) * s_NF s) (fun n j =>
      if ((s_NF s <=? j) && (j <? (ne + 1) * s_NF s) && (j mod s_NF s <? k))%bool then at2 (s_u s) n j else n0).
  Lemma store_part ne s k : wf ne s -> k < s_NF s ->
    store_field (s_NF s) (s_Ns s) ne (field_table s k) k (part ne s k) = Ok (part ne s (S k)).
  Proof.
    intros W Hk. pose proof (wf_u _ _ W) as [U1 U2]. pose proof (NF_pos s) as HNF. pose proof (wf_ne _ _ W) as Hne. unfold store_field.
    assert (EL : List.length (field_table s k) = ne) by (unfold field_table; rewrite length_tab; apply (wf_xc _ _ W)).
    assert (ER : forallb (fun r => List.length r =? s_Ns s + 1) (field_table s k) = true).
    { apply forallb_forall. intros r Hr. unfold field_table, tab in Hr. apply in_map_iff in Hr. destruct Hr as [e [<- _]]. apply Nat.eqb_eq.
      cbn [List.length]. rewrite map_length. pose proof (eq_trans eq_refl U1 : List.length (s_u s) = _) as U1'. vlia. }
    rewrite EL, ER, Nat.eqb_refl. cbn [andb]. f_equal. unfold part at 3. unfold tab2. unfold part at 1. rewrite length_tab2. apply tab_ext. intros n Hn.
    unfold part. rewrite row_tab2 by exact Hn. unfold slice_step_set. rewrite !length_tab. apply tab_ext. intros j Hj.
    set (NF := s_NF s) in *.
    replace (Z.of_nat NF + Z.of_nat k)%Z with (Z.of_nat (NF + k)) by lia.
    replace (-2 * Z.of_nat NF + 1 + Z.of_nat k)%Z with (- Z.of_nat (2 * NF - 1 - k))%Z by lia.
    rewrite bound_nonneg, bound_neg by lia. rewrite Nat.min_r by nia. rewrite at1_tab by exact Hj.
    destruct (Nat.leb_spec (NF + k) j) as [L1|L1].
    - assert (Q : j = NF + k + (j - (NF + k))) by lia. set (q := j - (NF + k)) in *.
      pose proof (Nat.div_mod q NF ltac:(lia)) as DM. pose proof (Nat.mod_upper_bound q NF ltac:(lia)) as MU.
      set (d := q / NF) in *. set (m := q mod NF) in *.
      destruct (Nat.eqb_spec m 0) as [M0|M0].
      + assert (Ej : j = (d + 1) * NF + k) by nia. assert (Em : j mod NF = k).
        { rewrite Ej, Nat.add_comm, Nat.mod_add by lia. apply Nat.mod_small. exact Hk. }
        rewrite Em, Nat.ltb_irrefl. rewrite (proj2 (Nat.ltb_lt k (S k)) (Nat.lt_succ_diag_r k)). rewrite !andb_false_r, !andb_true_r.
        destruct (Nat.ltb_spec j ((ne + 2) * NF - (2 * NF - 1 - k))) as [L2|L2]; cbn [andb].
        * assert (Hd : d < ne) by nia. rewrite (proj2 (Nat.leb_le NF j)) by nia. rewrite (proj2 (Nat.ltb_lt j ((ne + 1) * NF))) by nia. cbn [andb].
          unfold field_table. rewrite map_tab. rewrite at1_tab by (rewrite (wf_xc _ _ W); exact Hd).
          replace (n + 1) with (S n) by lia. unfold at1 at 1. cbn [nth].
          rewrite (nth_indep _ _ (at1 (field_row NF k []) d)) by (rewrite map_length; vlia).
          rewrite (map_nth (fun r => at1 (field_row NF k r) d)).
          rewrite (field_row_at ne); [|exact HNF|exact Hk|apply U2; apply nth_In; vlia|exact Hd]. unfold at2, row. f_equal. lia.
        * assert (Hd : ne <= d) by (destruct (Nat.le_gt_cases ne d) as [|G]; [assumption|assert ((d + 1) * NF <= ne * NF) by (apply Nat.mul_le_mono_r; lia); nia]).
          rewrite (proj2 (Nat.ltb_ge j ((ne + 1) * NF))) by nia. rewrite andb_false_r. reflexivity.
      + rewrite andb_false_r. cbn match. assert (Em : j mod NF <> k).
        { intro E. apply M0. unfold m. pose proof (Nat.div_mod j NF ltac:(lia)) as DJ. rewrite E in DJ.
          assert (q = (j / NF - 1) * NF) by nia. rewrite H. apply Nat.mod_mul. lia. }
        replace (j mod NF <? S k) with (j mod NF <? k); [reflexivity|]. destruct (Nat.ltb_spec (j mod NF) k), (Nat.ltb_spec (j mod NF) (S k)); try reflexivity; lia.
    - cbn [andb]. destruct (Nat.leb_spec NF j) as [L3|L3]; [|reflexivity]. cbn [andb].
      assert (Em : j mod NF < k). { replace j with (j - NF + 1 * NF) by lia. rewrite Nat.mod_add by lia. rewrite Nat.mod_small by lia. lia. }
      rewrite (proj2 (Nat.ltb_lt _ _) Em), (proj2 (Nat.ltb_lt (j mod NF) (S k))) by lia. reflexivity.
  Qed.
  Lemma part_0 ne s : part ne s 0 = add_ghosts (s_NF s) (zeros2 (s_Ns s) (ne * s_NF s)).
  Proof.
    unfold add_ghosts, zeros2, tab2, part, tab2. rewrite map_tab. apply tab_ext. intros n Hn. set (NF := s_NF s).
    apply (list_ext n0); [rewrite !app_length, !length_zeros, !length_tab; lia|]. rewrite length_tab. intros j Hj. rewrite nth_tab by exact Hj.
    replace (j mod NF <? 0) with false by (symmetry; apply Nat.ltb_ge; lia). rewrite andb_false_r.
    symmetry. change (nth j (zeros NF ++ tab (ne * NF) (fun _ => n0) ++ zeros NF) n0 = n0).
    assert (Z : forall l : list A, (forall y, In y l -> y = n0) -> nth j l n0 = n0).
    { intros l Hl. destruct (nth_in_or_default j l n0) as [H|H]; [apply Hl; exact H|exact H]. }
    apply Z. intros y Hy. unfold zeros in Hy. apply in_app_or in Hy. destruct Hy as [Hy|Hy]; [|apply in_app_or in Hy; destruct Hy as [Hy|Hy]].
    - unfold tab in Hy; apply in_map_iff in Hy; destruct Hy as [? [<- _]]; reflexivity.
    - unfold tab in Hy; apply in_map_iff in Hy; destruct Hy as [? [<- _]]; reflexivity.
    - unfold tab in Hy; apply in_map_iff in Hy; destruct Hy as [? [<- _]]; reflexivity.
  Qed.

  (** ** the loader *)
  Definition loaded (ne : nat) (s s0 : solution A) : solution A :=
    let dx := nsub (at1 (s_xc s) 1) (at1 (s_xc s) 0) in
    let a := nsub (at1 (s_xc s) 0) (nmul nhalf dx) in
    let b := nadd (at1 (s_xc s) (ne - 1)) (nmul nhalf dx) in
    with_loaded s0 (Basis (b_p (s_basis s))) (s_n s) (s_t s) (pyfresh (txt (s_bcl s))) (pyfresh (txt (s_bcr s))) ne
      (linspace a b (ne + 1)) (s_xc s) (linspace_step a b (ne + 1)) (part ne s (s_NF s)).

  Lemma store_all ne s (dir : directory) fl k : wf ne s -> texts_ok ne s -> bc_name_ok (s_bcl s) -> bc_name_ok (s_bcr s) ->
    (forall i name, nth_error fl i = Some name -> read_file dir name = Some (field_file s (k + i))) -> k + List.length fl = s_NF s ->
    fold_left (fun acc fn =>
        let! u := acc in
        let! c := match read_file dir (snd fn) with Some c => Ok c | None => Raise FileNotFound end in
        let! dat := loadtxt c in
        store_field (s_NF s) (s_Ns s) ne dat (fst fn) u)
      (combine (seq k (List.length fl)) fl) (Ok (part ne s k)) = Ok (part ne s (s_NF s)).
  Proof.
    intros W T Hl Hr. revert k. induction fl as [|name fl IH]; intros k Hd Hk.
    - cbn in *. replace k with (s_NF s) by lia. reflexivity.
    - cbn [List.length seq combine fold_left fst snd rbind]. rewrite (Hd 0 name eq_refl), Nat.add_0_r. cbn [rbind].
      cbn [List.length] in Hk. rewrite file_loadtxt; try assumption; [|apply T|apply (field_table_ok ne); [exact W|exact T|lia]]. cbn [rbind].
      rewrite store_part by (assumption || lia). apply IH; [|lia]. intros i nm Hi. rewrite (Hd (S i) nm Hi). f_equal. f_equal. lia.
  Qed.

  Lemma loader_spec ne s s0 dir step : wf ne s -> 2 <= ne -> texts_ok ne s -> bc_name_ok (s_bcl s) -> bc_name_ok (s_bcr s) -> s_euler s0 = s_euler s ->
    (forall f name, nth_error (format_fnames step (s_fields s)) f = Some name -> read_file dir name = Some (field_file s f)) ->
    loader dir step s0 = Ok (loaded ne s s0).
  Proof.
    intros W Hne T Hl Hr Es Hd. pose proof (NF_pos s) as HNF. pose proof (Ns_pos s) as HNs.
    assert (Hx0 : forall b, b = s_fields s -> s_fields s0 = b) by (intros b ->; unfold s_fields; rewrite Es; reflexivity).
    assert (EF : s_fields s0 = s_fields s) by (apply Hx0; reflexivity).
    assert (ENF : s_NF s0 = s_NF s) by (unfold s_NF; rewrite Es; reflexivity).
    assert (LF : List.length (format_fnames step (s_fields s)) = s_NF s) by (unfold format_fnames, s_fields, s_NF; rewrite map_length; destruct (s_euler s); reflexivity).
    unfold loader. rewrite EF, ENF. set (fl := format_fnames step (s_fields s)) in *.
    assert (H0 : read_file dir (hd EmptyString fl) = Some (field_file s 0)).
    { apply (Hd 0). destruct fl; [cbn in LF; lia|reflexivity]. }
    rewrite H0. cbn [rbind].
    assert (FT : Forall (fun r => r <> [] /\ Forall text_ok r) (field_table s 0)) by (apply (field_table_ok ne); [exact W|exact T|lia]).
    pose proof T as [Tt _].
    rewrite file_loadtxt by assumption. cbn [rbind]. rewrite (field_table_xc ne) by exact W. cbn [rbind].
    rewrite file_header by assumption. unfold nth_res at 1 2 3 4. cbn [nth_error rbind]. rewrite parse_show. cbn [rbind].
    destruct (Z.ltb_spec (Z.of_nat (s_n s)) 0) as [Hz|_]; [lia|]. cbn [rbind]. rewrite Nat2Z.id.
    rewrite (proj2 (proj2 Tt)). cbn [rbind]. rewrite file_Ns by assumption.
    destruct (Nat.eqb_spec (s_Ns s) 0) as [?|_]; [lia|]. rewrite (wf_xc _ _ W).
    destruct (Nat.eqb_spec ne 1) as [?|_]; [lia|]. destruct (Nat.eqb_spec ne 0) as [?|_]; [lia|].
    rewrite <- part_0, (store_all ne s dir fl 0 W T Hl Hr Hd) by (rewrite LF; reflexivity). cbn [rbind].
    rewrite (proj2 Hl), rstrip_nl, (proj2 Hr). unfold loaded, s_Ns, b_Ns. rewrite Nat.add_sub. reflexivity.
  Qed.
  Lemma loader_one s s0 dir step : wf 1 s -> texts_ok 1 s -> bc_name_ok (s_bcl s) -> bc_name_ok (s_bcr s) -> s_euler s0 = s_euler s ->
    (forall f name, nth_error (format_fnames step (s_fields s)) f = Some name -> read_file dir name = Some (field_file s f)) ->
    loader dir step s0 = Raise TypeError.
  Proof.
    intros W T Hl Hr Es Hd. pose proof (NF_pos s) as HNF. pose proof (Ns_pos s) as HNs.
    assert (Hx0 : forall b, b = s_fields s -> s_fields s0 = b) by (intros b ->; unfold s_fields; rewrite Es; reflexivity).
    assert (EF : s_fields s0 = s_fields s) by (apply Hx0; reflexivity).
    assert (ENF : s_NF s0 = s_NF s) by (unfold s_NF; rewrite Es; reflexivity).
    assert (LF : List.length (format_fnames step (s_fields s)) = s_NF s) by (unfold format_fnames, s_fields, s_NF; rewrite map_length; destruct (s_euler s); reflexivity).
    unfold loader. rewrite EF, ENF. set (fl := format_fnames step (s_fields s)) in *.
    assert (H0 : read_file dir (hd EmptyString fl) = Some (field_file s 0)).
    { apply (Hd 0). destruct fl; [cbn in LF; lia|reflexivity]. }
    rewrite H0. cbn [rbind].
    assert (FT : Forall (fun r => r <> [] /\ Forall text_ok r) (field_table s 0)) by (apply (field_table_ok 1); [exact W|exact T|lia]).
    pose proof T as [Tt _].
    rewrite file_loadtxt by assumption. cbn [rbind]. rewrite (field_table_xc 1) by exact W. cbn [rbind].
    rewrite file_header by assumption. unfold nth_res at 1 2 3 4. cbn [nth_error rbind]. rewrite parse_show. cbn [rbind].
    destruct (Z.ltb_spec (Z.of_nat (s_n s)) 0) as [Hz|_]; [lia|]. cbn [rbind]. rewrite Nat2Z.id.
    rewrite (proj2 (proj2 Tt)). cbn [rbind]. rewrite file_Ns by assumption.
    destruct (Nat.eqb_spec (s_Ns s) 0) as [?|_]; [lia|]. rewrite (wf_xc _ _ W).
    reflexivity.
  Qed.
  Lemma loaded_restored ne s s0 : wf ne s -> s_euler s0 = s_euler s -> restored ne s (loaded ne s s0).
  Proof.
    intros W Es. pose proof (wf_u _ _ W) as [U1 U2]. pose proof (NF_pos s) as HNF. unfold restored, loaded, with_loaded.
    cbn [s_xc s_t s_n s_bcl s_bcr s_basis s_NE s_euler s_u txt pyfresh].
    repeat split; try reflexivity.
    - symmetry. apply (wf_NE _ _ W).
    - exact Es.
    - unfold part. apply length_tab2.
    - intros x Hx. unfold part, tab2, tab in Hx. apply in_map_iff in Hx. destruct Hx as [n [<- _]]. rewrite map_length, seq_length. reflexivity.
    - intros n j Hn [J1 J2]. unfold part. rewrite at2_tab2 by (exact Hn || nia). rewrite (proj2 (Nat.leb_le _ _) J1), (proj2 (Nat.ltb_lt _ _) J2).
      rewrite (proj2 (Nat.ltb_lt (j mod s_NF s) (s_NF s))) by (apply Nat.mod_upper_bound; lia). reflexivity.
  Qed.
  Lemma loaded_ghosts ne s s0 n j : wf ne s -> n < s_Ns s -> j < (ne + 2) * s_NF s -> ~ interior_col ne (s_NF s) j -> at2 (s_u (loaded ne s s0)) n j = n0.
  Proof.
    intros W Hn Hj Hi. unfold loaded, with_loaded, part. cbn [s_u]. rewrite at2_tab2 by assumption. unfold interior_col in Hi.
    destruct (Nat.leb_spec (s_NF s) j), (Nat.ltb_spec j ((ne + 1) * s_NF s)); try reflexivity. exfalso. apply Hi. lia.
  Qed.

  Lemma loaded_bc ne s s0 : apply_bc (loaded ne s s0) = Ok (loaded ne s s0).
  Proof.
    unfold apply_bc. replace (mapM (apply_bc_row (s_bcl (loaded ne s s0)) (s_bcr (loaded ne s s0)) (s_NF (loaded ne s s0))) (s_u (loaded ne s s0))) with (Ok (s_u (loaded ne s s0))).
    - reflexivity.
    - symmetry. generalize (s_u (loaded ne s s0)). intro m. induction m as [|r m IH]; [reflexivity|]. cbn [mapM]. rewrite IH. reflexivity.
  Qed.

  (** ** directories *)
  Lemma read_In (d : directory) name c : NoDup (map fst d) -> In (name, c) d -> read_file d name = Some c.
  Proof.
    induction d as [|[n c'] d IH]; intros ND HI; [contradiction|]. cbn [map fst] in ND. inversion ND as [|? ? Hn ND']; subst. cbn [read_file].
    destruct HI as [E|HI].
    - injection E as -> ->. destruct (read_file d name) as [c2|] eqn:E; [|rewrite String.eqb_refl; reflexivity]. exfalso. apply Hn. clear - E.
      induction d as [|[n c'] d IH]; cbn in *; [discriminate|]. destruct (read_file d name); [right; apply IH; exact E|].
      destruct (String.eqb_spec n name) as [->|]; [left; reflexivity|discriminate].
    - rewrite (IH ND' HI). reflexivity.
  Qed.
  Lemma nth_error_combine {P Q} (a : list P) (b : list Q) i x y : nth_error a i = Some x -> nth_error b i = Some y -> nth_error (combine a b) i = Some (x, y).
  Proof. revert b i. induction a as [|p a IH]; intros [|q b] [|i]; cbn; intros Ha Hb; try discriminate; [congruence|]. apply IH; assumption. Qed.
  Lemma printed_field (ev : event A) f name : nth_error (format_fnames (ev_nout ev) (s_fields (ev_sol ev))) f = Some name ->
    In (name, field_file (ev_sol ev) f) (printed_files ev).
  Proof.
    intro H. unfold printed_files. apply in_or_app. left. apply (nth_error_In _ f). apply nth_error_combine; [exact H|].
    assert (Hf : f < List.length (s_fields (ev_sol ev))) by (apply nth_error_Some; unfold format_fnames in H; intro E; rewrite nth_error_map, E in H; discriminate).
    rewrite nth_error_map. rewrite (nth_error_nth' _ 0) by (rewrite seq_length; exact Hf). rewrite seq_nth by exact Hf. reflexivity.
  Qed.

  Lemma roundtrip ne s s0 (ev : event A) (before after : directory) : wf ne s -> 2 <= ne -> texts_ok ne s -> bc_name_ok (s_bcl s) -> bc_name_ok (s_bcr s) ->
    s_euler s0 = s_euler s -> ev_sol ev = s -> NoDup (map fst (before ++ printed_files ev ++ after)) ->
    exists s1, loader (before ++ printed_files ev ++ after) (ev_nout ev) s0 = Ok s1 /\ restored ne s s1.
  Proof.
    intros W Hne T Hl Hr Es <- ND. exists (loaded ne (ev_sol ev) s0). split; [|apply loaded_restored; assumption].
    apply loader_spec; try assumption. intros f name Hf. apply read_In; [exact ND|]. apply in_or_app. right. apply in_or_app. left. apply printed_field. exact Hf.
  Qed.
  Lemma reloaded_bc ne s s0 s1 dir step : wf ne s -> 2 <= ne -> texts_ok ne s -> bc_name_ok (s_bcl s) -> bc_name_ok (s_bcr s) -> s_euler s0 = s_euler s ->
    (forall f name, nth_error (format_fnames step (s_fields s)) f = Some name -> read_file dir name = Some (field_file s f)) ->
    loader dir step s0 = Ok s1 ->
    apply_bc s1 = Ok s1 /\ forall n j, n < s_Ns s -> j < (ne + 2) * s_NF s -> ~ interior_col ne (s_NF s) j -> at2 (s_u s1) n j = n0.
  Proof.
    intros W Hne T Hl Hr Es Hd H. rewrite (loader_spec ne s) in H by assumption. apply Ok_inj in H. subst s1. split; [apply loaded_bc|].
    intros. apply loaded_ghosts; assumption.
  Qed.

  Variable gamma : A.
  Lemma Wf_integrate ne d l sol0 rk cfl tf nout fuel evs out : wf ne sol0 -> wf_dg ne sol0 d -> integrate gamma rk d l cfl tf nout fuel sol0 = (evs, out) ->
    Forall (fun ev => Wf ne sol0 (ev_sol ev)) evs /\ (forall s', out = Finished s' -> Wf ne sol0 s').
  Proof.
    intros W D. apply (integrate_inv gamma (Wf ne sol0) (Wf ne sol0) (WfK ne sol0) (fun _ => True) d l).
    - intros; apply Wf_copy; assumption. - intros; apply Wf_copy; assumption. - intros; apply Wf_axpy; assumption. - intros; apply Wf_axpy; assumption.
    - intros; apply Wf_t; assumption. - intros; eapply Wf_lim; eassumption. - intros; eapply Wf_res; eassumption.
    - intros. apply Wf_n, Wf_t. assumption.
    - intros; eapply Wf_bc; eassumption. - intros; eapply Wf_lim; eassumption. - auto. - apply Wf_0; exact W. - apply Wf_0; exact W. - apply WfK_0; exact W.
  Qed.
  (** any snapshot of a run, from the files of the whole run *)
  Lemma run_reload ne rk d l cfl tf nout fuel sol0 evs out ev s0 : wf ne sol0 -> wf_dg ne sol0 d -> 2 <= ne ->
    integrate gamma rk d l cfl tf nout fuel sol0 = (evs, out) -> In ev evs ->
    texts_ok ne (ev_sol ev) -> bc_name_ok (s_bcl sol0) -> bc_name_ok (s_bcr sol0) -> s_euler s0 = s_euler sol0 ->
    exists s1, loader (flat_map printed_files evs) (ev_nout ev) s0 = Ok s1 /\ restored ne (ev_sol ev) s1.
  Proof.
    intros W D Hne H Hin T Hl Hr Es. destruct (integrate_files gamma rk d l cfl tf nout fuel sol0 evs out H) as [ND _].
    assert (WE : wf ne (ev_sol ev) /\ similar sol0 (ev_sol ev)).
    { destruct (Wf_integrate ne d l sol0 rk cfl tf nout fuel evs out W D H) as [G _]. rewrite Forall_forall in G. apply G; exact Hin. }
    destruct WE as [We Se]. exists (loaded ne (ev_sol ev) s0).
    assert (Eb : s_bcl (ev_sol ev) = s_bcl sol0 /\ s_bcr (ev_sol ev) = s_bcr sol0 /\ s_euler (ev_sol ev) = s_euler sol0).
    { destruct Se as [t [n [sn [u [-> _]]]]]. repeat split. }
    destruct Eb as [E1 [E2 E3]]. split.
    - apply loader_spec; try assumption; try congruence. intros f name Hf. apply read_In; [exact ND|]. apply in_flat_map. exists ev. split; [exact Hin|].
      apply printed_field. exact Hf.
    - apply loaded_restored; [exact We|congruence].
  Qed.
End IO.

(** ** over the reals the mesh comes back too *)
Section Mesh.
  Context {X : Ext R}.
  Open Scope R_scope.
  Lemma loaded_mesh ne a b (s s0 : solution R) : (2 <= ne)%nat -> mesh_of ne a b s -> s_x (loaded ne s s0) = s_x s /\ s_dx (loaded ne s s0) = s_dx s.
  Proof.
    intros Hne [Hx [Hc Hd]].
    assert (Lx : List.length (s_x s) = (ne + 1)%nat) by (rewrite Hx; apply length_linspace').
    assert (C : forall i, (i < ne)%nat -> at1 (s_xc s) i = a + (INR i + 1 / 2) * ((b - a) / INR ne)).
    { intros i Hi. rewrite Hc. unfold centroids, at1. change 1%Z with (Z.of_nat 1). change (-1)%Z with (- Z.of_nat 1)%Z.
      rewrite slice_from_nat, slice_to_neg by lia. rewrite (nth_map2 _ _ _ _ n0 n0) by (rewrite ?skipn_length, ?firstn_length; lia).
      rewrite nth_skipn', nth_firstn' by lia.
      change (nth (1 + i) (s_x s) n0) with (at1 (s_x s) (1 + i)). change (nth i (s_x s) n0) with (at1 (s_x s) i).
      rewrite Hx, !at1_linspace by lia. rewrite plus_INR. numR. cbn [INR]. field. apply not_0_INR. lia. }
    assert (E1 : nsub (at1 (s_xc s) 1) (at1 (s_xc s) 0) = (b - a) / INR ne) by (rewrite !C by lia; numR; cbn [INR]; ring).
    unfold loaded, with_loaded. cbn [s_x s_dx]. rewrite E1.
    replace (nsub (at1 (s_xc s) 0) (nmul nhalf ((b - a) / INR ne))) with a.
    2:{ rewrite C by lia. numR. cbn [INR]. lra. }
    replace (nadd (at1 (s_xc s) (ne - 1)) (nmul nhalf ((b - a) / INR ne))) with b.
    2:{ rewrite C by lia. rewrite minus_INR by lia. numR. cbn [INR]. field. apply not_0_INR. lia. }
    split; symmetry; assumption.
  Qed.
  Lemma reload_mesh ne a b (s s0 s1 : solution R) dir step : wf ne s -> (2 <= ne)%nat -> texts_ok ne s -> bc_name_ok (s_bcl s) -> bc_name_ok (s_bcr s) -> s_euler s0 = s_euler s ->
    (forall f name, nth_error (format_fnames step (s_fields s)) f = Some name -> read_file dir name = Some (field_file s f)) ->
    mesh_of ne a b s -> loader dir step s0 = Ok s1 -> s_x s1 = s_x s /\ s_dx s1 = s_dx s.
  Proof.
    intros W Hne T Hl Hr Es Hd M H. rewrite (loader_spec ne s) in H by assumption. apply Ok_inj in H. subst s1. apply (loaded_mesh ne a b); assumption.
  Qed.
End Mesh.

(** ** doubles *)
Lemma double_ok (X : Ext float) : double_text X -> forall x : float, text_ok x.
Proof.
  intros [HF HP] x. unfold text_ok. rewrite HF, HP. destruct (fmt_plain (Prim2SF x)) as [P1 P2]. split; [exact P2|]. split; [exact P1|].
  rewrite fmt_parse by apply Prim2SF_valid. cbn [option_map]. rewrite SF2Prim_Prim2SF. reflexivity.
Qed.
Lemma run_reload_double (N : Num float) (L : Libm float) (X : Ext float) : double_text X ->
  forall (gamma : float) ne rk d l cfl tf nout fuel sol0 evs out ev s0,
  wf ne sol0 -> wf_dg ne sol0 d -> 2 <= ne ->
  integrate gamma rk d l cfl tf nout fuel sol0 = (evs, out) -> In ev evs ->
  bc_name_ok (s_bcl sol0) -> bc_name_ok (s_bcr sol0) -> s_euler s0 = s_euler sol0 ->
  exists s1, loader (flat_map printed_files evs) (ev_nout ev) s0 = Ok s1 /\ restored ne (ev_sol ev) s1.
Proof.
  intros HX gamma ne rk d l cfl tf nout fuel sol0 evs out ev s0 W D Hne H Hin Hl Hr Es.
  apply (run_reload gamma ne rk d l cfl tf nout fuel sol0 evs out ev s0); try assumption.
  split; [|split]; intros; apply (double_ok X HX).
Qed.
Lemma fmt_parse_prim (x : float) : option_map SF2Prim (parse64 (fmt18 (Prim2SF x))) = Some x.
Proof. rewrite fmt_parse by apply Prim2SF_valid. cbn [option_map]. rewrite SF2Prim_Prim2SF. reflexivity. Qed.
Lemma fmt_inj (x y : float) : fmt18 (Prim2SF x) = fmt18 (Prim2SF y) -> x = y.
Proof. intro H. pose proof (fmt_parse_prim x) as E. rewrite H, fmt_parse_prim in E. injection E as E. symmetry. exact E. Qed.
