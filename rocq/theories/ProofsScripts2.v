(** What the plots show, and the comparison with the gold files. *)
From Coq Require Import ZArith List Bool Arith String Ascii Lia Reals Lra Psatz.
From Verif Require Import Num Py PyStr ProofsStr Lib RealLib Constants LegNumpy Ext Basis Sensor Enhance Limiting IC Solution Solver RKCoeffs RK IO Deck Main Scripts
  SpecDG SpecText SpecIO SpecTime SpecPoly SpecScripts
  ProofsText ProofsIO ProofsTime2 ProofsDG ProofsDG2 ProofsCons ProofsWf ProofsSol ProofsIC ProofsMain ProofsPoly ProofsBasis ProofsRun.
Import ListNotations.
Open Scope list_scope.
Open Scope nat_scope.

Section Empty.
  Context {A : Type} {N : Num A} {L : Libm A} {X : Ext A}.
  (** the object the plotting scripts load into *)
  Lemma empty_solution system : exists s0 g, Solution (A := A) "empty" system 0 "" "" [] = Ok (s0, g) /\ s_euler s0 = String.eqb system "euler" /\ s_enh s0 = None.
  Proof. unfold Solution. cbn [split_ws split_ws_aux]. do 2 eexists. split; [reflexivity|]. split; reflexivity. Qed.

  (** columns of the loaded solution *)
  Lemma loaded_col ne s s0 e f : wf ne s -> 1 <= e <= ne -> f < s_NF s -> col (s_u (loaded ne s s0)) (e * s_NF s + f) = modes s e f.
  Proof.
    intros W He Hf. pose proof (wf_u _ _ W) as [U1 U2]. unfold loaded, with_loaded, part, modes. cbn [s_u].
    apply (nth_ext _ _ n0 n0); [rewrite !length_col, U1; apply length_tab|]. intros n Hn. rewrite length_col in Hn.
    change (nth n (col ?m ?j) n0) with (at1 (col m j) n). assert (Hn' : n < s_Ns s) by (unfold tab2 in Hn; rewrite length_tab in Hn; exact Hn).
    rewrite !at1_col by (assumption || lia). rewrite at2_tab2 by (assumption || nia).
    assert (E : (e * s_NF s + f) mod s_NF s = f) by (rewrite Nat.add_comm, Nat.mod_add by lia; apply Nat.mod_small; exact Hf).
    rewrite E, (proj2 (Nat.leb_le (s_NF s) _)), (proj2 (Nat.ltb_lt (e * s_NF s + f) _)), (proj2 (Nat.ltb_lt f _)) by nia. reflexivity.
  Qed.
  Lemma loaded_shape ne s s0 : wf ne s -> shape (s_Ns s) ((ne + 2) * s_NF s) (s_u (loaded ne s s0)).
  Proof. intros W. unfold loaded, with_loaded, part. cbn [s_u]. apply shape_tab2. Qed.

  Lemma row_map (F : vec A -> vec A) m g : g < List.length m -> row (map F m) g = F (row m g).
  Proof. intros H. unfold row. rewrite (nth_indep (map F m) [] (F [])) by (rewrite map_length; exact H). apply map_nth. Qed.

  (** one entry of the primitive rows *)
  Lemma prim_at (r : vec A) e f : e * 3 + f < List.length r -> f < 3 ->
    at1 (prim_row 3 r) (e * 3 + f) = let rho := at1 r (e * 3 + 0) in let u := ndiv (at1 r (e * 3 + 1)) rho in
      match f with 0 => rho | 1 => u | _ => nmul (nsub plot_gamma n1) (nsub (at1 r (e * 3 + 2)) (nmul (nmul (nmul nhalf rho) u) u)) end.
  Proof.
    intros H Hf. unfold prim_row. rewrite at1_tab by exact H.
    replace ((e * 3 + f) / 3) with e by (rewrite Nat.add_comm, Nat.div_add, Nat.div_small by lia; reflexivity).
    replace ((e * 3 + f) mod 3) with f by (rewrite Nat.add_comm, Nat.mod_add, Nat.mod_small by lia; reflexivity). rewrite Nat.add_0_r. reflexivity.
  Qed.
End Empty.

Section Plot.
  Context {X : Ext R}.
  Open Scope R_scope.

  (** a row of values, conserved or primitive *)
  Lemma shown_row (s : solution R) ne (m : mat R) (u1 : mat R) g x system e f : wf ne s -> String.eqb system "euler" = s_euler s ->
    shape (s_Ns s) ((ne + 2) * s_NF s) u1 -> (forall e f, (1 <= e <= ne)%nat -> (f < s_NF s)%nat -> col u1 (e * s_NF s + f) = modes s e f) -> (g < List.length m)%nat ->
    (forall c, List.length c = s_Ns s -> vdot (row m g) c = legseries c x) -> (1 <= e <= ne)%nat -> (f < s_NF s)%nat ->
    at1 (row (if String.eqb system "euler" then map (prim_row (s_NF s)) (dot m u1) else dot m u1) g) (e * s_NF s + f) = shown (14 / 10) s e f x.
  Proof.
    intros W Es Sh Hc Hg Hx He Hf. pose proof (Ns_pos s) as HN. destruct Sh as [Sh1 Sh2].
    assert (Hnc : ncols u1 = ((ne + 2) * s_NF s)%nat) by (apply (shape_ncols (s_Ns s)); [split; assumption|lia]).
    assert (V : forall k, (k < s_NF s)%nat -> at2 (dot m u1) g (e * s_NF s + k) = value_at s e k x).
    { intros k Hk. rewrite (at2_dot ((ne + 2) * s_NF s)) by (assumption || nia). rewrite Hc by assumption. apply Hx. unfold modes. rewrite length_col. apply (wf_u _ _ W). }
    assert (LD : List.length (dot m u1) = List.length m) by (unfold dot; apply map_length).
    assert (LR : List.length (row (dot m u1) g) = ((ne + 2) * s_NF s)%nat).
    { unfold row, dot. rewrite (nth_indep _ [] (rowcomb (ncols u1) [] u1)) by (rewrite map_length; exact Hg). rewrite (map_nth (fun v => rowcomb (ncols u1) v u1)).
      rewrite Hnc. apply length_rowcomb. exact Sh2. }
    rewrite Es. unfold shown. destruct (s_euler s) eqn:E; [|apply V; exact Hf].
    assert (NF : s_NF s = 3%nat) by (unfold s_NF; rewrite E; reflexivity). rewrite NF in *.
    rewrite (row_map _ (dot m u1) g) by (eapply Nat.lt_le_trans; [exact Hg|apply Nat.eq_le_incl; symmetry; exact LD]).
    rewrite prim_at by (rewrite ?LR; lia). unfold at2 in V. rewrite !V by lia. cbv zeta.
    destruct f as [|[|f]]; [reflexivity|reflexivity|]. unfold plot_gamma. numR. change (IZR 14) with 14. lra.
  Qed.

  Lemma shown_column (s : solution R) ne (m : mat R) (u1 : mat R) xs system e f : wf ne s -> String.eqb system "euler" = s_euler s ->
    shape (s_Ns s) ((ne + 2) * s_NF s) u1 -> (forall e f, (1 <= e <= ne)%nat -> (f < s_NF s)%nat -> col u1 (e * s_NF s + f) = modes s e f) -> List.length m = List.length xs ->
    (forall g c, (g < List.length xs)%nat -> List.length c = s_Ns s -> vdot (row m g) c = legseries c (at1 xs g)) -> (1 <= e <= ne)%nat -> (f < s_NF s)%nat ->
    map (fun r => at1 r (e * s_NF s + f)) (if String.eqb system "euler" then map (prim_row (s_NF s)) (dot m u1) else dot m u1) = map (shown (14 / 10) s e f) xs.
  Proof.
    intros W Es Sh Hc Lm Hx He Hf.
    assert (LL : List.length (if String.eqb system "euler" then map (prim_row (s_NF s)) (dot m u1) else dot m u1) = List.length xs).
    { destruct (String.eqb system "euler"); rewrite ?map_length; unfold dot; rewrite map_length; exact Lm. }
    apply (nth_ext _ _ (at1 [] (e * s_NF s + f)) (shown (14 / 10) s e f 0)); [rewrite !map_length; exact LL|]. intros g Hg. rewrite map_length in Hg.
    rewrite (map_nth (fun r => at1 r (e * s_NF s + f))), (map_nth (shown (14 / 10) s e f)).
    assert (Hg' : (g < List.length xs)%nat) by (eapply Nat.lt_le_trans; [exact Hg|apply Nat.eq_le_incl; exact LL]).
    apply (shown_row s ne m u1 g (nth g xs 0) system e f); try assumption; [eapply Nat.lt_le_trans; [exact Hg'|apply Nat.eq_le_incl; symmetry; exact Lm]|].
    intros c Lc. apply (Hx g c Hg' Lc).
  Qed.
  Lemma combine_maps {T U V} (F : T -> U) (G : T -> V) l : combine (map F l) (map G l) = map (fun x => (F x, G x)) l.
  Proof. induction l as [|x l IH]; [reflexivity|]. cbn [map combine]. rewrite IH. reflexivity. Qed.
  Lemma b_x_Basis p : b_x (Basis (A := R) p) = fst (leggauss (p + 1)).
  Proof. unfold Basis. destruct (leggauss (p + 1)). reflexivity. Qed.

  Lemma plot_file ne a b (s : solution R) dir step system : wf ne s -> (2 <= ne)%nat -> texts_ok ne s -> bc_name_ok (s_bcl s) -> bc_name_ok (s_bcr s) ->
    String.eqb system "euler" = s_euler s -> mesh_of ne a b s ->
    (forall f name, nth_error (format_fnames step (s_fields s)) f = Some name -> read_file dir name = Some (field_file s f)) ->
    plot_points dir step system = Ok (tab (s_NF s) (fun f => tab ne (fun i =>
      (map (fun x => (a + (INR i + (x + 1) / 2) * ((b - a) / INR ne), shown (14 / 10) s (i + 1) f x)) (fst (leggauss (b_p (s_basis s) + 1))),
       [(a + INR i * ((b - a) / INR ne), shown (14 / 10) s (i + 1) f (-1)); (a + INR (i + 1) * ((b - a) / INR ne), shown (14 / 10) s (i + 1) f 1)])))).
  Proof.
    intros W Hne T Hl Hr Es M Hd. destruct (empty_solution (A := R) system) as [s0 [g [E0 [E1 E2]]]].
    assert (Ld : loader dir step s0 = Ok (loaded ne s s0)) by (apply loader_spec; try assumption; congruence).
    unfold plot_points. rewrite E0. cbn [rbind fst]. rewrite Ld. cbn [rbind].
    unfold evaluate_faces. replace (s_enh (loaded ne s s0)) with (@None (enhance R)) by (symmetry; exact E2). cbn [rbind].
    destruct (loaded_mesh ne a b s s0 Hne M) as [Mx _]. destruct M as [Hx _].
    assert (NFe : s_NF (loaded ne s s0) = s_NF s) by (unfold s_NF, loaded, with_loaded; cbn [s_euler]; rewrite E1, Es; reflexivity).
    assert (NEe : s_NE (loaded ne s s0) = Z.of_nat ne) by reflexivity.
    assert (Be : s_basis (loaded ne s s0) = Basis (b_p (s_basis s))) by reflexivity.
    rewrite NFe, NEe, Nat2Z.id. f_equal. apply tab_ext. intros f Hf. apply tab_ext. intros i Hi. unfold element_points, collocate. rewrite NFe, Be, Mx, Hx.
    replace (i + 1 - 1)%nat with i by lia. rewrite !at1_linspace by lia. replace (ne + 1 - 1)%nat with ne by lia.
    set (p := b_p (s_basis s)).
    assert (HNs : s_Ns s = (p + 1)%nat) by reflexivity.
    assert (Lphi : List.length (b_phi (Basis (A := R) p)) = List.length (b_x (Basis (A := R) p))) by (unfold Basis; destruct (leggauss (p + 1)); apply length_tab).
    assert (Hi1 : (1 <= i + 1 <= ne)%nat) by lia. assert (Nz : INR ne <> 0) by (apply not_0_INR; lia).
    assert (Ph : forall e f, (1 <= e <= ne)%nat -> (f < s_NF s)%nat -> col (s_u (loaded ne s s0)) (e * s_NF s + f) = modes s e f) by (intros; apply loaded_col; assumption).
    f_equal.
    - rewrite (shown_column s ne _ _ (b_x (Basis p))); try assumption; [|apply loaded_shape; exact W|].
      + rewrite b_x_Basis, combine_maps. apply map_ext. intros x. f_equal. rewrite plus_INR. numR. cbn [INR]. field. exact Nz.
      + intros g' c Hg' Lc. apply phi_row; [exact Hg'|rewrite <- HNs; exact Lc].
    - rewrite (shown_column s ne _ _ [-1; 1]); try assumption; [reflexivity|apply loaded_shape; exact W| |].
      + unfold Basis. destruct (leggauss (p + 1)). reflexivity.
      + intros g' c Hg' Lc. destruct g' as [|[|g']]; [apply psi_left; rewrite <- HNs; exact Lc|apply psi_right; rewrite <- HNs; exact Lc|cbn [List.length] in Hg'; lia].
  Qed.

  Variable gamma : R.
  Lemma plot_run ne a b rk d l cfl tf nout fuel (sol0 : solution R) evs out ev system : wf ne sol0 -> wf_dg ne sol0 d -> (2 <= ne)%nat ->
    integrate gamma rk d l cfl tf nout fuel sol0 = (evs, out) -> In ev evs ->
    texts_ok ne (ev_sol ev) -> bc_name_ok (s_bcl sol0) -> bc_name_ok (s_bcr sol0) -> String.eqb system "euler" = s_euler sol0 -> mesh_of ne a b sol0 ->
    plot_points (flat_map printed_files evs) (ev_nout ev) system = Ok (tab (s_NF sol0) (fun f => tab ne (fun i =>
      (map (fun x => (a + (INR i + (x + 1) / 2) * ((b - a) / INR ne), shown (14 / 10) (ev_sol ev) (i + 1) f x)) (fst (leggauss (b_p (s_basis sol0) + 1))),
       [(a + INR i * ((b - a) / INR ne), shown (14 / 10) (ev_sol ev) (i + 1) f (-1)); (a + INR (i + 1) * ((b - a) / INR ne), shown (14 / 10) (ev_sol ev) (i + 1) f 1)])))).
  Proof.
    intros W D Hne H Hin T Hl Hr Es M. destruct (integrate_files gamma rk d l cfl tf nout fuel sol0 evs out H) as [ND _].
    assert (WE : wf ne (ev_sol ev) /\ similar sol0 (ev_sol ev)).
    { destruct (Wf_integrate gamma ne d l sol0 rk cfl tf nout fuel evs out W D H) as [G _]. rewrite Forall_forall in G. apply G; exact Hin. }
    destruct WE as [We Se].
    assert (Eb : s_bcl (ev_sol ev) = s_bcl sol0 /\ s_bcr (ev_sol ev) = s_bcr sol0 /\ s_euler (ev_sol ev) = s_euler sol0 /\ mesh_of ne a b (ev_sol ev) /\
      s_NF (ev_sol ev) = s_NF sol0 /\ s_basis (ev_sol ev) = s_basis sol0).
    { destruct Se as [t [n [sn [u [-> _]]]]]. repeat split; apply M. }
    destruct Eb as [E1 [E2 [E3 [E4 [E5 E6]]]]]. rewrite (plot_file ne a b (ev_sol ev)); try assumption; [rewrite E5, E6; reflexivity|congruence|congruence|congruence|].
    intros f name Hf. apply read_In; [exact ND|]. apply in_flat_map. exists ev. split; [exact Hin|]. apply printed_field. exact Hf.
  Qed.
End Plot.

(** * names that are not there *)
Section Missing.
  Context {A : Type} {N : Num A} {L : Libm A} {X : Ext A}.
  Lemma read_None (d : directory) name : ~ In name (map fst d) -> read_file d name = None.
  Proof.
    induction d as [|[n c] d IH]; intro H; [reflexivity|]. cbn [map fst In] in H. cbn [read_file]. rewrite IH by tauto.
    destruct (String.eqb_spec n name); [exfalso; tauto|reflexivity].
  Qed.
  Variable gamma : A.
  (** a snapshot that was not written, or another system's field names *)
  Lemma plot_absent rk d l cfl tf nout fuel (sol0 : solution A) evs out step system ne : wf ne sol0 -> wf_dg ne sol0 d ->
    integrate gamma rk d l cfl tf nout fuel sol0 = (evs, out) -> (List.length evs <= step)%nat \/ String.eqb system "euler" <> s_euler sol0 ->
    plot_points (flat_map printed_files evs) step system = Raise FileNotFound.
  Proof.
    intros W D H Hs. destruct (integrate_files gamma rk d l cfl tf nout fuel sol0 evs out H) as [_ HN].
    destruct (empty_solution (A := A) system) as [s0 [g [E0 [E1 E2]]]]. unfold plot_points. rewrite E0. cbn [rbind fst].
    assert (K : read_file (flat_map printed_files evs) (hd EmptyString (format_fnames step (s_fields s0))) = None).
    { apply read_None. intro Hin. apply in_map_iff in Hin. destruct Hin as [[nm c] [Hp Hin]]. cbn [fst] in Hp. apply in_flat_map in Hin. destruct Hin as [ev [Hev Hin]].
      assert (Hn : In nm (event_names ev)) by (apply (in_map fst) in Hin; exact Hin). rewrite event_names_eq in Hn. unfold format_fnames in Hn. apply in_map_iff in Hn.
      destruct Hn as [f [Ef Hf]].
      destruct (Wf_integrate gamma ne d l sol0 rk cfl tf nout fuel evs out W D H) as [G _]. rewrite Forall_forall in G. destruct (G ev Hev) as [_ Se].
      assert (Ee : s_euler (ev_sol ev) = s_euler sol0) by (destruct Se as [t [n [sn [u [-> _]]]]]; reflexivity).
      assert (Hd : hd EmptyString (format_fnames step (s_fields s0)) = format_fname step (if s_euler s0 then "rho" else "u")) by (unfold s_fields; destruct (s_euler s0); reflexivity).
      rewrite Hd in Hp. rewrite Hp in Ef. apply format_fname_inj in Ef; [|eapply fields_digit_free; exact Hf|destruct (s_euler s0); reflexivity].
      destruct Ef as [En Ef]. destruct Hs as [Hs|Hs].
      - apply In_nth_error in Hev. destruct Hev as [i Hi]. pose proof (HN i ev Hi) as Hi2. assert (i < List.length evs)%nat by (apply nth_error_Some; congruence). lia.
      - subst f. rewrite E1 in Hf. unfold s_fields in Hf. rewrite Ee in Hf.
        destruct (s_euler sol0), (String.eqb system "euler"); try congruence; destruct (s_sens (ev_sol ev)); cbn [app In] in Hf; repeat destruct Hf as [Hf|Hf]; (discriminate || contradiction). }
    unfold loader. rewrite K. reflexivity.
  Qed.

  (** the sensors *)
  Definition sensor_text (x : A) (k : nat) : string := (fmt_e18 x ++ String "," (" " ++ show_nat k))%string.
  Lemma sensor_line x k : text_ok x -> parse_float (" " ++ show_nat k)%string = Some (nofZ (Z.of_nat k)) ->
    one_line (sensor_text x k) = true /\ rstrip (strip_comment (sensor_text x k ++ nl)) = sensor_text x k /\ sensor_text x k <> EmptyString /\
    parse_row (sensor_text x k) = Ok [x; nofZ (Z.of_nat k)].
  Proof.
    intros [T1 [T2 T3]] HP. unfold sensor_text. split; [|split; [|split]].
    - unfold one_line. rewrite all_app. cbn [all_chars append]. change (all_chars (fun c => negb (Ascii.eqb c newline))) with one_line.
      rewrite (plain_one_line _ T2), (plain_one_line _ (show_plain k)). reflexivity.
    - unfold strip_comment. rewrite split_word.
      + cbn [hd]. rewrite rstrip_nl. replace (fmt_e18 x ++ String "," (" " ++ show_nat k))%string with ((fmt_e18 x ++ ", ") ++ show_nat k)%string by (rewrite sapp_assoc; reflexivity).
        apply rstrip_app; [apply show_nonempty|]. apply (all_impl _ _ _) with (2 := show_plain k). intros c Hc. unfold plain_char in Hc. unfold no_space.
        destruct (is_space c); [rewrite !orb_true_r in Hc; discriminate|reflexivity].
      + rewrite !all_app. cbn [all_chars append].
        assert (P : forall w, plain w = true -> all_chars (fun c => negb (is_char "#"%char c)) w = true).
        { intros w Hw. apply (all_impl _ _ _) with (2 := Hw). intros c Hc. unfold is_char. rewrite (plain_no "#"%char c eq_refl Hc). reflexivity. }
        rewrite (P _ T2), (P _ (show_plain k)). reflexivity.
    - destruct (fmt_e18 x); discriminate.
    - unfold parse_row. rewrite split_sep by (try reflexivity; apply plain_comma; exact T2). rewrite split_word.
      + cbn [mapM]. rewrite T3, HP. reflexivity.
      + cbn [all_chars append]. rewrite (plain_comma _ (show_plain k)). reflexivity.
  Qed.
  Lemma sensor_load ne (s : solution A) (sens : list Z) : texts_ok ne s -> wf ne s -> bc_name_ok (s_bcl s) -> bc_name_ok (s_bcr s) ->
    (forall k, parse_float (" " ++ show_nat k)%string = Some (nofZ (Z.of_nat k))) ->
    loadtxt (sensor_file s sens) = Ok (tab ne (fun e => [at1 (s_xc s) e; nofZ (Z.of_nat (Z.to_nat (nth e (slice sens 1 (-1)) 0%Z)))])).
  Proof.
    intros T W Hl Hr HP. unfold sensor_file. rewrite (wf_xc _ _ W). set (k := fun e => Z.to_nat (nth e (slice sens 1 (-1)) 0%Z)).
    assert (E : (header_line1 s ++ header_line2 (s_Ns s) ++ String.concat "" (tab ne (fun e => fmt_e18 (at1 (s_xc s) e) ++ ", " ++ show_nat (k e) ++ nl)))%string =
      String.concat "" (map (fun l => l ++ nl)%string (head1 s :: head2 (s_Ns s) :: tab ne (fun e => sensor_text (at1 (s_xc s) e) (k e))))).
    { cbn [map]. rewrite !concat_nil_cons. unfold header_line1, header_line2, head1, head2. rewrite !sapp_assoc. do 10 f_equal. rewrite map_tab. do 3 f_equal. apply tab_ext.
      intros e He. unfold sensor_text. rewrite sapp_assoc. reflexivity. }
    unfold k in E at 1. cbv beta in E. rewrite E. clear E. unfold loadtxt. rewrite lines_concat.
    - cbn [map]. replace (rstrip (strip_comment (head1 s ++ nl))) with ""%string by reflexivity.
      replace (rstrip (strip_comment (head2 (s_Ns s) ++ nl))) with ""%string by reflexivity.
      cbn [filter]. rewrite String.eqb_refl. cbn [negb]. unfold tab. rewrite !map_map.
      assert (G : forall l, (forall e, In e l -> e < ne) -> mapM parse_row (filter (fun l => negb (String.eqb l EmptyString))
        (map (fun e => rstrip (strip_comment (sensor_text (at1 (s_xc s) e) (k e) ++ nl))) l)) = Ok (map (fun e => [at1 (s_xc s) e; nofZ (Z.of_nat (k e))]) l)).
      { induction l as [|e l IH]; intro Hl'; [reflexivity|]. destruct (sensor_line (at1 (s_xc s) e) (k e)) as [_ [S1 [S2 S3]]]; [apply T; apply Hl'; left; reflexivity|apply HP|].
        cbn [map]. rewrite S1. cbn [filter]. destruct (String.eqb_spec (sensor_text (at1 (s_xc s) e) (k e)) ""); [contradiction|]. cbn [negb mapM]. rewrite S3. cbn [rbind].
        rewrite IH by (intros e' He'; apply Hl'; right; exact He'). reflexivity. }
      apply G. intros e He. apply in_seq in He. lia.
    - cbn [forallb]. rewrite head1_one_line, head2_one_line by (assumption || apply T). cbn [andb]. apply forallb_forall. intros w Hw. unfold tab in Hw. apply in_map_iff in Hw.
      destruct Hw as [e [<- He]]. apply in_seq in He. apply sensor_line; [apply T; lia|apply HP].
  Qed.
  Lemma plot_sensors_run ne rk d l cfl tf nout fuel (sol0 : solution A) evs out ev sn : wf ne sol0 -> wf_dg ne sol0 d ->
    integrate gamma rk d l cfl tf nout fuel sol0 = (evs, out) -> In ev evs -> s_sens (ev_sol ev) = Some sn ->
    texts_ok ne (ev_sol ev) -> bc_name_ok (s_bcl sol0) -> bc_name_ok (s_bcr sol0) ->
    (forall k, parse_float (" " ++ show_nat k)%string = Some (nofZ (Z.of_nat k))) ->
    plot_sensors (flat_map printed_files evs) (ev_nout ev) =
      Ok (tab ne (fun e => (at1 (s_xc sol0) e, nofZ (Z.of_nat (Z.to_nat (nth (e + 1) (sn_sensors sn) 0%Z)))))).
  Proof.
    intros W D H Hin Hsn T Hl Hr HP. destruct (integrate_files gamma rk d l cfl tf nout fuel sol0 evs out H) as [ND HN].
    destruct (Wf_integrate gamma ne d l sol0 rk cfl tf nout fuel evs out W D H) as [G _]. rewrite Forall_forall in G.
    destruct (G ev Hin) as [We Se]. pose proof (wf_sens _ _ We) as Ws. rewrite Hsn in Ws.
    assert (RS : forall e' sn', In e' evs -> s_sens (ev_sol e') = Some sn' -> read_file (flat_map printed_files evs) (format_fname (ev_nout e') "sensor") = Some (sensor_file (ev_sol e') (sn_sensors sn'))).
    { intros e' sn' He' Hs'. apply read_In; [exact ND|]. apply in_flat_map. exists e'. split; [exact He'|]. unfold printed_files. rewrite Hs'. apply in_or_app. right. left. reflexivity. }
    assert (Q0 : exists c, read_file (flat_map printed_files evs) (format_fname 0 "sensor") = Some c).
    { destruct evs as [|e0 evs]; [contradiction|]. destruct (G e0 (or_introl eq_refl)) as [_ Se0]. pose proof (HN 0 e0 eq_refl) as N0.
      destruct (s_sens (ev_sol e0)) as [sn0|] eqn:E0; [eexists; rewrite <- N0; apply (RS e0 sn0); [left; reflexivity|exact E0]|]. exfalso.
      destruct Se as [t [n [x [u [E X1]]]]]. rewrite E in Hsn. cbn in Hsn. subst x. destruct Se0 as [t0 [n0' [x0 [u0 [E' X0]]]]]. rewrite E' in E0. cbn in E0. subst x0.
      destruct (s_sens sol0); contradiction. }
    destruct Q0 as [c0 Q0]. unfold plot_sensors. rewrite Q0. unfold read. rewrite (RS ev sn Hin Hsn). cbn [rbind].
    assert (Eb : s_bcl (ev_sol ev) = s_bcl sol0 /\ s_bcr (ev_sol ev) = s_bcr sol0 /\ s_xc (ev_sol ev) = s_xc sol0).
    { destruct Se as [t [n [x [u [-> _]]]]]. repeat split. }
    destruct Eb as [E1 [E2 E3]]. rewrite (sensor_load ne) by (try assumption; congruence). cbn [rbind]. rewrite E3.
    assert (K : forall i, i < ne -> nth i (slice (sn_sensors sn) 1 (-1)) 0%Z = nth (i + 1) (sn_sensors sn) 0%Z).
    { intros i Hi. change 1%Z with (Z.of_nat 1). change (-1)%Z with (- Z.of_nat 1)%Z. rewrite slice_nat_neg by lia. rewrite nth_firstn' by lia. rewrite nth_skipn'. f_equal. lia. }
    apply mapM_id; [rewrite !length_tab; reflexivity|]. intros i dy dz Hi. rewrite length_tab in Hi. rewrite !nth_tab by exact Hi. rewrite K by exact Hi. reflexivity.
  Qed.
  (** without thresholds there is nothing to draw *)
  Lemma plot_no_sensors ne rk d l cfl tf nout fuel (sol0 : solution A) evs out step : wf ne sol0 -> wf_dg ne sol0 d ->
    integrate gamma rk d l cfl tf nout fuel sol0 = (evs, out) -> s_sens sol0 = None -> plot_sensors (flat_map printed_files evs) step = Ok [].
  Proof.
    intros W D H Hs. unfold plot_sensors. rewrite read_None; [reflexivity|]. intro Hin. apply in_map_iff in Hin. destruct Hin as [[nm c] [Hp Hin]]. cbn [fst] in Hp.
    apply in_flat_map in Hin. destruct Hin as [ev [Hev Hin]].
    assert (Hn : In nm (event_names ev)) by (apply (in_map fst) in Hin; exact Hin). rewrite event_names_eq in Hn. unfold format_fnames in Hn. apply in_map_iff in Hn.
    destruct Hn as [f [Ef Hf]].
    destruct (Wf_integrate gamma ne d l sol0 rk cfl tf nout fuel evs out W D H) as [G _]. rewrite Forall_forall in G. destruct (G ev Hev) as [_ Se].
    rewrite Hp in Ef. apply format_fname_inj in Ef; [|eapply fields_digit_free; exact Hf|reflexivity]. destruct Ef as [_ ->].
    destruct Se as [t [n [x [u [E X1]]]]]. rewrite Hs in X1. destruct x; [contradiction|]. rewrite E in Hf. cbn in Hf. unfold s_fields in Hf. cbn in Hf.
    destruct (s_euler sol0); cbn [app In] in Hf; repeat destruct Hf as [Hf|Hf]; (discriminate || contradiction).
  Qed.
End Missing.

(** * the regression plots *)
Section Regression.
  Context {A : Type} {N : Num A} {L : Libm A} {X : Ext A}.
  (** density, velocity and pressure of the averages of cell e, at the gamma of the scripts *)
  Definition mean_primitives (s : solution A) (e : nat) : A * A * A :=
    let rho := at2 (s_u s) 0 (e * 3) in
    let u := ndiv (at2 (s_u s) 0 (e * 3 + 1)) rho in
    (rho, u, nmul (nsub plot_gamma n1) (nsub (at2 (s_u s) 0 (e * 3 + 2)) (nmul (nmul (nmul nhalf rho) u) u))).
  Lemma regression_file ne (s : solution A) dir step : wf ne s -> 2 <= ne -> texts_ok ne s -> bc_name_ok (s_bcl s) -> bc_name_ok (s_bcr s) -> s_euler s = true ->
    (forall f name, nth_error (format_fnames step (s_fields s)) f = Some name -> read_file dir name = Some (field_file s f)) ->
    regression_points dir step = Ok (tab ne (fun i => (at1 (s_xc s) i, mean_primitives s (i + 1)))).
  Proof.
    intros W Hne T Hl Hr Es Hd. destruct (empty_solution (A := A) "euler") as [s0 [g [E0 [E1 E2]]]]. cbn in E1.
    assert (NF : s_NF s = 3) by (unfold s_NF; rewrite Es; reflexivity).
    unfold regression_points. rewrite E0. cbn [rbind fst]. rewrite (loader_spec ne s) by (try assumption; congruence). cbn [rbind].
    assert (NFe : s_NF (loaded ne s s0) = 3) by (unfold s_NF, loaded, with_loaded; cbn [s_euler]; rewrite E1; reflexivity). rewrite NFe.
    pose proof (loaded_shape ne s s0 W) as Sh. rewrite NF in Sh. pose proof (Ns_pos s) as HNs.
    assert (LR : List.length (row (s_u (loaded ne s s0)) 0) = (ne + 2) * 3) by (apply (shape_row (s_Ns s) _ _ 0 Sh); exact HNs).
    change (- Z.of_nat 3)%Z with (- Z.of_nat 3)%Z. set (sol := slice _ _ _).
    assert (Esol : sol = firstn (ne * 3) (skipn 3 (row (s_u (loaded ne s s0)) 0))).
    { unfold sol. rewrite slice_nat_neg by lia. f_equal. rewrite LR, Nat.min_r by lia. lia. }
    assert (Lsol : List.length sol = ne * 3) by (rewrite Esol, firstn_length, skipn_length; lia).
    assert (Ls : forall k, k < 3 -> List.length (stride sol k 3) = ne).
    { intros k Hk. unfold stride. rewrite every_aux_len by lia. rewrite Lsol. symmetry. apply (Nat.div_unique _ 3 ne (2 - k)); lia. }
    assert (Vs : forall k i, k < 3 -> i < ne -> nth i (stride sol k 3) n0 = at2 (s_u s) 0 ((i + 1) * 3 + k)).
    { intros k i Hk Hi. unfold stride. rewrite nth_every by lia. rewrite Esol, nth_firstn' by lia. rewrite nth_skipn'.
      pose proof (loaded_restored ne s s0 W ltac:(congruence)) as [_ [_ [_ [_ [_ [_ [_ [_ [_ RU]]]]]]]]]. rewrite <- RU; [|exact HNs|unfold interior_col; rewrite NF; lia].
      unfold at2, at1. f_equal. lia. }
    assert (Lx : List.length (s_xc (loaded ne s s0)) = ne) by exact (wf_xc _ _ W).
    apply f_equal. apply (nth_ext _ _ (n0, (n0, n0, n0)) (n0, (n0, n0, n0))).
    - rewrite !combine_length, !length_map2, combine_length, !length_map2, !Ls, length_tab, Lx by lia. lia.
    - intros i Hi.
      assert (Hi' : i < ne) by (rewrite combine_length, Lx in Hi; lia).
      rewrite nth_tab by exact Hi'.
      rewrite !combine_nth by (rewrite ?combine_length, ?length_map2, ?combine_length, ?length_map2, ?Ls, ?Lx by lia; lia).
      rewrite (nth_map2 _ _ _ _ n0 n0) by (rewrite ?Ls by lia; exact Hi').
      rewrite (nth_map2 _ _ _ _ n0 (n0, n0)) by (rewrite ?combine_length, ?length_map2, ?Ls by lia; lia).
      rewrite combine_nth by (rewrite length_map2, !Ls by lia; lia). cbn [fst snd]. rewrite (nth_map2 _ _ _ _ n0 n0) by (rewrite ?Ls by lia; exact Hi').
      rewrite !Vs by lia. unfold mean_primitives. rewrite Nat.add_0_r. reflexivity.
  Qed.
End Regression.
