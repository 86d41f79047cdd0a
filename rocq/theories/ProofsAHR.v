(** Sensors and the solution-level limiter (C36, C40-C43, C52). *)
From Coq Require Import ZArith List Bool Arith String Lia Reals Lra.
From Verif Require Import Num Py Lib LegNumpy Ext Basis Sensor Enhance Limiting AdvectionPhysics EulerPhysics
  Solution Solver SpecDG ProofsDG ProofsDG2 ProofsWf ProofsTime ProofsCons SpecLimit.
Import ListNotations.
Open Scope list_scope.
Open Scope nat_scope.

Section Sens.
  Context {A : Type} {N : Num A} {L : Libm A}.
  Variable gamma : A.
  Implicit Types s : solution A.

  Lemma nth_mask n (P : nat -> bool) e : nth e (tab n P) false = ((e <? n) && P e)%bool.
  Proof.
    destruct (Nat.ltb_spec e n); [rewrite nth_tab by assumption; reflexivity|].
    rewrite nth_overflow by (rewrite length_tab; assumption). reflexivity.
  Qed.
  Lemma mark_tab ne v (P : nat -> bool) (x : list Z) : List.length x = ne + 2 ->
    mark v (tab (ne + 1) P) x = Ok (tab (ne + 2) (fun e => if near ne P e then v else nth e x 0%Z)).
  Proof.
    intro Lx. unfold mark. rewrite length_tab.
    replace (existsb _ (seq 0 (ne + 1))) with false.
    2:{ symmetry. apply not_true_is_false. intro H. apply existsb_exists in H. destruct H as [i [Hi H]]. apply in_seq in Hi.
        apply andb_true_iff in H. destruct H as [_ H]. apply Nat.leb_le in H. lia. }
    f_equal. rewrite Lx. apply tab_ext. intros e He. rewrite nth_mask. unfold near.
    destruct e as [|e].
    - cbn [Nat.leb andb orb]. rewrite orb_false_r. destruct (Nat.ltb_spec 0 (ne + 1)); [reflexivity|lia].
    - rewrite nth_mask. replace (S e - 1) with e by lia. cbn [Nat.leb andb]. destruct (Nat.ltb_spec e (ne + 1)); [|lia].
      replace (S e <? ne + 1) with (S e <=? ne) by (destruct (Nat.ltb_spec (S e) (ne + 1)), (Nat.leb_spec (S e) ne); (reflexivity || lia)).
      cbn [andb]. rewrite orb_comm. reflexivity.
  Qed.

  Lemma row0_at ne s e f : wf ne s -> e < ne + 2 -> f < s_NF s -> at1 (row (s_u s) 0) (e * s_NF s + f) = cell_mean s e f.
  Proof. intros W He Hf. unfold cell_mean. rewrite (modes_at ne s) by (try assumption; apply Ns_pos). reflexivity. Qed.
  Lemma row0_len ne s : wf ne s -> List.length (row (s_u s) 0) = (ne + 2) * s_NF s.
  Proof. intro W. apply (shape_row _ _ _ _ (wf_u _ _ W)). apply Ns_pos. Qed.

  Lemma euler_left ne s : wf ne s -> s_euler s = true -> split3 (slice_to (row (s_u s) 0) (- Z.of_nat (s_NF s))) = tab (ne + 1) (fun e => state3 s e).
  Proof.
    intros W Eu. assert (NF3 : s_NF s = 3) by (unfold s_NF; rewrite Eu; reflexivity). rewrite NF3.
    pose proof (row0_len ne s W) as Ln. rewrite NF3 in Ln. rewrite slice_to_neg by lia.
    rewrite (cell3_split (ne + 1)) by (rewrite firstn_length; lia). apply tab_ext. intros e He.
    unfold triple, cellv, state3. rewrite !at1_tab by lia. unfold at1. rewrite !nth_firstn' by lia. rewrite <- NF3.
    fold (at1 (row (s_u s) 0) (e * s_NF s + 0)) (at1 (row (s_u s) 0) (e * s_NF s + 1)) (at1 (row (s_u s) 0) (e * s_NF s + 2)).
    rewrite !(row0_at ne s) by (try assumption; lia). reflexivity.
  Qed.
  Lemma euler_right ne s : wf ne s -> s_euler s = true -> split3 (slice_from (row (s_u s) 0) (Z.of_nat (s_NF s))) = tab (ne + 1) (fun e => state3 s (e + 1)).
  Proof.
    intros W Eu. assert (NF3 : s_NF s = 3) by (unfold s_NF; rewrite Eu; reflexivity). rewrite NF3.
    pose proof (row0_len ne s W) as Ln. rewrite NF3 in Ln. rewrite slice_from_nat.
    rewrite (cell3_split (ne + 1)) by (rewrite skipn_length; lia). apply tab_ext. intros e He.
    unfold triple, cellv, state3. rewrite !at1_tab by lia. unfold at1. rewrite !nth_skipn'.
    replace (3 + (e * 3 + 0)) with ((e + 1) * 3 + 0) by lia. replace (3 + (e * 3 + 1)) with ((e + 1) * 3 + 1) by lia. replace (3 + (e * 3 + 2)) with ((e + 1) * 3 + 2) by lia.
    rewrite <- NF3. fold (at1 (row (s_u s) 0) ((e + 1) * s_NF s + 0)) (at1 (row (s_u s) 0) ((e + 1) * s_NF s + 1)) (at1 (row (s_u s) 0) ((e + 1) * s_NF s + 2)).
    rewrite !(row0_at ne s) by (try assumption; lia). reflexivity.
  Qed.
  Lemma clean_nth (x : list Z) e : nth e (map (fun _ => 0%Z) x) 0%Z = 0%Z.
  Proof. destruct (Nat.ltb_spec e (List.length x)); [|apply nth_overflow; rewrite map_length; assumption].
    revert e H. induction x; intros [|e] H; cbn in *; [lia|lia|reflexivity|apply IHx; lia]. Qed.

  (** C42 *)
  Lemma sensing_euler ne s sn : wf ne s -> s_euler s = true -> s_sens s = Some sn ->
    sensing gamma true sn (s_u s) (s_NF s) =
      match nth_error (sn_thresholds sn) 0, nth_error (sn_thresholds sn) 1 with
      | Some t0, Some t1 => Ok {| sn_thresholds := sn_thresholds sn;
           sn_sensors := tab (ne + 2) (fun e => if near ne (shock_at gamma s t1) e then 2
                                                else if near ne (contact_at gamma s t0) e then 1 else 0)%Z |}
      | _, _ => Raise IndexError end.
  Proof.
    intros W Eu Es. pose proof (wf_sens _ _ W) as Ls. rewrite Es in Ls.
    unfold sensing, euler_sensing, threshold. rewrite (euler_left ne s W Eu), (euler_right ne s W Eu).
    destruct (nth_error (sn_thresholds sn) 0) as [t0|]; [|reflexivity]. cbn [rbind].
    rewrite map2_tab. fold (contact_at gamma s t0).
    rewrite (mark_tab ne) by (rewrite map_length; exact Ls). cbn [rbind].
    destruct (nth_error (sn_thresholds sn) 1) as [t1|]; [|reflexivity]. cbn [rbind].
    rewrite map2_tab. fold (shock_at gamma s t1).
    rewrite (mark_tab ne) by apply length_tab. cbn [rbind]. do 2 f_equal. apply tab_ext. intros e He.
    destruct (near ne _ e); [reflexivity|]. rewrite nth_tab by exact He. rewrite clean_nth. reflexivity.
  Qed.
  Lemma sensing_adv ne s sn : wf ne s -> s_euler s = false -> s_sens s = Some sn ->
    sensing gamma false sn (s_u s) (s_NF s) =
      match nth_error (sn_thresholds sn) 0 with
      | Some t0 => Ok {| sn_thresholds := sn_thresholds sn;
           sn_sensors := tab (ne + 2) (fun e => if near ne (jump_at s t0) e then 1 else 0)%Z |}
      | None => Raise IndexError end.
  Proof.
    intros W Eu Es. pose proof (wf_sens _ _ W) as Ls. rewrite Es in Ls.
    assert (NF1 : s_NF s = 1) by (unfold s_NF; rewrite Eu; reflexivity).
    unfold sensing, adv_sensing, threshold. rewrite NF1.
    pose proof (row0_len ne s W) as Ln. rewrite NF1, Nat.mul_1_r in Ln.
    rewrite slice_to_neg, slice_from_nat by lia.
    assert (El : firstn (List.length (row (s_u s) 0) - 1) (row (s_u s) 0) = tab (ne + 1) (fun e => cell_mean s e 0)).
    { apply (vec_ext (ne + 1)); [rewrite firstn_length; lia|apply length_tab|]. intros e He. rewrite at1_tab by exact He.
      unfold at1. rewrite nth_firstn' by lia. pose proof (row0_at ne s e 0 W ltac:(lia) ltac:(lia)) as R0.
      rewrite NF1, Nat.mul_1_r, Nat.add_0_r in R0. exact R0. }
    assert (Er : skipn 1 (row (s_u s) 0) = tab (ne + 1) (fun e => cell_mean s (e + 1) 0)).
    { apply (vec_ext (ne + 1)); [rewrite skipn_length; lia|apply length_tab|]. intros e He. rewrite at1_tab by exact He.
      unfold at1. rewrite nth_skipn', (Nat.add_comm 1 e). pose proof (row0_at ne s (e + 1) 0 W ltac:(lia) ltac:(lia)) as R0.
      rewrite NF1, Nat.mul_1_r, Nat.add_0_r in R0. exact R0. }
    rewrite El, Er. destruct (nth_error (sn_thresholds sn) 0) as [t0|]; [|reflexivity]. cbn [rbind].
    rewrite map2_tab. fold (jump_at s t0).
    rewrite (mark_tab ne) by (rewrite map_length; exact Ls). cbn [rbind]. do 2 f_equal. apply tab_ext. intros e He.
    rewrite clean_nth. reflexivity.
  Qed.

  (** C40 *)
  Lemma limited_col ne h s sens e f : wf ne s -> e < ne + 2 -> f < s_NF s ->
    limited_column h s sens (e * s_NF s + f) =
      if limited ne sens e then hr h (modes s e f) (modes s (e - 1) f) (modes s (e + 1) f) else Ok (modes s e f).
  Proof.
    intros W He Hf. unfold limited_column, limited. assert (Hd : (e * s_NF s + f) / s_NF s = e) by (apply divmod_idx; exact Hf).
    rewrite Hd, (wf_NE _ _ W).
    replace (1 <=? Z.of_nat e)%Z with (1 <=? e) by (destruct (Nat.leb_spec 1 e), (Z.leb_spec 1 (Z.of_nat e)); (reflexivity || lia)).
    replace (Z.of_nat e <=? Z.of_nat ne)%Z with (e <=? ne) by (destruct (Nat.leb_spec e ne), (Z.leb_spec (Z.of_nat e) (Z.of_nat ne)); (reflexivity || lia)).
    destruct (Nat.leb_spec 1 e); [|reflexivity]. destruct (Nat.leb_spec e ne); [|reflexivity]. cbn [andb].
    destruct (negb _); [|reflexivity].
    rewrite (shape_ncols _ _ _ (wf_u _ _ W) (Ns_pos _)).
    replace (e * s_NF s + f + s_NF s <? (ne + 2) * s_NF s) with true by (symmetry; apply Nat.ltb_lt; nia).
    unfold modes. f_equal; f_equal; nia.
  Qed.
  Lemma adaptive_hr_spec ne h s s' : wf ne s -> List.length (h_M2L h) = s_Ns s -> adaptive_hr gamma h s = Ok s' ->
    exists sn sn' V, s_sens s = Some sn /\ sensing gamma (s_euler s) sn (s_u s) (s_NF s) = Ok sn' /\
      s_sens s' = Some sn' /\ similar s s' /\ s_t s' = s_t s /\ s_n s' = s_n s /\ wf ne s' /\
      (forall e f, e < ne + 2 -> f < s_NF s ->
         (limited ne (sn_sensors sn') e = true -> hr h (modes s e f) (modes s (e - 1) f) (modes s (e + 1) f) = Ok (V e f)) /\
         (limited ne (sn_sensors sn') e = false -> V e f = modes s e f)) /\
      forall e f, e < ne + 2 -> f < s_NF s -> modes s' e f = V (src_cell (s_bcl s) (s_bcr s) ne e) f.
  Proof.
    intros W Lh H. pose proof (wf_limit gamma ne (Some h) s s' W H) as W'. pose proof (similar_limit gamma (Some h) s s' H) as Sm.
    unfold adaptive_hr in H. destruct (s_sens s) as [sn|] eqn:Es; [|discriminate]. inv_bind H. inv_bind H.
    rename x into sn'. rename x0 into cols.
    pose proof (wf_u _ _ W) as Wu. pose proof (shape_ncols _ _ _ Wu (Ns_pos _)) as Nc. rewrite Nc in Hx0.
    pose proof (mapM_Ok_length _ _ _ Hx0) as Lc. rewrite seq_length in Lc.
    set (s1 := with_u (with_sens s (Some sn')) (of_columns (nrows (s_u s)) cols)) in *.
    assert (W1 : wf ne s1).
    { apply (wf_similar ne s).
      - exact W.
      - exists (s_t s), (s_n s), (Some sn'), (of_columns (nrows (s_u s)) cols). split; [destruct s; reflexivity|].
        rewrite Es. symmetry. eapply sensing_thresholds. exact Hx.
      - unfold s1. cbn [s_u with_u]. rewrite (proj1 Wu : nrows (s_u s) = s_Ns s). apply shape_of_columns. exact Lc.
      - cbn. rewrite (length_sensing _ _ _ _ _ _ Hx). pose proof (wf_sens _ _ W) as Ws. rewrite Es in Ws. exact Ws. }
    exists sn, sn', (fun e f => nth (e * s_NF s + f) cols []).
    split; [reflexivity|]. split; [exact Hx|].
    destruct (apply_bc_modes ne s1 W1) as [s2 [E2 [Sm2 [W2 M2]]]]. rewrite H in E2. apply Ok_inj in E2. subst s2.
    assert (Es' : s_sens s' = Some sn').
    { rewrite (apply_bc_eq _ _ W1) in H. apply Ok_inj in H. subst s'. reflexivity. }
    assert (Et : s_t s' = s_t s /\ s_n s' = s_n s).
    { rewrite (apply_bc_eq _ _ W1) in H. apply Ok_inj in H. subst s'. split; reflexivity. }
    split; [exact Es'|]. split; [exact Sm|]. split; [apply Et|]. split; [apply Et|]. split; [exact W'|].
    assert (C : forall e f, e < ne + 2 -> f < s_NF s -> limited_column h s (sn_sensors sn') (e * s_NF s + f) = Ok (nth (e * s_NF s + f) cols [])).
    { intros e f He Hf. pose proof (cell_index (s_NF s) ne e f Hf He) as Hj.
      pose proof (mapM_Ok_nth _ _ _ (e * s_NF s + f) 0 [] Hx0) as C. rewrite seq_length, seq_nth in C by exact Hj. apply C. exact Hj. }
    split.
    - intros e f He Hf. specialize (C e f He Hf). rewrite (limited_col ne) in C by assumption.
      destruct (limited ne (sn_sensors sn') e); split; intro K; try discriminate; [exact C|]. apply Ok_inj in C. symmetry. exact C.
    - intros e f He Hf. rewrite M2 by assumption. change (s_bcl s1) with (s_bcl s). change (s_bcr s1) with (s_bcr s).
      pose proof (src_cell_lt (s_bcl s) (s_bcr s) ne e (wf_ne _ _ W) He) as He'. set (e' := src_cell (s_bcl s) (s_bcr s) ne e) in *.
      unfold modes. change (s_NF s1) with (s_NF s). change (s_u s1) with (of_columns (nrows (s_u s)) cols).
      pose proof (cell_index (s_NF s) ne e' f Hf He') as Hj.
      assert (Lv : List.length (nth (e' * s_NF s + f) cols []) = s_Ns s).
      { specialize (C e' f He' Hf). rewrite (limited_col ne) in C by assumption. destruct (limited ne (sn_sensors sn') e').
        - unfold hr in C. inv_bind C. apply Ok_inj in C. rewrite <- C. unfold dotv. rewrite map_length. exact Lh.
        - apply Ok_inj in C. rewrite <- C. apply (length_modes ne). exact W. }
      assert (Nr : nrows (s_u s) = s_Ns s) by exact (proj1 Wu).
      apply (vec_ext (s_Ns s)); [rewrite length_col; unfold of_columns; rewrite length_tab; exact Nr|exact Lv|].
      intros n Hn. rewrite at1_col by (unfold of_columns; rewrite length_tab, Nr; exact Hn).
      unfold of_columns, at2, row. rewrite Nr, nth_tab by exact Hn. unfold at1.
      rewrite nth_indep with (d' := (fun c => nth n c n0) []) by (rewrite map_length, Lc; exact Hj).
      rewrite (map_nth (fun c => nth n c n0)). reflexivity.
  Qed.
  Lemma adaptive_hr_total ne h s sn sn' : wf ne s -> s_sens s = Some sn -> sensing gamma (s_euler s) sn (s_u s) (s_NF s) = Ok sn' ->
    (forall e f, e < ne + 2 -> f < s_NF s -> limited ne (sn_sensors sn') e = true ->
        exists v, hr h (modes s e f) (modes s (e - 1) f) (modes s (e + 1) f) = Ok v) ->
    exists s', adaptive_hr gamma h s = Ok s'.
  Proof.
    intros W Es Hs Hh. unfold adaptive_hr. rewrite Es, Hs. cbn [rbind].
    pose proof (wf_u _ _ W) as Wu. pose proof (shape_ncols _ _ _ Wu (Ns_pos _)) as Nc.
    destruct (mapM (limited_column h s (sn_sensors sn')) (seq 0 (ncols (s_u s)))) as [cols|e] eqn:Em.
    - cbn [rbind]. pose proof (mapM_Ok_length _ _ _ Em) as Lc. rewrite seq_length, Nc in Lc.
      eexists. apply (apply_bc_eq ne). apply (wf_similar ne s).
      + exact W.
      + exists (s_t s), (s_n s), (Some sn'), (of_columns (nrows (s_u s)) cols). split; [destruct s; reflexivity|].
        rewrite Es. symmetry. eapply sensing_thresholds. exact Hs.
      + cbn [s_u with_u]. rewrite (proj1 Wu : nrows (s_u s) = s_Ns s). apply shape_of_columns. exact Lc.
      + cbn. rewrite (length_sensing _ _ _ _ _ _ Hs). pose proof (wf_sens _ _ W) as Ws. rewrite Es in Ws. exact Ws.
    - exfalso. apply mapM_Raise_In in Em. destruct Em as [j [Hj E]]. apply in_seq in Hj. rewrite Nc in Hj.
      assert (P : 0 < s_NF s) by (unfold s_NF; destruct (s_euler s); lia).
      assert (Ej : j = (j / s_NF s) * s_NF s + j mod s_NF s) by (rewrite Nat.mul_comm; apply Nat.div_mod; lia).
      assert (He : j / s_NF s < ne + 2) by (apply Nat.div_lt_upper_bound; nia).
      assert (Hf : j mod s_NF s < s_NF s) by (apply Nat.mod_upper_bound; lia).
      rewrite Ej, (limited_col ne) in E by assumption. destruct (limited ne (sn_sensors sn') (j / s_NF s)) eqn:El; [|discriminate].
      destruct (Hh _ _ He Hf El) as [v Hv]. rewrite Hv in E. discriminate.
  Qed.
End Sens.

