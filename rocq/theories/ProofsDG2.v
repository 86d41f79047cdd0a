(** The residual of dg.py equals the cell/interface formula of SpecDG.v, over any arithmetic. *)
From Coq Require Import ZArith List Bool Arith String Lia Reals Lra.
From Verif Require Import Num Py Lib LegNumpy Ext Basis Sensor Enhance Limiting AdvectionPhysics EulerPhysics
  Solution Solver SpecDG ProofsDG.
Import ListNotations.
Open Scope list_scope.
Open Scope nat_scope.

Section Residual2.
  Context {A : Type} {N : Num A} {L : Libm A}.
  Variable gamma : A.
  Implicit Types s : solution A.

  Lemma divmod_idx NF e f : f < NF -> (e * NF + f) / NF = e /\ (e * NF + f) mod NF = f.
  Proof.
    intro H. split.
    - rewrite Nat.div_add_l by lia. rewrite Nat.div_small by lia. lia.
    - rewrite Nat.add_comm, Nat.mod_add by lia. apply Nat.mod_small. exact H.
  Qed.
  Lemma idx_split NF j : 1 <= NF -> exists e f, j = e * NF + f /\ f < NF.
  Proof.
    intro H. exists (j / NF), (j mod NF). split; [rewrite (Nat.div_mod j NF) at 1 by lia; lia|].
    apply Nat.mod_upper_bound. lia.
  Qed.
  Lemma idx_lt NF e f k : f < NF -> e * NF + f < k * NF <-> e < k.
  Proof. intro. split; intro; nia. Qed.

  Lemma at1_slice_set (r v : vec A) NF m j : 1 <= NF -> List.length r = NF + m + NF -> List.length v = m ->
    j < NF + m + NF ->
    at1 (slice_set r (Z.of_nat NF) (- Z.of_nat NF) v) j
    = if (NF <=? j) && (j <? NF + m) then at1 v (j - NF) else at1 r j.
  Proof.
    intros HNF Hr Hv Hj. unfold slice_set.
    rewrite bound_nonneg, bound_neg by lia. rewrite Nat.min_r by lia. rewrite Nat.max_r by lia.
    replace (List.length r - NF) with (NF + m) by lia. unfold at1.
    destruct (Nat.leb_spec NF j) as [H1|H1]; cbn [andb].
    - rewrite app_nth2 by (rewrite firstn_length; lia). rewrite firstn_length, Nat.min_l by lia.
      destruct (Nat.ltb_spec j (NF + m)).
      + rewrite app_nth1 by lia. reflexivity.
      + rewrite app_nth2 by lia. rewrite nth_skipn'. f_equal. lia.
    - rewrite app_nth1 by (rewrite firstn_length; lia). apply nth_firstn'. exact H1.
  Qed.
  Lemma length_slice_set (r v : vec A) NF m : 1 <= NF -> List.length r = NF + m + NF -> List.length v = m ->
    List.length (slice_set r (Z.of_nat NF) (- Z.of_nat NF) v) = NF + m + NF.
  Proof.
    intros HNF Hr Hv. unfold slice_set. rewrite bound_nonneg, bound_neg by lia. rewrite Nat.min_r by lia.
    rewrite Nat.max_r by lia. rewrite !app_length, firstn_length, skipn_length. lia.
  Qed.

  (** the flux difference of row n *)
  Lemma face_flux_row_at NF (q : vec A) n m j : 1 <= NF -> List.length q = NF + m -> j < m ->
    at1 (face_flux_row NF q n) j = face_term n (at1 q j) (at1 q (NF + j)).
  Proof.
    intros HNF Hq Hj. unfold face_flux_row, face_term. rewrite slice_from_nat, slice_to_neg by lia.
    assert (H1 : List.length (skipn NF q) = m) by (rewrite skipn_length; lia).
    assert (H2 : List.length (firstn (List.length q - NF) q) = m) by (rewrite firstn_length; lia).
    unfold at1. destruct (Nat.even n).
    - rewrite nth_map2 with (dx := n0) (dy := n0) by lia. rewrite nth_skipn', nth_firstn' by lia. reflexivity.
    - rewrite nth_map2 with (dx := n0) (dy := n0) by lia. rewrite nth_skipn', nth_firstn' by lia. reflexivity.
  Qed.
  Lemma face_flux_row_len NF (q : vec A) n m : 1 <= NF -> List.length q = NF + m -> List.length (face_flux_row NF q n) = m.
  Proof.
    intros HNF Hq. unfold face_flux_row. rewrite slice_from_nat, slice_to_neg by lia.
    destruct (Nat.even n); rewrite length_map2, skipn_length, firstn_length; lia.
  Qed.

  Lemma face_fluxes_Ok ne s d F q : 1 <= ne ->
    wf_dg ne s d -> shape (s_Ns s) ((ne + 2) * s_NF s) F -> List.length q = (ne + 1) * s_NF s ->
    exists F1, add_interior_face_fluxes d (s_NF s) F q = Ok F1 /\ shape (s_Ns s) ((ne + 2) * s_NF s) F1 /\
      forall n e f, n < s_Ns s -> e < ne + 2 -> f < s_NF s ->
        at2 F1 n (e * s_NF s + f) =
        if (1 <=? e) && (e <=? ne)
        then nsub (at2 F n (e * s_NF s + f)) (face_term n (at1 q ((e - 1) * s_NF s + f)) (at1 q (e * s_NF s + f)))
        else at2 F n (e * s_NF s + f).
  Proof.
    intros Hne [D1 D2] HF Hq. pose proof (NF_pos s) as HNF. set (NF := s_NF s) in *.
    assert (Hq' : List.length q = NF + ne * NF) by lia.
    unfold add_interior_face_fluxes. rewrite slice_from_nat, slice_to_neg by lia.
    rewrite skipn_length, firstn_length, D1, D2, Hq. fold NF.
    replace ((ne + 1) * NF - NF) with (ne * NF) by lia. rewrite (Nat.min_l (ne * NF)) by lia. rewrite Nat.eqb_refl.
    unfold nrows. destruct HF as [F1' F2']. rewrite F1', Nat.eqb_refl. cbn [andb].
    assert (Hin : forall r, In r F -> List.length (slice r (Z.of_nat NF) (- Z.of_nat NF)) = ne * NF).
    { intros r Hr. rewrite slice_nat_neg by lia. rewrite firstn_length, skipn_length, F2' by exact Hr.
      lia. }
    assert (Hall : forallb (fun r => List.length (slice r (Z.of_nat NF) (- Z.of_nat NF)) =? ne * NF) F = true).
    { apply forallb_forall. intros r Hr. apply Nat.eqb_eq. apply Hin. exact Hr. }
    rewrite Hall. eexists. split; [reflexivity|].
    assert (HrI : forall n, n < s_Ns s -> List.length (row F n) = NF + ne * NF + NF).
    { intros n Hn. unfold row. rewrite F2' by (apply nth_In; lia). lia. }
    assert (HIn : forall n, n < s_Ns s -> In (row F n) F) by (intros; apply nth_In; lia).
    assert (Hv : forall n, n < s_Ns s ->
       List.length (map2 nsub (slice (row F n) (Z.of_nat NF) (- Z.of_nat NF)) (face_flux_row NF q n)) = ne * NF).
    { intros n Hn. rewrite length_map2, Hin by (apply HIn; exact Hn). rewrite (face_flux_row_len NF q n (ne * NF)) by lia. lia. }
    split.
    - split; [apply length_tab|]. intros x Hx. unfold tab in Hx. apply in_map_iff in Hx.
      destruct Hx as [n [<- Hn]]. apply in_seq in Hn.
      rewrite (length_slice_set _ _ NF (ne * NF)); [lia|lia|apply HrI; lia|apply Hv; lia].
    - intros n e f Hn He Hf. unfold at2 at 1, row at 1. rewrite nth_tab by exact Hn.
      rewrite (at1_slice_set _ _ NF (ne * NF)); [|lia|apply HrI; exact Hn|apply Hv; exact Hn|nia].
      destruct (Nat.leb_spec 1 e) as [He1|He1].
      + destruct (Nat.leb_spec NF (e * NF + f)) as [_|Hbad]; [|nia]. cbn [andb].
        destruct (Nat.leb_spec e ne) as [He2|He2].
        * destruct (Nat.ltb_spec (e * NF + f) (NF + ne * NF)) as [_|Hbad]; [|nia].
          assert (Hj : e * NF + f - NF = (e - 1) * NF + f) by nia. rewrite Hj.
          assert (Hjl : (e - 1) * NF + f < ne * NF) by nia.
          unfold at1 at 1. rewrite nth_map2 with (dx := n0) (dy := n0);
            [|rewrite Hin by (apply HIn; exact Hn); exact Hjl|rewrite (face_flux_row_len NF q n (ne * NF)) by lia; exact Hjl].
          f_equal.
          { rewrite slice_nat_neg by lia. rewrite nth_firstn'.
            - rewrite nth_skipn'. unfold at2, at1. f_equal. nia.
            - rewrite HrI by exact Hn. rewrite Nat.min_r by lia. nia. }
          { fold (at1 (face_flux_row NF q n) ((e - 1) * NF + f)).
            rewrite (face_flux_row_at NF q n (ne * NF)) by lia. f_equal. f_equal. nia. }
        * destruct (Nat.ltb_spec (e * NF + f) (NF + ne * NF)) as [Hbad|_]; [nia|]. reflexivity.
      + destruct (Nat.leb_spec NF (e * NF + f)) as [Hbad|_]; [nia|]. cbn [andb]. reflexivity.
  Qed.

  Lemma minv_Ok s c F : List.length (s_minv s) = s_Ns s -> shape (s_Ns s) c F ->
    exists F2, inverse_mass_matrix_multiply (s_minv s) F = Ok F2 /\ shape (s_Ns s) c F2 /\
      forall n j, n < s_Ns s -> j < c -> at2 F2 n j = nmul (at2 F n j) (at1 (s_minv s) n).
  Proof.
    intros Hm [H1 H2]. unfold inverse_mass_matrix_multiply, nrows. rewrite Hm, H1, Nat.eqb_refl.
    eexists. split; [reflexivity|]. split.
    - split; [rewrite length_map2; lia|]. intros x Hx. rewrite map2_combine in Hx. apply in_map_iff in Hx.
      destruct Hx as [[r m] [<- Hin]]. apply in_combine_l in Hin. rewrite map_length. apply H2. exact Hin.
    - intros n j Hn Hj. unfold at2 at 1, row. rewrite nth_map2 with (dx := []) (dy := n0) by lia.
      unfold at1 at 1. rewrite nth_indep with (d' := (fun v => nmul v (nth n (s_minv s) n0)) n0)
        by (rewrite map_length, H2; [exact Hj|apply nth_In; lia]).
      rewrite (map_nth (fun v => nmul v (nth n (s_minv s) n0))). reflexivity.
  Qed.

  Lemma vdot_ext (v w w' : vec A) : List.length w = List.length w' -> (forall i, i < List.length w -> at1 w i = at1 w' i) -> vdot v w = vdot v w'.
  Proof. intros H1 H2. f_equal. f_equal. apply (list_ext n0); assumption. Qed.

  (** the volume integral *)
  Lemma volume_at ne s n e f : wf ne s -> n < s_Ns s -> e < ne + 2 -> f < s_NF s ->
    at2 (integrate_interior_flux (b_dphi_w (s_basis s)) (interior_flux gamma s (collocate s))) n (e * s_NF s + f)
    = volume_term gamma s (modes s) n e f.
  Proof.
    intros W Hn He Hf. unfold integrate_interior_flux, volume_term.
    pose proof (collocate_shape _ _ W) as Sc.
    pose proof (interior_flux_shape gamma ne s _ _ Sc) as Si.
    assert (HG : forall x, In x (interior_flux gamma s (collocate s)) -> List.length x = (ne + 2) * s_NF s) by apply Si.
    assert (Hj : e * s_NF s + f < (ne + 2) * s_NF s) by nia.
    pose proof (wf_NG _ _ W) as HNG.
    rewrite at2_dot with (c := (ne + 2) * s_NF s);
        [|exact HG|eapply shape_ncols; [exact Si|lia]|destruct (wf_dphi _ _ W) as [-> _]; exact Hn|exact Hj].
      apply vdot_ext; [rewrite length_col, length_tab; apply Si|].
      intros g Hg. rewrite length_col in Hg. assert (Hg' : g < b_NG (s_basis s)) by (destruct Si as [<- _]; exact Hg).
      rewrite at1_col by exact Hg. rewrite (interior_flux_at gamma ne s _ _ _ _ _ Sc) by assumption.
      rewrite at1_tab by exact Hg'. f_equal. f_equal. unfold node_state. apply tab_ext. intros f' Hf'.
      rewrite (collocate_at _ _ _ _ W) by (try assumption; nia). reflexivity.
  Qed.

  Lemma with_u_id s : with_u s (s_u s) = s. Proof. destruct s; reflexivity. Qed.

  Theorem residual_iff ne s d s1 F : wf ne s -> wf_dg ne s d ->
    let s' := with_u s (bc_u ne s) in
    residual gamma d s = Ok (s1, F) <->
    (s1 = s' /\ exists q, (forall e, e <= ne -> iface_flux gamma s' (modes s') e = Ok (q e)) /\ F = residual_mat gamma ne s' q).
  Proof.
    intros W D s'. pose proof (wf_apply_bc _ _ W) as W'. fold s' in W'.
    assert (D' : wf_dg ne s' d) by exact D.
    pose proof (NF_pos s') as HNF. pose proof (wf_ne _ _ W) as Hne.
    unfold residual. rewrite (apply_bc_eq _ _ W). fold s'. cbn [rbind].
    destruct (evaluate_faces_Ok _ _ W') as [uf [Euf [L0 [L1 Huf]]]]. rewrite Euf. cbn [rbind].
    set (ul := slice_to (row uf 1) (- Z.of_nat (s_NF s'))). set (ur := slice_from (row uf 0) (Z.of_nat (s_NF s'))).
    assert (Lul : List.length ul = (ne + 1) * s_NF s').
    { unfold ul. rewrite slice_to_neg, firstn_length by lia. lia. }
    assert (Lur : List.length ur = (ne + 1) * s_NF s').
    { unfold ur. rewrite slice_from_nat, skipn_length. lia. }
    assert (Cul : forall e, e <= ne -> cellv (s_NF s') ul e = tab (s_NF s') (face_minus s' (modes s') e)).
    { intros e He. apply tab_ext. intros f Hf. rewrite <- (proj1 (Huf e f He Hf)). unfold ul.
      rewrite slice_to_neg by lia. unfold at1. apply nth_firstn'. nia. }
    assert (Cur : forall e, e <= ne -> cellv (s_NF s') ur e = tab (s_NF s') (face_plus s' (modes s') e)).
    { intros e He. apply tab_ext. intros f Hf. rewrite <- (proj2 (Huf e f He Hf)). unfold ur.
      rewrite slice_from_nat. unfold at1. rewrite nth_skipn'. f_equal. nia. }
    pose proof (fun q => riemann_char gamma s' (ne + 1) ul ur q (wf_kind _ _ W') Lul Lur) as RC.
    set (F0 := integrate_interior_flux (b_dphi_w (s_basis s')) (interior_flux gamma s' (collocate s'))).
    assert (SF0 : shape (s_Ns s') ((ne + 2) * s_NF s') F0).
    { pose proof (interior_flux_shape gamma ne s' _ _ (collocate_shape _ _ W')) as Si.
      unfold F0, integrate_interior_flux. eapply shape_dot; [apply (wf_dphi _ _ W')|apply Si|].
      eapply shape_ncols; [exact Si|apply (wf_NG _ _ W')]. }
    assert (Flux : forall q, List.length q = (ne + 1) * s_NF s' ->
       (let! F1 := add_interior_face_fluxes d (s_NF s') F0 q in
        let! F2 := inverse_mass_matrix_multiply (s_minv s') F1 in Ok (s', F2))
       = Ok (s', residual_mat gamma ne s' (cellv (s_NF s') q))).
    { intros q Lq.
      destruct (face_fluxes_Ok ne s' d F0 q Hne D' SF0 Lq) as [F1 [E1 [S1 P1]]]. rewrite E1. cbn [rbind].
      destruct (minv_Ok s' _ F1 (wf_minv _ _ W') S1) as [F2 [E2 [S2 P2]]]. rewrite E2. cbn [rbind].
      f_equal. f_equal. apply (mat_ext _ _ _ _ S2 (shape_tab2 _ _ _)).
      intros n j Hn Hj. unfold residual_mat. rewrite at2_tab2 by assumption. rewrite P2 by assumption.
      destruct (idx_split (s_NF s') j HNF) as [e [f [-> Hf]]]. destruct (divmod_idx (s_NF s') e f Hf) as [Ee Ef].
      rewrite Ee, Ef. apply idx_lt in Hj; [|exact Hf].
      rewrite P1 by assumption. unfold F0. rewrite (volume_at ne s' n e f W') by assumption.
      destruct (Nat.leb_spec 1 e) as [H1|H1]; cbn [andb]; [|reflexivity].
      destruct (Nat.leb_spec e ne) as [H2|H2]; [|reflexivity].
      unfold residual_of. do 2 f_equal. unfold cellv. rewrite !at1_tab by exact Hf. reflexivity. }
    split.
    - intro H. inv_bind H. apply RC in Hx. destruct Hx as [Lq Hq]. rewrite (Flux x Lq) in H.
      apply Ok_inj in H. injection H as <- <-. split; [reflexivity|].
      exists (cellv (s_NF s') x). split; [|reflexivity]. intros e He. unfold iface_flux.
      rewrite <- Cul, <- Cur by exact He. apply Hq. lia.
    - intros [-> [q [Hq ->]]].
      set (qv := tab ((ne + 1) * s_NF s') (fun j => at1 (q (j / s_NF s')) (j mod s_NF s'))).
      assert (Lq : List.length qv = (ne + 1) * s_NF s') by apply length_tab.
      assert (LN : forall e, e <= ne -> List.length (q e) = s_NF s').
      { intros e He. specialize (Hq e He). unfold iface_flux, num_flux in Hq.
        pose proof (wf_kind _ _ W') as K. unfold s_NF in *.
        destruct (s_riemann s') eqn:Er.
        - apply Ok_inj in Hq. rewrite <- Hq. apply length_tab.
        - destruct (rusanov1 gamma _ _) as [[? ?] ?]. apply Ok_inj in Hq. rewrite <- Hq.
          destruct (s_euler s'); [reflexivity|]. destruct K as [_ K]. discriminate K. reflexivity.
        - inv_bind Hq. destruct x as [[? ?] ?]. apply Ok_inj in Hq. rewrite <- Hq.
          destruct (s_euler s'); [reflexivity|]. destruct K as [_ K]. discriminate K. reflexivity.
        - destruct (roe1 gamma _ _) as [[? ?] ?]. apply Ok_inj in Hq. rewrite <- Hq.
          destruct (s_euler s'); [reflexivity|]. destruct K as [_ K]. discriminate K. reflexivity. }
      assert (Cq : forall e, e <= ne -> cellv (s_NF s') qv e = q e).
      { intros e He. apply (vec_ext (s_NF s')); [apply length_tab|apply LN; exact He|].
        intros f Hf. unfold cellv. rewrite at1_tab by exact Hf. unfold qv. rewrite at1_tab by nia.
        destruct (divmod_idx (s_NF s') e f Hf) as [-> ->]. reflexivity. }
      assert (R : riemann gamma s' ul ur = Ok qv).
      { apply RC. split; [exact Lq|]. intros e He. rewrite Cul, Cur, Cq by lia. apply Hq. lia. }
      rewrite R. cbn [rbind]. rewrite (Flux qv Lq). f_equal. f_equal.
      unfold residual_mat, tab2. apply tab_ext. intros n Hn. apply tab_ext. intros j Hj.
      destruct (idx_split (s_NF s') j HNF) as [e [f [-> Hf]]]. destruct (divmod_idx (s_NF s') e f Hf) as [Ee Ef].
      rewrite Ee, Ef. apply idx_lt in Hj; [|exact Hf].
      destruct (Nat.leb_spec 1 e) as [H1|H1]; cbn [andb]; [|reflexivity].
      destruct (Nat.leb_spec e ne) as [H2|H2]; [|reflexivity].
      rewrite !Cq by lia. reflexivity.
  Qed.
End Residual2.
