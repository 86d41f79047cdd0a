(** Facts about main.py as a whole: invalid initial conditions (C47), mis-configured limiting (C52), the mesh (C53) and the
    global gamma (C51). *)
From Coq Require Import ZArith List Bool Arith String Lia Reals Lra SpecFloat.
From Verif Require Import Num Py PyStr Lib RealLib LegNumpy Ext Basis Constants Sensor Enhance Limiting AdvectionPhysics EulerPhysics
  IC Solution Solver RKCoeffs RK IO Deck Main SpecTime ProofsTime ProofsTime2 SpecDG SpecPoly ProofsDG ProofsDG2 ProofsWf ProofsCons ProofsSol ProofsIC.
Import ListNotations.
Open Scope list_scope.
Open Scope nat_scope.

Section Main.
  Context {A : Type} {N : Num A} {L : Libm A} {X : Ext A}.
  Implicit Types s : solution A.

  (** what apply_bc and the limiter leave alone *)
  Definition frame s s' : Prop :=
    s_xc s' = s_xc s /\ s_x s' = s_x s /\ s_dx s' = s_dx s /\ s_NE s' = s_NE s /\ s_euler s' = s_euler s /\ s_basis s' = s_basis s.
  Lemma frame_refl s : frame s s. Proof. repeat split. Qed.
  Lemma frame_trans s1 s2 s3 : frame s1 s2 -> frame s2 s3 -> frame s1 s3.
  Proof. unfold frame. intuition congruence. Qed.
  Lemma apply_bc_frame s s' : apply_bc s = Ok s' -> frame s s' /\ s_sens s' = s_sens s.
  Proof. unfold apply_bc. intro H. inv_bind H. apply Ok_inj in H. subst s'. repeat split. Qed.
  Lemma limit_frame g l s s' : limit g l s = Ok s' -> frame s s'.
  Proof.
    destruct l as [h|]; cbn [limit]; intro H; [|apply Ok_inj in H; subst; apply frame_refl].
    unfold adaptive_hr in H. destruct (s_sens s); [|discriminate]. inv_bind H. inv_bind H. apply apply_bc_frame in H.
    destruct H as [H _]. eapply frame_trans; [|exact H]. repeat split.
  Qed.

  (** ** rows of one length *)
  Lemma assign_slice_length (r r' : vec A) a b c d : assign_slice r a b c d = Ok r' -> List.length r' = List.length r.
  Proof.
    unfold assign_slice. destruct (Nat.eqb_spec (List.length (slice r c d)) (List.length (slice r a b))) as [E|]; [|discriminate].
    intro H. apply Ok_inj in H. subst r'. unfold slice_set. rewrite !app_length, E. unfold slice.
    rewrite !firstn_length, !skipn_length.
    assert (B : forall n i, bound n i <= n) by (intros n i; unfold bound; destruct (Z.ltb_spec i 0); lia).
    pose proof (B (List.length r) a). pose proof (B (List.length r) b). lia.
  Qed.
  Lemma assign_tail_length (r r' : vec A) NF c d : assign_tail r NF c d = Ok r' -> List.length r' = List.length r.
  Proof.
    unfold assign_tail. destruct (Nat.eqb_spec (List.length (slice r c d)) (List.length (slice_from r (- NF)))) as [E|]; [|discriminate].
    intro H. apply Ok_inj in H. subst r'. rewrite !app_length, E. unfold slice_from, slice_to. rewrite firstn_length, skipn_length. lia.
  Qed.
  Lemma apply_bc_row_length bl br NF (r r' : vec A) : apply_bc_row bl br NF r = Ok r' -> List.length r' = List.length r.
  Proof.
    unfold apply_bc_row. intro H. inv_bind H. transitivity (List.length x).
    - revert H. unfold bc_right. destruct (is_literal _ _); [apply assign_tail_length|]. destruct (is_literal _ _); [apply assign_tail_length|].
      intro H. apply Ok_inj in H. subst. reflexivity.
    - revert Hx. unfold bc_left. destruct (is_literal _ _); [apply assign_slice_length|]. destruct (is_literal _ _); [apply assign_slice_length|].
      intro H'. apply Ok_inj in H'. subst. reflexivity.
  Qed.
  Lemma apply_bc_shape Ns c s s' : shape Ns c (s_u s) -> apply_bc s = Ok s' -> shape Ns c (s_u s').
  Proof.
    intros [H1 H2] H. unfold apply_bc in H. inv_bind H. apply Ok_inj in H. subst s'. cbn [s_u with_u]. split.
    - apply mapM_Ok_length in Hx. exact (eq_trans Hx H1).
    - intros r Hr. apply (In_nth _ _ []) in Hr. destruct Hr as [i [Hi <-]].
      pose proof (mapM_Ok_length _ _ _ Hx) as El.
      pose proof (mapM_Ok_nth _ _ _ i [] [] Hx ltac:(vlia)) as Hn. apply apply_bc_row_length in Hn. refine (eq_trans Hn _). apply H2. apply nth_In. vlia.
  Qed.
  Lemma limit_shape g l Ns c s s' : 1 <= Ns -> shape Ns c (s_u s) -> limit g l s = Ok s' -> shape Ns c (s_u s').
  Proof.
    intros HN Hs. destruct l as [h|]; cbn [limit]; intro H; [|apply Ok_inj in H; subst; exact Hs].
    unfold adaptive_hr in H. destruct (s_sens s); [|discriminate]. inv_bind H. inv_bind H.
    apply (apply_bc_shape Ns c) in H; [exact H|]. cbn [s_u with_u]. destruct Hs as [H1 H2].
    apply mapM_Ok_length in Hx0. rewrite seq_length in Hx0.
    assert (Hc : ncols (s_u s) = c).
    { unfold ncols. destruct (s_u s) as [|r u] eqn:E; [exfalso; cbn in H1; lia|]. apply H2. left. reflexivity. }
    split.
    - unfold of_columns, nrows. rewrite length_tab. exact H1.
    - unfold of_columns, tab. intros r Hr. apply in_map_iff in Hr. destruct Hr as [n [<- _]]. rewrite map_length. congruence.
  Qed.

  (** ** solutions left behind by an initial condition that raised, or without cells *)
  Definition no_step : Prop :=
    forall dx c v : A, dx = n0 \/ dx = ndiv n0 n0 -> exists m, sanity_check_dt (ndiv (nmul dx c) v) = Raise (SysExit m).
  Definition hollow s : Prop := s_xc s = [] /\ (s_dx s = n0 \/ s_dx s = ndiv n0 n0).
  Definition ghostless s : Prop := exists ne Ns, 1 <= ne /\ 1 <= Ns /\ shape Ns (ne * s_NF s) (s_u s) /\ List.length (s_xc s) = ne.
  Definition broken s : Prop := (s_NE s < 0)%Z \/ hollow s \/ ghostless s.

  Lemma populate_shape (b : basis A) x NE NF f u0 Ns : shape Ns (NE * NF) u0 -> shape Ns (NE * NF) (fst (populate b x NE NF f u0)).
  Proof.
    intro H0. unfold populate.
    assert (G : forall k, k <= NE * NF -> shape Ns (NE * NF) (fst (fold_left (fun acc j =>
      match acc with
      | (u, Some e) => (u, Some e)
      | (u, None) =>
          match projection b (at1 x (j / NF)) (at1 x (j / NF + 1)) f (j mod NF) with
          | Ok c => (set_col u j c, None)
          | Raise e => (u, Some e)
          end
      end) (seq 0 k) (u0, None)))).
    { induction k as [|k IH]; intro Hk; [exact H0|]. rewrite seq_S, fold_left_app. specialize (IH ltac:(lia)).
      destruct (fold_left _ (seq 0 k) _) as [u1 [e|]]; cbn [fold_left fst Nat.add] in *; [exact IH|].
      destruct (projection _ _ _ _ _); cbn [fst]; [|exact IH]. apply shape_set_col; [exact IH|lia]. }
    apply G. lia.
  Qed.
  Lemma run_ic_broken s0 g s g' e : s_xc s0 = [] -> s_dx s0 = n0 -> 1 <= s_Ns s0 ->
    run_ic s0 g = (s, g', e) -> e <> None \/ (s_NE s <= 0)%Z -> (s_NE s0 = 0)%Z -> broken s.
  Proof.
    intros Hxc Hdx HNs H Hbad HNE. unfold run_ic in H.
    assert (B0 : broken s0) by (right; left; split; auto).
    destruct (ic_lookup _ _ _) as [ic|e1]; [|injection H as <- <- <-; exact B0].
    destruct (setup_common_ic _ _ _ _) as [s2 e2] eqn:Es. injection H as <- Hg ->.
    unfold setup_common_ic in Es. cbn [s_params with_bc] in Es.
    assert (B1 : broken (with_bc s0 (pylit (ic_bc ic)) (pylit (ic_bc ic)))) by (right; left; split; [exact Hxc|left; exact Hdx]).
    destruct (nth_error (s_params s0) 0) as [p0|]; [|injection Es as <- <-; exact B1].
    destruct (parse_int p0) as [NE|]; [|injection Es as <- <-; exact B1].
    destruct (Z.ltb_spec (NE + 1) 0) as [Hz|Hz]; [injection Es as <- <-; left; cbn; lia|].
    destruct (Z.ltb_spec NE 0) as [Hz'|Hz']; [injection Es as <- <-; left; cbn; lia|].
    destruct (Z.eq_dec NE 0) as [E0|Hpos].
    - assert (K : s_xc s2 = centroids (linspace (ic_A ic) (ic_B ic) (Z.to_nat (NE + 1)))
                  /\ s_dx s2 = linspace_step (ic_A ic) (ic_B ic) (Z.to_nat (NE + 1))).
      { destruct (populate _ _ _ _ _ _) as [u [e'|]]; injection Es as <- <-; split; reflexivity. }
      destruct K as [K1 K2]. rewrite E0 in K1, K2. right. left. split; [rewrite K1; reflexivity|right; rewrite K2; reflexivity].
    - match goal with H : context [populate ?b ?x ?n ?f ?h ?u0] |- _ =>
        pose proof (populate_shape b x n f h u0 (s_Ns s0) (shape_tab2 _ _ _)) as Sh; destruct (populate b x n f h u0) as [u [e'|]] end.
      + injection Es as <- <-. right. right. exists (Z.to_nat NE), (s_Ns s0).
        split; [lia|]. split; [exact HNs|]. split; [exact Sh|]. cbn [s_xc with_u with_mesh]. apply length_centroids.
        rewrite length_linspace'. lia.
      + injection Es as <- <-. exfalso. destruct Hbad as [Hb|Hb]; [congruence|]. cbn in Hb. lia.
  Qed.

  Lemma length_every {Y} st k (l : list Y) : k <= st - 1 -> 1 <= st -> st * List.length (every_aux st k l) + k <= List.length l + (st - 1).
  Proof.
    revert k. induction l as [|x l IH]; intros k Hk Hs; cbn [every_aux List.length]; [lia|].
    destruct k as [|k]; [|specialize (IH k); lia]. cbn [List.length]. specialize (IH (st - 1)). lia.
  Qed.
  Lemma ghostless_printer k dt s : ghostless s -> printer k dt s = Raise ValueError.
  Proof.
    intros [ne [Ns [Hne [HNs [[H1 H2] Hx]]]]]. unfold printer.
    assert (E : forallb (fun field => forallb (fun r =>
          Nat.eqb (List.length (field_row (s_NF s) field r)) (List.length (s_xc s))) (s_u s)) (seq 0 (s_NF s)) = false).
    { assert (Hp : 1 <= s_NF s) by apply NF_pos. destruct (s_NF s) as [|nf] eqn:En; [lia|]. cbn [seq forallb]. apply andb_false_iff. left.
      destruct (s_u s) as [|r u]; [exfalso; cbn in H1; lia|]. cbn [forallb]. apply andb_false_iff. left. apply Nat.eqb_neq. rewrite Hx.
      specialize (H2 r (or_introl eq_refl)). unfold field_row, slice_step, stride.
      match goal with |- context [every_aux _ 0 ?l] => pose proof (length_every (S nf) 0 l ltac:(lia) ltac:(lia)) as Hl; set (m := List.length (every_aux (S nf) 0 l)) in *;
        assert (Hs : 3 <= ne /\ List.length l = ne * S nf - 3 * S nf + 1 \/ List.length l = 0) end.
      { unfold slice. rewrite firstn_length, skipn_length, H2. unfold bound.
        destruct (Z.ltb_spec (Z.of_nat (S nf) + Z.of_nat 0) 0); [lia|]. destruct (Z.ltb_spec (-2 * Z.of_nat (S nf) + 1 + Z.of_nat 0) 0); [|lia].
        destruct (Nat.le_gt_cases 3 ne); [left; split; [assumption|]; nia|right; destruct ne as [|[|[|ne]]]; lia]. }
      destruct Hs as [[H3 Hs]|Hs]; rewrite Hs in Hl; nia. }
    rewrite E. reflexivity.
  Qed.

  (** ** a run that starts from such a solution *)
  Definition stillborn (r : list (event A) * outcome A) : Prop :=
    (forall s, snd r <> Finished s) /\ (fst r = [] \/ exists ev, fst r = [ev] /\ ev_nout ev = 0 /\ s_xc (ev_sol ev) = []).

  Lemma printer_event k dt s ev : printer k dt s = Ok ev -> ev_nout ev = k /\ ev_sol ev = s.
  Proof.
    unfold printer. destruct (negb _); [discriminate|]. destruct (s_sens s) as [sn|].
    - destruct (negb _); [discriminate|]. destruct (_ =? 0); [discriminate|]. intro H. apply Ok_inj in H. subst ev. split; reflexivity.
    - intro H. apply Ok_inj in H. subst ev. split; reflexivity.
  Qed.
  Lemma hollow_time_step g inner l cfl tf tout s sc : no_step -> hollow s -> exists e, time_step g inner l cfl tf tout s sc = Raise e.
  Proof.
    intros D [_ H]. unfold time_step, get_next_time_step, cfl_time_step. destruct (max_wave_speed g s) as [v|e]; cbn [rbind]; [|eauto].
    destruct (D (s_dx s) cfl (nmul v (nnat (2 * b_p (s_basis s) + 1))) H) as [m Em]. rewrite Em. cbn [rbind]. eauto.
  Qed.
  Lemma hollow_run g rk d l cfl tf nout fuel s : no_step -> hollow s -> stillborn (integrate g rk d l cfl tf nout fuel s).
  Proof.
    intros D Hs.
    assert (R : forall inner K0, stillborn (run_rk g inner K0 l cfl tf nout fuel s)).
    { intros inner K0. unfold run_rk, stillborn. destruct (nout <? 0)%Z; [split; [discriminate|left; reflexivity]|].
      destruct (printer 0 n0 s) as [ev|e] eqn:Ep; [|split; [discriminate|left; reflexivity]].
      apply printer_event in Ep. destruct Ep as [E1 E2].
      assert (P : exists ev0, [ev] = [ev0] /\ ev_nout ev0 = 0 /\ s_xc (ev_sol ev0) = []) by (exists ev; rewrite E2; repeat split; [exact E1|apply Hs]).
      destruct (slice_from _ _) as [|tout touts]; [split; [discriminate|right; exact P]|].
      destruct fuel as [|f]; cbn [time_loop]; [split; [discriminate|right; exact P]|].
      match goal with |- context [time_step g inner l cfl tf tout s ?sc] => destruct (hollow_time_step g inner l cfl tf tout s sc D Hs) as [e ->] end.
      split; [discriminate|right; exact P]. }
    unfold integrate. destruct (String.eqb _ _); apply R.
  Qed.
  Lemma ghostless_run g rk d l cfl tf nout fuel s : ghostless s -> stillborn (integrate g rk d l cfl tf nout fuel s).
  Proof.
    intro Hs.
    assert (R : forall inner K0, stillborn (run_rk g inner K0 l cfl tf nout fuel s)).
    { intros inner K0. unfold run_rk, stillborn. destruct (nout <? 0)%Z; [split; [discriminate|left; reflexivity]|].
      rewrite (ghostless_printer _ _ _ Hs). split; [discriminate|left; reflexivity]. }
    unfold integrate. destruct (String.eqb _ _); apply R.
  Qed.

  (** the initial condition of the deck builds a solution with cells *)
  Definition ic_valid (d : deck A) : Prop :=
    ic_succeeds (dk_ic d) (dk_system d) (Z.to_nat (dk_order d)) (dk_riemann d) /\
    exists s g, Solution (dk_ic d) (dk_system d) (Z.to_nat (dk_order d)) (dk_riemann d) (dk_enhance d) (dk_thresholds d) = Ok (s, g) /\ (1 <= s_NE s)%Z.

  Lemma Solution_inv icline system order riem enh th s g : Solution icline system order riem enh th = Ok (s, g) ->
    exists icname params s1 e, split_ws icline = icname :: params /\
      run_ic (blank_solution icname params (String.eqb system "euler") (riemann_choice (String.eqb system "euler") riem) order) gamma_default = (s1, g, e) /\
      (forall m, e <> Some (SysExit m)) /\ frame s1 s /\ s_u s = s_u s1 /\ (th = [] -> s_sens s = s_sens s1) /\
      (th <> [] -> s_sens s = Some (Sensor th (Z.to_nat (s_NE s1 + 2)))).
  Proof.
    unfold Solution. destruct (split_ws icline) as [|icname params]; [discriminate|]. intro H.
    destruct (run_ic _ _) as [[s1 g1] e] eqn:Er. exists icname, params, s1, e.
    assert (K : (let! s2 := (if String.eqb enh "" then Ok s1 else let! e := Enhance order enh in Ok (with_enh s1 (Some e))) in
            match th with
            | [] => Ok (s2, g1)
            | _ => if (s_NE s2 + 2 <? 0)%Z then Raise ValueError
                   else Ok (with_sens s2 (Some (Sensor th (Z.to_nat (s_NE s2 + 2)))), g1)
            end) = Ok (s, g) /\ (forall m, e <> Some (SysExit m))).
    { destruct e as [[]|]; try discriminate; split; try exact H; discriminate. }
    clear H. destruct K as [H Hne]. inv_bind H.
    assert (F : frame s1 x /\ s_u x = s_u s1 /\ s_sens x = s_sens s1).
    { destruct (String.eqb enh ""); [apply Ok_inj in Hx; subst; repeat split|]. inv_bind Hx. apply Ok_inj in Hx. subst x. repeat split. }
    destruct F as [F [Fu Fs]].
    assert (G : g = g1 /\ frame s1 s /\ s_u s = s_u s1 /\ (th = [] -> s_sens s = s_sens s1) /\ (th <> [] -> s_sens s = Some (Sensor th (Z.to_nat (s_NE s1 + 2))))).
    { destruct th as [|t0 th].
      - apply Ok_inj in H. injection H as <- <-. repeat split; try apply F; try assumption; intros; try reflexivity; congruence.
      - destruct (_ <? 0)%Z; [discriminate|]. apply Ok_inj in H. injection H as <- <-. destruct F as [F1 [F2 [F3 [F4 [F5 F6]]]]].
        repeat split; cbn; try assumption; try congruence. }
    destruct G as [-> G]. split; [reflexivity|]. split; [exact Er|]. split; [exact Hne|]. exact G.
  Qed.
  Lemma blank_Ns icname params eu r order : s_Ns (blank_solution (A:=A) icname params eu r order) = order + 1.
  Proof. unfold s_Ns, b_Ns. cbn. rewrite b_p_Basis'. reflexivity. Qed.

  Lemma broken_Solution icline system order riem enh th s g :
    Solution icline system order riem enh th = Ok (s, g) -> ~ (ic_succeeds icline system order riem /\ (1 <= s_NE s)%Z) -> broken s.
  Proof.
    intros H Hbad. apply Solution_inv in H. destruct H as [icname [params [s1 [e [Hsp [Hr [Hne [F [Fu _]]]]]]]]].
    assert (B : broken s1).
    { eapply run_ic_broken; try exact Hr; try reflexivity; [rewrite blank_Ns; lia|].
      destruct e as [e|]; [left; discriminate|]. right. destruct F as [_ [_ [_ [FN _]]]].
      destruct (Z_lt_le_dec 0 (s_NE s1)) as [Hp|Hp]; [|exact Hp]. exfalso. apply Hbad. split; [|lia].
      unfold ic_succeeds. rewrite Hsp, Hr. reflexivity. }
    destruct F as [F1 [F2 [F3 [F4 [F5 F6]]]]]. destruct B as [B|[[B1 B2]|[ne [Ns [C1 [C2 [C3 C4]]]]]]].
    - left. lia.
    - right. left. split; [congruence|]. rewrite F3. exact B2.
    - right. right. exists ne, Ns. split; [exact C1|]. split; [exact C2|]. split; [|congruence].
      rewrite Fu. unfold s_NF in *. rewrite F5. exact C3.
  Qed.

  Lemma invalid_ic_run fuel d : no_step -> ~ ic_valid d -> stillborn (run_deck fuel d).
  Proof.
    intros D Hbad.
    assert (Fe : forall e : exn, stillborn ([], Failed e)) by (intro e; split; [discriminate|left; reflexivity]).
    unfold run_deck, setup. destruct (dk_order d <? 0)%Z; [apply Fe|].
    destruct (Solution _ _ _ _ _ _) as [[s0 g]|e] eqn:E0; cbn [rbind]; [|apply Fe].
    assert (B : broken s0).
    { eapply broken_Solution; [exact E0|]. intros [H1 H2]. apply Hbad. split; [exact H1|]. eauto. }
    destruct (apply_bc s0) as [s1|e] eqn:E1; cbn [rbind]; [|apply Fe].
    destruct (DG s1) as [dd|e] eqn:E2; cbn [rbind]; [|apply Fe].
    destruct (Limiter (dk_limiting d) s1) as [l|e]; cbn [rbind]; [|apply Fe].
    destruct (limit g l s1) as [s2|e] eqn:E3; cbn [rbind]; [|apply Fe].
    destruct (apply_bc_frame _ _ E1) as [F1 _]. pose proof (limit_frame _ _ _ _ E3) as F2. pose proof (frame_trans _ _ _ F1 F2) as F.
    destruct B as [B|[[B1 B2]|[ne [Ns [C1 [C2 [C3 C4]]]]]]].
    - exfalso. unfold DG in E2. destruct F1 as [_ [_ [_ [F1 _]]]]. rewrite F1 in E2.
      assert (K : ((s_NE s0 * Z.of_nat (s_NF s1) <? 0) = true)%Z) by (apply Z.ltb_lt; pose proof (NF_pos s1); nia).
      rewrite K, orb_true_r in E2. discriminate.
    - apply hollow_run; [exact D|]. destruct F as [F3 [_ [F4 _]]]. split; [congruence|]. rewrite F4. exact B2.
    - apply ghostless_run. exists ne, Ns. split; [exact C1|]. split; [exact C2|]. split.
      + eapply limit_shape; [exact C2| |exact E3]. eapply apply_bc_shape; [|exact E1]. unfold s_NF in *. destruct F as [_ [_ [_ [_ [F _]]]]]. rewrite F. exact C3.
      + destruct F as [F _]. congruence.
  Qed.

  (** unknown names *)
  Definition ic_names : list string := ["sinewave"; "simplew"; "entrpyw"; "acsticw"; "scktube"; "shuoshe"; "ictest"]%string.
  Lemma unknown_ic_invalid (d : deck A) name : hd_error (split_ws (dk_ic d)) = Some name -> ~ In name ic_names -> ~ ic_valid d.
  Proof.
    intros Hn Hin [H _]. unfold ic_succeeds in H. destruct (split_ws (dk_ic d)) as [|n0 params]; [exact H|]. cbn in Hn. injection Hn as ->.
    unfold run_ic in H. cbn [s_icname blank_solution] in H. unfold ic_lookup in H.
    assert (E : forall x : string, In x ic_names -> String.eqb name x = false) by (intros x Hs; apply String.eqb_neq; intros ->; contradiction).
    rewrite (E "sinewave"%string), (E "simplew"%string), (E "entrpyw"%string), (E "acsticw"%string), (E "scktube"%string), (E "shuoshe"%string),
      (E "ictest"%string) in H by (cbn; tauto). cbn [snd] in H. discriminate H.
  Qed.
  Lemma no_ic_invalid (d : deck A) : split_ws (dk_ic d) = [] -> ~ ic_valid d.
  Proof. intros E [H _]. unfold ic_succeeds in H. rewrite E in H. exact H. Qed.
  Lemma scktube_params fuel (d : deck A) params : (0 <= dk_order d)%Z -> split_ws (dk_ic d) = "scktube"%string :: params -> List.length params <> 8 ->
    exists m, run_deck fuel d = ([], Failed (SysExit m)).
  Proof.
    intros Ho E Hl. unfold run_deck, setup. destruct (Z.ltb_spec (dk_order d) 0); [lia|].
    unfold Solution. rewrite E. unfold run_ic. cbn [s_icname s_params blank_solution]. unfold ic_lookup. cbn [String.eqb Ascii.eqb Bool.eqb].
    destruct (Nat.eqb_spec (List.length params) 8); [contradiction|]. cbn [negb]. eexists. reflexivity.
  Qed.

  (** ** C52 at the level of decks *)
  Lemma run_ic_sens s0 g s g' e : run_ic s0 g = (s, g', e) -> s_sens s = s_sens s0 /\ s_euler s = s_euler s0.
  Proof.
    unfold run_ic. destruct (ic_lookup _ _ _) as [ic|e1]; [|intro H; injection H as <- <- <-; auto].
    destruct (setup_common_ic _ _ _ _) as [s2 e2] eqn:Es. intro H. injection H as <- Hg ->. unfold setup_common_ic in Es. cbn [s_params with_bc] in Es.
    destruct (nth_error _ 0) as [p0|]; [|injection Es as <- <-; auto].
    destruct (parse_int p0) as [NE|]; [|injection Es as <- <-; auto].
    destruct (NE + 1 <? 0)%Z; [injection Es as <- <-; auto|].
    destruct (NE <? 0)%Z; [injection Es as <- <-; auto|].
    destruct (populate _ _ _ _ _ _) as [u [e'|]]; injection Es as <- <-; auto.
  Qed.
  Lemma few_thresholds_deck fuel (d : deck A) : dk_limiting d = "adaptive_hr"%string ->
    List.length (dk_thresholds d) < (if String.eqb (dk_system d) "euler" then 2 else 1) ->
    exists e, run_deck fuel d = ([], Failed e).
  Proof.
    intros Hl Hn. unfold run_deck, setup. destruct (dk_order d <? 0)%Z; [eauto|].
    destruct (Solution _ _ _ _ _ _) as [[s0 g]|e] eqn:E0; cbn [rbind]; [|eauto].
    destruct (apply_bc s0) as [s1|e] eqn:E1; cbn [rbind]; [|eauto].
    destruct (DG s1) as [dd|e] eqn:E2; cbn [rbind]; [|eauto].
    rewrite Hl. unfold Limiter. cbn [String.eqb Ascii.eqb Bool.eqb].
    destruct (hr_init _) as [h|e]; cbn [rbind]; [|eauto].
    cbn [limit]. unfold adaptive_hr.
    apply Solution_inv in E0. destruct E0 as [icname [params [s' [e [Hsp [Hr [_ [F [_ [T1 T2]]]]]]]]]].
    destruct (run_ic_sens _ _ _ _ _ Hr) as [S1 S2]. cbn [s_sens s_euler blank_solution] in S1, S2.
    destruct (apply_bc_frame _ _ E1) as [F1 F2].
    destruct (dk_thresholds d) as [|t0 [|t1 th]] eqn:Et.
    - rewrite F2, T1, S1 by reflexivity. cbn [rbind]. eauto.
    - rewrite F2, T2 by discriminate. unfold sensing. destruct F1 as [_ [_ [_ [_ [F1 _]]]]]. destruct F as [_ [_ [_ [_ [F _]]]]].
      rewrite F1, F, S2. destruct (String.eqb (dk_system d) "euler"); [|cbn in Hn; lia].
      unfold euler_sensing. cbn [sn_thresholds Sensor threshold nth_error rbind].
      match goal with |- context [mark ?v ?m ?l] => destruct (mark v m l) as [sx|e1] end; cbn [rbind]; eauto.
    - exfalso. destruct (String.eqb (dk_system d) "euler"); cbn in Hn; lia.
  Qed.
End Main.

(** ** the time step of a hollow solution is refused over the reals and in binary64 *)
Lemma no_step_R : no_step (A:=R).
Proof.
  intros dx c v H. assert (E : dx = 0%R) by (destruct H as [->| ->]; cbn; unfold Rdiv; ring).
  exists "Next time step is too small"%string. unfold sanity_check_dt, lit. numR. rewrite E.
  replace (0 * c / v)%R with 0%R by (unfold Rdiv; ring). Rcase 0%R (1 / 100000000000000)%R; [reflexivity|lra].
Qed.
Lemma no_step_SF : no_step (A:=spec_float).
Proof.
  intros dx c v H. destruct H as [->| ->]; cbn.
  - destruct c as [[]|[]| |[] m e]; destruct v as [[]|[]| |[] m' e']; cbn; eexists; reflexivity.
  - eexists. reflexivity.
Qed.

(** ** C53 *)
Section Mesh.
  Context {X : Ext R}.
  Open Scope R_scope.
  Lemma at1_linspace (a b : R) n i : (1 <= n)%nat -> (i <= n)%nat -> at1 (linspace a b (n + 1)) i = a + INR i * ((b - a) / INR n).
  Proof.
    intros Hn Hi. destruct n as [|n]; [lia|]. replace (S n + 1)%nat with (S (S n)) by lia. cbn [linspace]. rewrite at1_tab by lia.
    numR. rewrite <- !INR_IZR_INZ. destruct (Nat.eqb_spec i (S n)) as [->|]; [|ring].
    assert (0 < INR (S n)) by (apply lt_0_INR; lia). field. lra.
  Qed.
  Lemma Solution_mesh icline system order riem enh th s g :
    ic_succeeds icline system order riem -> Solution icline system order riem enh th = Ok (s, g) -> (1 <= s_NE s)%Z ->
    exists icname params ic, split_ws icline = icname :: params /\ ic_lookup icname params gamma_default = Ok ic /\
      let ne := Z.to_nat (s_NE s) in
      ic_A ic < ic_B ic /\ List.length (s_x s) = (ne + 1)%nat /\ at1 (s_x s) 0 = ic_A ic /\ at1 (s_x s) ne = ic_B ic /\
      s_dx s = (ic_B ic - ic_A ic) / INR ne /\
      (forall i, (i < ne)%nat -> at1 (s_x s) (i + 1) - at1 (s_x s) i = s_dx s) /\
      List.length (s_xc s) = ne /\ (forall i, (i < ne)%nat -> at1 (s_xc s) i = (at1 (s_x s) i + at1 (s_x s) (i + 1)) / 2) /\
      List.length (s_minv s) = (order + 1)%nat /\ (forall n, (n <= order)%nat -> at1 (s_minv s) n = INR (2 * n + 1) / s_dx s).
  Proof.
    intros Hic H HNE. apply Solution_Ok in H; [|exact Hic].
    destruct H as [icname [params [s1 [en [Hsp [Hr [Hen' Es]]]]]]].
    apply run_ic_Ok in Hr. destruct Hr as [ic [NE [u [p0 [Hlk [Hp0 [HpN [E1 [Eg [Sh Pr]]]]]]]]]].
    unfold ic_state in E1. subst s1. exists icname, params, ic. split; [exact Hsp|]. split; [exact Hlk|].
    assert (ENE : s_NE s = Z.of_nat NE) by (subst s; reflexivity). rewrite ENE, Nat2Z.id in *. cbv zeta.
    assert (Hne : (1 <= NE)%nat) by lia. assert (Hp : 0 < INR NE) by (apply lt_0_INR; lia).
    assert (Ex : s_x s = linspace (ic_A ic) (ic_B ic) (NE + 1)) by (subst s; reflexivity).
    assert (Exc : s_xc s = centroids (s_x s)) by (subst s; reflexivity).
    assert (Edx : s_dx s = (ic_B ic - ic_A ic) / INR NE).
    { subst s. cbn. unfold linspace_step. destruct (Nat.leb_spec (NE + 1) 1); [lia|]. numR. rewrite INR_IZR_INZ. f_equal. f_equal. f_equal. lia. }
    assert (Lx : List.length (s_x s) = (NE + 1)%nat) by (rewrite Ex; apply length_linspace').
    assert (V : forall i, (i <= NE)%nat -> at1 (s_x s) i = ic_A ic + INR i * s_dx s) by (intros i Hi; rewrite Ex, Edx; apply at1_linspace; lia).
    split; [apply (ic_lookup_AB _ _ _ _ Hlk)|]. split; [exact Lx|].
    split; [rewrite V by lia; cbn [INR]; ring|]. split; [rewrite V, Edx by lia; field; lra|]. split; [exact Edx|].
    split; [intros i Hi; rewrite !V, plus_INR by lia; cbn [INR]; ring|].
    split; [rewrite Exc; apply length_centroids; exact Lx|]. split.
    - intros i Hi. rewrite Exc. unfold centroids.
      assert (Le : List.length (slice_from (s_x s) 1) = NE /\ List.length (slice_to (s_x s) (-1)) = NE).
      { change 1%Z with (Z.of_nat 1). rewrite slice_from_nat. change (-1)%Z with (- Z.of_nat 1)%Z. rewrite slice_to_neg by lia.
        rewrite skipn_length, firstn_length. vlia. }
      unfold at1 at 1. rewrite (nth_map2 _ _ _ i 0 0); [|vlia|vlia].
      change 1%Z with (Z.of_nat 1). rewrite slice_from_nat. change (-1)%Z with (- Z.of_nat 1)%Z. rewrite slice_to_neg by lia.
      rewrite nth_skipn', nth_firstn' by vlia. replace (1 + i)%nat with (i + 1)%nat by lia. unfold at1. numR. cbn [nofZ NumR n0]. unfold Rdiv. 
      change (IZR 0) with 0. field_simplify. reflexivity.
    - assert (Em : s_minv s = map (fun m => m * 2 / s_dx s) (basis_minv (order + 1))).
      { subst s. cbn. unfold Basis. destruct (leggauss (order + 1)). reflexivity. }
      split; [rewrite Em, map_length; unfold basis_minv; apply length_tab|]. intros n Hn.
      assert (0 < s_dx s).
      { rewrite Edx. apply Rdiv_lt_0_compat; [|exact Hp]. pose proof (ic_lookup_AB _ _ _ _ Hlk). lra. }
      rewrite Em. unfold basis_minv. rewrite map_tab, at1_tab by lia. unfold nnat. numR. rewrite <- INR_IZR_INZ. field. lra.
  Qed.
End Mesh.

(** the interval and the boundary condition of each initial condition *)
Definition domain (name : string) : R * R :=
  (if String.eqb name "simplew" then (-4, 4) else if String.eqb name "shuoshe" then (0, 10) else (-1, 1))%R.
Definition outer_bc (name : string) : string :=
  if (String.eqb name "simplew" || String.eqb name "scktube" || String.eqb name "shuoshe")%bool then "zerograd" else "periodic".
Lemma ic_lookup_domain {X : Ext R} name params g ic : ic_lookup (A:=R) name params g = Ok ic ->
  (ic_A ic, ic_B ic) = domain name /\ ic_bc ic = outer_bc name.
Proof.
  unfold ic_lookup, domain, outer_bc. intro H.
  assert (D : forall a b, String.eqb name a = true -> String.eqb a b = false -> String.eqb name b = false).
  { intros a b E1 E2. apply String.eqb_eq in E1. subst name. exact E2. }
  repeat match type of H with (if String.eqb name ?c then _ else _) = _ => destruct (String.eqb name c) eqn:? end; try discriminate;
  repeat match goal with E : String.eqb name ?c = true |- context [String.eqb name ?d] => rewrite (D c d E eq_refl) end;
  try (apply Ok_inj in H; subst ic; cbn; split; [f_equal; lra|reflexivity]).
  destruct (negb _); [discriminate|]. repeat inv_bind H. apply Ok_inj in H. subst ic. cbn; split; [f_equal; lra|reflexivity].
Qed.

(** ** C51: constants.gamma *)
Section Gamma.
  Context {A : Type} {N : Num A} {L : Libm A} {X : Ext A}.
  Lemma ic_lookup_gamma name params g ic : ic_lookup (A:=A) name params gamma_default = Ok ic -> g = ic_gamma ic \/ g = ic_gamma_after ic ->
    g = if String.eqb name "simplew" then nofZ 3 else gamma_default.
  Proof.
    unfold ic_lookup. intros H Hg.
    assert (D : forall a b, String.eqb name a = true -> String.eqb a b = false -> String.eqb name b = false).
    { intros a b E1 E2. apply String.eqb_eq in E1. subst name. exact E2. }
    repeat match type of H with (if String.eqb name ?c then _ else _) = _ => destruct (String.eqb name c) eqn:? end; try discriminate;
    repeat match goal with E : String.eqb name ?c = true |- context [String.eqb name ?d] => rewrite (D c d E eq_refl) end;
    try (apply Ok_inj in H; subst ic; cbn in Hg; destruct Hg; assumption).
    destruct (negb _); [discriminate|]. repeat inv_bind H. apply Ok_inj in H. subst ic. cbn in Hg. destruct Hg; assumption.
  Qed.
  Lemma Solution_gamma icline system order riem enh th s g : Solution (A:=A) icline system order riem enh th = Ok (s, g) ->
    g = if match split_ws icline with name :: _ => String.eqb name "simplew" | [] => false end then nofZ 3 else gamma_default.
  Proof.
    intro H. apply Solution_inv in H. destruct H as [icname [params [s1 [e [Hsp [Hr _]]]]]]. rewrite Hsp.
    unfold run_ic in Hr. cbn [s_icname s_params blank_solution] in Hr.
    destruct (ic_lookup icname params gamma_default) as [ic|e1] eqn:El.
    - destruct (setup_common_ic _ _ _ _) as [s2 e2]. injection Hr as _ <- _. eapply ic_lookup_gamma; [exact El|].
      destruct (0 <? s_NE s2)%Z; auto.
    - injection Hr as _ <- _. destruct (String.eqb icname "simplew") eqn:E; [|reflexivity]. apply String.eqb_eq in E. subst icname. discriminate El.
  Qed.
End Gamma.
