(** What the Solution constructor builds (C53) and what main.py hands to the time integrator. *)
From Coq Require Import ZArith List Bool Arith String Lia Reals Lra.
From Verif Require Import Num Py PyStr Lib RealLib LegNumpy Ext Basis Constants Sensor Enhance Limiting AdvectionPhysics EulerPhysics
  IC Solution Solver RKCoeffs RK IO Deck Main SpecTime ProofsTime SpecDG SpecPoly ProofsDG ProofsDG2 ProofsWf ProofsCons.
Import ListNotations.
Open Scope list_scope.
Open Scope nat_scope.

Section Ctor.
  Context {A : Type} {N : Num A} {L : Libm A} {X : Ext A}.
  Implicit Types s : solution A.

  (** columns *)
  Lemma shape_set_col Ns c (u : mat A) j v : shape Ns c u -> j < c -> shape Ns c (set_col u j v).
  Proof.
    intros [H1 H2] Hj. unfold set_col. split; [rewrite length_tab; exact H1|].
    intros x Hx. unfold tab in Hx. apply in_map_iff in Hx. destruct Hx as [n [<- Hn]]. apply in_seq in Hn.
    assert (Hr : List.length (row u n) = c) by (apply H2; unfold row; apply nth_In; vlia).
    rewrite !app_length, firstn_length, skipn_length. cbn [List.length].
    refine (eq_ind_r (fun k => Nat.min j k + (1 + (k - S j)) = c) _ Hr). lia.
  Qed.
  Lemma at2_set_col Ns c (u : mat A) j v n i : shape Ns c u -> j < c -> n < Ns -> i < c ->
    at2 (set_col u j v) n i = if i =? j then at1 v n else at2 u n i.
  Proof.
    intros [H1 H2] Hj Hn Hi. unfold at2, set_col. unfold row at 1.
    assert (Hl : n < List.length u) by exact (eq_ind_r (fun k => n < k) Hn H1).
    rewrite nth_tab by exact Hl.
    assert (Hr : List.length (row u n) = c) by (apply H2; unfold row; apply nth_In; exact Hl).
    assert (Lf : List.length (firstn j (row u n)) = j).
    { rewrite firstn_length. refine (eq_ind_r (fun k => Nat.min j k = j) _ Hr). lia. }
    unfold at1. destruct (Nat.eqb_spec i j) as [->|Hne].
    - rewrite app_nth2 by (rewrite Lf; lia). rewrite Lf, Nat.sub_diag. reflexivity.
    - destruct (Nat.lt_ge_cases i j) as [Hlt|Hge].
      + rewrite app_nth1 by (rewrite Lf; exact Hlt). apply nth_firstn'. exact Hlt.
      + rewrite app_nth2 by (rewrite Lf; lia). rewrite Lf. destruct (i - j) as [|k] eqn:E; [lia|].
        change (nth k (skipn (S j) (row u n)) n0 = nth i (row u n) n0). rewrite nth_skipn'. f_equal. lia.
  Qed.
  Lemma col_set_col Ns c (u : mat A) j v i : shape Ns c u -> j < c -> i < c ->
    col (set_col u j v) i = if i =? j then tab Ns (fun n => at1 v n) else col u i.
  Proof.
    intros H Hj Hi. pose proof (shape_set_col Ns c u j v H Hj) as H'.
    apply (vec_ext Ns).
    - rewrite length_col. apply H'.
    - destruct (i =? j); [apply length_tab|rewrite length_col; apply H].
    - intros n Hn. rewrite at1_col by (destruct H' as [H1' _]; exact (eq_ind_r (fun k => n < k) Hn H1')).
      rewrite (at2_set_col Ns c) by assumption. destruct (i =? j).
      + rewrite at1_tab by exact Hn. reflexivity.
      + rewrite at1_col by (destruct H as [H1 _]; exact (eq_ind_r (fun k => n < k) Hn H1)). reflexivity.
  Qed.

  (** populate *)
  Lemma populate_char (b : basis A) x NE NF f Ns u0 u : 1 <= NF -> shape Ns (NE * NF) u0 ->
    populate b x NE NF f u0 = (u, None) ->
    shape Ns (NE * NF) u /\ forall e c, e < NE -> c < NF ->
      exists v, projection b (at1 x e) (at1 x (e + 1)) f c = Ok v /\ col u (e * NF + c) = tab Ns (fun n => at1 v n).
  Proof.
    intros HNF H0 H. unfold populate in H.
    assert (G : forall k, k <= NE * NF -> forall u, fold_left (fun (acc : mat A * option exn) j =>
      match acc with
      | (u, Some e) => (u, Some e)
      | (u, None) =>
          match projection b (at1 x (j / NF)) (at1 x (j / NF + 1)) f (j mod NF) with
          | Ok c => (set_col u j c, None)
          | Raise e => (u, Some e)
          end
      end) (seq 0 k) (u0, None) = (u, None) ->
      shape Ns (NE * NF) u /\ forall j, j < k ->
      exists v, projection b (at1 x (j / NF)) (at1 x (j / NF + 1)) f (j mod NF) = Ok v /\ col u j = tab Ns (fun n => at1 v n)).
    { induction k as [|k IH]; intros Hk u1 E.
      - cbn in E. injection E as <-. split; [exact H0|intros; lia].
      - rewrite seq_S, fold_left_app in E. cbn [fold_left Nat.add] in E.
        destruct (fold_left _ (seq 0 k) _) as [u2 [e|]]; [discriminate|].
        destruct (projection _ _ _ _ _) as [v|e] eqn:Ep; [|discriminate]. injection E as <-.
        destruct (IH ltac:(lia) u2 eq_refl) as [S2 C2].
        split; [apply shape_set_col; [exact S2|lia]|]. intros j Hj.
        rewrite (col_set_col Ns (NE * NF)) by (try exact S2; lia).
        destruct (Nat.eqb_spec j k) as [->|]; [exists v; split; [exact Ep|reflexivity]|]. apply C2. lia. }
    destruct (G (NE * NF) (le_n _) u H) as [S C]. split; [exact S|]. intros e c He Hc.
    destruct (C (e * NF + c) ltac:(nia)) as [v [P1 P2]]. destruct (divmod_idx NF e c Hc) as [D1 D2]. rewrite D1, D2 in P1.
    exists v. split; assumption.
  Qed.
  Lemma shape_add_ghosts Ns NF ne (u : mat A) : shape Ns (ne * NF) u -> shape Ns ((ne + 2) * NF) (add_ghosts NF u).
  Proof.
    intros [H1 H2]. unfold add_ghosts. split; [rewrite map_length; exact H1|]. intros x Hx. apply in_map_iff in Hx.
    destruct Hx as [r [<- Hr]]. rewrite !app_length, !length_zeros, (H2 r Hr). lia.
  Qed.
  Lemma col_add_ghosts Ns NF ne (u : mat A) e f : shape Ns (ne * NF) u -> 1 <= e <= ne -> f < NF ->
    col (add_ghosts NF u) (e * NF + f) = col u ((e - 1) * NF + f).
  Proof.
    intros [H1 H2] He Hf. unfold col, add_ghosts. rewrite map_map. apply map_ext_in. intros r Hr. unfold at1.
    rewrite app_nth2 by (rewrite length_zeros; nia). rewrite length_zeros. rewrite app_nth1 by (rewrite (H2 r Hr); nia). f_equal. nia.
  Qed.

  (** shapes of the basis *)
  Lemma b_p_Basis' p : b_p (Basis (A:=A) p) = p.
  Proof. unfold Basis. destruct (leggauss (p + 1)). reflexivity. Qed.
  Lemma Basis_shapes p : (1 <= p + 1 -> List.length (fst (leggauss (p + 1))) = p + 1) ->
    b_NG (Basis (A:=A) p) = p + 1 /\
    shape (b_NG (Basis (A:=A) p)) (p + 1) (b_phi (Basis p)) /\ shape (p + 1) (b_NG (Basis (A:=A) p)) (b_dphi_w (Basis p)) /\
    shape 2 (p + 1) (b_psi (Basis (A:=A) p)) /\ List.length (b_minv (Basis (A:=A) p)) = p + 1.
  Proof.
    intro H. unfold Basis, b_NG. destruct (leggauss (p + 1)) as [x w]. cbn [fst b_x b_phi b_dphi_w b_psi b_minv] in *.
    split; [apply H; lia|]. split; [|split; [|split]].
    - apply shape_tab2.
    - apply shape_tab2.
    - split; [reflexivity|]. intros v [<-|[<-|[]]]; apply length_tab.
    - apply length_tab.
  Qed.

  (** the attributes an initial condition that does not raise leaves behind *)
  Definition ic_state (s0 s : solution A) (ic : ic_spec A) (NE : nat) (u : mat A) : Prop :=
    let x := linspace (ic_A ic) (ic_B ic) (NE + 1) in
    s = with_minv (with_u (with_mesh (with_NE (with_bc s0 (pylit (ic_bc ic)) (pylit (ic_bc ic))) (Z.of_nat NE))
                                     x (centroids x) (linspace_step (ic_A ic) (ic_B ic) (NE + 1)))
                          (add_ghosts (s_NF s0) u))
          (map (fun m => ndiv (nmul m (nofZ 2)) (linspace_step (ic_A ic) (ic_B ic) (NE + 1))) (b_minv (s_basis s0))).

  Lemma run_ic_Ok s0 g s g' : run_ic s0 g = (s, g', None) ->
    exists ic NE u p0, ic_lookup (s_icname s0) (s_params s0) g = Ok ic /\
      nth_error (s_params s0) 0 = Some p0 /\ parse_int p0 = Some (Z.of_nat NE) /\
      ic_state s0 s ic NE u /\ g' = (if 0 <? NE then ic_gamma_after ic else ic_gamma ic) /\
      shape (s_Ns s0) (NE * s_NF s0) u /\
      forall e f, e < NE -> f < s_NF s0 ->
        exists v, projection (s_basis s0) (at1 (linspace (ic_A ic) (ic_B ic) (NE + 1)) e) (at1 (linspace (ic_A ic) (ic_B ic) (NE + 1)) (e + 1)) (ic_f ic) f = Ok v
          /\ col u (e * s_NF s0 + f) = tab (s_Ns s0) (fun n => at1 v n).
  Proof.
    unfold run_ic. intro H. destruct (ic_lookup _ _ _) as [ic|e] eqn:Ei; [|discriminate].
    destruct (setup_common_ic _ _ _ _) as [s2 e2] eqn:Es. injection H as <- Hg ->.
    unfold setup_common_ic in Es. cbn [s_params with_bc] in Es.
    destruct (nth_error (s_params s0) 0) as [p0|] eqn:En; [|discriminate].
    destruct (parse_int p0) as [NE|] eqn:Ep; [|discriminate].
    destruct (Z.ltb_spec (NE + 1) 0) as [Hz|Hz]; [discriminate|].
    destruct (Z.ltb_spec NE 0) as [Hz'|Hz']; [discriminate|].
    destruct (populate _ _ _ _ _ _) as [u o] eqn:Epop. destruct o as [e|]; [discriminate|]. injection Es as <-.
    exists ic, (Z.to_nat NE), u, p0. split; [reflexivity|]. split; [reflexivity|]. rewrite Z2Nat.id by lia. split; [exact Ep|].
    apply (populate_char _ _ _ _ _ (s_Ns s0)) in Epop; [|apply NF_pos|apply shape_tab2].
    replace (Z.to_nat (NE + 1)) with (Z.to_nat NE + 1) in * by lia.
    destruct Epop as [Sh Pr]. split; [|split; [|split; [exact Sh|exact Pr]]].
    - unfold ic_state. rewrite Z2Nat.id by lia. reflexivity.
    - subst g'. cbn [s_NE with_minv with_u with_mesh with_NE]. destruct (Z.ltb_spec 0 NE), (Nat.ltb_spec 0 (Z.to_nat NE)); try reflexivity; lia.
  Qed.

  (** "the initial condition did not raise" *)
  Definition ic_succeeds (icline system : string) (order : nat) (riemann : string) : Prop :=
    match split_ws icline with
    | [] => False
    | icname :: params =>
        snd (run_ic (blank_solution icname params (String.eqb system "euler") (riemann_choice (String.eqb system "euler") riemann) order) gamma_default) = None
    end.

  (** a completed construction *)
  Lemma Solution_Ok icline system order riemann enh th s g :
    ic_succeeds icline system order riemann ->
    Solution icline system order riemann enh th = Ok (s, g) ->
    exists icname params s1 en, split_ws icline = icname :: params /\
      run_ic (blank_solution icname params (String.eqb system "euler") (riemann_choice (String.eqb system "euler") riemann) order) gamma_default = (s1, g, None) /\
      (if String.eqb enh "" then en = None else exists e, Enhance order enh = Ok e /\ en = Some e) /\
      s = with_sens (with_enh s1 en) (match th with [] => None | _ => Some (Sensor th (Z.to_nat (s_NE s1 + 2))) end).
  Proof.
    unfold ic_succeeds, Solution. destruct (split_ws icline) as [|icname params]; [contradiction|].
    destruct (run_ic _ _) as [[s1 g1] o] eqn:Er. cbn [snd]. intros ->. intro H.
    assert (En : s_enh s1 = None /\ s_sens s1 = None).
    { apply run_ic_Ok in Er. destruct Er as [ic [NE [u [p0 [_ [_ [_ [-> _]]]]]]]]. split; reflexivity. }
    destruct En as [En Es].
    inv_bind H. exists icname, params, s1. destruct (String.eqb enh "").
    - exists None. apply Ok_inj in Hx. subst x. destruct th as [|t0 th].
      + apply Ok_inj in H. injection H as <- <-. split; [reflexivity|]. split; [exact Er|]. split; [reflexivity|].
        destruct s1; cbn in *; subst; reflexivity.
      + destruct (_ <? 0)%Z; [discriminate|]. apply Ok_inj in H. injection H as <- <-.
        split; [reflexivity|]. split; [exact Er|]. split; [reflexivity|].
        destruct s1; cbn in *; subst; reflexivity.
    - inv_bind Hx. apply Ok_inj in Hx. subst x. exists (Some x0). destruct th as [|t0 th].
      + apply Ok_inj in H. injection H as <- <-. split; [reflexivity|]. split; [exact Er|]. split; [eauto|].
        destruct s1; cbn in *; subst; reflexivity.
      + destruct (_ <? 0)%Z; [discriminate|]. apply Ok_inj in H. injection H as <- <-.
        split; [reflexivity|]. split; [exact Er|]. split; [eauto|].
        destruct s1; cbn in *; subst; reflexivity.
  Qed.

  Definition enh_lengths (s : solution A) : Prop :=
    match s_enh s with
    | None => True
    | Some e => List.length (e_alphaL e) = s_Ns s /\ List.length (e_alphaR e) = s_Ns s
                /\ List.length (e_betaL e) = s_Ns s /\ List.length (e_betaR e) = s_Ns s
    end.

  Lemma length_centroids (x : vec A) n : List.length x = n + 1 -> List.length (centroids x) = n.
  Proof.
    intro H. unfold centroids. rewrite length_map2. change 1%Z with (Z.of_nat 1). change (-1)%Z with (- Z.of_nat 1)%Z.
    rewrite slice_from_nat, slice_to_neg by lia. rewrite skipn_length, firstn_length. lia.
  Qed.
  Lemma length_linspace' (a b : A) n : List.length (linspace a b n) = n.
  Proof. destruct n as [|[|n]]; try reflexivity. cbn [linspace]. apply length_tab. Qed.

  Lemma Solution_wf icline system order riemann enh th s g :
    (forall n, 1 <= n -> List.length (fst (leggauss (A:=A) n)) = n) ->
    ic_succeeds icline system order riemann ->
    Solution icline system order riemann enh th = Ok (s, g) -> (1 <= s_NE s)%Z -> enh_lengths s ->
    wf (Z.to_nat (s_NE s)) s /\ s_basis s = Basis order.
  Proof.
    intros HG Hic H HNE Hen. apply Solution_Ok in H; [|exact Hic].
    destruct H as [icname [params [s1 [en [Hsp [Hr [Hen' Es]]]]]]].
    apply run_ic_Ok in Hr. destruct Hr as [ic [NE [u [p0 [Hlk [Hp0 [HpN [E1 [Eg [Sh Pr]]]]]]]]]].
    unfold ic_state in E1. subst s1. cbn [s_NE with_minv with_u with_mesh with_NE] in Es.
    assert (ENE : s_NE s = Z.of_nat NE) by (subst s; reflexivity).
    rewrite ENE in *. rewrite Nat2Z.id.
    assert (Eb : s_basis s = Basis order) by (subst s; reflexivity).
    assert (ENF : s_NF s = if String.eqb system "euler" then 3 else 1) by (subst s; reflexivity).
    assert (ENs : s_Ns s = order + 1) by (subst s; unfold s_Ns, b_Ns; cbn; rewrite b_p_Basis'; reflexivity).
    destruct (Basis_shapes order (HG (order + 1))) as [B1 [B2 [B3 [B4 B5]]]].
    split; [|exact Eb]. constructor.
    - lia.
    - exact ENE.
    - rewrite Eb, B1. lia.
    - replace (s_u s) with (add_ghosts (s_NF s) u) by (subst s; reflexivity). apply shape_add_ghosts. subst s. exact Sh.
    - rewrite Eb, ENs. exact B2.
    - rewrite Eb, ENs. exact B3.
    - rewrite Eb, ENs. exact B4.
    - rewrite ENs, <- B5. subst s. cbn. apply map_length.
    - subst s. cbn. unfold riemann_choice. destruct (String.eqb system "euler").
      + destruct (String.eqb riemann "rusanov"); [split; discriminate|]. destruct (String.eqb riemann "godunov"); split; discriminate.
      + split; reflexivity.
    - exact Hen.
    - subst s. cbn. apply length_centroids. apply length_linspace'.
    - subst s. cbn. destruct th as [|t0 th]; [exact I|]. cbn. rewrite length_tab. lia.
  Qed.
  Lemma DG_wf ne s d : wf ne s -> DG s = Ok d -> wf_dg ne s d.
  Proof.
    intros W H. unfold DG in H. rewrite (wf_NE _ _ W) in H. destruct (_ || _)%bool; [discriminate|]. apply Ok_inj in H. subst d.
    split; cbn; [apply (wf_u _ _ W)|]. lia.
  Qed.
  Lemma DG_total ne s : wf ne s -> exists d, DG s = Ok d.
  Proof.
    intros W. unfold DG. rewrite (wf_NE _ _ W). destruct (_ || _)%bool eqn:E; [|eauto].
    apply orb_prop in E. destruct E as [E|E]; apply Z.ltb_lt in E; nia.
  Qed.

  (** the boundary conditions of the built-in initial conditions *)
  Lemma ic_lookup_bc name params g ic : ic_lookup (A:=A) name params g = Ok ic ->
    (ic_bc ic = "periodic" \/ ic_bc ic = "zerograd")%string.
  Proof.
    unfold ic_lookup. repeat match goal with |- context [if ?c then _ else _] => destruct c end;
      intro H; try discriminate; try (apply Ok_inj in H; subst ic; cbn; auto; fail).
    repeat inv_bind H. apply Ok_inj in H. subst ic. cbn. auto.
  Qed.
End Ctor.

Section CtorR.
  Context {X : Ext R}.
  Implicit Types s : solution R.
  Open Scope R_scope.

  Lemma ic_lookup_AB name params g ic : ic_lookup (A:=R) name params g = Ok ic -> ic_A ic < ic_B ic.
  Proof.
    unfold ic_lookup. repeat match goal with |- context [if ?c then _ else _] => destruct c end;
      intro H; try discriminate; try (apply Ok_inj in H; subst ic; cbn; lra).
    repeat inv_bind H. apply Ok_inj in H. subst ic. cbn. lra.
  Qed.
  Lemma Solution_made icline system order riemann enh th s g :
    (forall n, (1 <= n)%nat -> List.length (fst (leggauss (A:=R) n)) = n) ->
    ic_succeeds icline system order riemann ->
    Solution icline system order riemann enh th = Ok (s, g) -> (1 <= s_NE s)%Z -> enh_lengths s ->
    made (Z.to_nat (s_NE s)) s.
  Proof.
    intros HG Hic H HNE Hen. destruct (Solution_wf _ _ _ _ _ _ _ _ HG Hic H HNE Hen) as [W Eb].
    apply Solution_Ok in H; [|exact Hic].
    destruct H as [icname [params [s1 [en [Hsp [Hr [Hen' Es]]]]]]].
    apply run_ic_Ok in Hr. destruct Hr as [ic [NE [u [p0 [Hlk [Hp0 [HpN [E1 [Eg [Sh Pr]]]]]]]]]].
    unfold ic_state in E1. subst s1. apply ic_lookup_AB in Hlk.
    assert (ENE : s_NE s = Z.of_nat NE) by (subst s; reflexivity). rewrite ENE in HNE.
    assert (Edx : s_dx s = (ic_B ic - ic_A ic) / INR NE).
    { subst s. cbn. unfold linspace_step. destruct (Nat.leb_spec (NE + 1) 1); [lia|]. numR. rewrite INR_IZR_INZ. f_equal. f_equal. f_equal. lia. }
    assert (0 < INR NE) by (apply lt_0_INR; lia).
    constructor; [exact W|rewrite Eb, b_p_Basis'; reflexivity| |].
    - rewrite Edx. apply Rdiv_lt_0_compat; lra.
    - intros n Hn. rewrite Edx. assert (ENs : s_Ns s = (order + 1)%nat) by (subst s; unfold s_Ns, b_Ns; cbn; rewrite b_p_Basis'; reflexivity).
      rewrite ENs in Hn.
      assert (Em : s_minv s = map (fun m => m * 2 / ((ic_B ic - ic_A ic) / INR NE)) (basis_minv (order + 1))).
      { subst s. cbn [s_minv with_sens with_enh with_minv s_basis blank_solution]. rewrite <- Edx. cbn. unfold Basis. destruct (leggauss (order + 1)). reflexivity. }
      rewrite Em. unfold basis_minv. rewrite map_tab, at1_tab by exact Hn. unfold nnat. numR. rewrite <- INR_IZR_INZ. field. split; lra.
  Qed.
End CtorR.
