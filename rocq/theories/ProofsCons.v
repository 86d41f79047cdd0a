(** Conservation, locality, boundary conditions: C12, C13, C17, C19. *)
From Coq Require Import ZArith List Bool Arith String Lia Reals Lra.
From Verif Require Import Num Py Lib RealLib LegNumpy Ext Basis Sensor Enhance Limiting AdvectionPhysics EulerPhysics
  Solution Solver RKCoeffs RK SpecTime ProofsTime SpecDG ProofsDG ProofsDG2 ProofsWf.
Import ListNotations.
Open Scope list_scope.
Open Scope nat_scope.

Section BCs.
  Context {A : Type} {N : Num A} {L : Libm A}.
  Variable gamma : A.
  Implicit Types s : solution A.

  Lemma bc_src_cell bl br NF ne e f : 1 <= ne -> f < NF -> e < ne + 2 ->
    bc_src bl br NF ne (e * NF + f) = src_cell bl br ne e * NF + f.
  Proof.
    intros Hne Hf He. unfold bc_src, src_cell.
    destruct (Nat.eqb_spec e 0) as [->|E0].
    - destruct (Nat.ltb_spec (0 * NF + f) NF); [|lia].
      destruct (is_literal bl "periodic"); [lia|]. destruct (is_literal bl "zerograd"); lia.
    - destruct (Nat.ltb_spec (e * NF + f) NF); [nia|].
      destruct (Nat.eqb_spec e (ne + 1)) as [->|E1].
      + destruct (Nat.ltb_spec ((ne + 1) * NF + f) ((ne + 1) * NF)); [lia|].
        destruct (is_literal br "periodic"); [nia|]. destruct (is_literal br "zerograd"); nia.
      + destruct (Nat.ltb_spec (e * NF + f) ((ne + 1) * NF)); [reflexivity|nia].
  Qed.
  Lemma src_cell_lt bl br ne e : 1 <= ne -> e < ne + 2 -> src_cell bl br ne e < ne + 2.
  Proof.
    intros. unfold src_cell. destruct (e =? 0).
    - destruct (is_literal bl "periodic"); [lia|]. destruct (is_literal bl "zerograd"); lia.
    - destruct (e =? ne + 1); [|lia]. destruct (is_literal br "periodic"); [lia|]. destruct (is_literal br "zerograd"); lia.
  Qed.
  Lemma src_cell_interior bl br ne e : 1 <= e <= ne -> src_cell bl br ne e = e.
  Proof. intros. unfold src_cell. destruct (Nat.eqb_spec e 0); [lia|]. destruct (Nat.eqb_spec e (ne + 1)); [lia|reflexivity]. Qed.
  Lemma src_cell_idem bl br ne e : 1 <= ne -> src_cell bl br ne (src_cell bl br ne e) = src_cell bl br ne e.
  Proof.
    intros Hne. unfold src_cell at 2 3. destruct (Nat.eqb_spec e 0) as [->|].
    - destruct (is_literal bl "periodic") eqn:E1; [apply src_cell_interior; lia|].
      destruct (is_literal bl "zerograd") eqn:E2; [apply src_cell_interior; lia|].
      unfold src_cell. rewrite E1, E2. reflexivity.
    - destruct (Nat.eqb_spec e (ne + 1)) as [->|].
      + destruct (is_literal br "periodic") eqn:E1; [apply src_cell_interior; lia|].
        destruct (is_literal br "zerograd") eqn:E2; [apply src_cell_interior; lia|].
        unfold src_cell. rewrite E1, E2. destruct (Nat.eqb_spec (ne + 1) 0); [lia|]. rewrite Nat.eqb_refl. reflexivity.
      + unfold src_cell. destruct (Nat.eqb_spec e 0); [contradiction|]. destruct (Nat.eqb_spec e (ne + 1)); [contradiction|reflexivity].
  Qed.

  Lemma cell_index NF ne e f : f < NF -> e < ne + 2 -> e * NF + f < (ne + 2) * NF. Proof. intros; nia. Qed.
  Lemma modes_bc ne s e f : wf ne s -> e < ne + 2 -> f < s_NF s ->
    modes (with_u s (bc_u ne s)) e f = modes s (src_cell (s_bcl s) (s_bcr s) ne e) f.
  Proof.
    intros W He Hf. unfold modes. cbn [s_u with_u s_NF]. change (s_NF (with_u s (bc_u ne s))) with (s_NF s).
    pose proof (wf_u _ _ W) as [U1 U2].
    apply (vec_ext (s_Ns s)).
    - rewrite length_col. apply length_tab2.
    - rewrite length_col. exact U1.
    - intros n Hn. rewrite !at1_col.
      2: { exact (eq_ind_r (fun k => n < k) Hn U1). }
      2: { refine (eq_ind_r (fun k => n < k) Hn (length_tab2 _ _ _)). }
      unfold bc_u. rewrite at2_tab2 by (try exact Hn; apply cell_index; assumption).
      rewrite bc_src_cell by (try apply (wf_ne _ _ W); assumption). reflexivity.
  Qed.
  (** C19, one call *)
  Lemma apply_bc_modes ne s : wf ne s -> exists s', apply_bc s = Ok s' /\ similar s s' /\ wf ne s' /\
    forall e f, e < ne + 2 -> f < s_NF s -> modes s' e f = modes s (src_cell (s_bcl s) (s_bcr s) ne e) f.
  Proof.
    intro W. exists (with_u s (bc_u ne s)). split; [apply apply_bc_eq; exact W|]. split; [apply similar_with_u|].
    split; [apply wf_apply_bc; exact W|]. intros. apply modes_bc; assumption.
  Qed.
  Lemma modes_at ne s e f n : wf ne s -> e < ne + 2 -> f < s_NF s -> n < s_Ns s -> at1 (modes s e f) n = at2 (s_u s) n (e * s_NF s + f).
  Proof. intros W He Hf Hn. unfold modes. pose proof (wf_u _ _ W) as [U1 _]. apply at1_col. exact (eq_ind_r (fun k => n < k) Hn U1). Qed.
  Lemma length_modes ne s e f : wf ne s -> List.length (modes s e f) = s_Ns s.
  Proof. intro W. unfold modes. rewrite length_col. apply (wf_u _ _ W). Qed.
  (** a coefficient array is determined by the modes *)
  Lemma u_ext ne s s' : wf ne s -> wf ne s' -> s_Ns s' = s_Ns s -> s_NF s' = s_NF s ->
    (forall e f, e < ne + 2 -> f < s_NF s -> modes s e f = modes s' e f) -> s_u s = s_u s'.
  Proof.
    intros W W' EN EF H. pose proof (wf_u _ _ W) as U. pose proof (wf_u _ _ W') as U'. rewrite EN, EF in U'.
    apply (mat_ext _ _ _ _ U U'). intros n j Hn Hj.
    destruct (idx_split (s_NF s) j (NF_pos s)) as [e [f [-> Hf]]].
    assert (He : e < ne + 2) by (apply (idx_lt (s_NF s) e f); assumption).
    rewrite <- (modes_at ne s) by assumption. rewrite H by assumption. rewrite (modes_at ne s') by (rewrite ?EN, ?EF; assumption).
    rewrite EF. reflexivity.
  Qed.
  Lemma apply_bc_idem ne s s' : wf ne s -> apply_bc s = Ok s' -> apply_bc s' = Ok s'.
  Proof.
    intros W H. pose proof (wf_bc _ _ _ W H) as W'. rewrite (apply_bc_eq _ _ W') . rewrite (apply_bc_eq _ _ W) in H.
    apply Ok_inj in H. subst s'. f_equal. set (s1 := with_u s (bc_u ne s)) in *.
    transitivity (with_u s1 (s_u s1)); [|apply with_u_id]. f_equal.
    pose proof (wf_apply_bc ne s1 W') as W2.
    apply (u_ext ne (with_u s1 (bc_u ne s1)) s1 W2 W' eq_refl eq_refl). intros e f He Hf.
    change (s_NF (with_u s1 (bc_u ne s1))) with (s_NF s) in Hf. rewrite (modes_bc ne s1) by assumption.
    unfold s1. rewrite !modes_bc by (first [assumption | apply src_cell_lt; [apply (wf_ne _ _ W)|assumption]]).
    cbn [s_bcl s_bcr with_u]. f_equal. apply src_cell_idem. apply (wf_ne _ _ W).
  Qed.
  (** after every step of a run the ghosts are consistent *)
  Lemma step_bc_fixed ne sol0 d rk l cfl tf nout k tout touts s sc evs s' sc' r :
    wf ne sol0 -> wf_dg ne sol0 d ->
    visits gamma rk d l cfl tf nout sol0 k tout touts s sc evs ->
    time_step gamma (rk_inner gamma rk d l) l cfl tf tout s sc = Ok (s', sc', r) ->
    apply_bc s' = Ok s'.
  Proof.
    intros W D V H. destruct (Wf_visits gamma ne sol0 d l W D _ _ _ _ _ _ _ _ _ _ V) as [I1 [I2 [I3 _]]].
    unfold time_step in H. inv_bind H. destruct x as [[dt o] dn]. inv_bind H. destruct x as [s1 sc1].
    inv_bind H. inv_bind H. apply Ok_inj in H. injection H as <- <- <-.
    assert (W1 : Wf ne sol0 s1).
    { eapply (inner_inv gamma (Wf ne sol0) (Wf ne sol0) (WfK ne sol0) (fun _ => True) d l) in Hx0; try exact I; try (apply Hx0).
      - apply Wf_copy. - apply Wf_axpy. - apply Wf_axpy. - apply Wf_t. - apply Wf_lim.
      - intros; eapply Wf_res; eassumption. - exact I1.
      - destruct I2 as [J1 [J2 J3]]. split; [apply Wf_copy; assumption|split; assumption]. - exact I3. }
    assert (W2 : wf ne x).
    { eapply wf_bc; [|exact Hx1]. apply wf_with_n, wf_with_t. apply W1. }
    assert (F : apply_bc x = Ok x).
    { eapply apply_bc_idem; [|exact Hx1]. apply wf_with_n, wf_with_t. apply W1. }
    destruct l as [h|]; cbn [limit] in Hx2; [|apply Ok_inj in Hx2; subst; exact F].
    unfold adaptive_hr in Hx2. destruct (s_sens x) as [sn|] eqn:Es; [|discriminate]. inv_bind Hx2. inv_bind Hx2.
    eapply apply_bc_idem; [|exact Hx2]. apply (wf_similar ne x); [exact W2| | |].
    - exists (s_t x), (s_n x), (Some x1), (of_columns (nrows (s_u x)) x2). split; [destruct x; reflexivity|].
      rewrite Es. symmetry. eapply sensing_thresholds. exact Hx3.
    - cbn [s_u with_u]. pose proof (wf_u _ _ W2) as Wu. replace (nrows (s_u x)) with (s_Ns x) by (symmetry; apply Wu).
      apply shape_of_columns. rewrite (mapM_Ok_length _ _ _ Hx4), seq_length. eapply shape_ncols; [exact Wu|apply Ns_pos].
    - cbn. rewrite (length_sensing _ _ _ _ _ _ Hx3). pose proof (wf_sens _ _ W2) as Ws. rewrite Es in Ws. exact Ws.
  Qed.

  Lemma residual_char ne s d s1 F : wf ne s -> wf_dg ne s d ->
    residual gamma d s = Ok (s1, F) <->
    apply_bc s = Ok s1 /\ exists q, (forall e, e <= ne -> iface_flux gamma s1 (modes s1) e = Ok (q e)) /\ F = residual_mat gamma ne s1 q.
  Proof.
    intros W D. rewrite (residual_iff gamma ne s d s1 F W D). cbn zeta. rewrite (apply_bc_eq _ _ W). split.
    - intros [-> H]. split; [reflexivity|exact H].
    - intros [E H]. apply Ok_inj in E. subst s1. split; [reflexivity|exact H].
  Qed.

  (** ** C17: locality *)
  Lemma volume_local s s' U U' n e f : similar s s' -> (forall f, f < s_NF s -> U e f = U' e f) ->
    volume_term gamma s U n e f = volume_term gamma s' U' n e f.
  Proof.
    intros [t [k [sn [u [-> _]]]]] H. unfold volume_term. cbn [s_basis with_u with_sens with_n with_t]. f_equal. apply tab_ext. intros g _.
    f_equal. unfold phys_flux. cbn [s_euler with_u with_sens with_n with_t].
    replace (node_state (with_u (with_sens (with_n (with_t s t) k) sn) u) U' e g) with (node_state s U e g); [reflexivity|].
    unfold node_state. apply tab_ext. intros f' Hf'. cbn [s_basis with_u with_sens with_n with_t]. rewrite H by exact Hf'. reflexivity.
  Qed.
  Lemma iface_local s s' U U' e : similar s s' -> (forall f, f < s_NF s -> U e f = U' e f /\ U (e + 1) f = U' (e + 1) f) ->
    iface_flux gamma s U e = iface_flux gamma s' U' e.
  Proof.
    intros [t [k [sn [u [-> _]]]]] H. unfold iface_flux, num_flux. cbn [s_riemann with_u with_sens with_n with_t].
    change (s_NF (with_u (with_sens (with_n (with_t s t) k) sn) u)) with (s_NF s).
    rewrite (tab_ext (s_NF s) (face_minus s U e) (face_minus (with_u (with_sens (with_n (with_t s t) k) sn) u) U' e)).
    rewrite (tab_ext (s_NF s) (face_plus s U e) (face_plus (with_u (with_sens (with_n (with_t s t) k) sn) u) U' e)). reflexivity.
    - intros f Hf. destruct (H f Hf) as [H1 H2]. unfold face_plus. cbn [s_enh s_basis with_u with_sens with_n with_t].
      rewrite H1, H2. reflexivity.
    - intros f Hf. destruct (H f Hf) as [H1 H2]. unfold face_minus. cbn [s_enh s_basis with_u with_sens with_n with_t].
      rewrite H1, H2. reflexivity.
  Qed.
  Lemma residual_interior ne s q n e f : wf ne s -> n < s_Ns s -> 1 <= e <= ne -> f < s_NF s ->
    at2 (residual_mat gamma ne s q) n (e * s_NF s + f) = residual_of gamma s (modes s) (q (e - 1)) (q e) n e f.
  Proof.
    intros W Hn He Hf. unfold residual_mat. rewrite at2_tab2 by (try exact Hn; apply cell_index; lia).
    destruct (divmod_idx (s_NF s) e f Hf) as [-> ->].
    destruct (Nat.leb_spec 1 e); [|lia]. destruct (Nat.leb_spec e ne); [reflexivity|lia].
  Qed.
  Lemma residual_local ne s u d s1 F s1' F' e :
    wf ne s -> shape (s_Ns s) ((ne + 2) * s_NF s) u -> wf_dg ne s d -> 1 <= e <= ne ->
    residual gamma d s = Ok (s1, F) -> residual gamma d (with_u s u) = Ok (s1', F') ->
    (forall c f, c = e - 1 \/ c = e \/ c = e + 1 -> f < s_NF s -> modes s1 c f = modes s1' c f) ->
    forall n f, n < s_Ns s -> f < s_NF s -> at2 F n (e * s_NF s + f) = at2 F' n (e * s_NF s + f).
  Proof.
    intros W U D He H H' Heq n f Hn Hf.
    assert (W' : wf ne (with_u s u)) by (apply wf_with_u; assumption).
    apply (residual_iff gamma ne s d s1 F W D) in H. destruct H as [E1 [q [Hq ->]]].
    apply (residual_iff gamma ne (with_u s u) d s1' F' W' D) in H'. destruct H' as [E1' [q' [Hq' ->]]].
    rewrite <- E1 in Hq. rewrite <- E1 in *. rewrite <- E1' in *.
    assert (Sm : similar s1 s1').
    { rewrite E1, E1'. exists (s_t s), (s_n s), (s_sens s), (bc_u ne (with_u s u)). split; [destruct s; reflexivity|].
      cbn. destruct (s_sens s); reflexivity || exact I. }
    assert (W1 : wf ne s1) by (rewrite E1; apply wf_apply_bc; exact W).
    assert (W1' : wf ne s1') by (rewrite E1'; apply wf_apply_bc; exact W').
    assert (EN : s_NF s = s_NF s1) by (rewrite E1; reflexivity). assert (ENs : s_Ns s = s_Ns s1) by (rewrite E1; reflexivity).
    assert (EN' : s_NF s1' = s_NF s1) by (apply similar_NF; exact Sm). assert (ENs' : s_Ns s1' = s_Ns s1) by (apply similar_Ns; exact Sm).
    rewrite EN in Hf, Heq |- *. rewrite ENs in Hn.
    rewrite (residual_interior ne s1) by assumption. rewrite <- EN'. rewrite (residual_interior ne s1') by (rewrite ?EN', ?ENs'; assumption).
    assert (Q1 : q (e - 1) = q' (e - 1)).
    { apply Ok_inj. rewrite <- Hq, <- Hq' by lia. apply iface_local; [exact Sm|]. intros f' Hf'. replace (e - 1 + 1) with e by lia. split; apply Heq; auto. }
    assert (Q2 : q e = q' e).
    { apply Ok_inj. rewrite <- Hq, <- Hq' by lia. apply iface_local; [exact Sm|]. intros f' Hf'. split; apply Heq; auto. }
    unfold residual_of. rewrite Q1, Q2. rewrite (volume_local s1 s1' (modes s1) (modes s1') n e f Sm) by (intros; apply Heq; auto).
    do 2 f_equal. destruct Sm as [t [k [sn [u' [-> _]]]]]. reflexivity.
  Qed.
  (** in terms of the interior cells: the neighbours after the boundary conditions *)
  Lemma residual_local_cells ne s u d s1 F s1' F' e :
    wf ne s -> shape (s_Ns s) ((ne + 2) * s_NF s) u -> wf_dg ne s d -> 1 <= e <= ne ->
    residual gamma d s = Ok (s1, F) -> residual gamma d (with_u s u) = Ok (s1', F') ->
    let src := src_cell (s_bcl s) (s_bcr s) ne in
    (forall c f, In c [src (e - 1); e; src (e + 1)] -> f < s_NF s -> modes s c f = modes (with_u s u) c f) ->
    forall n f, n < s_Ns s -> f < s_NF s -> at2 F n (e * s_NF s + f) = at2 F' n (e * s_NF s + f).
  Proof.
    intros W U D He H H' src Heq. pose proof (wf_with_u ne s u W U) as W'.
    eapply residual_local; try eassumption.
    pose proof (proj1 (residual_iff gamma ne s d s1 F W D) H) as [-> _].
    pose proof (proj1 (residual_iff gamma ne (with_u s u) d s1' F' W' D) H') as [-> _].
    intros c f Hc Hf. assert (Hc2 : c < ne + 2) by lia.
    rewrite (modes_bc ne s), (modes_bc ne (with_u s u)) by assumption.
    cbn [s_bcl s_bcr with_u]. fold src. apply Heq; [|exact Hf].
    destruct Hc as [->|[->| ->]].
    - left. reflexivity.
    - right. left. unfold src. rewrite src_cell_interior by lia. reflexivity.
    - right. right. left. reflexivity.
  Qed.
End BCs.

(** ** C12, C13: exact arithmetic *)
Section Cons.
  Context {X : Ext R}.
  Variable gamma : R.
  Implicit Types s : solution R.
  Open Scope R_scope.

  Lemma made_similar ne s s' : made ne s -> similar s s' -> wf ne s' -> made ne s'.
  Proof. intros [] [t [n [sn [u [-> _]]]]] W. constructor; assumption. Qed.

  Lemma b_p_Basis p : b_p (Basis (A:=R) p) = p.
  Proof. unfold Basis. destruct (leggauss (p + 1)). reflexivity. Qed.
  Lemma dphi_row0 p g : at1 (row (b_dphi_w (Basis (A:=R) p)) 0) g = 0.
  Proof.
    unfold Basis. destruct (leggauss (p + 1)) as [x w]. cbn [b_dphi_w]. unfold basis_dphi_w, row.
    rewrite nth_tab by lia. unfold at1. destruct (Nat.lt_ge_cases g (List.length x)) as [H|H].
    - rewrite nth_tab by exact H. cbn. ring.
    - rewrite nth_overflow by (rewrite length_tab; exact H). reflexivity.
  Qed.
  Lemma volume_0 ne s U e f : made ne s -> volume_term gamma s U 0 e f = 0.
  Proof.
    intro M. unfold volume_term. rewrite vdot_R_min. apply Rsum_0. intros i _.
    rewrite (md_basis _ _ M). rewrite dphi_row0. ring.
  Qed.
  Lemma mean_residual ne s q e f : made ne s -> (1 <= e <= ne)%nat -> (f < s_NF s)%nat ->
    at2 (residual_mat gamma ne s q) 0 (e * s_NF s + f) = (at1 (q (e - 1)%nat) f - at1 (q e) f) / s_dx s.
  Proof.
    intros M He Hf. rewrite (residual_interior gamma ne s) by (try exact He; try exact Hf; try apply (md_wf _ _ M); apply Ns_pos).
    unfold residual_of. rewrite (volume_0 ne) by exact M. rewrite (md_minv _ _ M) by apply Ns_pos.
    unfold face_term. cbn [Nat.even]. cbn. field. pose proof (md_dx _ _ M). lra.
  Qed.

  (** C12 *)
  Lemma residual_conservative ne s d s1 F f : made ne s -> wf_dg ne s d -> (f < s_NF s)%nat ->
    residual gamma d s = Ok (s1, F) ->
    exists q, (forall e, (e <= ne)%nat -> iface_flux gamma s1 (modes s1) e = Ok (q e)) /\
      nsum (tab ne (fun i => s_dx s * at2 F 0 ((i + 1) * s_NF s + f))) = at1 (q 0%nat) f - at1 (q ne) f.
  Proof.
    intros M D Hf H. pose proof (md_wf _ _ M) as W.
    apply (residual_iff gamma ne s d s1 F W D) in H. destruct H as [-> [q [Hq ->]]]. exists q. split; [exact Hq|].
    set (s1 := with_u s (bc_u ne s)). rewrite nsum_tab.
    assert (M1 : made ne s1) by (eapply made_similar; [exact M|apply similar_with_u|apply wf_apply_bc; exact W]).
    transitivity (Rsum ne (fun i => (fun j => - at1 (q j) f) (S i) - (fun j => - at1 (q j) f) i)).
    - apply Rsum_ext. intros i Hi. change (s_NF s) with (s_NF s1). change (s_dx s) with (s_dx s1).
      rewrite (mean_residual ne s1) by (try exact M1; try exact Hf; lia).
      replace (i + 1 - 1)%nat with i by lia. replace (i + 1)%nat with (S i) by lia. field. pose proof (md_dx _ _ M1). lra.
    - rewrite (Rsum_telescope ne (fun j => - at1 (q j) f)). ring.
  Qed.
  Lemma periodic_ends ne s : wf ne s -> s_bcl s = pylit "periodic" -> s_bcr s = pylit "periodic" ->
    let s1 := with_u s (bc_u ne s) in iface_flux gamma s1 (modes s1) 0 = iface_flux gamma s1 (modes s1) ne.
  Proof.
    intros W Bl Br s1. unfold iface_flux. change (s_NF s1) with (s_NF s).
    assert (E0 : forall f, (f < s_NF s)%nat -> modes s1 0 f = modes s1 ne f /\ modes s1 (0 + 1) f = modes s1 (ne + 1) f).
    { intros f Hf. pose proof (wf_ne _ _ W). unfold s1. rewrite !(modes_bc ne s) by (try assumption; lia). rewrite Bl, Br.
      split; f_equal; unfold src_cell.
      - cbn. destruct (Nat.eqb_spec ne 0); [lia|]. destruct (Nat.eqb_spec ne (ne + 1)); [lia|reflexivity].
      - destruct (Nat.eqb_spec (0 + 1) 0); [lia|]. destruct (Nat.eqb_spec (0 + 1) (ne + 1)); [lia|].
        destruct (Nat.eqb_spec (ne + 1) 0); [lia|]. rewrite Nat.eqb_refl. reflexivity. }
    f_equal; apply tab_ext; intros f Hf; destruct (E0 f Hf) as [E1 E2]; [unfold face_minus|unfold face_plus]; rewrite E1, E2; reflexivity.
  Qed.
  Definition msum (ne NF : nat) (u : mat R) (f : nat) : R := Rsum ne (fun i => at2 u 0 ((i + 1) * NF + f)).
  Lemma total_msum ne s f : wf ne s -> (f < s_NF s)%nat -> total ne s f = s_dx s * msum ne (s_NF s) (s_u s) f.
  Proof.
    intros W Hf. unfold total, msum. rewrite nsum_tab, <- Rsum_scale. apply Rsum_ext. intros i Hi.
    rewrite (modes_at ne s) by (try assumption; try apply Ns_pos; lia). reflexivity.
  Qed.
  Lemma residual_sum_0 ne s d s1 F f : made ne s -> wf_dg ne s d -> (f < s_NF s)%nat ->
    s_bcl s = pylit "periodic" -> s_bcr s = pylit "periodic" ->
    residual gamma d s = Ok (s1, F) -> msum ne (s_NF s) F f = 0.
  Proof.
    intros M D Hf Bl Br H. pose proof (md_wf _ _ M) as W. pose proof H as H'.
    apply (residual_iff gamma ne s d s1 F W D) in H'. destruct H' as [E1 _].
    destruct (residual_conservative ne s d s1 F f M D Hf H) as [q [Hq Hs]].
    pose proof (periodic_ends ne s W Bl Br) as Ep. cbn zeta in Ep. rewrite <- E1 in Ep.
    rewrite (Hq 0%nat), (Hq ne) in Ep by lia. apply Ok_inj in Ep. rewrite Ep in Hs.
    rewrite nsum_tab, Rsum_scale in Hs. unfold msum. pose proof (md_dx _ _ M). apply (Rmult_eq_reg_l (s_dx s)); [|lra]. rewrite Hs. ring.
  Qed.

  (** C13 *)
  Definition keeps_means (l : limiter (A:=R)) (ne : nat) (sol0 : solution R) : Prop := forall s s', wf ne s -> similar sol0 s -> limit gamma l s = Ok s' ->
    forall e f, (1 <= e <= ne)%nat -> (f < s_NF s)%nat -> at1 (modes s' e f) 0 = at1 (modes s e f) 0.
  Lemma no_limiter_keeps ne sol0 : keeps_means None ne sol0.
  Proof. intros s s' _ _ H. cbn in H. apply Ok_inj in H. subst. reflexivity. Qed.

  Section Run.
    Variables (ne : nat) (sol0 : solution R) (d : dg) (l : limiter (A:=R)).
    Hypothesis M0 : made ne sol0.
    Hypothesis D0 : wf_dg ne sol0 d.
    Hypothesis Bl : s_bcl sol0 = pylit "periodic".
    Hypothesis Br : s_bcr sol0 = pylit "periodic".
    Hypothesis HL : keeps_means l ne sol0.
    Let W0 := md_wf _ _ M0.
    Definition Tot s := Wf ne sol0 s /\ forall f, (f < s_NF sol0)%nat -> msum ne (s_NF sol0) (s_u s) f = msum ne (s_NF sol0) (s_u sol0) f.
    Definition TotK (K : mat R) := WfK ne sol0 K /\ forall f, (f < s_NF sol0)%nat -> msum ne (s_NF sol0) K f = 0.

    Lemma msum_mscale a (m : mat R) f : WfK ne sol0 m -> (f < s_NF sol0)%nat ->
      msum ne (s_NF sol0) (mscale a m) f = a * msum ne (s_NF sol0) m f.
    Proof.
      intros H Hf. unfold msum. rewrite <- Rsum_scale. apply Rsum_ext. intros i Hi.
      refine (at2_mscale (s_Ns sol0) ((ne + 2) * s_NF sol0) a m 0 _ H _ _); [apply Ns_pos|apply cell_index; lia].
    Qed.
    Lemma msum_axpy (u : mat R) a m f : WfK ne sol0 u -> WfK ne sol0 m -> (f < s_NF sol0)%nat ->
      msum ne (s_NF sol0) m f = 0 -> msum ne (s_NF sol0) (axpy_mat u a m) f = msum ne (s_NF sol0) u f.
    Proof.
      intros Hu Hm Hf H0. unfold axpy_mat. destruct (nltb _ _); [|reflexivity].
      transitivity (msum ne (s_NF sol0) u f + msum ne (s_NF sol0) (mscale a m) f).
      - unfold msum. rewrite <- Rsum_plus. apply Rsum_ext. intros i Hi.
        refine (at2_madd (s_Ns sol0) ((ne + 2) * s_NF sol0) u (mscale a m) 0 _ _ _ _ _); [exact Hu|apply shape_mscale; exact Hm|apply Ns_pos|apply cell_index; lia].
      - rewrite msum_mscale by assumption. rewrite H0. ring.
    Qed.
    Lemma Wf_u s : Wf ne sol0 s -> WfK ne sol0 (s_u s).
    Proof. intros [W S]. unfold WfK. rewrite <- (similar_Ns _ _ S), <- (similar_NF _ _ S). apply (wf_u _ _ W). Qed.
    Lemma msum_eq s s' f : Wf ne sol0 s -> Wf ne sol0 s' -> (f < s_NF sol0)%nat ->
      (forall e, (1 <= e <= ne)%nat -> at1 (modes s' e f) 0 = at1 (modes s e f) 0) ->
      msum ne (s_NF sol0) (s_u s') f = msum ne (s_NF sol0) (s_u s) f.
    Proof.
      intros [W S] [W' S'] Hf H. unfold msum. apply Rsum_ext. intros i Hi.
      rewrite <- (similar_NF _ _ S) at 2. rewrite <- (similar_NF _ _ S') at 1.
      rewrite <- (modes_at ne s), <- (modes_at ne s').
      - apply H. lia.
      - exact W'. - lia. - rewrite (similar_NF _ _ S'). exact Hf. - apply Ns_pos.
      - exact W. - lia. - rewrite (similar_NF _ _ S). exact Hf. - apply Ns_pos.
    Qed.
    Lemma Tot_bc s s' : Tot s -> apply_bc s = Ok s' -> Tot s'.
    Proof.
      intros [H1 H2] H. assert (W' : Wf ne sol0 s') by (eapply Wf_bc; eassumption). split; [exact W'|].
      intros f Hf. rewrite <- H2 by exact Hf. apply msum_eq; [exact H1|exact W'|exact Hf|].
      intros e He. destruct H1 as [W S]. rewrite (apply_bc_eq _ _ W) in H. apply Ok_inj in H. subst s'.
      rewrite (modes_bc ne s) by (try exact W; try lia; rewrite (similar_NF _ _ S); exact Hf). rewrite src_cell_interior by exact He. reflexivity.
    Qed.
    Lemma Tot_lim s s' : Tot s -> limit gamma l s = Ok s' -> Tot s'.
    Proof.
      intros [H1 H2] H. assert (W' : Wf ne sol0 s') by (eapply Wf_lim; eassumption). split; [exact W'|].
      intros f Hf. rewrite <- H2 by exact Hf. apply msum_eq; [exact H1|exact W'|exact Hf|].
      intros e He. destruct H1 as [W S]. apply (HL s s' W S H); [exact He|]. rewrite (similar_NF _ _ S). exact Hf.
    Qed.
    Lemma TotK_res dt s s' F : True -> Wf ne sol0 s -> residual gamma d s = Ok (s', F) -> Wf ne sol0 s' /\ TotK (mscale dt F).
    Proof.
      intros _ Hs H. destruct (Wf_res gamma ne sol0 d D0 dt s s' F I Hs H) as [R1 R2].
      split; [exact R1|]. split; [exact R2|]. intros f Hf.
      assert (HF : WfK ne sol0 F).
      { destruct Hs as [W S]. destruct (wf_residual gamma _ _ _ _ _ W (Wf_dg ne sol0 d D0 s (conj W S)) H) as [_ R3].
        unfold WfK. rewrite <- (similar_Ns _ _ S), <- (similar_NF _ _ S). exact R3. }
      rewrite msum_mscale by assumption.
      destruct Hs as [W S]. rewrite <- (similar_NF _ _ S). rewrite (residual_sum_0 ne s d s' F f).
      - ring.
      - eapply made_similar; eassumption.
      - apply (Wf_dg ne sol0 d D0 s (conj W S)).
      - rewrite (similar_NF _ _ S). exact Hf.
      - destruct S as [t [n [sn [u [-> _]]]]]. exact Bl.
      - destruct S as [t [n [sn [u [-> _]]]]]. exact Br.
      - exact H.
    Qed.
    Lemma Tot_0 : Tot sol0. Proof. split; [apply Wf_0; exact W0|reflexivity]. Qed.
    Lemma Tot_axpy s a K : Tot s -> TotK K -> Tot (smart_axpy s a K).
    Proof.
      intros [H1 H2] [K1 K2]. split; [apply Wf_axpy; assumption|]. intros f Hf. cbn [s_u smart_axpy with_u].
      rewrite msum_axpy; [apply H2; exact Hf|apply Wf_u; exact H1|exact K1|exact Hf|apply K2; exact Hf].
    Qed.
    Lemma TotK_0 : TotK (zeros2 (nrows (s_u sol0)) (ncols (s_u sol0))).
    Proof.
      split; [apply WfK_0; exact W0|]. intros f Hf. unfold msum. apply Rsum_0. intros i Hi.
      pose proof (wf_u _ _ W0) as U. rewrite (shape_ncols _ _ _ U (Ns_pos _)).
      unfold zeros2. apply at2_tab2; [|apply cell_index; lia].
      unfold nrows. destruct U as [U1 _]. pose proof (Ns_pos sol0). refine (eq_ind_r (fun k => (0 < k)%nat) _ U1). lia.
    Qed.
    Lemma Tot_visits rk cfl tf nout k tout touts s sc evs :
      visits gamma rk d l cfl tf nout sol0 k tout touts s sc evs ->
      Tot s /\ Psc (Wf ne sol0) TotK sc /\ sc_K sc <> [] /\ Forall (fun ev => Tot (ev_sol ev)) evs.
    Proof.
      apply (ProofsWf.visits_inv gamma Tot (Wf ne sol0) TotK (fun _ => True) d l).
      - intros. apply Wf_copy; assumption. - intros s1 s2 H [H' _]. apply Wf_copy; assumption.
      - intros s1 a K H [H' _]. apply Wf_axpy; assumption. - exact Tot_axpy.
      - intros. apply Wf_t. assumption. - intros. eapply Wf_lim; eassumption. - exact TotK_res.
      - intros s1 t n [H1 H2]. split; [apply Wf_n, Wf_t; exact H1|exact H2].
      - exact Tot_bc. - exact Tot_lim. - auto. - exact Tot_0. - apply Wf_0. exact W0. - exact TotK_0.
    Qed.
    Lemma Tot_step rk cfl tf nout k tout touts s sc evs s' sc' r :
      visits gamma rk d l cfl tf nout sol0 k tout touts s sc evs ->
      time_step gamma (rk_inner gamma rk d l) l cfl tf tout s sc = Ok (s', sc', r) -> Tot s'.
    Proof.
      intros V. destruct (Tot_visits _ _ _ _ _ _ _ _ _ _ V) as [V1 [V2 [V3 _]]]. intro H.
      eapply (time_step_inv gamma Tot (Wf ne sol0) TotK (fun _ => True) d l) in H; try exact V1; try exact V2; try exact V3.
      - apply H.
      - intros. apply Wf_copy; assumption. - intros s1 s2 H1 [H' _]. apply Wf_copy; assumption.
      - intros s1 a K H1 [H' _]. apply Wf_axpy; assumption. - exact Tot_axpy.
      - intros. apply Wf_t. assumption. - intros. eapply Wf_lim; eassumption. - exact TotK_res.
      - intros s1 t n [H1 H2]. split; [apply Wf_n, Wf_t; exact H1|exact H2].
      - exact Tot_bc. - exact Tot_lim. - auto.
    Qed.
    Lemma Tot_integrate rk cfl tf nout fuel evs out : integrate gamma rk d l cfl tf nout fuel sol0 = (evs, out) ->
      Forall (fun ev => Tot (ev_sol ev)) evs /\ (forall s', out = Finished s' -> Tot s').
    Proof.
      apply (integrate_inv gamma Tot (Wf ne sol0) TotK (fun _ => True) d l).
      - intros. apply Wf_copy; assumption. - intros s1 s2 H1 [H' _]. apply Wf_copy; assumption.
      - intros s1 a K H1 [H' _]. apply Wf_axpy; assumption. - exact Tot_axpy.
      - intros. apply Wf_t. assumption. - intros. eapply Wf_lim; eassumption. - exact TotK_res.
      - intros s1 t n [H1 H2]. split; [apply Wf_n, Wf_t; exact H1|exact H2].
      - exact Tot_bc. - exact Tot_lim. - auto. - exact Tot_0. - apply Wf_0. exact W0. - exact TotK_0.
    Qed.
    Lemma Tot_total s f : Tot s -> (f < s_NF sol0)%nat -> total ne s f = total ne sol0 f.
    Proof.
      intros [[W S] H] Hf. rewrite (total_msum ne s), (total_msum ne sol0) by (try assumption; rewrite (similar_NF _ _ S); exact Hf).
      rewrite (similar_NF _ _ S), H by exact Hf. destruct S as [t [n [sn [u [-> _]]]]]. reflexivity.
    Qed.
    (** the totals of every snapshot, of the final state, and after every step *)
    Lemma run_conserves rk cfl tf nout fuel evs out f : (f < s_NF sol0)%nat ->
      integrate gamma rk d l cfl tf nout fuel sol0 = (evs, out) ->
      (forall ev, In ev evs -> total ne (ev_sol ev) f = total ne sol0 f) /\
      (forall s', out = Finished s' -> total ne s' f = total ne sol0 f).
    Proof.
      intros Hf H. apply Tot_integrate in H. destruct H as [H1 H2]. rewrite Forall_forall in H1.
      split; intros; apply Tot_total; auto.
    Qed.
  End Run.
End Cons.
