(** Advection runs with rk3 do not increase the L2 norm. *)
From Coq Require Import ZArith List Bool Arith String Lia Reals Lra Psatz Sorting.Sorted.
From Verif Require Import Num Py PyStr Lib RealLib LegNumpy Ext Basis Enhance AdvectionPhysics Solution Solver RKCoeffs RK SpecDG SpecMonotone SpecTime SpecPoly SpecRK SpecUniform SpecSuper SpecL2
  ProofsPoly ProofsLeg ProofsGauss ProofsDG ProofsCons ProofsWf ProofsBasis ProofsAdv ProofsTime ProofsTime2 ProofsRun ProofsRKLin ProofsRKOrder ProofsRKTables ProofsUniform ProofsAnalysis3 ProofsMonotone ProofsSuper ProofsL2.
Import ListNotations.
Open Scope list_scope.
Open Scope R_scope.

(** * what every step preserves, as a relation: snapshots are ordered by it *)
Lemma sorted_snoc {E} (Rel : E -> E -> Prop) l x : StronglySorted Rel l -> Forall (fun y => Rel y x) l -> StronglySorted Rel (l ++ [x]).
Proof.
  induction 1 as [|a l H IH F]; intro G; cbn [app]; [constructor; constructor|]. inversion G as [|? ? G1 G2]; subst. constructor; [apply IH; exact G2|].
  apply Forall_app. split; [exact F|]. constructor; [exact G1|constructor].
Qed.
Section Ordered.
  Context {A : Type} {N : Num A} {L : Libm A}.
  Variables (gamma : A) (rk : string) (d : dg) (l : @limiter A) (cfl tf : A) (nout : Z) (sol0 : solution A).
  Notation visits := (visits gamma rk d l cfl tf nout sol0).
  Notation step := (time_step gamma (rk_inner gamma rk d l) l cfl tf).
  Variable P : solution A -> Prop.
  Variable Rel : solution A -> solution A -> Prop.
  Hypothesis P0 : P sol0.
  Hypothesis PS : forall k tout touts s sc evs s' sc' r, visits k tout touts s sc evs -> P s -> step tout s sc = Ok (s', sc', r) -> P s' /\ Rel s s'.
  Hypothesis RR : forall s, P s -> Rel s s.
  Hypothesis RT : forall s1 s2 s3, Rel s1 s2 -> Rel s2 s3 -> Rel s1 s3.
  Let le (a b : event A) : Prop := Rel (ev_sol a) (ev_sol b).
  Lemma loop_ordered fuel : forall k tout touts s sc evs evs' out, visits k tout touts s sc evs -> P s -> StronglySorted le evs -> Forall (fun ev => Rel (ev_sol ev) s) evs ->
    time_loop gamma (rk_inner gamma rk d l) l cfl tf fuel k tout touts s sc evs = (evs', out) ->
    StronglySorted le evs' /\ forall s', out = Finished s' -> Forall (fun ev => Rel (ev_sol ev) s') evs'.
  Proof.
    induction fuel as [|fuel IH]; intros k tout touts s sc evs evs' out V Hs Ho He H.
    - cbn in H. injection H as <- <-. split; [exact Ho|discriminate].
    - cbn [time_loop] in H. destruct (step tout s sc) as [[[s1 sc1] [[dt o] dn]]|e] eqn:Est.
      2: { injection H as <- <-. split; [exact Ho|discriminate]. }
      destruct (PS _ _ _ _ _ _ _ _ _ V Hs Est) as [H1 H2].
      assert (He1 : Forall (fun ev => Rel (ev_sol ev) s1) evs) by (eapply Forall_impl; [|exact He]; intros ev Q; eapply RT; [exact Q|exact H2]).
      destruct o.
      + destruct (printer k dt s1) as [ev|e] eqn:Ep; [|injection H as <- <-; split; [exact Ho|discriminate]].
        assert (Ev : ev_sol ev = s1) by (pose proof Ep as Ep'; apply printer_Ok in Ep'; subst ev; reflexivity).
        assert (Ho' : StronglySorted le (evs ++ [ev])) by (apply sorted_snoc; [exact Ho|]; eapply Forall_impl; [|exact He1]; intros e Q; unfold le; rewrite Ev; exact Q).
        assert (He' : Forall (fun ev => Rel (ev_sol ev) s1) (evs ++ [ev])) by (apply Forall_app; split; [exact He1|]; constructor; [rewrite Ev; apply RR; exact H1|constructor]).
        destruct dn; [injection H as <- <-; split; [exact Ho'|intros s' E; injection E as <-; exact He']|].
        destruct touts as [|tout' touts']; [injection H as <- <-; split; [exact Ho'|discriminate]|].
        eapply IH; [eapply visits_output; eassumption|exact H1|exact Ho'|exact He'|exact H].
      + destruct dn; [injection H as <- <-; split; [exact Ho|intros s' E; injection E as <-; exact He1]|].
        eapply IH; [eapply visits_quiet; eassumption|exact H1|exact Ho|exact He1|exact H].
  Qed.
  Lemma run_ordered fuel evs out : integrate gamma rk d l cfl tf nout fuel sol0 = (evs, out) ->
    StronglySorted le evs /\ forall s', out = Finished s' -> Forall (fun ev => Rel (ev_sol ev) s') evs.
  Proof.
    intro H. rewrite integrate_run_rk in H. unfold run_rk in H.
    destruct (nout <? 0)%Z; [injection H as <- <-; split; [constructor|discriminate]|].
    destruct (printer 0 n0 sol0) as [ev|e] eqn:Ep; [|injection H as <- <-; split; [constructor|discriminate]].
    assert (Ev : ev_sol ev = sol0) by (pose proof Ep as Ep'; apply printer_Ok in Ep'; subst ev; reflexivity).
    assert (Ho : StronglySorted le [ev]) by (constructor; constructor).
    destruct (slice_from (linspace (s_t sol0) tf (Z.to_nat nout)) 1) as [|tout touts] eqn:Et; [injection H as <- <-; split; [exact Ho|discriminate]|].
    eapply loop_ordered; [apply visits_start; [exact Ep|exact Et]|exact P0|exact Ho| |exact H]. constructor; [rewrite Ev; apply RR; exact P0|constructor].
  Qed.
End Ordered.

(** * the operator of the code is [dop] *)
Lemma sgn_leg n : LegP n (-1) = sgn n.
Proof. rewrite LegP_atm1. unfold sgn. rewrite <- Nat.negb_even. destruct (Nat.even n); reflexivity. Qed.
Lemma vmat_int n m : nint (fun x => dLegP n x * LegP m x) (-1) 1 (vmat n m).
Proof.
  assert (LO : forall a b, (a <= b)%nat -> nint (fun x => dLegP a x * LegP b x) (-1) 1 0).
  { intros a b H. destruct a as [|a]; [apply (nint_ext (fun _ => 0)); [intro; rewrite dLegP_0; ring|apply nint_0]|].
    apply (nint_low_orth a); [pose proof (dLegP_poly (S a)) as Q; replace (S a - 1)%nat with a in Q by lia; exact Q|lia]. }
  unfold vmat. destruct (Nat.ltb_spec m n) as [H|H]; [|apply LO; exact H].
  assert (Q : nint (fun x => dLegP n x * LegP m x + LegP n x * dLegP m x) (-1) 1 (LegP n 1 * LegP m 1 - LegP n (-1) * LegP m (-1))).
  { apply (nint_deriv (fun x => LegP n x * LegP m x)). intro x. apply (dlim_mult (LegP n) (LegP m)); apply LegP_deriv. }
  pose proof (nint_minus _ _ _ _ _ _ Q (LO m n ltac:(lia))) as Q2. rewrite !LegP_at1, !sgn_leg in Q2.
  eapply nint_val; [|eapply nint_ext; [|exact Q2]]; [ring|]. intro x. cbv beta. ring.
Qed.
Lemma l2sq_unique ne s E E' : l2sq ne s E -> l2sq ne s E' -> E = E'.
Proof.
  intros [v [Hv ->]] [v' [Hv' ->]]. apply Rsum_ext. intros i Hi. eapply integral_unique; [apply Hv; lia|apply Hv'; lia].
Qed.
Lemma cfl_max_le p cfl : cfl <= cfl_max p -> 2 * (INR (p + 1) * INR (p + 1)) * cfl <= INR (2 * p + 1).
Proof.
  intro H. pose proof (lt_0_INR (p + 1) ltac:(lia)) as Hp. assert (H1 : 0 < 2 * (INR (p + 1) * INR (p + 1))) by (apply Rmult_lt_0_compat; [lra|]; apply Rmult_lt_0_compat; exact Hp).
  apply Rle_trans with (2 * (INR (p + 1) * INR (p + 1)) * cfl_max p); [apply Rmult_le_compat_l; lra|]. unfold cfl_max. apply Req_le. field. lra.
Qed.


Section Link.
  Context {X : Ext R}.
  Hypothesis G : gauss_ok.
  Variables (ne : nat) (sol0 : solution R).
  Hypothesis M : made ne sol0.
  Hypothesis Ha : s_euler sol0 = false.
  Hypothesis He : s_enh sol0 = None.
  Hypothesis Hl : is_literal (s_bcl sol0) "periodic" = true.
  Notation N := (s_Ns sol0).
  Notation h := (s_dx sol0).
  Let Hne : (1 <= ne)%nat := wf_ne _ _ (md_wf _ _ M).
  Let Hh : 0 < h := md_dx _ _ M.
  Lemma src_in_id e : (1 <= e <= ne)%nat -> src_cell (s_bcl sol0) (s_bcr sol0) ne e = e.
  Proof. intro H. unfold src_cell. destruct (Nat.eqb_spec e 0); [lia|]. destruct (Nat.eqb_spec e (ne + 1)); [lia|reflexivity]. Qed.
  Lemma bc_col1 e : (1 <= e <= ne)%nat -> bc_column ne sol0 e = e.
  Proof. intro H. unfold bc_column. rewrite (adv_NF sol0 Ha), Nat.div_1_r, Nat.mod_1_r, src_in_id by exact H. lia. Qed.
  Lemma bc_col_prev e : (1 <= e <= ne)%nat -> bc_column ne sol0 (e - 1) = prev ne e.
  Proof.
    intro H. unfold prev. destruct (Nat.eqb_spec e 1) as [->|N1]; [|apply bc_col1; lia].
    unfold bc_column. rewrite (adv_NF sol0 Ha), Nat.div_1_r, Nat.mod_1_r. unfold src_cell. rewrite Hl. cbn [Nat.eqb Nat.sub]. lia.
  Qed.
  Lemma adv_dop x n e : (n < N)%nat -> (1 <= e <= ne)%nat -> adv_op ne sol0 x n e = dop N ne h x n e.
  Proof.
    intros Hn Hee. pose proof (md_basis _ _ M) as EB. set (p := b_p (s_basis sol0)) in *.
    assert (EN : N = (p + 1)%nat) by reflexivity.
    unfold adv_op, dop. cbv zeta. rewrite (adv_NF sol0 Ha), !Nat.div_1_r.
    destruct (Nat.leb_spec 1 e); [|lia]. destruct (Nat.leb_spec e ne); [|lia]. cbn [andb].
    rewrite (md_minv _ _ M n Hn), plus_INR, INR_2k. cbn [INR].
    assert (FU : forall j, face_up ne sol0 x j = at_right N x (bc_column ne sol0 j)).
    { intro j. unfold face_up, at_right. rewrite He. apply Rsum_ext. intros m Hm. rewrite EB. rewrite (proj2 (psi_entry p m ltac:(lia))), LegP_at1. ring. }
    rewrite !FU, bc_col1, bc_col_prev by exact Hee.
    assert (VT : Rsum (b_NG (s_basis sol0)) (fun g => at2 (b_dphi_w (s_basis sol0)) n g * Rsum N (fun m => at2 (b_phi (s_basis sol0)) g m * x m e)) = Rsum N (fun m => vmat n m * x m e)).
    { rewrite EB. unfold b_NG. set (B := Basis p) in *.
      rewrite (Rsum_ext _ _ (fun g => Rsum N (fun m => at2 (b_dphi_w B) n g * at2 (b_phi B) g m * x m e))) by (intros g _; rewrite <- Rsum_scale; apply Rsum_ext; intros; ring).
      rewrite Rsum_swap. apply Rsum_ext. intros m Hm. rewrite Rsum_scale_r. f_equal.
      rewrite <- (G_exact G p (fun y => dLegP n y * LegP m y) (vmat n m)); [| |apply vmat_int].
      2:{ apply (is_poly_le (n - 1 + m)); [lia|apply is_poly_mult; [apply dLegP_poly|apply LegP_poly]]. }
      fold B. replace (List.length (b_x B)) with (p + 1)%nat by (symmetry; apply (G_len G)). apply Rsum_ext. intros g Hg. assert (Hg' : (g < List.length (b_x (Basis p)))%nat) by (rewrite (G_len G); exact Hg).
      unfold B. rewrite phi_entry, dphi_entry by (first [exact Hg'|lia]). unfold at1. numR. ring. }
    rewrite VT. unfold sgn. destruct (Nat.even n); field; lra.
  Qed.
  Lemma adv_power k x : eqi N ne (power (adv_op ne sol0) k x) (power (dop N ne h) k x).
  Proof.
    induction k as [|k IH]; cbn [power]; [intros n e _ _; reflexivity|]. intros n e Hn Hee. rewrite adv_dop by assumption. apply (dop_ext N ne h); assumption.
  Qed.
  Section Run.
    Variables (gamma : R) (d : dg) (cfl tf : R) (nout : Z).
    Hypothesis D : wf_dg ne sol0 d.
    Hypothesis Hn2 : (2 <= nout)%Z.
    Hypothesis Ht : s_t sol0 <= tf.
    Lemma step_dt rk k tout touts s sc evs s' sc' dt o dn : visits gamma rk d None cfl tf nout sol0 k tout touts s sc evs ->
      time_step gamma (rk_inner gamma rk d None) None cfl tf tout s sc = Ok (s', sc', (dt, o, dn)) ->
      0 <= dt /\ INR (2 * b_p (s_basis sol0) + 1) * dt <= h * cfl /\ s_t s' = s_t s + dt.
    Proof.
      intros V T. destruct (step_times gamma rk d None cfl tf nout sol0 Hn2 Ht _ _ _ _ _ _ _ _ _ _ _ V T) as [D0 [Et _]].
      destruct (Wf_visits gamma ne sol0 d None (md_wf _ _ M) D _ _ _ _ _ _ _ _ _ _ V) as [[W1 S1] _].
      destruct (similar_fields _ _ S1) as [F1 [_ [F3 [F4 _]]]].
      destruct (time_step_clock gamma _ _ _ _ _ _ _ _ _ _ _ _ (fun _ _ _ _ _ => frame_inner gamma rk d None _ _ _ _ _) T) as [Nx _].
      apply next_step_cases in Nx. destruct Nx as [v [Hv [_ Hcs]]]. unfold max_wave_speed in Hv. rewrite F3, Ha in Hv. unfold adv_max_wave_speed in Hv. apply Ok_inj in Hv. subst v.
      rewrite F1, F4 in Hcs. unfold n1 in Hcs. cbn [nofZ NumR] in Hcs. set (q := INR (2 * b_p (s_basis sol0) + 1)) in *.
      assert (Hq : 0 < q) by (apply lt_0_INR; lia).
      assert (Q : dt <= h * cfl / (1 * q)) by (destruct Hcs as [[? [-> _]]|[[? [? [-> _]]]|[? [? [-> _]]]]]; lra).
      split; [exact D0|]. split; [|exact Et]. replace (h * cfl) with (q * (h * cfl / (1 * q))) by (field; lra). apply Rmult_le_compat_l; lra.
    Qed.
    Lemma rk3_step k tout touts s sc evs s' sc' dt o dn : visits gamma "rk3" d None cfl tf nout sol0 k tout touts s sc evs ->
      time_step gamma (rk_inner gamma "rk3" d None) None cfl tf tout s sc = Ok (s', sc', (dt, o, dn)) -> eqi N ne (at2 (s_u s')) (step3 N ne h dt (at2 (s_u s))).
    Proof.
      intros V T n e Hn Hee. pose proof (adv_step gamma ne sol0 d "rk3" cfl tf nout _ _ _ _ _ _ _ _ _ _ _ (md_wf _ _ M) D Ha V T e 0 n ltac:(lia) ltac:(rewrite (adv_NF sol0 Ha); lia) Hn) as E.
      rewrite (adv_NF sol0 Ha), !Nat.mul_1_r, !Nat.add_0_r, src_in_id in E by exact Hee. rewrite E.
      change (rk_choice "rk3") with rk3_table. change (stages rk3_table) with 3%nat. cbn [Rsum].
      rewrite (proj1 (exact_growths 0)), (proj1 (exact_growths 1)), (proj1 (exact_growths 2)), (proj1 (exact_growths 3)) by lia.
      rewrite !adv_power by assumption. set (x := at2 (s_u s)). cbn [power]. unfold step3, lop.
      rewrite (dop_scale N ne h dt (dop N ne h x)).
      rewrite (dop_ext N ne h Hne (fun n0 e0 => dt * dop N ne h (fun n1 e1 => dt * dop N ne h x n1 e1) n0 e0) (fun n0 e0 => dt * dt * dop N ne h (dop N ne h x) n0 e0))
        by (first [assumption|intros n0 e0 _ _; rewrite (dop_scale N ne h dt (dop N ne h x)); ring]).
      rewrite (dop_scale N ne h (dt * dt) (dop N ne h (dop N ne h x))). cbn [fact pow Nat.mul Nat.add INR]. field.
    Qed.
    (** the norm of the code's states *)
    Definition nrm2 (s : solution R) : R := ip N ne (at2 (s_u s)) (at2 (s_u s)).
    Lemma cell_modes s e : Wf ne sol0 s -> (1 <= e <= ne)%nat -> List.length (modes s e 0) = N /\ forall n, (n < N)%nat -> nth n (modes s e 0) 0 = at2 (s_u s) n e.
    Proof.
      intros [W Sim] Hee. split; [rewrite (length_modes ne s e 0 W); apply (similar_Ns _ _ Sim)|]. intros n Hn. change (nth n (modes s e 0) 0) with (at1 (modes s e 0) n).
      rewrite (modes_at ne s) by (first [exact W|lia|rewrite (similar_NF _ _ Sim), (adv_NF sol0 Ha); lia|rewrite (similar_Ns _ _ Sim); exact Hn]).
      rewrite (similar_NF _ _ Sim), (adv_NF sol0 Ha). f_equal. lia.
    Qed.
    Lemma l2sq_nrm s : Wf ne sol0 s -> l2sq ne s (h * nrm2 s).
    Proof.
      intro Ws. exists (fun e => h * cellsq N (at2 (s_u s)) e). split; [|unfold nrm2; rewrite ip_cells, <- Rsum_scale; reflexivity].
      intros e Hee. destruct (cell_modes s e Ws Hee) as [Lm Em]. assert (Ex : s_dx s = h) by (destruct Ws as [_ Sim]; apply (similar_fields _ _ Sim)). rewrite Ex.
      apply (poly_integral (N - 1 + (N - 1))); [|lra|].
      - apply is_poly_scal, is_poly_mult; rewrite <- Lm; apply legseries_poly.
      - eapply nint_val; [|apply nint_scal; apply (nint_product_series (modes s e 0) (modes s e 0) N Lm Lm)].
        unfold cellsq. rewrite <- !Rsum_scale. apply Rsum_ext. intros n Hn. rewrite Em by exact Hn. pose proof (w_pos n). field. lra.
    Qed.
    Hypothesis Hc : 2 * (INR N * INR N) * cfl <= INR (2 * b_p (s_basis sol0) + 1).
    Lemma dt_small dt : 0 <= dt -> INR (2 * b_p (s_basis sol0) + 1) * dt <= h * cfl -> 2 * (INR N * INR N) * dt <= h.
    Proof.
      intros H0 H1. set (q := INR (2 * b_p (s_basis sol0) + 1)) in *. assert (Hq : 0 < q) by (apply lt_0_INR; lia). set (w := 2 * (INR N * INR N)) in *.
      assert (Hw : 0 <= w) by (unfold w; pose proof (Rle_0_sqr (INR N)) as Q; unfold Rsqr in Q; lra).
      apply Rmult_le_reg_l with q; [exact Hq|]. apply Rle_trans with (w * (h * cfl)); [replace (q * (w * dt)) with (w * (q * dt)) by ring; apply Rmult_le_compat_l; assumption|].
      replace (w * (h * cfl)) with (h * (w * cfl)) by ring. rewrite (Rmult_comm q). apply Rmult_le_compat_l; lra.
    Qed.
    Lemma step_nrm k tout touts s sc evs s' sc' dt o dn : visits gamma "rk3" d None cfl tf nout sol0 k tout touts s sc evs ->
      time_step gamma (rk_inner gamma "rk3" d None) None cfl tf tout s sc = Ok (s', sc', (dt, o, dn)) -> nrm2 s' <= nrm2 s.
    Proof.
      intros V T. destruct (step_dt "rk3" _ _ _ _ _ _ _ _ _ _ _ V T) as [D0 [D1 _]]. pose proof (rk3_step _ _ _ _ _ _ _ _ _ _ _ V T) as E.
      unfold nrm2. rewrite (ip_ext N ne Hne _ _ _ _ E E). apply step3_norm; [exact Hh|exact Hne|exact D0|]. apply dt_small; assumption.
    Qed.
    Lemma decays_step k tout touts s sc evs s' sc' r : visits gamma "rk3" d None cfl tf nout sol0 k tout touts s sc evs -> Wf ne sol0 s ->
      time_step gamma (rk_inner gamma "rk3" d None) None cfl tf tout s sc = Ok (s', sc', r) -> Wf ne sol0 s' /\ l2_decays ne s s'.
    Proof.
      destruct r as [[dt o] dn]. intros V Ws T. pose proof (md_wf _ _ M) as W0.
      destruct (Wf_visits gamma ne sol0 d None W0 D _ _ _ _ _ _ _ _ _ _ V) as [_ [Wsc [Kn _]]].
      destruct (Wf_time_step gamma ne sol0 d None D _ _ _ _ _ _ _ _ _ Ws Wsc Kn T) as [Ws' _]. split; [exact Ws'|].
      exists (h * nrm2 s), (h * nrm2 s'). split; [apply l2sq_nrm; exact Ws|]. split; [apply l2sq_nrm; exact Ws'|]. apply Rmult_le_compat_l; [lra|]. eapply step_nrm; eassumption.
    Qed.
    Lemma decays_refl s : Wf ne sol0 s -> l2_decays ne s s.
    Proof. intro Ws. exists (h * nrm2 s), (h * nrm2 s). split; [apply l2sq_nrm; exact Ws|]. split; [apply l2sq_nrm; exact Ws|lra]. Qed.
    Lemma decays_trans s1 s2 s3 : l2_decays ne s1 s2 -> l2_decays ne s2 s3 -> l2_decays ne s1 s3.
    Proof. intros [E1 [E2 [A1 [A2 L1]]]] [E2' [E3 [A2' [A3 L2]]]]. exists E1, E3. split; [exact A1|]. split; [exact A3|]. rewrite (l2sq_unique _ _ _ _ A2' A2) in L2. lra. Qed.
    Theorem rk3_decays fuel evs out : integrate gamma "rk3" d None cfl tf nout fuel sol0 = (evs, out) ->
      Forall (fun ev => l2_decays ne sol0 (ev_sol ev)) evs /\
      StronglySorted (fun a b => l2_decays ne (ev_sol a) (ev_sol b)) evs /\
      forall s, out = Finished s -> l2_decays ne sol0 s /\ Forall (fun ev => l2_decays ne (ev_sol ev) s) evs.
    Proof.
      intro I. pose proof (md_wf _ _ M) as W0. assert (W00 : Wf ne sol0 sol0) by (split; [exact W0|apply similar_refl]).
      destruct (run_ordered gamma "rk3" d None cfl tf nout sol0 (Wf ne sol0) (l2_decays ne) W00 decays_step decays_refl decays_trans fuel evs out I) as [A1 A2].
      destruct (run_states gamma "rk3" d None cfl tf nout sol0 (fun s => Wf ne sol0 s /\ l2_decays ne sol0 s)) with (fuel := fuel) (evs := evs) (out := out) as [B1 B2]; [| |exact I|].
      - split; [exact W00|apply decays_refl; exact W00].
      - intros k tout touts s sc evs0 s' sc' r V [Ws Ls] T. destruct (decays_step _ _ _ _ _ _ _ _ _ V Ws T) as [Ws' L']. split; [exact Ws'|eapply decays_trans; eassumption].
      - split; [eapply Forall_impl; [|exact B1]; intros ev [_ Q]; exact Q|]. split; [exact A1|]. intros s E. split; [apply B2; exact E|apply A2; exact E].
    Qed.
  End Run.
End Link.

(** * two runs: their L2 distance does not grow *)
Section Two.
  Context {X : Ext R}.
  Hypothesis G : gauss_ok.
  Variables (ne : nat) (sol1 sol2 : solution R).
  Hypothesis M : made ne sol1.
  Hypothesis W2 : wf ne sol2.
  Hypothesis S2 : similar sol1 sol2.
  Hypothesis T2 : s_t sol2 = s_t sol1.
  Hypothesis N2 : s_n sol2 = s_n sol1.
  Hypothesis Ha : s_euler sol1 = false.
  Hypothesis He : s_enh sol1 = None.
  Hypothesis Hl : is_literal (s_bcl sol1) "periodic" = true.
  Variables (gamma : R) (d : dg) (cfl tf : R) (nout : Z).
  Hypothesis D : wf_dg ne sol1 d.
  Hypothesis Hn2 : (2 <= nout)%Z.
  Hypothesis Ht : s_t sol1 <= tf.
  Hypothesis Hc : 2 * (INR (s_Ns sol1) * INR (s_Ns sol1)) * cfl <= INR (2 * b_p (s_basis sol1) + 1).
  Let Df := difference ne sol1 sol2.
  Notation run := (integrate gamma "rk3" d None cfl tf nout).
  (** on states of the two runs, the difference of the coefficients *)
  Lemma l2dist_combines s1 s2 s3 E : Wf ne Df s1 -> Wf ne Df s2 -> Wf ne Df s3 -> combines 1 (-1) ne s1 s2 s3 -> (l2dist ne s1 s2 E <-> l2sq ne s3 E).
  Proof.
    intros [Wa Sa] [Wb Sb] [Wc Sc] [_ [_ [_ [_ C]]]].
    assert (Ns1 : s_Ns s1 = s_Ns s3) by (rewrite (similar_Ns _ _ Sa), (similar_Ns _ _ Sc); reflexivity).
    assert (Ns2 : s_Ns s2 = s_Ns s3) by (rewrite (similar_Ns _ _ Sb), (similar_Ns _ _ Sc); reflexivity).
    assert (Ex : s_dx s1 = s_dx s3). { destruct (similar_fields _ _ Sa) as [_ [_ [_ [F _]]]]. destruct (similar_fields _ _ Sc) as [_ [_ [_ [F' _]]]]. rewrite F, F'. reflexivity. }
    assert (Q : forall e x, (1 <= e <= ne)%nat -> legseries (modes s3 e 0) x = legseries (modes s1 e 0) x - legseries (modes s2 e 0) x).
    { intros e x Hee. unfold legseries. rewrite (length_modes ne s3 e 0 Wc), (length_modes ne s1 e 0 Wa), (length_modes ne s2 e 0 Wb), Ns1, Ns2, <- Rsum_minus. apply Rsum_ext. intros n Hn.
      change (nth n (modes s3 e 0) 0) with (at1 (modes s3 e 0) n). rewrite (C e 0%nat n) by (first [lia|exact Hn|pose proof (NF_pos s3); lia]). unfold at1. numR. ring. }
    assert (IE : forall e v, (1 <= e <= ne)%nat ->
      (integral (fun x => s_dx s1 / 2 * ((legseries (modes s1 e 0) x - legseries (modes s2 e 0) x) * (legseries (modes s1 e 0) x - legseries (modes s2 e 0) x))) (-1) 1 v
       <-> integral (fun x => s_dx s3 / 2 * (legseries (modes s3 e 0) x * legseries (modes s3 e 0) x)) (-1) 1 v)).
    { intros e v Hee. rewrite Ex.
      assert (PL : is_poly ((List.length (modes s3 e 0) - 1) + (List.length (modes s3 e 0) - 1)) (fun x => s_dx s3 / 2 * (legseries (modes s3 e 0) x * legseries (modes s3 e 0) x))) by (apply is_poly_scal, is_poly_mult; apply legseries_poly).
      rewrite (poly_integral _ _ (-1) 1 v PL ltac:(lra)).
      rewrite (poly_integral ((List.length (modes s3 e 0) - 1) + (List.length (modes s3 e 0) - 1)) (fun x => s_dx s3 / 2 * ((legseries (modes s1 e 0) x - legseries (modes s2 e 0) x) * (legseries (modes s1 e 0) x - legseries (modes s2 e 0) x)))).
      - split; apply nint_ext; intro x; rewrite Q by exact Hee; reflexivity.
      - eapply is_poly_ext; [|exact PL]. intro x. cbv beta. rewrite Q by exact Hee. reflexivity.
      - lra. }
    split; intros [v [Hv ->]]; exists v; (split; [|reflexivity]); intros e Hee; apply IE; auto.
  Qed.
  Theorem rk3_distance fuel E0 : l2dist ne sol1 sol2 E0 ->
    alike (fun s1 s2 => exists E, l2dist ne s1 s2 E /\ E <= E0) (run fuel sol1) (run fuel sol2).
  Proof.
    intro H0. pose proof (difference_wf ne sol1 sol2 M) as WD. destruct (difference_similar ne sol1 sol2 S2) as [SD1 SD2].
    pose proof (difference_combines ne sol1 sol2 M W2 S2 T2 N2) as CD.
    pose proof (superposition gamma 1 (-1) ne sol1 sol2 Df d (md_wf _ _ M) W2 WD SD1 SD2 Ha D "rk3" cfl tf nout fuel CD) as [H1 H2].
    assert (WfD : Wf ne Df Df) by (split; [exact WD|apply similar_refl]).
    assert (E0' : E0 = s_dx sol1 * nrm2 ne Df Df).
    { apply (l2sq_unique ne Df); [|apply (l2sq_nrm ne Df (difference_made ne sol1 sol2 M) Ha Df WfD)].
      apply (l2dist_combines sol1 sol2 Df E0); try assumption; split; assumption || apply M. }
    destruct (run fuel Df) as [evs3 out3] eqn:I3.
    pose proof (run_states gamma "rk3" d None cfl tf nout Df (fun s => Wf ne Df s /\ nrm2 ne Df s <= nrm2 ne Df Df)) as RS.
    assert (R3 : Forall (fun ev => Wf ne Df (ev_sol ev) /\ nrm2 ne Df (ev_sol ev) <= nrm2 ne Df Df) evs3 /\ (forall s', out3 = Finished s' -> Wf ne Df s' /\ nrm2 ne Df s' <= nrm2 ne Df Df)).
    { apply RS with (fuel := fuel); [split; [exact WfD|lra]| |exact I3].
      intros k tout touts s sc evs0 s' sc' [[dt o] dn] V [Ws Ls] T.
      destruct (Wf_visits gamma ne Df d None WD D _ _ _ _ _ _ _ _ _ _ V) as [_ [Wsc [Kn _]]].
      destruct (Wf_time_step gamma ne Df d None D _ _ _ _ _ _ _ _ _ Ws Wsc Kn T) as [Ws' _]. split; [exact Ws'|].
      eapply Rle_trans; [|exact Ls]. eapply (step_nrm G ne Df (difference_made ne sol1 sol2 M) Ha He Hl gamma d cfl tf nout D Hn2 Ht Hc); eassumption. }
    assert (RW : forall sol, wf ne sol -> similar Df sol -> forall evs out, run fuel sol = (evs, out) -> Forall (fun ev => Wf ne Df (ev_sol ev)) evs /\ forall s', out = Finished s' -> Wf ne Df s').
    { intros sol Wsol Ssol evs out I. assert (D' : wf_dg ne sol d) by (unfold wf_dg in *; rewrite (similar_Ns _ _ Ssol), (similar_NF _ _ Ssol); exact D).
      destruct (run_states gamma "rk3" d None cfl tf nout sol (Wf ne sol)) with (fuel := fuel) (evs := evs) (out := out) as [A1 A2]; [split; [exact Wsol|apply similar_refl]| |exact I|].
      - intros k tout touts s sc evs0 s' sc' [[dt o] dn] V Ws T.
        destruct (Wf_visits gamma ne sol d None Wsol D' _ _ _ _ _ _ _ _ _ _ V) as [_ [Wsc [Kn _]]].
        apply (Wf_time_step gamma ne sol d None D' "rk3" _ _ _ _ _ _ _ _ Ws Wsc Kn T).
      - assert (Q : forall s, Wf ne sol s -> Wf ne Df s) by (intros s [Ws Ss]; split; [exact Ws|eapply similar_trans; eassumption]).
        split; [eapply Forall_impl; [|exact A1]; intros a Qa; apply Q; exact Qa|]. intros s' E. apply Q, A2, E. }
    destruct (run fuel sol1) as [evs1 out1] eqn:I1. destruct (run fuel sol2) as [evs2 out2] eqn:I2. cbn [fst snd] in H1, H2.
    destruct (RW sol1 (md_wf _ _ M) SD1 _ _ I1) as [A1 B1]. destruct (RW sol2 W2 SD2 _ _ I2) as [A2 B2]. destruct R3 as [A3 B3].
    assert (FIN : forall s1 s2 s3, Wf ne Df s1 -> Wf ne Df s2 -> Wf ne Df s3 /\ nrm2 ne Df s3 <= nrm2 ne Df Df -> combines 1 (-1) ne s1 s2 s3 -> exists E, l2dist ne s1 s2 E /\ E <= E0).
    { intros s1 s2 s3 Wa Wb [Wc Lc] C. exists (s_dx sol1 * nrm2 ne Df s3). split; [apply (l2dist_combines s1 s2 s3 _ Wa Wb Wc C); apply (l2sq_nrm ne Df (difference_made ne sol1 sol2 M) Ha s3 Wc)|].
      rewrite E0'. apply Rmult_le_compat_l; [apply Rlt_le, (md_dx _ _ M)|exact Lc]. }
    split; cbn [fst snd].
    - clear - H1 A1 A2 A3 FIN. revert A1 A2 A3. induction H1 as [|x y z xs ys zs C H IH]; intros A1 A2 A3; constructor.
      + inversion A1; inversion A2; inversion A3; subst. destruct C as [C1 [C2 [C3 [C4 C5]]]]. split; [congruence|]. split; [congruence|]. split; [destruct C5 as [-> [-> _]]; reflexivity|]. eapply FIN; eassumption.
      + inversion A1; inversion A2; inversion A3; subst. apply IH; assumption.
    - destruct H2 as [s1 s2 s3 C|e|]; [|reflexivity|exact I]. apply (FIN s1 s2 s3); auto.
  Qed.
End Two.
