(** Entropy waves of smooth density in Euler runs with rk3: the density stays positive and follows the profile (C75). *)
From Coq Require Import ZArith List Bool Arith String Lia Reals Lra Psatz FunctionalExtensionality.
From Verif Require Import Num Py PyStr Lib RealLib Constants LegNumpy Ext Basis Sensor Enhance Limiting EulerPhysics Solution Solver RKCoeffs RK
  SpecTime SpecDG SpecPoly SpecRK SpecEuler SpecUniform SpecTrace SpecContact SpecMonotone SpecConverge SpecL2 SpecOrder
  ProofsPoly ProofsBasis ProofsLeg ProofsGauss ProofsDG ProofsDG2 ProofsWf ProofsCons ProofsLim ProofsLimRun ProofsRK ProofsRKLin ProofsRKOrder ProofsRKTables
  ProofsRiemann ProofsTime ProofsTime2 ProofsAdv ProofsRun ProofsUniform ProofsContact ProofsEntropy ProofsEntropy2 ProofsMonotone ProofsShift ProofsGodunov ProofsSol ProofsAnalysis3
  ProofsL2 ProofsL2Run ProofsRadau ProofsOrder ProofsOrderRun ProofsWave.
Import ListNotations.
Open Scope list_scope.
Open Scope R_scope.

(** positive at every point of every cell: positive wherever the scheme reads it *)
Lemma dense_points {X : Ext R} (G : gauss_ok) ne (a : solution R) : made ne a -> s_enh a = None -> bc_known (s_bcl a) -> bc_known (s_bcr a) ->
  (forall e xi, (1 <= e <= ne)%nat -> -1 <= xi <= 1 -> 0 < legseries (modes a e 0) xi) -> dense ne a.
Proof.
  intros M He Bl Br Hpos. pose proof (md_wf _ _ M) as W. pose proof (wf_ne _ _ W) as Hne. pose proof (md_basis _ _ M) as EB. set (p := b_p (s_basis a)) in *. split.
  - intros e g Hee Hgg. apply Hpos; [exact Hee|]. rewrite EB in Hgg |- *. unfold b_NG in Hgg. rewrite (G_len G) in Hgg. pose proof (gr_in _ _ _ (G_rule G p) g Hgg) as Q. unfold at1. numR. lra.
  - intros e Hee.
    assert (Fc : forall k z e', (k < 2)%nat -> -1 <= z <= 1 -> (forall n, (n <= p)%nat -> at2 (b_psi (s_basis a)) k n = LegP n z) -> (e' < ne + 2)%nat -> 0 < vdot (row (b_psi (s_basis a)) k) (filled ne a e' 0)).
    { intros k z e' Hk Hz Hpsi He'. unfold filled. pose proof (src_interior (s_bcl a) (s_bcr a) ne e' Bl Br Hne He') as Hi. set (e2 := src_cell _ _ _ _) in *.
      assert (L1 : List.length (row (b_psi (s_basis a)) k) = s_Ns a) by (apply (shape_row 2); [apply (wf_psi _ _ W)|exact Hk]).
      rewrite (vdot_R _ _ (s_Ns a) L1) by apply (length_modes ne a e2 0 W).
      replace (Rsum (s_Ns a) (fun i => at1 (row (b_psi (s_basis a)) k) i * at1 (modes a e2 0) i)) with (legseries (modes a e2 0) z); [apply Hpos; assumption|].
      unfold legseries. rewrite (length_modes ne a e2 0 W). apply Rsum_ext. intros n Hn. change (at1 (row (b_psi (s_basis a)) k) n) with (at2 (b_psi (s_basis a)) k n).
      rewrite Hpsi by (unfold s_Ns, b_Ns in Hn; fold p in Hn; lia). unfold at1. numR. ring. }
    unfold rho_minus, rho_plus, face_minus, face_plus. rewrite He.
    split; [apply (Fc 1%nat 1)|apply (Fc 0%nat (-1))]; try lia; try lra; intros n Hn; rewrite EB; destruct (psi_entry p n Hn) as [Q1 Q2]; assumption.
Qed.
(** the average of a polynomial that is at least m on the cell *)
Definition ccst (m : R) : cfun := {| cf := fct_cte m; cf_c := continuity_const (fct_cte m) (fun _ _ => eq_refl) |}.
Lemma average_ge N (x : nat -> R) m : (1 <= N)%nat -> (forall xi, -1 <= xi <= 1 -> m <= Rsum N (fun n => x n * LegP n xi)) -> m <= x 0%nat.
Proof.
  intros HN H. assert (I1 : Int (ccst m) = 2 * m).
  { apply Int_nint. exists (fun y => m * y). split; [intro y; cbn [ccst cf]; unfold fct_cte; apply (dlim_eq _ _ (m * 1)); [ring|]; apply dlim_scal; apply derivable_pt_lim_id|ring]. }
  assert (I2 : Int (cser N x) = 2 * x 0%nat).
  { apply Int_nint. pose proof (nint_series (tab N x)) as Q. rewrite nth_tab in Q by lia. eapply nint_ext; [|exact Q]. intro y. unfold legseries. rewrite length_tab. cbn [cser cf]. apply Rsum_ext. intros n Hn. rewrite nth_tab by exact Hn. reflexivity. }
  pose proof (Int_le (ccst m) (cser N x) ltac:(intros y Hy; cbn [ccst cser cf]; unfold fct_cte; apply H; exact Hy)). lra.
Qed.

Section Third.
  Context {X : Ext R}.
  Hypothesis G : gauss_ok.
  Variables (ne : nat) (sol0 : solution R).
  Hypothesis M : made ne sol0.
  Hypothesis Ha : s_euler sol0 = false.
  Hypothesis He : s_enh sol0 = None.
  Hypothesis Hl : is_literal (s_bcl sol0) "periodic" = true.
  Notation N := (s_Ns sol0).
  Notation h := (s_dx sol0).
  Let Hne : (1 <= ne)%nat := wf_ne _ _ (md_wf _ _ M).
  (** a step of rk3 and its stages, for the advection operator *)
  Lemma powers_lop tau x n e : (n < N)%nat -> (1 <= e <= ne)%nat ->
    tau * power (adv_op ne sol0) 1 x n e = lop N ne h tau x n e /\ tau * tau * power (adv_op ne sol0) 2 x n e = lop N ne h tau (lop N ne h tau x) n e /\
    tau * tau * tau * power (adv_op ne sol0) 3 x n e = lop N ne h tau (lop N ne h tau (lop N ne h tau x)) n e.
  Proof.
    intros Hn Hee. rewrite !(adv_power G ne sol0 M Ha He Hl) by assumption. cbn [power]. unfold lop. split; [reflexivity|].
    rewrite (dop_scale N ne h tau (dop N ne h x)). split; [ring|].
    rewrite (dop_ext N ne h Hne (fun n0 e0 => tau * dop N ne h (fun n1 e1 => tau * dop N ne h x n1 e1) n0 e0) (fun n0 e0 => tau * tau * dop N ne h (dop N ne h x) n0 e0))
      by (first [assumption|intros n0 e0 _ _; rewrite (dop_scale N ne h tau (dop N ne h x)); ring]).
    rewrite (dop_scale N ne h (tau * tau) (dop N ne h (dop N ne h x))). ring.
  Qed.
  Lemma growth3 tau x : eqi N ne (fun n e => Rsum (S (stages rk3_table)) (fun k => growth rk3_table k * tau ^ k * power (adv_op ne sol0) k x n e)) (step3 N ne h tau x).
  Proof.
    intros n e Hn Hee. destruct (powers_lop tau x n e Hn Hee) as [P1 [P2 P3]]. change (stages rk3_table) with 3%nat. cbn [Rsum].
    rewrite (proj1 (exact_growths 0)), (proj1 (exact_growths 1)), (proj1 (exact_growths 2)), (proj1 (exact_growths 3)) by lia.
    unfold step3. rewrite <- P1, <- P2, <- P3. cbn [fact pow Nat.mul Nat.add INR]. cbn [power]. field.
  Qed.
  Lemma stage3 i : (i < 3)%nat -> exists c1 c2, Rabs c1 <= 1 /\ Rabs c2 <= 1 /\
    forall tau x n e, (n < N)%nat -> (1 <= e <= ne)%nat -> stage_poly rk3_table (adv_op ne sol0) tau x i n e = x n e + (c1 * lop N ne h tau x n e + c2 * lop N ne h tau (lop N ne h tau x) n e).
  Proof.
    intro Hi. assert (A0 : Rabs 0 <= 1) by (rewrite Rabs_R0; lra). assert (A1 : Rabs 1 <= 1) by (rewrite Rabs_R1; lra). assert (A2 : Rabs (1 / 2) <= 1) by (rewrite Rabs_right; lra).
    destruct i as [|[|[|i]]]; [exists 0, 0|exists (1 / 2), 0|exists 1, 1|lia];
      (split; [assumption|]); (split; [assumption|]); intros tau x n e Hn Hee; destruct (powers_lop tau x n e Hn Hee) as [P1 [P2 P3]]; rewrite <- P1, <- P2;
      unfold stage_poly; change (stages rk3_table) with 3%nat; cbn [Rsum];
      set (q1 := power (adv_op ne sol0) 1 x n e); set (q2 := power (adv_op ne sol0) 2 x n e); set (q3 := power (adv_op ne sol0) 3 x n e);
      cbn [Rsum stage_sum]; unfold coef, cval; cbn; field.
  Qed.
End Third.

Section Main.
  Context {X : Ext R}.
  Variable gamma : R.
  Hypothesis Hg : 1 < gamma.
  Hypothesis G : gauss_ok.
  Hypothesis IV : inv_ok.
  Variables v pr : R.
  Hypothesis Hv : 0 <= v.
  Hypothesis Hp : 0 < pr.
  Variables (ne : nat) (sol0 : solution R) (d : dg).
  Hypothesis M0 : made ne sol0.
  Hypothesis D0 : wf_dg ne sol0 d.
  Hypothesis He : s_enh sol0 = None.
  Hypothesis Hl : is_literal (s_bcl sol0) "periodic" = true.
  Hypothesis Br : bc_known (s_bcr sol0).
  Hypothesis Eu : s_euler sol0 = true.
  Hypothesis HR : s_riemann sol0 = RRoe \/ s_riemann sol0 = RGodunov.
  Hypothesis U0 : uniform_vp gamma ne v pr sol0.
  Hypothesis B0 : apply_bc sol0 = Ok sol0.
  Notation p := (b_p (s_basis sol0)).
  Notation h := (s_dx sol0).
  Notation t0 := (s_t sol0).
  Variables (F : nat -> R -> R) (B : nat -> R) (a : R).
  Hypothesis HS : smooth_profile F B (INR ne * h).
  Variable lo : R.
  Hypothesis Hlo : forall x, lo <= F 0%nat x.
  Variable E0 : R.
  Hypothesis H0 : l2err ne a sol0 (F 0%nat) E0.
  Variables (cfl tf : R) (nout : Z).
  Hypothesis Hn : (2 <= nout)%Z.
  Hypothesis Ht : t0 <= tf.
  Hypothesis Hc : 2 * (INR (S p) * INR (S p)) * cfl <= INR (2 * p + 1).
  Notation Y := (drift_size p ne h B E0 (v * (tf - t0))).
  Notation sag := (sag_size p ne (h / 2) B Y).
  Hypothesis Hsag : sag < lo.
  Let W0 := md_wf _ _ M0.
  Let Hne : (1 <= ne)%nat := wf_ne _ _ W0.
  Let Hh : 0 < h := md_dx _ _ M0.
  Let NF3 : s_NF sol0 = 3%nat. Proof. unfold s_NF. rewrite Eu. reflexivity. Qed.
  Let NsS : s_Ns sol0 = S p. Proof. unfold s_Ns, b_Ns. lia. Qed.
  Let Bl : bc_known (s_bcl sol0) := or_introl Hl.
  Let HE : enh_sound sol0. Proof. unfold enh_sound. rewrite He. exact I. Qed.
  Let a0 := density_of ne sol0.
  Let Ma0 : made ne a0. Proof. apply density_made; exact M0. Qed.
  Let Hca : 2 * (INR (s_Ns a0) * INR (s_Ns a0)) * cfl <= INR (2 * b_p (s_basis a0) + 1).
  Proof. change (s_Ns a0) with (s_Ns sol0). rewrite NsS. exact Hc. Qed.
  Notation Vp := (Vp gamma v pr ne sol0).
  Notation visits := (visits gamma "rk3" d None cfl tf nout sol0).
  Notation src := (src_cell (s_bcl sol0) (s_bcr sol0) ne).
  Notation nm := (nm (S p) ne).
  Notation rho s := (at2 (s_u (density_of ne s))).
  Definition Dif (s : solution R) : nat -> nat -> R := dif ne a0 F B a HS (density_of ne s) (v * (s_t s - t0)).
  Notation spd := (sqrt (INR ne * INR (S p)) * trunc_size p (h / 2) B).
  Definition Follows (s : solution R) : Prop := closed ne s /\ t0 <= s_t s /\ nm (Dif s) <= nm (Dif sol0) + v * (s_t s - t0) * spd.
  Lemma spd_pos : 0 <= spd.
  Proof.
    apply Rmult_le_pos; [apply sqrt_pos|]. unfold trunc_size. assert (HK : 0 <= 1 + INR (S p) * INR (S p)) by (pose proof (Rle_0_sqr (INR (S p))) as Q; unfold Rsqr in Q; lra).
    apply Rmult_le_pos; [exact HK|]. destruct HS as [_ [HB _]].
    pose proof (cap_pos p h Hh F B HB 1) as C1. pose proof (cap_pos p h Hh F B HB 2) as C2. pose proof (cap_pos p h Hh F B HB 3) as C3. pose proof (B_pos F B HB 4) as B4.
    change (ProofsOrder.cap p h B 1) with (taylor_size p (h / 2) B 1) in C1. change (ProofsOrder.cap p h B 2) with (taylor_size p (h / 2) B 2) in C2. change (ProofsOrder.cap p h B 3) with (taylor_size p (h / 2) B 3) in C3.
    set (r := h / 2) in *. assert (Hr : 0 < r) by (unfold r; lra). clearbody r.
    assert (0 <= r * taylor_size p r B 2) by (apply Rmult_le_pos; lra). assert (0 <= r * r * taylor_size p r B 3) by (apply Rmult_le_pos; [nra|lra]). assert (0 <= B 4%nat * r ^ 3) by (apply Rmult_le_pos; [lra|apply pow_le; lra]). lra.
  Qed.
  Lemma dens_Wf s : Wf ne sol0 s -> Wf ne a0 (density_of ne s).
  Proof.
    intros [W S]. split; [apply density_wf; exact W|]. destruct S as [t [n [sn [u [-> Es]]]]].
    exists t, n, sn. eexists. split; [reflexivity|exact Es].
  Qed.
  Lemma dens_modes s e : Wf ne sol0 s -> (e < ne + 2)%nat -> modes (density_of ne s) e 0 = modes s e 0.
  Proof.
    intros [W S] Hee. pose proof (density_wf ne s W) as Wd. apply (vec_ext (s_Ns s)); [apply (length_modes ne _ e 0 Wd)|apply (length_modes ne s e 0 W)|]. intros n Hn'.
    assert (NFs : s_NF s = 3%nat) by (rewrite (similar_NF _ _ S); exact NF3).
    rewrite (modes_at ne s e 0 n W), (modes_at ne (density_of ne s) e 0 n Wd) by (first [exact Hee|exact Hn'|rewrite NFs; lia|change (s_NF (density_of ne s)) with 1%nat; lia]).
    change (s_NF (density_of ne s)) with 1%nat. cbn [s_u density_of]. rewrite at2_tab2 by (first [exact Hn'|lia]). f_equal. lia.
  Qed.
  Lemma start_dif : nm (Dif sol0) <= sqrt E0 / sqrt h + sqrt (INR ne) * proj_size p (h / 2) B.
  Proof.
    assert (Sh : 0 < sqrt h) by (apply sqrt_lt_R0; exact Hh). apply Rmult_le_reg_l with (sqrt h); [exact Sh|].
    replace (sqrt h * (sqrt E0 / sqrt h + sqrt (INR ne) * proj_size p (h / 2) B)) with (sqrt E0 + sqrt (INR ne * h) * proj_size p (h / 2) B) by (rewrite sqrt_mult_alt by apply pos_INR; field; lra).
    unfold Dif. replace (v * (t0 - t0)) with 0 by ring. fold a0.
    pose proof (dif_err ne a0 Ma0 F B a HS a0 0) as Q.
    assert (Z : E0 = tot ne h (cerr ne a0 F B a HS a0 0)).
    { assert (W00 : Wf ne a0 a0) by (split; [apply Ma0|apply similar_refl]). pose proof (err_is ne a0 Ma0 eq_refl F B a HS a0 0 W00) as Q0.
      destruct H0 as [w [Hw Ew]]. destruct Q0 as [w' [Hw' Ew']]. change (s_dx a0) with h in Ew'. etransitivity; [exact Ew|]. etransitivity; [|symmetry; exact Ew']. apply Rsum_ext. intros i Hi. eapply integral_unique; [apply Hw; lia|].
      specialize (Hw' (i + 1)%nat ltac:(lia)). change (s_dx a0) with h in Hw'. unfold a0 in Hw'. rewrite (dens_modes sol0) in Hw' by (first [apply Wf_0; exact W0|lia]).
      match type of Hw' with integral ?f _ _ _ => match goal with |- integral ?g _ _ _ => replace g with f; [exact Hw'|] end end.
      apply functional_extensionality. intro x. rewrite Rminus_0_r. reflexivity. }
    change (s_dx a0) with h in Q. change (s_basis a0) with (s_basis sol0) in Q. rewrite Z. exact Q.
  Qed.
  Lemma Follows_Y s : Follows s -> s_t s <= tf -> nm (Dif s) <= Y.
  Proof.
    intros [_ [_ Q]] Hs. pose proof start_dif as Q0. pose proof spd_pos as Ps. unfold drift_size.
    assert (v * (s_t s - t0) * spd <= v * (tf - t0) * spd) by (apply Rmult_le_compat_r; [exact Ps|]; apply Rmult_le_compat_l; lra). lra.
  Qed.
  Lemma stage_low tau c1 c2 s e xi : 0 <= tau -> 2 * (INR (S p) * INR (S p)) * tau <= h -> Rabs c1 <= 1 -> Rabs c2 <= 1 -> Follows s -> s_t s <= tf -> (1 <= e <= ne)%nat -> -1 <= xi <= 1 ->
    lo - sag <= Rsum (S p) (fun n => st p ne h tau c1 c2 (rho s) n e * LegP n xi).
  Proof.
    intros T1 T2 K1 K2 Fs Hs Hee Hx.
    pose proof (stage_close p ne h a Hh Hne F B (proj1 HS) (proj1 (proj2 HS)) (ProofsOrderRun.HP ne a0 F B HS) tau T1 T2 (rho s) (v * (s_t s - t0)) c1 c2 Y e xi K1 K2 (Follows_Y s Fs Hs) Hee Hx) as Q.
    apply Rabs_le_inv in Q. pose proof (Hlo (cellx h a e (v * (s_t s - t0)) xi)). lra.
  Qed.
  Lemma value_low s e xi : Follows s -> s_t s <= tf -> (1 <= e <= ne)%nat -> -1 <= xi <= 1 -> lo - sag <= Rsum (S p) (fun n => rho s n e * LegP n xi).
  Proof.
    intros Fs Hs Hee Hx. assert (A0 : Rabs 0 <= 1) by (rewrite Rabs_R0; lra).
    pose proof (stage_low 0 0 0 s e xi ltac:(lra) ltac:(lra) A0 A0 Fs Hs Hee Hx) as Q. unfold st in Q.
    rewrite (Rsum_ext (S p) _ (fun n => rho s n e * LegP n xi)) in Q by (intros; ring). exact Q.
  Qed.
  Lemma average_low s e : Wf ne sol0 s -> Follows s -> s_t s <= tf -> (1 <= e <= ne)%nat -> lo - sag <= at1 (modes s e 0) 0.
  Proof.
    intros Ws Fs Hs Hee. rewrite <- (dens_modes s e Ws) by lia. pose proof (density_wf ne s (proj1 Ws)) as Wd.
    rewrite (modes_at ne (density_of ne s) e 0 0 Wd) by (first [lia|change (s_NF (density_of ne s)) with 1%nat; lia|apply Ns_pos]). change (s_NF (density_of ne s)) with 1%nat. replace (e * 1 + 0)%nat with e by lia.
    apply (average_ge (S p) (fun n => rho s n e)); [lia|]. intros xi Hx. apply value_low; assumption.
  Qed.
  Lemma Follows_speed s : Vp s -> Follows s -> s_t s <= tf -> exists w, max_wave_speed gamma s = Ok w /\ v < w /\ w <= v + sqrt (gamma * pr / (lo - sag)).
  Proof.
    intros [HW HL] Fs Hs. pose proof Fs as [C _]. pose proof HW as [W S]. destruct (similar_static _ _ S) as [E1 [E2 _]].
    assert (Av : forall e f, (e < ne + 2)%nat -> (f < 3)%nat -> at1 (modes s e f) 0 = at2 (s_u s) 0 (e * 3 + f)).
    { intros e f Hee Hf. rewrite (modes_at ne s) by (first [exact W|exact Hee|rewrite (similar_NF _ _ S), NF3; exact Hf|apply Ns_pos]). rewrite (similar_NF _ _ S), NF3. reflexivity. }
    assert (Q : forall e, (e < ne + 2)%nat -> 0 < at1 (modes s (src e) 0) 0 /\ 0 < pr /\
       (at1 (modes s e 0) 0, at1 (modes s e 1) 0, at1 (modes s e 2) 0) = cons gamma (at1 (modes s (src e) 0) 0) v pr).
    { intros e Hee. pose proof (src_interior (s_bcl sol0) (s_bcr sol0) ne e Bl Br Hne Hee) as Hi. rewrite (C e 0%nat Hee ltac:(lia)), (C e 1%nat Hee ltac:(lia)), (C e 2%nat Hee ltac:(lia)). unfold filled. rewrite E1, E2. set (e2 := src e) in *.
      pose proof (average_low s e2 HW Fs Hs Hi) as Lw. destruct (HL 0%nat e2 ltac:(rewrite NsS; lia) Hi) as [L1 L2].
      rewrite !(Av e2) in * by lia. split; [lra|]. split; [exact Hp|]. rewrite L1, L2. unfold cons, SpecEuler.energy. cbn [unit0]. st3; field; lra. }
    destruct (max_speed_bounds gamma Hg ne s (fun e => at1 (modes s (src e) 0) 0) (fun _ => v) (fun _ => pr) W ltac:(rewrite (similar_euler _ _ S); exact Eu) Q) as [m [Em [_ [e [Hee ->]]]]].
    exists (Rabs v + sound_of gamma (at1 (modes s (src e) 0) 0) pr). split; [exact Em|]. rewrite (Rabs_right v) by lra.
    destruct (Q e Hee) as [P1 _]. pose proof (src_interior (s_bcl sol0) (s_bcr sol0) ne e Bl Br Hne Hee) as Hi. set (e2 := src e) in *.
    pose proof (average_low s e2 HW Fs Hs Hi) as Lr. unfold sound_of. set (r := at1 (modes s e2 0) 0) in *.
    assert (Gp : 0 < gamma * pr) by nra.
    assert (0 < gamma * pr / r) by (apply Rdiv_lt_0_compat; assumption).
    split; [pose proof (sqrt_lt_R0 _ H); lra|]. apply Rplus_le_compat_l. apply sqrt_le_1_alt. unfold Rdiv. apply Rmult_le_compat_l; [lra|]. apply Rinv_le_contravar; [lra|exact Lr].
  Qed.
  Lemma visit_time k tout touts s sc evs : visits k tout touts s sc evs -> s_t s <= tout /\ tout <= tf.
  Proof.
    intro V. apply (visits_inv gamma "rk3" d None cfl tf nout sol0 Hn Ht) in V. split; [exact (li_t _ _ _ _ _ _ _ _ V)|].
    rewrite (li_tout _ _ _ _ _ _ _ _ V); apply out_time_le_tf; first [exact Ht|pose proof (li_k _ _ _ _ _ _ _ _ V); lia].
  Qed.
  Lemma wave_dt k tout touts s sc evs dt o dn : visits k tout touts s sc evs -> Vp s -> Follows s -> get_next_time_step gamma s tout cfl tf = Ok (dt, o, dn) ->
    0 <= dt /\ 0 <= v * dt /\ 2 * (INR (S p) * INR (S p)) * (v * dt) <= h.
  Proof.
    intros V Vs Fs Nx. apply next_step_cases in Nx. destruct Nx as [w [Ew [He' Hcs]]]. destruct (visit_time _ _ _ _ _ _ V) as [Hle Htt].
    destruct (Follows_speed s Vs Fs ltac:(lra)) as [w' [Ew' [W1 _]]]. rewrite Ew in Ew'. apply Ok_inj in Ew'. subst w'.
    destruct Vs as [[_ S] _]. assert (Ex : s_dx s = h) by (destruct S as [? [? [? [? [-> _]]]]]; reflexivity). rewrite Ex, (similar_basis _ _ S) in Hcs, He'.
    unfold eps_dt in He'. numR. set (q := INR (2 * p + 1)) in *. assert (Hq : 0 < q) by (apply lt_0_INR; lia). assert (Wq : 0 < w * q) by (apply Rmult_lt_0_compat; lra).
    assert (Q : 0 <= dt <= h * cfl / (w * q)) by (destruct Hcs as [[? [-> _]]|[[? [? [-> _]]]|[? [? [-> _]]]]]; lra).
    assert (Q2 : dt * (w * q) <= h * cfl). { apply Rle_trans with (h * cfl / (w * q) * (w * q)); [apply Rmult_le_compat_r; lra|]. right. field. lra. }
    split; [lra|]. split; [apply Rmult_le_pos; lra|].
    pose proof (dt_small ne a0 Ma0 cfl Hca (v * dt)) as Qs. replace (s_Ns a0) with (Datatypes.S p) in Qs by (symmetry; exact NsS). apply Qs; [apply Rmult_le_pos; lra|]. change (s_basis a0) with (s_basis sol0). fold q. change (s_dx a0) with h.
    apply Rle_trans with (dt * (w * q)); [|exact Q2]. replace (q * (v * dt)) with (dt * (v * q)) by ring. apply Rmult_le_compat_l; [lra|]. apply Rmult_le_compat_r; lra.
  Qed.
  Lemma Follows_step k tout touts s sc evs dt o dn : visits k tout touts s sc evs -> Vp s -> Follows s -> get_next_time_step gamma s tout cfl tf = Ok (dt, o, dn) ->
    dense_stages ne (rk_choice "rk3") (v * dt) s /\ forall s', Vp s' -> closed ne s' -> s_t s' = s_t s + dt -> holds ne sol0 (advanced v ne "rk3" dt s) (s_u s') -> Follows s'.
  Proof.
    intros V Vs Fs Nx. destruct (wave_dt _ _ _ _ _ _ _ _ _ V Vs Fs Nx) as [Dp [Tp Ts]]. destruct (visit_time _ _ _ _ _ _ V) as [Hle Htt]. pose proof Vs as [[W S] _].
    assert (Ms : made ne s) by (eapply made_similar; [exact M0|exact S|exact W]). set (as_ := density_of ne s). assert (Ma : made ne as_) by (apply density_made; exact Ms).
    destruct (similar_static _ _ S) as [E1 [E2 [E3 _]]]. pose proof (similar_basis _ _ S) as Eb.
    assert (Ex : s_dx s = h) by (destruct S as [? [? [? [? [-> _]]]]]; reflexivity).
    assert (Hea : s_enh as_ = None) by (change (s_enh as_) with (s_enh s); rewrite E3; exact He). assert (Hla : is_literal (s_bcl as_) "periodic" = true) by (change (s_bcl as_) with (s_bcl s); rewrite E1; exact Hl).
    assert (NsA : s_Ns as_ = Datatypes.S p) by (change (s_Ns as_) with (s_Ns s); unfold s_Ns, b_Ns; rewrite Eb; lia).
    assert (DxA : s_dx as_ = h) by exact Ex.
    split.
    - intros i Hi. change (stages (rk_choice "rk3")) with 3%nat in Hi. fold as_. set (b := with_u as_ _).
      assert (Wb : wf ne b) by (apply wf_with_u; [apply Ma|]; change (s_Ns as_) with (s_Ns s); change (s_NF as_) with 1%nat; rewrite Nat.mul_1_r; apply shape_tab2).
      assert (Mb : made ne b) by (eapply made_similar; [exact Ma|apply similar_with_u|exact Wb]).
      apply (dense_points G ne b Mb Hea); [left; exact Hla|change (s_bcr b) with (s_bcr s); rewrite E2; exact Br|].
      intros e xi Hee Hx. destruct (stage3 G ne as_ Ma eq_refl Hea Hla i Hi) as [c1 [c2 [K1 [K2 Hst]]]].
      pose proof (stage_low (v * dt) c1 c2 s e xi Tp Ts K1 K2 Fs ltac:(lra) Hee Hx) as Q.
      apply Rlt_le_trans with (lo - sag); [lra|]. eapply Rle_trans; [exact Q|]. right. unfold legseries. rewrite (length_modes ne b e 0 Wb). change (s_Ns b) with (s_Ns as_). rewrite NsA.
      apply Rsum_ext. intros n Hn'. f_equal. change (nth n (modes b e 0) 0) with (at1 (modes b e 0) n).
      rewrite (modes_at ne b e 0 n Wb) by (first [lia|change (s_NF b) with 1%nat; lia|change (s_Ns b) with (s_Ns as_); lia]). change (s_NF b) with 1%nat. replace (e * 1 + 0)%nat with e by lia.
      unfold b. cbn [s_u with_u]. rewrite at2_tab2 by (first [change (s_Ns s) with (s_Ns as_); lia|lia]). change (rk_choice "rk3") with rk3_table.
      rewrite Hst by (first [lia|exact Hee]). rewrite NsA, DxA. reflexivity.
    - intros s' Vs' C' Et Hs'. pose proof Vs' as [[W' S'] _]. split; [exact C'|]. split; [destruct Fs as [_ [? _]]; lra|].
      assert (EQ : eqi (Datatypes.S p) ne (rho s') (step3 (Datatypes.S p) ne h (v * dt) (rho s))).
      { intros n e Hn' Hee. rewrite <- (density_at ne sol0 Eu s' n e) by (first [exact (conj W' S')|rewrite NsS; exact Hn'|exact Hee]).
        rewrite (Hs' n e) by (first [rewrite NsS; exact Hn'|exact Hee]). unfold advanced. change (rk_choice "rk3") with rk3_table.
        pose proof (growth3 G ne as_ Ma eq_refl Hea Hla (v * dt) (rho s) n e ltac:(rewrite NsA; exact Hn') Hee) as Q. rewrite NsA, DxA in Q. exact Q. }
      pose proof (step_error p ne h a Hh Hne F B (proj1 HS) (proj1 (proj2 HS)) (ProofsOrderRun.HP ne a0 F B HS) (v * dt) Tp Ts (rho s) (rho s') (v * (s_t s - t0)) EQ) as Q.
      destruct Fs as [_ [_ Fq]]. change (sqrt (INR ne * INR (Datatypes.S p)) * tau p h B) with spd in Q.
      apply Rle_trans with (nm (Dif s) + v * dt * spd).
      + unfold Dif at 1, dif. rewrite Et. replace (v * (s_t s + dt - t0)) with (v * (s_t s - t0) + v * dt) by ring. exact Q.
      + rewrite Et. replace (v * (s_t s + dt - t0) * spd) with (v * (s_t s - t0) * spd + v * dt * spd) by ring. lra.
  Qed.
  Lemma Follows_0 : Follows sol0.
  Proof. split; [apply (closed_bc ne sol0 Bl Br Eu sol0 sol0); [apply Wf_0; exact W0|exact B0]|]. split; [lra|]. replace (v * (t0 - t0) * spd) with 0 by ring. lra. Qed.
  Lemma wave_visits k tout touts s sc evs : visits k tout touts s sc evs -> Vp s /\ VS gamma v pr ne sol0 "rk3" sc /\ Follows s.
  Proof. exact (along gamma Hg G IV v pr Hv Hp ne sol0 d M0 D0 HE Bl Br Eu HR U0 "rk3" cfl tf nout Follows Follows_0 Follows_step k tout touts s sc evs). Qed.
  Theorem wave_run fuel evs out : integrate gamma "rk3" d None cfl tf nout fuel sol0 = (evs, out) ->
    forall s, (exists ev, In ev evs /\ s = ev_sol ev) \/ out = Finished s ->
    t0 <= s_t s <= tf /\ uniform_vp gamma ne v pr s /\ (forall e xi, (1 <= e <= ne)%nat -> -1 <= xi <= 1 -> lo - sag <= legseries (modes s e 0) xi) /\
    exists E, l2err ne a s (fun x => F 0%nat (x - v * (s_t s - t0))) E /\
      sqrt E <= sqrt E0 + sqrt (INR ne * h) * (2 * proj_size p (h / 2) B + v * (s_t s - t0) * sqrt (INR (S p)) * trunc_size p (h / 2) B).
  Proof.
    intros I s Hst.
    destruct (run_states gamma "rk3" d None cfl tf nout sol0 (fun s => (Vp s /\ Follows s) /\ s_t s <= tf)) with (fuel := fuel) (evs := evs) (out := out) as [HE1 HF1].
    - split; [split; [apply (Vp_0 gamma Hg v pr ne sol0 M0 Eu U0)|exact Follows_0]|exact Ht].
    - intros k tout touts s1 sc evs0 s' sc' [[dt o] dn] V [[V1 V2] V3] T.
      destruct (time_step_clock gamma _ _ _ _ _ _ _ _ _ _ _ _ (fun _ _ _ _ _ => frame_inner gamma "rk3" d None _ _ _ _ _) T) as [Nx _].
      destruct (along_step gamma Hg G IV v pr Hv Hp ne sol0 d M0 D0 HE Bl Br Eu HR U0 "rk3" cfl tf nout Follows Follows_0 Follows_step _ _ _ _ _ _ _ _ _ V Nx) as [s2 [sc2 [E2 [A1 [A2 _]]]]].
      assert (s2 = s') by (rewrite T in E2; apply Ok_inj in E2; injection E2 as <- _; reflexivity). subst s2. split; [split; assumption|].
      destruct (step_times gamma "rk3" d None cfl tf nout sol0 Hn Ht _ _ _ _ _ _ _ _ _ _ _ V T) as [_ [_ [_ [Q _]]]]. exact Q.
    - exact I.
    - assert (Q : (Vp s /\ Follows s) /\ s_t s <= tf) by (rewrite Forall_forall in HE1; destruct Hst as [[ev [Hi ->]]|Hs]; [apply HE1; exact Hi|apply HF1; exact Hs]).
      destruct Q as [[V1 Fs] Hle]. pose proof Fs as [_ [Hge Q]]. pose proof V1 as [Ws _]. split; [lra|]. split; [apply (Vp_uniform gamma Hg v pr ne sol0 Eu s V1)|].
      pose proof (dens_Wf s Ws) as Wd. split.
      { intros e xi Hee Hx. eapply Rle_trans; [apply (value_low s e xi Fs Hle Hee Hx)|]. right. rewrite <- (dens_modes s e Ws) by lia.
        destruct (cell_modes ne a0 Ma0 eq_refl (density_of ne s) e Wd Hee) as [Lm Em]. unfold legseries. rewrite Lm. change (s_Ns a0) with (s_Ns sol0). rewrite NsS. apply Rsum_ext. intros n Hn'. rewrite Em by (change (s_Ns a0) with (s_Ns sol0); lia). reflexivity. }
      exists (tot ne h (cerr ne a0 F B a HS (density_of ne s) (v * (s_t s - t0)))). split.
      { destruct (err_is ne a0 Ma0 eq_refl F B a HS (density_of ne s) (v * (s_t s - t0)) Wd) as [w [Hw Ew]]. exists w. split; [|exact Ew]. intros e Hee. rewrite <- (dens_modes s e Ws) by lia. apply Hw. exact Hee. }
      pose proof (err_dif ne a0 Ma0 F B a HS (density_of ne s) (v * (s_t s - t0))) as A1. change (s_dx a0) with h in A1. change (s_basis a0) with (s_basis sol0) in A1. fold (Dif s) in A1.
      pose proof (sqrt_pos h) as Sh. assert (Sh' : 0 < sqrt h) by (apply sqrt_lt_R0; exact Hh). pose proof start_dif as Q0.
      assert (A3 : sqrt h * nm (Dif s) <= sqrt h * (sqrt E0 / sqrt h + sqrt (INR ne) * proj_size p (h / 2) B + v * (s_t s - t0) * spd)) by (apply Rmult_le_compat_l; lra).
      replace (sqrt h * (sqrt E0 / sqrt h + sqrt (INR ne) * proj_size p (h / 2) B + v * (s_t s - t0) * spd))
        with (sqrt E0 + sqrt (INR ne * h) * (proj_size p (h / 2) B + v * (s_t s - t0) * sqrt (INR (S p)) * trunc_size p (h / 2) B)) in A3
        by (rewrite !sqrt_mult_alt by apply pos_INR; field; lra).
      rewrite !Rmult_plus_distr_l in *. lra.
  Qed.
  Theorem wave_completes : 1 / 100000000000000 <= h * cfl / ((v + sqrt (gamma * pr / (lo - sag))) * INR (2 * p + 1)) ->
    exists Fu evs s, s_t s = tf /\ forall fuel, (Fu <= fuel)%nat -> integrate gamma "rk3" d None cfl tf nout fuel sol0 = (evs, Finished s).
  Proof.
    intro Hd. destruct (run_terminates gamma "rk3" d None cfl tf nout sol0 Hn Ht) as [Fu [evs [out [_ [HF [[e ->]|[s [-> Es]]]]]]]].
    2:{ exists Fu, evs, s. split; [exact Es|exact HF]. }
    exfalso. destruct (integrate_ends gamma "rk3" d None cfl tf nout sol0 Hn Ht) as [F' [r [_ [HF' Hr]]]].
    specialize (HF (Nat.max Fu F') (Nat.le_max_l _ _)). rewrite HF' in HF by apply Nat.le_max_r. subst r.
    destruct Hr as [[e' [Hpr _]]|Hr]; [rewrite (printer_total ne) in Hpr by exact W0; discriminate|].
    cbn [good_end] in Hr. destruct Hr as [k [tout [touts [s [sc [Hvis Hcs]]]]]]. destruct (wave_visits _ _ _ _ _ _ Hvis) as [V1 [V2 V3]]. destruct (visit_time _ _ _ _ _ _ Hvis) as [Hle Htt].
    assert (Hgn : exists r, get_next_time_step gamma s tout cfl tf = Ok r).
    { destruct (Follows_speed s V1 V3 ltac:(lra)) as [w [Ew [W1 W2]]]. unfold get_next_time_step, cfl_time_step. rewrite Ew. cbn [rbind].
      pose proof V1 as [[_ S] _]. assert (Ex : s_dx s = h) by (destruct S as [? [? [? [? [-> _]]]]]; reflexivity). rewrite Ex, (similar_basis _ _ S).
      unfold sanity_check_dt, nnat, lit. numR. rewrite <- INR_IZR_INZ. set (q := INR (2 * p + 1)) in *. assert (Hq : 0 < q) by (apply lt_0_INR; lia).
      set (z := v + sqrt (gamma * pr / (lo - sag))) in *. assert (Hz : w <= z) by exact W2. assert (Wq : 0 < w * q) by (apply Rmult_lt_0_compat; lra).
      assert (Hcp : 0 < h * cfl).
      { assert (Zq : 0 < z * q) by (apply Rmult_lt_0_compat; lra). apply Rmult_lt_reg_r with (/ (z * q)); [apply Rinv_0_lt_compat; exact Zq|]. unfold Rdiv in Hd. lra. }
      assert (h * cfl / (z * q) <= h * cfl / (w * q)).
      { unfold Rdiv. apply Rmult_le_compat_l; [lra|]. apply Rinv_le_contravar; [exact Wq|]. apply Rmult_le_compat_r; lra. }
      match goal with |- context [Rltb ?a ?b] => Rcase a b end; [lra|]. cbn [rbind]. eauto. }
    destruct Hgn as [[[dt o] dn] Hgn].
    destruct (along_step gamma Hg G IV v pr Hv Hp ne sol0 d M0 D0 HE Bl Br Eu HR U0 "rk3" cfl tf nout Follows Follows_0 Follows_step _ _ _ _ _ _ _ _ _ Hvis Hgn) as [s2 [sc2 [E2 [A1 _]]]].
    destruct Hcs as [Hcs|[s'' [sc'' [dt' [b [Hcs Hpr]]]]]]; [congruence|].
    rewrite E2 in Hcs. apply Ok_inj in Hcs. injection Hcs as <- _ _ _ _. rewrite (printer_total ne) in Hpr by apply A1. discriminate.
  Qed.
End Main.
