(** First-order runs converge: the error of order-0 advection after time T is at most M/2 dx T. *)
From Coq Require Import ZArith List Bool Arith String Lia Reals Lra Psatz.
From Verif Require Import Num Py PyStr Lib RealLib LegNumpy Ext Basis Enhance AdvectionPhysics Solution Solver RKCoeffs RK SpecDG SpecMonotone SpecTime SpecPoly SpecRK SpecUniform SpecConverge
  ProofsDG ProofsCons ProofsWf ProofsBasis ProofsAdv ProofsLeg ProofsTime ProofsTime2 ProofsRun ProofsRKLin ProofsRKOrder ProofsRKTables ProofsUniform ProofsAnalysis3 ProofsMonotone.
Import ListNotations.
Open Scope list_scope.
Open Scope R_scope.

(** * Taylor's bound *)
Lemma taylor2 f g M : (forall x, derivable_pt_lim f x (g x)) -> (forall x y, Rabs (g x - g y) <= M * Rabs (x - y)) ->
  forall z y, Rabs (f y - f z - g z * (y - z)) <= M / 2 * ((y - z) * (y - z)).
Proof.
  intros Hf Hg z y.
  assert (Hh : forall k c, derivable_pt_lim (fun x => f x - g z * x - k * ((x - z) * (x - z))) c (g c - g z - k * (2 * (c - z)))).
  { intros k c. apply derivable_pt_lim_minus.
    - replace (g c - g z) with (g c - (0 * c + g z * 1)) by ring. apply derivable_pt_lim_minus; [apply Hf|].
      apply (derivable_pt_lim_mult (fun _ => g z) (fun x => x) c 0 1); [apply derivable_pt_lim_const|apply derivable_pt_lim_id].
    - replace (k * (2 * (c - z))) with (0 * ((c - z) * (c - z)) + k * ((1 - 0) * (c - z) + (c - z) * (1 - 0))) by ring.
      apply (derivable_pt_lim_mult (fun _ => k) (fun x => (x - z) * (x - z))); [apply derivable_pt_lim_const|].
      apply (derivable_pt_lim_mult (fun x => x - z) (fun x => x - z)); (apply (derivable_pt_lim_minus (fun x => x) (fun _ => z)); [apply derivable_pt_lim_id|apply derivable_pt_lim_const]). }
  assert (Q : forall k, Rabs k = 1 -> k * (f y - f z - g z * (y - z)) <= M / 2 * ((y - z) * (y - z))).
  { intros k Hk. assert (Kc : k = 1 \/ k = -1) by (unfold Rabs in Hk; destruct (Rcase_abs k); lra). set (h := fun x => f x - g z * x - (k * (M / 2)) * ((x - z) * (x - z))).
    assert (MV : forall a b, a < b -> (a = z \/ b = z) -> exists c, h b - h a = (g c - g z - (k * (M / 2)) * (2 * (c - z))) * (b - a) /\ a < c < b).
    { intros a b Hab _. destruct (MVT_cor2 h (fun c => g c - g z - (k * (M / 2)) * (2 * (c - z))) a b Hab) as [c Hc]; [intros c _; apply Hh|]. exists c. exact Hc. }
    assert (Sg : forall c, k * (g c - g z - (k * (M / 2)) * (2 * (c - z))) <= M * (Rabs (c - z) - (c - z)) /\ M * (- Rabs (c - z) - (c - z)) <= k * (g c - g z - (k * (M / 2)) * (2 * (c - z)))).
    { intro c. pose proof (Hg c z) as B. assert (B1 : - (M * Rabs (c - z)) <= g c - g z <= M * Rabs (c - z)) by (revert B; unfold Rabs at 1; destruct (Rcase_abs (g c - g z)); lra). destruct Kc as [-> | ->]; split; lra. }
    destruct (Rtotal_order y z) as [Hl|[->|Hr]].
    - destruct (MV y z Hl (or_intror eq_refl)) as [c [E Hc]]. destruct (Sg c) as [_ S2]. rewrite Rabs_left in S2 by lra.
      assert (0 <= k * (h z - h y)) by (rewrite E, <- Rmult_assoc; apply Rmult_le_pos; lra). unfold h in H. destruct Kc as [-> | ->]; nra.
    - right. ring.
    - destruct (MV z y Hr (or_introl eq_refl)) as [c [E Hc]]. destruct (Sg c) as [S1 _]. rewrite Rabs_right in S1 by lra.
      assert (0 <= - k * (h y - h z)). { rewrite E. replace (- k * ((g c - g z - k * (M / 2) * (2 * (c - z))) * (y - z))) with ((- (k * (g c - g z - k * (M / 2) * (2 * (c - z))))) * (y - z)) by ring. apply Rmult_le_pos; lra. }
      unfold h in H. destruct Kc as [-> | ->]; nra. }
  apply Rabs_le. pose proof (Q 1 Rabs_R1). pose proof (Q (-1) ltac:(rewrite Rabs_left; lra)). lra.
Qed.

(** * the error of a step *)
Definition second_order (tb : rk_table) : Prop := growth tb 1 = 1 /\ growth tb 2 = 1 / 2 /\ (2 <= stages tb)%nat.
Lemma diffs_S_INR k e : diffs S k INR e = match k with O => INR e | 1%nat => 1 | _ => 0 end.
Proof.
  revert e. induction k as [|k IH]; intro e; [reflexivity|]. cbn [diffs]. rewrite !IH. destruct k as [|[|k]]; [rewrite S_INR; ring|ring|ring].
Qed.
Lemma diffs_S_sq k e : diffs S k (fun i => INR i * INR i) e = match k with O => INR e * INR e | 1%nat => 2 * INR e + 1 | 2%nat => 2 | _ => 0 end.
Proof.
  revert e. induction k as [|k IH]; intro e; [reflexivity|]. cbn [diffs]. rewrite !IH. destruct k as [|[|[|k]]]; rewrite ?S_INR; ring.
Qed.
Lemma iter_S j e : iter_map S j e = (j + e)%nat.
Proof. induction j as [|j IH]; [reflexivity|]. cbn [iter_map]. rewrite IH. reflexivity. Qed.
Lemma mix_mean tb nu : second_order tb -> Rsum (S (stages tb)) (fun j => mix tb nu j * INR j) = nu.
Proof.
  intros [G1 [G2 Hs]]. rewrite (Rsum_ext _ _ (fun j => mix tb nu j * INR (iter_map S j 0))) by (intros j Hj; rewrite iter_S, Nat.add_0_r; reflexivity).
  rewrite <- (mix_step tb nu S INR 0). rewrite (Rsum_single _ 1); [rewrite diffs_S_INR, G1; ring|lia|].
  intros k Hk Hne. rewrite diffs_S_INR. destruct k as [|[|k]]; [cbn [INR]; ring|lia|ring].
Qed.
Lemma mix_square tb nu : second_order tb -> Rsum (S (stages tb)) (fun j => mix tb nu j * (INR j * INR j)) = nu + nu * nu.
Proof.
  intros [G1 [G2 Hs]]. rewrite (Rsum_ext _ _ (fun j => mix tb nu j * (fun i => INR i * INR i) (iter_map S j 0))) by (intros j Hj; rewrite iter_S, Nat.add_0_r; reflexivity).
  rewrite <- (mix_step tb nu S (fun i => INR i * INR i) 0).
  rewrite (Rsum_ext _ _ (fun k => (if (k =? 1)%nat then nu else 0) + (if (k =? 2)%nat then nu * nu else 0))).
  2:{ intros k Hk. rewrite diffs_S_sq. destruct k as [|[|[|k]]]; cbn [Nat.eqb INR]; [ring|rewrite G1; ring|rewrite G2; field|ring]. }
  rewrite Rsum_plus, (Rsum_single _ 1), (Rsum_single _ 2) by (first [lia|intros k Hk Hne; destruct (Nat.eqb_spec k 1), (Nat.eqb_spec k 2); try lia; reflexivity]). reflexivity.
Qed.
Lemma mix_error tb nu f g M x h : second_order tb -> convex tb nu -> (forall x, derivable_pt_lim f x (g x)) -> (forall x y, Rabs (g x - g y) <= M * Rabs (x - y)) ->
  Rabs (Rsum (S (stages tb)) (fun j => mix tb nu j * f (x - INR j * h)) - f (x - nu * h)) <= M / 2 * (h * h) * nu.
Proof.
  intros HS Cv Hf Hg. set (z := x - nu * h). set (n := S (stages tb)).
  replace (Rsum n (fun j => mix tb nu j * f (x - INR j * h)) - f z) with (Rsum n (fun j => mix tb nu j * (f (x - INR j * h) - f z - g z * ((x - INR j * h) - z)))).
  2:{ rewrite (Rsum_ext n _ (fun j => mix tb nu j * f (x - INR j * h) - (mix tb nu j * (f z + g z * (nu * h)) - mix tb nu j * INR j * (g z * h)))) by (intros j Hj; unfold z; ring).
      rewrite !Rsum_minus, !Rsum_scale_r. unfold n. rewrite mix_total, (mix_mean tb nu HS). ring. }
  eapply Rle_trans; [apply Rsum_abs|].
  apply Rle_trans with (Rsum n (fun j => mix tb nu j * (M / 2 * (((x - INR j * h) - z) * ((x - INR j * h) - z))))).
  - apply Rsum_le. intros j Hj. rewrite Rabs_mult, (Rabs_right (mix tb nu j)) by (apply Rle_ge, Cv; unfold n in Hj; lia).
    apply Rmult_le_compat_l; [apply Cv; unfold n in Hj; lia|]. apply (taylor2 f g M Hf Hg).
  - rewrite (Rsum_ext n _ (fun j => (mix tb nu j * (INR j * INR j)) * (M / 2 * (h * h)) - (mix tb nu j * INR j) * (M / 2 * (h * h) * (2 * nu)) + mix tb nu j * (M / 2 * (h * h) * (nu * nu)))) by (intros j Hj; unfold z; ring).
    rewrite Rsum_plus, Rsum_minus, !Rsum_scale_r. unfold n. rewrite mix_total, (mix_mean tb nu HS), (mix_square tb nu HS). right. ring.
Qed.
Lemma choice_second rk : In rk ["rk3"; "rk4"; "low_storage_rk4"; "rk5"]%string -> second_order (rk_choice rk).
Proof.
  intro Hk. destruct (exact_growths 1) as [A3 [A4 [A5 _]]]. destruct (exact_growths 2) as [B3 [B4 [B5 _]]].
  destruct Hk as [<-|[<-|[<-|[<-|[]]]]]; (split; [|split]);
    first [ change (growth rk3_table 1 = 1); rewrite A3 by lia; cbn; field | change (growth rk4_table 1 = 1); rewrite A4 by lia; cbn; field | change (growth rk5_table 1 = 1); rewrite A5 by lia; cbn; field
          | change (growth rk3_table 2 = 1 / 2); rewrite B3 by lia; cbn; field | change (growth rk4_table 2 = 1 / 2); rewrite B4 by lia; cbn; field | change (growth rk5_table 2 = 1 / 2); rewrite B5 by lia; cbn; field
          | cbn; lia ].
Qed.

(** * runs *)
Section Converge.
  Context {X : Ext R}.
  Variables (ne : nat) (sol0 : solution R).
  Hypothesis M : made ne sol0.
  Hypothesis Ha : s_euler sol0 = false.
  Hypothesis He : s_enh sol0 = None.
  Hypothesis Hp : b_p (s_basis sol0) = 0%nat.
  Hypothesis Hl : s_bcl sol0 = pylit "periodic".
  Hypothesis Hr : bc_known (s_bcr sol0).
  Variables (f g : R -> R) (K A eps : R).
  Hypothesis HF : smooth_wave f g K (INR ne * s_dx sol0).
  Hypothesis H0 : forall e, (1 <= e <= ne)%nat -> Rabs (average sol0 e - f (centre A (s_dx sol0) e)) <= eps.
  Variables (gamma : R) (d : dg) (rk : string) (cfl tf : R) (nout : Z).
  Hypothesis D : wf_dg ne sol0 d.
  Hypothesis Hk : In rk ["rk3"; "rk4"; "low_storage_rk4"; "rk5"]%string.
  Hypothesis Hc : cfl <= 1.
  Hypothesis Hn : (2 <= nout)%Z.
  Hypothesis Ht : s_t sol0 <= tf.
  Let Hl' : bc_known (s_bcl sol0). Proof. left. rewrite Hl. reflexivity. Qed.
  Notation dx := (s_dx sol0).
  Lemma centre_iter t : forall j e, (1 <= e <= ne)%nat -> f (centre A dx (iter_map (leftof ne sol0) j e) - t) = f (centre A dx e - t - INR j * dx).
  Proof.
    induction j as [|j IH]; intros e Hee; [cbn [iter_map INR]; f_equal; ring|].
    rewrite <- iter_shift, IH by (apply (leftof_in ne sol0 M Hp Hl' Hr); exact Hee). unfold leftof. destruct (Nat.eq_dec e 1) as [->|N1].
    - assert (SC : src_cell (s_bcl sol0) (s_bcr sol0) ne (1 - 1) = ne) by (unfold src_cell; rewrite Hl; reflexivity). rewrite SC.
      destruct HF as [_ [_ P]]. rewrite <- (P (centre A dx 1 - t - INR (S j) * dx)). f_equal. unfold centre. rewrite (S_INR j). change (INR 1) with 1. ring.
    - rewrite (src_id ne sol0 Hp) by lia. f_equal. unfold centre. rewrite minus_INR, !S_INR by lia. cbn [INR]. ring.
  Qed.
  Definition close (s : solution R) : Prop := forall e, (1 <= e <= ne)%nat ->
    Rabs (at2 (s_u s) 0 e - f (centre A dx e - (s_t s - s_t sol0))) <= eps + K / 2 * dx * (s_t s - s_t sol0).
  Lemma close_step k tout touts s sc evs s' sc' dt o dn : visits gamma rk d None cfl tf nout sol0 k tout touts s sc evs ->
    time_step gamma (rk_inner gamma rk d None) None cfl tf tout s sc = Ok (s', sc', (dt, o, dn)) -> close s -> close s'.
  Proof.
    intros V T C e Hee. pose proof (md_dx _ _ M) as Hd.
    destruct (step_times gamma rk d None cfl tf nout sol0 Hn Ht _ _ _ _ _ _ _ _ _ _ _ V T) as [D0 [Et _]].
    pose proof (choice_convex rk Hk _ (step_nu ne sol0 M Ha Hp gamma d rk cfl tf nout D _ _ _ _ _ _ _ _ _ _ _ Hn Ht Hc V T)) as Cv.
    rewrite (step_mix ne sol0 M Ha He Hp Hl' Hr gamma d rk cfl tf nout D _ _ _ _ _ _ _ _ _ _ _ V T e) by lia. rewrite (src_id ne sol0 Hp) by exact Hee.
    set (tb := rk_choice rk) in *. set (nu := dt / dx) in *. set (t := s_t s - s_t sol0) in *. set (x := centre A dx e) in *.
    assert (E1 : s_t s' - s_t sol0 = t + nu * dx) by (rewrite Et; unfold t, nu; field; lra). rewrite E1.
    destruct HF as [F1 [F2 _]]. pose proof (mix_error tb nu f g K (x - t) dx (choice_second rk Hk) Cv F1 F2) as ME.
    replace (x - (t + nu * dx)) with (x - t - nu * dx) by ring.
    set (y := fun j => at2 (s_u s) 0 (iter_map (leftof ne sol0) j e)).
    replace (Rsum (S (stages tb)) (fun j => mix tb nu j * at2 (s_u s) 0 (iter_map (leftof ne sol0) j e)) - f (x - t - nu * dx))
      with (Rsum (S (stages tb)) (fun j => mix tb nu j * (y j - f (x - t - INR j * dx))) + (Rsum (S (stages tb)) (fun j => mix tb nu j * f (x - t - INR j * dx)) - f (x - t - nu * dx))).
    2:{ rewrite (Rsum_ext _ (fun j => mix tb nu j * (y j - f (x - t - INR j * dx))) (fun j => mix tb nu j * y j - mix tb nu j * f (x - t - INR j * dx))) by (intros; ring). rewrite Rsum_minus. unfold y. ring. }
    eapply Rle_trans; [apply Rabs_triang|].
    assert (B : Rabs (Rsum (S (stages tb)) (fun j => mix tb nu j * (y j - f (x - t - INR j * dx)))) <= eps + K / 2 * dx * t).
    { eapply Rle_trans; [apply Rsum_abs|]. apply Rle_trans with (Rsum (S (stages tb)) (fun j => mix tb nu j * (eps + K / 2 * dx * t))).
      - apply Rsum_le. intros j Hj. rewrite Rabs_mult, (Rabs_right (mix tb nu j)) by (apply Rle_ge, Cv; lia). apply Rmult_le_compat_l; [apply Cv; lia|].
        unfold y, x. rewrite <- (centre_iter t j e Hee). apply C. apply (iter_in ne sol0 M Hp Hl' Hr). exact Hee.
      - rewrite Rsum_scale_r, mix_total. lra. }
    replace (K / 2 * dx * (t + nu * dx)) with (K / 2 * dx * t + K / 2 * (dx * dx) * nu) by ring. lra.
  Qed.
  Theorem run_converges fuel evs out : integrate gamma rk d None cfl tf nout fuel sol0 = (evs, out) ->
    forall s, (exists ev, In ev evs /\ s = ev_sol ev) \/ out = Finished s ->
    forall e, (1 <= e <= ne)%nat -> Rabs (average s e - f (centre A dx e - (s_t s - s_t sol0))) <= eps + K / 2 * dx * (s_t s - s_t sol0).
  Proof.
    intro I. pose proof (md_wf _ _ M) as W0. assert (W00 : Wf ne sol0 sol0) by (split; [exact W0|apply similar_refl]).
    destruct (run_states gamma rk d None cfl tf nout sol0 (fun s => Wf ne sol0 s /\ close s)) with (fuel := fuel) (evs := evs) (out := out) as [HE HFi].
    - split; [exact W00|]. intros e Hee. rewrite (Rminus_diag_eq (s_t sol0)), Rminus_0_r, Rmult_0_r, Rplus_0_r by reflexivity. rewrite <- (average_at ne sol0 Ha Hp) by (first [exact W00|lia]). apply H0. exact Hee.
    - intros k tout touts s sc evs0 s' sc' [[dt o] dn] V [Ws Cs] T.
      destruct (Wf_visits gamma ne sol0 d None W0 D _ _ _ _ _ _ _ _ _ _ V) as [_ [Wsc [Kn _]]].
      destruct (Wf_time_step gamma ne sol0 d None D _ _ _ _ _ _ _ _ _ Ws Wsc Kn T) as [Ws' _].
      split; [exact Ws'|]. eapply close_step; eassumption.
    - exact I.
    - intros s Hs e Hee. assert (Q : Wf ne sol0 s /\ close s) by (destruct Hs as [[ev [Hin ->]]|E]; [rewrite Forall_forall in HE; apply HE; exact Hin|apply HFi; exact E]).
      destruct Q as [Ws Cs]. rewrite (average_at ne sol0 Ha Hp) by (first [exact Ws|lia]). apply Cs. exact Hee.
  Qed.
End Converge.
