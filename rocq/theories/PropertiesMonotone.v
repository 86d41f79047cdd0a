(** Property C60: first-order advection creates no extrema. *)
From Coq Require Import ZArith List Bool Arith String Lia Reals Lra.
From Verif Require Import Num Py PyStr Lib RealLib Constants LegNumpy Ext Basis Enhance Solution Solver RKCoeffs RK SpecDG SpecTime SpecPoly SpecRK SpecUniform SpecMonotone
  ProofsDG ProofsCons ProofsWf ProofsSol ProofsAdv ProofsRun ProofsMonotone ExtReal Witness.
Import ListNotations.
Open Scope list_scope.
Open Scope R_scope.

(** C60: cell averages stay in the initial range and their total variation does not grow, at every snapshot and at the end *)
Theorem C60_no_new_extrema : forall (X : Ext R) ne (sol0 : solution R), made ne sol0 -> s_euler sol0 = false -> s_enh sol0 = None -> b_p (s_basis sol0) = 0%nat ->
  bc_known (s_bcl sol0) -> bc_known (s_bcr sol0) -> forall gamma d rk cfl tf nout, wf_dg ne sol0 d ->
  In rk ["rk3"; "rk4"; "low_storage_rk4"; "rk5"]%string -> cfl <= 1 -> (2 <= nout)%Z -> s_t sol0 <= tf ->
  forall lo hi fuel evs out, (forall e, (1 <= e <= ne)%nat -> lo <= average sol0 e <= hi) ->
  integrate gamma rk d None cfl tf nout fuel sol0 = (evs, out) ->
  forall s, (exists ev, In ev evs /\ s = ev_sol ev) \/ out = Finished s ->
  (forall e, (1 <= e <= ne)%nat -> lo <= average s e <= hi) /\ variation ne s <= variation ne sol0.
Proof. exact @run_range. Qed.

(** data equal to [f] in the cells *)
Definition cells (ne : nat) (s : solution R) (f : nat -> R) : solution R := with_u s (tab2 (s_Ns s) ((ne + 2) * s_NF s) (fun n j => if (n =? 0)%nat then f (j / s_NF s)%nat else 0)).
Lemma cells_wf ne (s : solution R) f : wf ne s -> wf ne (cells ne s f).
Proof. intro W. apply wf_with_u; [exact W|apply shape_tab2]. Qed.
Lemma cells_average ne (s : solution R) f e : wf ne s -> (e < ne + 2)%nat -> average (cells ne s f) e = f e.
Proof.
  intros W He. assert (NF : (1 <= s_NF s)%nat) by apply NF_pos. assert (Ns : (1 <= s_Ns s)%nat) by (unfold s_Ns, b_Ns; lia).
  unfold average. rewrite (modes_at ne (cells ne s f)) by (first [apply cells_wf; exact W|exact He|exact NF|exact Ns]).
  change (s_NF (cells ne s f)) with (s_NF s). cbn [cells with_u s_u]. rewrite at2_tab2 by (first [exact Ns|nia]). cbn [Nat.eqb]. f_equal. rewrite Nat.add_0_r, Nat.div_mul; lia.
Qed.
(** a square pulse on eight periodic cells, CFL number 1: complete runs *)
Example C60_witness : forall gamma rk, In rk ["rk3"; "rk4"; "low_storage_rk4"; "rk5"]%string -> exists sol0 d F evs s,
  @made ExtReal 8 sol0 /\ s_euler sol0 = false /\ s_enh sol0 = None /\ b_p (s_basis sol0) = 0%nat /\ bc_known (s_bcl sol0) /\ bc_known (s_bcr sol0) /\ wf_dg 8 sol0 d /\
  s_t sol0 <= 2 /\ (forall e, (1 <= e <= 8)%nat -> 0 <= average sol0 e <= 1) /\ average sol0 1 <> average sol0 8 /\
  integrate gamma rk d None 1 2 3 F sol0 = (evs, Finished s) /\ variation 8 s <= variation 8 sol0.
Proof.
  intros gamma rk Hk. destruct (sine_built 0) as [s0 [d [B [Hd [D [E1 [E2 Ex]]]]]]].
  pose proof (bl_made _ _ _ _ _ _ _ B) as M0. pose proof (md_wf _ _ M0) as W0.
  set (f := fun e : nat => if (e <=? 4)%nat then 1 else 0). set (sol0 := cells 8 s0 f).
  assert (W : wf 8 sol0) by (apply cells_wf; exact W0).
  assert (M : @made ExtReal 8 sol0) by (eapply made_similar; [exact M0|apply similar_with_u|exact W]).
  assert (Ha : s_euler sol0 = false) by exact (bl_euler _ _ _ _ _ _ _ B). assert (He : s_enh sol0 = None) by exact (bl_enh _ _ _ _ _ _ _ B).
  assert (Hp : b_p (s_basis sol0) = 0%nat) by exact (bl_p _ _ _ _ _ _ _ B). assert (T0 : s_t sol0 = 0) by exact (bl_t _ _ _ _ _ _ _ B).
  assert (Bl : bc_known (s_bcl sol0)) by (left; change (s_bcl sol0) with (s_bcl s0); rewrite E1; reflexivity).
  assert (Br : bc_known (s_bcr sol0)) by (left; change (s_bcr sol0) with (s_bcr s0); rewrite E2; reflexivity).
  assert (D' : wf_dg 8 sol0 d) by exact D.
  assert (Hc : 1 / 100000000000000 <= s_dx sol0 * 1 / INR (2 * b_p (s_basis sol0) + 1)).
  { rewrite Hp. change (s_dx sol0) with (s_dx s0). rewrite Ex. cbn [Nat.mul Nat.add INR]. lra. }
  destruct (advection_completes gamma 8 sol0 d rk 1 2 3 W D' Ha ltac:(lia) ltac:(lra) Hc) as [F [evs [s [_ H]]]].
  specialize (H F (le_n F)).
  assert (Hr : forall e, (1 <= e <= 8)%nat -> 0 <= average sol0 e <= 1).
  { intros e He'. unfold sol0. rewrite cells_average by (first [exact W0|lia]). unfold f. destruct (e <=? 4)%nat; lra. }
  exists sol0, d, F, evs, s. repeat (split; [first [assumption|rewrite T0; lra]|]). split.
  { unfold sol0. rewrite !cells_average by (first [exact W0|lia]). unfold f. cbn [Nat.leb]. lra. }
  split; [exact H|]. apply (C60_no_new_extrema ExtReal 8 sol0 M Ha He Hp Bl Br gamma d rk 1 2 3 D' Hk ltac:(lra) ltac:(lia) ltac:(lra) 0 1 F evs (Finished s) Hr H). right. reflexivity.
Qed.
(** with rk6 every first step from a single full cell undershoots, however small the CFL number *)
Theorem C60_rk6 : forall (X : Ext R) gamma (sol0 : solution R) d cfl tf nout, made 8 sol0 -> s_euler sol0 = false -> s_enh sol0 = None -> b_p (s_basis sol0) = 0%nat ->
  bc_known (s_bcl sol0) -> bc_known (s_bcr sol0) -> wf_dg 8 sol0 d -> (2 <= nout)%Z -> s_t sol0 < tf -> tf - s_t sol0 < s_dx sol0 * cfl ->
  (forall e, (1 <= e <= 8)%nat -> average sol0 e = if (e =? 1)%nat then 1 else 0) ->
  forall fuel evs s, integrate gamma "rk6" d None cfl tf nout fuel sol0 = (evs, Finished s) -> average s 8 < 0.
Proof. exact @rk6_undershoot. Qed.
Example C60_rk6_witness : forall gamma, exists sol0 d F evs s,
  @made ExtReal 8 sol0 /\ b_p (s_basis sol0) = 0%nat /\ (forall e, (1 <= e <= 8)%nat -> 0 <= average sol0 e <= 1) /\
  integrate gamma "rk6" d None (1 / 2) (1 / 16) 2 F sol0 = (evs, Finished s) /\ average s 8 < 0.
Proof.
  intro gamma. destruct (sine_built 0) as [s0 [d [B [Hd [D [E1 [E2 Ex]]]]]]].
  pose proof (bl_made _ _ _ _ _ _ _ B) as M0. pose proof (md_wf _ _ M0) as W0.
  set (f := fun e : nat => if (e =? 1)%nat then 1 else 0). set (sol0 := cells 8 s0 f).
  assert (W : wf 8 sol0) by (apply cells_wf; exact W0).
  assert (M : @made ExtReal 8 sol0) by (eapply made_similar; [exact M0|apply similar_with_u|exact W]).
  assert (Ha : s_euler sol0 = false) by exact (bl_euler _ _ _ _ _ _ _ B). assert (He : s_enh sol0 = None) by exact (bl_enh _ _ _ _ _ _ _ B).
  assert (Hp : b_p (s_basis sol0) = 0%nat) by exact (bl_p _ _ _ _ _ _ _ B). assert (T0 : s_t sol0 = 0) by exact (bl_t _ _ _ _ _ _ _ B).
  assert (Bl : bc_known (s_bcl sol0)) by (left; change (s_bcl sol0) with (s_bcl s0); rewrite E1; reflexivity).
  assert (Br : bc_known (s_bcr sol0)) by (left; change (s_bcr sol0) with (s_bcr s0); rewrite E2; reflexivity).
  assert (D' : wf_dg 8 sol0 d) by exact D. assert (Dx : s_dx sol0 = 1 / 4) by exact Ex.
  assert (Hc : 1 / 100000000000000 <= s_dx sol0 * (1 / 2) / INR (2 * b_p (s_basis sol0) + 1)) by (rewrite Hp, Dx; cbn [Nat.mul Nat.add INR]; lra).
  destruct (advection_completes gamma 8 sol0 d "rk6" (1 / 2) (1 / 16) 2 W D' Ha ltac:(lia) ltac:(lra) Hc) as [F [evs [s [_ H]]]].
  specialize (H F (le_n F)).
  assert (Av : forall e, (1 <= e <= 8)%nat -> average sol0 e = if (e =? 1)%nat then 1 else 0) by (intros e He'; unfold sol0; rewrite cells_average by (first [exact W0|lia]); reflexivity).
  exists sol0, d, F, evs, s. split; [exact M|]. split; [exact Hp|]. split; [intros e He'; rewrite Av by exact He'; destruct (e =? 1)%nat; lra|]. split; [exact H|].
  apply (C60_rk6 ExtReal gamma sol0 d (1 / 2) (1 / 16) 2 M Ha He Hp Bl Br D' ltac:(lia) ltac:(lra) ltac:(rewrite T0, Dx; lra) Av F evs s H).
Qed.
Print Assumptions C60_no_new_extrema.
Print Assumptions C60_rk6.
