(** Property C73: advection runs with rk3 do not increase the L2 norm, at any order.  [gauss_ok] is the contract of numpy's leggauss. *)
From Coq Require Import ZArith List Bool Arith String Lia Reals Lra Sorting.Sorted.
From Verif Require Import Num Py PyStr Lib RealLib Constants LegNumpy Ext Basis Enhance Solution Solver RKCoeffs RK SpecDG SpecTime SpecPoly SpecRK SpecUniform SpecMonotone SpecSuper SpecL2
  ProofsDG ProofsCons ProofsWf ProofsSol ProofsAdv ProofsRun ProofsMonotone ProofsSuper ProofsL2 ProofsL2Run ExtReal Witness PropertiesMonotone.
Import ListNotations.
Open Scope list_scope.
Open Scope R_scope.

(** C73: each snapshot has at most the norm of the initial state and of every earlier snapshot, and so does the final state *)
Theorem C73_l2_stable : forall (X : Ext R), gauss_ok -> forall ne (sol0 : solution R), made ne sol0 -> s_euler sol0 = false -> s_enh sol0 = None -> is_literal (s_bcl sol0) "periodic" = true ->
  forall gamma d cfl tf nout, wf_dg ne sol0 d -> (2 <= nout)%Z -> s_t sol0 <= tf -> cfl <= cfl_max (b_p (s_basis sol0)) ->
  forall fuel evs out, integrate gamma "rk3" d None cfl tf nout fuel sol0 = (evs, out) ->
  Forall (fun ev => l2_decays ne sol0 (ev_sol ev)) evs /\
  StronglySorted (fun earlier later => l2_decays ne (ev_sol earlier) (ev_sol later)) evs /\
  forall s, out = Finished s -> l2_decays ne sol0 s /\ Forall (fun ev => l2_decays ne (ev_sol ev) s) evs.
Proof. intros X G ne sol0 M Ha He Hl gamma d cfl tf nout D Hn Ht Hc. apply (@rk3_decays X); try assumption. exact (cfl_max_le _ _ Hc). Qed.
(** .. and the distance of two runs does not grow *)
Theorem C73_l2_distance : forall (X : Ext R), gauss_ok -> forall ne (sol1 sol2 : solution R), made ne sol1 -> wf ne sol2 -> similar sol1 sol2 -> s_t sol2 = s_t sol1 -> s_n sol2 = s_n sol1 ->
  s_euler sol1 = false -> s_enh sol1 = None -> is_literal (s_bcl sol1) "periodic" = true ->
  forall gamma d cfl tf nout, wf_dg ne sol1 d -> (2 <= nout)%Z -> s_t sol1 <= tf -> cfl <= cfl_max (b_p (s_basis sol1)) ->
  forall fuel E0, l2dist ne sol1 sol2 E0 ->
  alike (fun s1 s2 => exists E, l2dist ne s1 s2 E /\ E <= E0) (integrate gamma "rk3" d None cfl tf nout fuel sol1) (integrate gamma "rk3" d None cfl tf nout fuel sol2).
Proof. intros X G ne sol1 sol2 M W2 S2 T2 N2 Ha He Hl gamma d cfl tf nout D Hn Ht Hc. apply (@rk3_distance X); try assumption. exact (cfl_max_le _ _ Hc). Qed.

(** a square pulse of norm 1 on eight periodic cells, orders 0 to 20: complete runs *)
Example C73_witness : forall gamma p, (p <= 20)%nat -> exists sol0 d F evs s E,
  @made ExtReal 8 sol0 /\ s_euler sol0 = false /\ s_enh sol0 = None /\ is_literal (s_bcl sol0) "periodic" = true /\ b_p (s_basis sol0) = p /\ wf_dg 8 sol0 d /\ s_t sol0 <= 2 /\
  l2sq 8 sol0 1 /\ integrate gamma "rk3" d None (cfl_max p) 2 3 F sol0 = (evs, Finished s) /\ s_t s = 2 /\ l2sq 8 s E /\ E <= 1.
Proof.
  intros gamma p Hp20. destruct (sine_built p) as [s0 [d [B [Hd [D [E1 [E2 Ex]]]]]]].
  pose proof (bl_made _ _ _ _ _ _ _ B) as M0. pose proof (md_wf _ _ M0) as W0.
  set (f := fun e : nat => if (e <=? 4)%nat then 1 else 0). set (sol0 := cells 8 s0 f).
  assert (W : wf 8 sol0) by (apply cells_wf; exact W0).
  assert (M : @made ExtReal 8 sol0) by (eapply made_similar; [exact M0|apply similar_with_u|exact W]).
  assert (Ha : s_euler sol0 = false) by exact (bl_euler _ _ _ _ _ _ _ B). assert (He : s_enh sol0 = None) by exact (bl_enh _ _ _ _ _ _ _ B).
  assert (Hp : b_p (s_basis sol0) = p) by exact (bl_p _ _ _ _ _ _ _ B). assert (T0 : s_t sol0 = 0) by exact (bl_t _ _ _ _ _ _ _ B).
  assert (Bl : is_literal (s_bcl sol0) "periodic" = true) by (change (s_bcl sol0) with (s_bcl s0); rewrite E1; reflexivity).
  assert (D' : wf_dg 8 sol0 d) by exact D.
  assert (Ex' : s_dx sol0 = 1 / 4) by exact Ex.
  assert (Hc : 1 / 100000000000000 <= s_dx sol0 * cfl_max p / INR (2 * b_p (s_basis sol0) + 1)).
  { rewrite Hp, Ex'. pose proof (le_INR (p + 1) 21 ltac:(lia)) as L1. rewrite (INR_IZR_INZ 21) in L1. change (IZR (Z.of_nat 21)) with 21 in L1.
    pose proof (lt_0_INR (2 * p + 1) ltac:(lia)) as L2. pose proof (lt_0_INR (p + 1) ltac:(lia)) as L3. unfold cfl_max.
    replace (1 / 4 * (INR (2 * p + 1) / (2 * (INR (p + 1) * INR (p + 1)))) / INR (2 * p + 1)) with (/ (8 * (INR (p + 1) * INR (p + 1)))) by (field; lra).
    assert (Q : 8 * (INR (p + 1) * INR (p + 1)) <= 8 * 441) by (apply Rmult_le_compat_l; [lra|]; replace 441 with (21 * 21) by ring; apply Rmult_le_compat; lra).
    apply Rle_trans with (/ (8 * 441)); [lra|]. apply Rinv_le_contravar; [|exact Q]. apply Rmult_lt_0_compat; [lra|]. apply Rmult_lt_0_compat; exact L3. }
  assert (N0 : l2sq 8 sol0 1).
  { pose proof (l2sq_nrm 8 sol0 M Ha sol0 ltac:(split; [exact W|apply similar_refl])) as Q. replace 1 with (s_dx sol0 * nrm2 8 sol0 sol0); [exact Q|].
    rewrite Ex'. unfold nrm2. rewrite ip_cells. rewrite (Rsum_ext 8 _ (fun i => f (i + 1)%nat)); [unfold f; cbn [Rsum Nat.leb Nat.add]; lra|].
    intros i Hi. unfold cellsq. rewrite (Rsum_single _ 0) by (first [unfold s_Ns, b_Ns; lia|intros n Hn Hn0; unfold sol0; cbn [cells with_u s_u]; rewrite at2_tab2 by (first [exact Hn|pose proof (NF_pos s0); nia]); destruct (Nat.eqb_spec n 0); [contradiction|unfold Rdiv; ring]]).
    unfold sol0. cbn [cells with_u s_u]. pose proof (NF_pos s0). rewrite at2_tab2 by (first [unfold s_Ns, b_Ns; lia|nia]). cbn [Nat.eqb]. assert (NF1 : s_NF s0 = 1%nat) by exact (adv_NF sol0 Ha). rewrite NF1, Nat.div_1_r.
    cbn [INR]. unfold f. destruct (i + 1 <=? 4)%nat; field. }
  destruct (advection_completes gamma 8 sol0 d "rk3" (cfl_max p) 2 3 W D' Ha ltac:(lia) ltac:(lra) Hc) as [F [evs [s [Ts H]]]]. specialize (H F (le_n F)).
  destruct (C73_l2_stable ExtReal ExtReal_gauss 8 sol0 M Ha He Bl gamma d (cfl_max p) 2 3%Z D' ltac:(lia) ltac:(lra) ltac:(rewrite Hp; lra) F evs _ H) as [_ [_ Q]].
  destruct (Q s eq_refl) as [[E [E' [A1 [A2 L]]]] _]. pose proof (l2sq_unique _ _ _ _ A1 N0). subst E.
  exists sol0, d, F, evs, s, E'. repeat (split; [first [assumption|reflexivity|rewrite T0; lra]|]). exact L.
Qed.
Print Assumptions C73_l2_stable.
Print Assumptions C73_l2_distance.
