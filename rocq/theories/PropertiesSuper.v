(** Properties C69, C70: superposition of advection runs; order-0 runs side by side. *)
From Coq Require Import ZArith List Bool Arith String Lia Reals Lra.
From Verif Require Import Num Py PyStr Lib RealLib Constants LegNumpy Ext Basis Enhance Solution Solver RKCoeffs RK SpecDG SpecTime SpecPoly SpecRK SpecUniform SpecMonotone SpecSuper
  ProofsDG ProofsCons ProofsWf ProofsSol ProofsAdv ProofsRun ProofsMonotone ProofsSuper ExtReal Witness PropertiesMonotone.
Import ListNotations.
Open Scope list_scope.
Open Scope R_scope.

(** C69: if the data of the third problem are a times those of the first plus b times those of the second, so is everything its run writes,
    snapshot by snapshot, and the three runs take the same steps and end alike; every order, scheme, boundary condition, enhancement *)
Theorem C69_superposition : forall gamma a b ne (sol1 sol2 sol3 : solution R) d, wf ne sol1 -> wf ne sol2 -> wf ne sol3 -> similar sol3 sol1 -> similar sol3 sol2 ->
  s_euler sol3 = false -> wf_dg ne sol3 d -> forall rk cfl tf nout fuel, combines a b ne sol1 sol2 sol3 ->
  let r1 := integrate gamma rk d None cfl tf nout fuel sol1 in
  let r2 := integrate gamma rk d None cfl tf nout fuel sol2 in
  let r3 := integrate gamma rk d None cfl tf nout fuel sol3 in
  all3 (combines_event a b ne) (fst r1) (fst r2) (fst r3) /\ combines_outcome a b ne (snd r1) (snd r2) (snd r3).
Proof. exact superposition. Qed.

(** C70: at order 0 the difference of two runs stays within its initial range; with lo = 0: ordered data stay ordered *)
Theorem C70_range : forall (X : Ext R) ne (sol1 sol2 : solution R), made ne sol1 -> wf ne sol2 -> similar sol1 sol2 -> s_t sol2 = s_t sol1 -> s_n sol2 = s_n sol1 ->
  s_euler sol1 = false -> s_enh sol1 = None -> b_p (s_basis sol1) = 0%nat -> bc_known (s_bcl sol1) -> bc_known (s_bcr sol1) ->
  forall gamma d rk cfl tf nout, wf_dg ne sol1 d -> In rk ["rk3"; "rk4"; "low_storage_rk4"; "rk5"]%string -> cfl <= 1 -> (2 <= nout)%Z -> s_t sol1 <= tf ->
  forall lo hi fuel, (forall e, (1 <= e <= ne)%nat -> lo <= average sol1 e - average sol2 e <= hi) ->
  alike (fun s1 s2 => forall e, (1 <= e <= ne)%nat -> lo <= average s1 e - average s2 e <= hi)
    (integrate gamma rk d None cfl tf nout fuel sol1) (integrate gamma rk d None cfl tf nout fuel sol2).
Proof. exact @stable_range. Qed.
(** .. and in a periodic domain the L1 distance of the two runs does not grow *)
Theorem C70_distance : forall (X : Ext R) ne (sol1 sol2 : solution R), made ne sol1 -> wf ne sol2 -> similar sol1 sol2 -> s_t sol2 = s_t sol1 -> s_n sol2 = s_n sol1 ->
  s_euler sol1 = false -> s_enh sol1 = None -> b_p (s_basis sol1) = 0%nat -> is_literal (s_bcl sol1) "periodic" = true -> bc_known (s_bcr sol1) ->
  forall gamma d rk cfl tf nout, wf_dg ne sol1 d -> In rk ["rk3"; "rk4"; "low_storage_rk4"; "rk5"]%string -> cfl <= 1 -> (2 <= nout)%Z -> s_t sol1 <= tf ->
  forall fuel,
  alike (fun s1 s2 => distance ne s1 s2 <= distance ne sol1 sol2)
    (integrate gamma rk d None cfl tf nout fuel sol1) (integrate gamma rk d None cfl tf nout fuel sol2).
Proof. intros X ne sol1 sol2 M W2 S2 T2 N2 Ha He Hp Hl. intros. apply (@stable_distance X); assumption. Qed.

(** a sine wave and a pulse, at any order and with any scheme: three complete runs *)
Example C69_witness : forall gamma p rk, (p <= 20)%nat -> exists sol1 sol2 sol3 d F evs s,
  wf 8 sol1 /\ wf 8 sol2 /\ wf 8 sol3 /\ similar sol3 sol1 /\ similar sol3 sol2 /\ s_euler sol3 = false /\ wf_dg 8 sol3 d /\ b_p (s_basis sol3) = p /\
  combines 2 (-3) 8 sol1 sol2 sol3 /\ average sol2 1 = 1 /\ average sol2 8 = 0 /\
  integrate gamma rk d None (1 / 2) 2 3 F sol3 = (evs, Finished s) /\
  exists evs1 s1 evs2 s2, integrate gamma rk d None (1 / 2) 2 3 F sol1 = (evs1, Finished s1) /\ integrate gamma rk d None (1 / 2) 2 3 F sol2 = (evs2, Finished s2) /\
    forall e, (1 <= e <= 8)%nat -> average s e = 2 * average s1 e - 3 * average s2 e.
Proof.
  intros gamma p rk Hp20. destruct (sine_built p) as [s0 [d [B [Hd [D [E1 [E2 Ex]]]]]]].
  pose proof (bl_made _ _ _ _ _ _ _ B) as M0. pose proof (md_wf _ _ M0) as W0.
  set (f := fun e : nat => if (e <=? 4)%nat then 1 else 0). set (sol2 := cells 8 s0 f).
  assert (W2 : wf 8 sol2) by (apply cells_wf; exact W0).
  set (sol3 := with_u s0 (tab2 (s_Ns s0) ((8 + 2) * s_NF s0) (fun n j => 2 * at2 (s_u s0) n j + -3 * at2 (s_u sol2) n j))).
  assert (W3 : wf 8 sol3) by (apply wf_with_u; [exact W0|apply shape_tab2]).
  assert (S1 : similar sol3 s0). { exists (s_t s0), (s_n s0), (s_sens s0), (s_u s0). split; [symmetry; apply rebuild|]. cbn. destruct (s_sens s0); auto. }
  assert (S2 : similar sol3 sol2). { exists (s_t s0), (s_n s0), (s_sens s0), (s_u sol2). split; [reflexivity|]. cbn. destruct (s_sens s0); auto. }
  assert (Ha : s_euler sol3 = false) by exact (bl_euler _ _ _ _ _ _ _ B). assert (Hp : b_p (s_basis sol3) = p) by exact (bl_p _ _ _ _ _ _ _ B). assert (T0 : s_t sol3 = 0) by exact (bl_t _ _ _ _ _ _ _ B).
  assert (D' : wf_dg 8 sol3 d) by exact D.
  assert (C : combines 2 (-3) 8 s0 sol2 sol3).
  { repeat (split; [reflexivity|]). intros e ff n He Hf Hn. rewrite (modes_at 8 sol3), (modes_at 8 s0), (modes_at 8 sol2) by (first [assumption]).
    change (s_NF sol3) with (s_NF s0) in *. change (s_NF sol2) with (s_NF s0). change (s_Ns sol3) with (s_Ns s0) in Hn. unfold sol3. cbn [with_u s_u]. rewrite at2_tab2 by (first [exact Hn|nia]). reflexivity. }
  assert (Hc : forall s, similar sol3 s -> 1 / 100000000000000 <= s_dx s * (1 / 2) / INR (2 * b_p (s_basis s) + 1)).
  { intros s [? [? [? [? [-> _]]]]]. change (1 / 100000000000000 <= s_dx s0 * (1 / 2) / INR (2 * b_p (s_basis s0) + 1)). change (s_basis s0) with (s_basis sol3). rewrite Hp, Ex.
    pose proof (le_INR (2 * p + 1) 41 ltac:(lia)) as L1. pose proof (lt_0_INR (2 * p + 1) ltac:(lia)) as L2. rewrite (INR_IZR_INZ 41) in L1. change (Z.of_nat 41) with 41%Z in L1.
    apply Rmult_le_reg_r with (INR (2 * p + 1)); [exact L2|]. replace (1 / 4 * (1 / 2) / INR (2 * p + 1) * INR (2 * p + 1)) with (1 / 8) by (field; lra). lra. }
  destruct (advection_completes gamma 8 sol3 d rk (1 / 2) 2 3 W3 D' Ha ltac:(lia) ltac:(lra) (Hc _ (similar_refl _))) as [F [evs [s [_ H]]]].
  specialize (H F (le_n F)).
  pose proof (C69_superposition gamma 2 (-3) 8 s0 sol2 sol3 d W0 W2 W3 S1 S2 Ha D' rk (1 / 2) 2 3%Z F C) as [_ O]. rewrite H in O. cbn [fst snd] in O.
  destruct (integrate gamma rk d None (1 / 2) 2 3 F s0) as [evs1 out1] eqn:I1. destruct (integrate gamma rk d None (1 / 2) 2 3 F sol2) as [evs2 out2] eqn:I2. cbn [fst snd] in O.
  inversion O as [s1 s2 s3 Q A1 A2 A3| |]. subst.
  exists s0, sol2, sol3, d, F, evs, s. repeat (split; [first [assumption|reflexivity]|]).
  split; [unfold sol2; rewrite cells_average by (first [exact W0|lia]); reflexivity|]. split; [unfold sol2; rewrite cells_average by (first [exact W0|lia]); reflexivity|].
  split; [exact H|]. exists evs1, s1, evs2, s2. split; [exact I1|]. split; [exact I2|]. intros e He. destruct Q as [_ [_ [_ [_ Q]]]]. unfold average.
  rewrite (Q e 0%nat 0%nat ltac:(lia)); [ring|pose proof (NF_pos s); lia|unfold s_Ns, b_Ns; lia].
Qed.

(** two pulses, one below the other, on eight periodic cells with CFL number 1 *)
Example C70_witness : forall gamma rk, In rk ["rk3"; "rk4"; "low_storage_rk4"; "rk5"]%string -> exists sol1 sol2 d F evs1 s1 evs2 s2,
  @made ExtReal 8 sol1 /\ wf 8 sol2 /\ similar sol1 sol2 /\ s_t sol2 = s_t sol1 /\ s_n sol2 = s_n sol1 /\ s_euler sol1 = false /\ s_enh sol1 = None /\ b_p (s_basis sol1) = 0%nat /\
  is_literal (s_bcl sol1) "periodic" = true /\ bc_known (s_bcr sol1) /\ wf_dg 8 sol1 d /\ s_t sol1 <= 2 /\
  (forall e, (1 <= e <= 8)%nat -> 0 <= average sol1 e - average sol2 e <= 1) /\ 0 < distance 8 sol1 sol2 /\
  integrate gamma rk d None 1 2 3 F sol1 = (evs1, Finished s1) /\ integrate gamma rk d None 1 2 3 F sol2 = (evs2, Finished s2) /\
  (forall e, (1 <= e <= 8)%nat -> average s2 e <= average s1 e) /\ distance 8 s1 s2 <= distance 8 sol1 sol2.
Proof.
  intros gamma rk Hk. destruct (sine_built 0) as [s0 [d [B [Hd [D [E1 [E2 Ex]]]]]]].
  pose proof (bl_made _ _ _ _ _ _ _ B) as M0. pose proof (md_wf _ _ M0) as W0.
  set (f := fun e : nat => if (e <=? 4)%nat then 1 else 0). set (g := fun e : nat => if (e <=? 2)%nat then 1 else 0). set (sol1 := cells 8 s0 f). set (sol2 := cells 8 s0 g).
  assert (W1 : wf 8 sol1) by (apply cells_wf; exact W0). assert (W2 : wf 8 sol2) by (apply cells_wf; exact W0).
  assert (M : @made ExtReal 8 sol1) by (eapply made_similar; [exact M0|apply similar_with_u|exact W1]).
  assert (S2 : similar sol1 sol2). { exists (s_t s0), (s_n s0), (s_sens s0), (s_u sol2). split; [reflexivity|]. cbn. destruct (s_sens s0); auto. }
  assert (Ha : s_euler sol1 = false) by exact (bl_euler _ _ _ _ _ _ _ B). assert (He : s_enh sol1 = None) by exact (bl_enh _ _ _ _ _ _ _ B).
  assert (Hp : b_p (s_basis sol1) = 0%nat) by exact (bl_p _ _ _ _ _ _ _ B). assert (T0 : s_t sol1 = 0) by exact (bl_t _ _ _ _ _ _ _ B).
  assert (Bl : is_literal (s_bcl sol1) "periodic" = true) by (change (s_bcl sol1) with (s_bcl s0); rewrite E1; reflexivity).
  assert (Br : bc_known (s_bcr sol1)) by (left; change (s_bcr sol1) with (s_bcr s0); rewrite E2; reflexivity).
  assert (D' : wf_dg 8 sol1 d) by exact D.
  assert (Hc : 1 / 100000000000000 <= s_dx sol1 * 1 / INR (2 * b_p (s_basis sol1) + 1)).
  { rewrite Hp. change (s_dx sol1) with (s_dx s0). rewrite Ex. cbn [Nat.mul Nat.add INR]. lra. }
  assert (Hr : forall e, (1 <= e <= 8)%nat -> 0 <= average sol1 e - average sol2 e <= 1).
  { intros e He'. unfold sol1, sol2. rewrite !cells_average by (first [exact W0|lia]). unfold f, g. destruct (Nat.leb_spec e 4), (Nat.leb_spec e 2); first [lra|lia]. }
  destruct (advection_completes gamma 8 sol1 d rk 1 2 3 W1 D' Ha ltac:(lia) ltac:(lra) Hc) as [F [evs1 [s1 [_ H]]]]. specialize (H F (le_n F)).
  pose proof (C70_range ExtReal 8 sol1 sol2 M W2 S2 eq_refl eq_refl Ha He Hp (or_introl Bl) Br gamma d rk 1 2 3%Z D' Hk ltac:(lra) ltac:(lia) ltac:(lra) 0 1 F Hr) as [_ R1].
  pose proof (C70_distance ExtReal 8 sol1 sol2 M W2 S2 eq_refl eq_refl Ha He Hp Bl Br gamma d rk 1 2 3%Z D' Hk ltac:(lra) ltac:(lia) ltac:(lra) F) as [_ R2].
  rewrite H in R1, R2. destruct (integrate gamma rk d None 1 2 3 F sol2) as [evs2 out2] eqn:I2. cbn [fst snd] in R1, R2. destruct out2 as [s2|e|]; try contradiction.
  exists sol1, sol2, d, F, evs1, s1, evs2, s2. repeat (split; [first [assumption|reflexivity|rewrite T0; lra]|]).
  split. { unfold distance, sol1, sol2. cbn [Rsum Nat.add]. rewrite !cells_average by (first [exact W0|lia]). unfold f, g. cbn [Nat.leb]. rewrite !Rminus_0_r, !Rminus_diag_eq, Rabs_R1, Rabs_R0 by reflexivity. lra. }
  split; [exact H|]. split; [first [exact I2|reflexivity]|]. split; [intros e He'; specialize (R1 e He'); lra|exact R2].
Qed.
Print Assumptions C69_superposition.
Print Assumptions C70_range.
Print Assumptions C70_distance.
