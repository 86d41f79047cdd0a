(** Property C84: interface enhancement can make the scheme unstable. *)
From Coq Require Import ZArith List Bool Arith String Lia Reals Lra Ring.
From Verif Require Import Num Py PyStr Lib RealLib Constants LegNumpy Ext Basis Sensor Enhance Solution Solver RKCoeffs RK SpecDG SpecTime SpecPoly SpecRK SpecEnh SpecUniform Analysis SpecAnalysis SpecCfl SpecGrow
  ProofsDG ProofsCons ProofsWf ProofsSol ProofsAdv ProofsEnh ProofsEnh2 ProofsRun ProofsDet ProofsAnalysis ProofsAnalysis2 ProofsAnalysis3 ProofsAnalysis4 ProofsAnalysis5 ProofsEig ProofsGrow ProofsGrowRun ExtReal Witness
  PropertiesAnalysis.
Import ListNotations.
Open Scope list_scope.
Open Scope R_scope.

(** C84, the matrices of the analysis: eigenvalues with positive real part.  The modes 0 1 2 of order 3 are those of analysis/dg_stability.py. *)
Theorem C84_modes_012 : exists l, 0.00038 <= fst l /\ forall (X : Ext R) mthd e M, inv_ok -> Enhance 3 mthd = Ok e -> e_modes e = [0; 1; 2]%nat ->
  icb_FK 3 (e_modes e) (Cr (-1)) = Ok M -> exists w, eigen 4 M l w.
Proof.
  destruct root012 as [x [y [Hx Hq]]]. exists (x, y). split; [apply Hx|]. intros X mthd e M IV HE Em HM. exists (w012 (x, y)).
  apply (eigen012 IV mthd e (x, y) M HE Em HM); [|exact Hq]. intro H. apply (f_equal fst) in H. cbn in H. lra.
Qed.
Theorem C84_modes_0123 : exists l, 0.096 <= fst l /\ forall (X : Ext R) mthd e M, inv_ok -> Enhance 3 mthd = Ok e -> e_modes e = [0; 1; 2; 3]%nat ->
  icb_FK 3 (e_modes e) (0, 1) = Ok M -> exists w, eigen 4 M l w.
Proof.
  destruct root0123 as [x [y [Hx [Hy Hq]]]]. exists (x, y). split; [apply Hx|]. intros X mthd e M IV HE Em HM. exists (w0123 (x, y)).
  apply (eigen0123 IV mthd e (x, y) M HE Em HM); [|exact Hq]. intro H. apply (f_equal fst) in H. cbn in H. lra.
Qed.
(** C84, the solver: with all modes of order 3 enhanced, on any number of cells divisible by four and with any time scheme and any CFL number up to 1, one initial condition of period
    four cells grows by exp((t - t0) / (8 dx)) *)
Theorem C84_growth : exists w : nat -> C, forall (X : Ext R), gauss_ok -> inv_ok -> forall gamma q (sol0 : solution R) d rk cfl tf nout mthd e fuel evs s',
  made (4 * q) sol0 -> wf_dg (4 * q) sol0 d -> s_euler sol0 = false -> b_p (s_basis sol0) = 3%nat -> s_enh sol0 = Some e -> Enhance 3 mthd = Ok e -> e_modes e = [0; 1; 2; 3]%nat ->
  is_literal (s_bcl sol0) "periodic" = true -> is_literal (s_bcr sol0) "periodic" = true ->
  (forall c n, (1 <= c <= 4 * q)%nat -> (n < 4)%nat -> at1 (modes sol0 c 0) n = fst (nmul (Cpow (0, 1) c) (w n))) ->
  cfl <= 1 -> (2 <= nout)%Z -> s_t sol0 <= tf -> integrate gamma rk d None cfl tf nout fuel sol0 = (evs, Finished s') ->
  ((1 <= q)%nat -> exists n, (n < 4)%nat /\ 0 < energy (4 * q) sol0 n) /\
  (forall n, (n < 4)%nat -> exp ((tf - s_t sol0) / (4 * s_dx sol0)) * energy (4 * q) sol0 n <= energy (4 * q) s' n) /\
  Forall (fun ev => forall n, (n < 4)%nat -> exp ((s_t (ev_sol ev) - s_t sol0) / (4 * s_dx sol0)) * energy (4 * q) sol0 n <= energy (4 * q) (ev_sol ev) n) evs.
Proof.
  destruct root0123 as [x [y [Hx [Hy Hq]]]]. exists (w0123 (x, y)). intros X G IV gamma q sol0 d rk cfl tf nout mthd e fuel evs s' Hm D Ha Bp He HE Em Pl Pr H0 Hc Hn Ht HI.
  destruct (icb_FK_ok 3 mthd e (0, 1) HE) as [M HM].
  assert (Hz : (x, y) <> nofZ 0) by (intro H; apply (f_equal fst) in H; cbn in H; lra).
  exact (run_grows G IV x y Hx Hy laplace_mat gamma q sol0 d rk cfl tf nout mthd e _ M fuel evs s' C58_witness Hm D Ha Bp He HE Em Pl Pr HM (eigen0123 IV mthd e (x, y) M HE Em HM Hz Hq) H0 Hc Hn Ht HI).
Qed.

(** eight cells, CFL number 1, three outputs, any time scheme *)
Example C84_witness : forall gamma rk (w : nat -> C), exists sol0 d e F evs s',
  @made ExtReal (4 * 2) sol0 /\ wf_dg (4 * 2) sol0 d /\ s_euler sol0 = false /\ b_p (s_basis sol0) = 3%nat /\ s_enh sol0 = Some e /\ @Enhance R NumR ExtReal 3 "icb 0 1 2 3" = Ok e /\
  e_modes e = [0; 1; 2; 3]%nat /\ is_literal (s_bcl sol0) "periodic" = true /\ is_literal (s_bcr sol0) "periodic" = true /\
  (forall c n, (1 <= c <= 4 * 2)%nat -> (n < 4)%nat -> at1 (modes sol0 c 0) n = fst (nmul (Cpow (0, 1) c) (w n))) /\
  s_t sol0 = 0 /\ s_dx sol0 = 1 / 4 /\ integrate gamma rk d None 1 2 3 F sol0 = (evs, Finished s').
Proof.
  intros gamma rk w. destruct (sine_built 3) as [s [d [B [Hd [D [E1 [E2 Ex]]]]]]].
  pose proof (bl_made _ _ _ _ _ _ _ B) as M0. pose proof (bl_p _ _ _ _ _ _ _ B) as Bp. pose proof (bl_euler _ _ _ _ _ _ _ B : s_euler s = false) as Eu.
  destruct (@Enhance_ok ExtReal ExtReal_inv 3 "icb 0 1 2 3" "icb" ["0"; "1"; "2"; "3"]%string [0; 1; 2; 3]%nat) as [e [E M]];
    [reflexivity|repeat constructor|repeat constructor; cbn; intuition lia|intros m Hm; cbn in Hm; lia|].
  change (sort_nat [0; 1; 2; 3]%nat) with [0; 1; 2; 3]%nat in M.
  assert (ND : NoDup (e_modes e)) by (rewrite M; repeat constructor; cbn; intuition lia).
  assert (HB : forall m, In m (e_modes e) -> (m <= 3)%nat) by (rewrite M; intros m Hm; cbn in Hm; lia).
  destruct (@Enhance_lengths ExtReal ExtReal_inv 3 "icb 0 1 2 3" e E ND HB) as [L1 [L2 [L3 L4]]].
  assert (Ns : s_Ns s = 4%nat) by (unfold s_Ns, b_Ns; rewrite Bp; reflexivity). change (3 + 1)%nat with 4%nat in L1, L2, L3, L4. rewrite <- Ns in L1, L2, L3, L4.
  set (s' := with_enh s (Some e)). assert (M' : @made ExtReal 8 s') by (apply made_enh; assumption).
  destruct (bloch_wave 8 s' (0, 1) w (md_wf _ _ M') Eu) as [Wr [Wi [Sr [Sim Wv]]]]. set (sr := bloch s' 8 fst (0, 1) w) in *.
  assert (Mr : @made ExtReal 8 sr) by (eapply made_similar; [exact M'|exact Sr|exact Wr]).
  assert (Dr : wf_dg 8 sr d) by exact D. assert (T0 : s_t sr = 0) by exact (bl_t _ _ _ _ _ _ _ B). assert (Dx : s_dx sr = 1 / 4) by exact Ex.
  assert (Hc : 1 / 100000000000000 <= s_dx sr * 1 / INR (2 * b_p (s_basis sr) + 1)).
  { change (s_basis sr) with (s_basis s). rewrite Bp, Dx. cbn [Nat.mul Nat.add INR]. lra. }
  destruct (advection_completes gamma 8 sr d rk 1 2 3 Wr Dr Eu ltac:(lia) ltac:(lra) Hc) as [F1 [evs [sf [_ H1]]]].
  exists sr, d, e, F1, evs, sf. change (4 * 2)%nat with 8%nat.
  split; [exact Mr|]. split; [exact Dr|]. split; [exact Eu|]. split; [exact Bp|]. split; [reflexivity|]. split; [exact E|]. split; [exact M|].
  split; [change (s_bcl sr) with (s_bcl s); rewrite E1; reflexivity|]. split; [change (s_bcr sr) with (s_bcr s); rewrite E2; reflexivity|].
  split; [|split; [exact T0|split; [exact Dx|apply H1; lia]]].
  intros c n Hc8 Hnn. assert (K : at1 (modes sr c 0) n = fst (cmode sr (bloch s' 8 snd (0, 1) w) c n)) by reflexivity. rewrite K. f_equal. apply Wv; [exact Hc8|].
  change (s_Ns sr) with (s_Ns s). rewrite Ns. exact Hnn.
Qed.
(** the script's own case *)
Example C84_script_case : exists e M, @Enhance R NumR ExtReal 3 "icb 0 1 2" = Ok e /\ e_modes e = [0; 1; 2]%nat /\ @icb_FK R NumR ExtReal 3 (e_modes e) (Cr (-1)) = Ok M.
Proof.
  destruct (@Enhance_ok ExtReal ExtReal_inv 3 "icb 0 1 2" "icb" ["0"; "1"; "2"]%string [0; 1; 2]%nat) as [e [E M]];
    [reflexivity|repeat constructor|repeat constructor; cbn; intuition lia|intros m Hm; cbn in Hm; lia|].
  destruct (@icb_FK_ok ExtReal 3 "icb 0 1 2" e (Cr (-1)) E) as [K HK]. eauto.
Qed.

Print Assumptions C84_modes_012.
Print Assumptions C84_modes_0123.
Print Assumptions C84_growth.
