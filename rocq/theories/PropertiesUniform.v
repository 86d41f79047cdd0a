(** Property C14: uniform flows; a witness for C31. *)
From Coq Require Import ZArith List Bool Arith String Lia Reals Lra.
From Verif Require Import Num Py PyStr Lib RealLib Constants LegNumpy Ext Basis Sensor Enhance Limiting EulerPhysics IC Solution Solver RKCoeffs RK
  SpecTime SpecDG SpecPoly SpecEuler SpecLimit SpecUniform ProofsPoly ProofsDG ProofsWf ProofsCons ProofsSol ProofsRiemann ProofsGodunov ProofsLimRun ProofsUniform ExtReal Witness
  PropertiesLimit PropertiesRiemann.
Import ListNotations.
Open Scope list_scope.
Open Scope R_scope.

(** C14, one evaluation: every interior entry of the residual is zero and the state is not disturbed *)
Theorem C14_residual : forall (X : Ext R) (gamma : R), gauss_ok -> inv_ok -> forall ne c (s : solution R) d,
  made ne s -> wf_dg ne s d -> enh_sound s -> bc_known (s_bcl s) -> bc_known (s_bcr s) -> good_state gamma c s -> uniform ne c s ->
  exists s1 F, residual gamma d s = Ok (s1, F) /\ similar s s1 /\ made ne s1 /\ uniform_all ne c s1 /\
    (forall n e f, (n < s_Ns s)%nat -> (1 <= e <= ne)%nat -> (f < s_NF s)%nat -> at2 F n (e * s_NF s + f) = 0) /\
    (forall e f, (e < ne + 2)%nat -> (f < s_NF s)%nat -> at2 F 0 (e * s_NF s + f) = 0).
Proof. exact @residual_uniform. Qed.

(** C14, every snapshot and the final state of every run, whatever the scheme, the step sizes and the limiter *)
Theorem C14_run : forall (X : Ext R) (gamma : R), gauss_ok -> inv_ok -> forall ne c (s0 : solution R) d l,
  made ne s0 -> wf_dg ne s0 d -> enh_sound s0 -> bc_known (s_bcl s0) -> bc_known (s_bcr s0) -> good_state gamma c s0 -> uniform_all ne c s0 ->
  limiter_of s0 l ->
  forall rk cfl tf nout fuel evs out, integrate gamma rk d l cfl tf nout fuel s0 = (evs, out) ->
  forall s, (exists ev, In ev evs /\ s = ev_sol ev) \/ out = Finished s ->
  similar s0 s /\ forall e f, (1 <= e <= ne)%nat -> (f < s_NF s0)%nat -> modes s e f = modes s0 e f.
Proof. exact @uniform_run_of. Qed.

(** and the run reaches the final time *)
Theorem C14_completes : forall (X : Ext R) (gamma : R), gauss_ok -> inv_ok -> forall ne c (s0 : solution R) d l,
  made ne s0 -> wf_dg ne s0 d -> enh_sound s0 -> bc_known (s_bcl s0) -> bc_known (s_bcr s0) -> good_state gamma c s0 -> uniform_all ne c s0 ->
  limiter_of s0 l ->
  forall rk cfl tf nout v, (2 <= nout)%Z -> s_t s0 <= tf -> max_wave_speed gamma s0 = Ok v ->
  1 / 100000000000000 <= s_dx s0 * cfl / (v * INR (2 * b_p (s_basis s0) + 1)) ->
  exists F evs s, s_t s = tf /\ forall fuel, (F <= fuel)%nat -> integrate gamma rk d l cfl tf nout fuel s0 = (evs, Finished s).
Proof. exact @uniform_completes_of. Qed.

(** density 1, velocity 1, pressure 1 on 8 cells with the exact solver and the limiter, any order and scheme; its wave speed (C31) *)
Definition one_state (f : nat) : R := nth f [1; 1; 3] 0.
Definition flat (s : solution R) (ne : nat) (c : nat -> R) : solution R :=
  with_u s (tab2 (s_Ns s) ((ne + 2) * s_NF s) (fun n j => match n with O => c (j mod s_NF s)%nat | S _ => 0 end)).
Lemma flat_uniform ne c (s : solution R) : wf ne s -> wf ne (flat s ne c) /\ similar s (flat s ne c) /\ uniform_all ne c (flat s ne c).
Proof.
  intro W. assert (NFp : s_NF s <> 0%nat) by (unfold s_NF; destruct (s_euler s); discriminate).
  assert (W' : wf ne (flat s ne c)) by (apply wf_with_u; [exact W|apply shape_tab2]).
  split; [exact W'|]. split; [apply similar_with_u|]. intros e f He Hf. change (s_basis (flat s ne c)) with (s_basis s).
  apply (vec_ext (s_Ns s)); [apply (length_modes ne _ e f W')|rewrite length_cmodes, Ns_p; lia|].
  intros n Hn. change (at1 (modes (flat s ne c) e f) n = at1 (cmodes (b_p (s_basis s)) (c f)) n).
  rewrite (modes_at ne _ e f n W' He Hf Hn), at1_cmodes. change (s_NF (flat s ne c)) with (s_NF s) in *.
  cbn [s_u flat with_u]. rewrite at2_tab2 by (try exact Hn; apply cell_index; assumption).
  destruct n; [|reflexivity]. f_equal. rewrite Nat.add_comm, Nat.mod_add by exact NFp. apply Nat.mod_small. exact Hf.
Qed.
Lemma one_state_prim : (one_state 0, one_state 1, one_state 2) = cons (14 / 10) 1 1 1.
Proof. unfold one_state, cons, energy. cbn [nth]. apply f_equal2; [apply f_equal2; lra|]. field. Qed.

Example C14_witness : forall p rk, exists s d l v,
  @made ExtReal 8 s /\ wf_dg 8 s d /\ @enh_sound ExtReal s /\ bc_known (s_bcl s) /\ bc_known (s_bcr s) /\
  good_state (14 / 10) one_state s /\ uniform_all 8 one_state s /\ @limiter_of ExtReal s l /\ l <> None /\ s_riemann s = RGodunov /\ b_p (s_basis s) = p /\
  max_wave_speed (14 / 10) s = Ok v /\ 0 < v /\
  exists F evs s', s_t s' = 5 /\ (forall e f, (1 <= e <= 8)%nat -> (f < 3)%nat -> modes s' e f = cmodes p (one_state f)) /\
    forall fuel, (F <= fuel)%nat -> integrate (14 / 10) rk d l (v * INR (2 * p + 1)) 5 3 fuel s = (evs, Finished s').
Proof.
  intros p rk. destruct (entropy_built p "godunov") as [s [d [B [Hd [D [E1 [E2 Ex]]]]]]].
  destruct (built_sens _ _ _ _ _ _ _ (1 / 10) [1 / 10] B) as [E M]. set (s1 := with_sens s _) in *.
  destruct (flat_uniform 8 one_state s1 (md_wf _ _ M)) as [W [S U]]. set (s0 := flat s1 8 one_state) in *.
  assert (M0 : @made ExtReal 8 s0) by (eapply made_similar; [exact M|exact S|exact W]).
  assert (Eu : s_euler s0 = true) by exact (bl_euler _ _ _ _ _ _ _ B).
  assert (A : admissible (14 / 10) (one_state 0, one_state 1, one_state 2)).
  { exists 1, 1, 1. split; [lra|]. split; [lra|exact one_state_prim]. }
  assert (Hg : good_state (14 / 10) one_state s0) by (intros _; split; [lra|exact A]).
  assert (HB : bc_known (s_bcl s0) /\ bc_known (s_bcr s0)).
  { change (s_bcl s0) with (s_bcl s). change (s_bcr s0) with (s_bcr s). rewrite E1, E2. split; left; reflexivity. }
  destruct HB as [B1 B2].
  assert (HEn : @enh_sound ExtReal s0).
  { unfold enh_sound. change (s_enh s0) with (s_enh s). rewrite (bl_enh _ _ _ _ _ _ _ B). exact I. }
  destruct (C41_limiter_exists ExtReal ExtReal_gauss ExtReal_inv 8 s0 M0) as [h Hh].
  assert (HL : @limiter_of ExtReal s0 (Some h)).
  { exists "adaptive_hr"%string. split; [exact Hh|]. right. eexists. split; [reflexivity|]. split; [unfold needed; rewrite Eu; cbn; lia|].
    cbn. repeat constructor; lra. }
  assert (Dw : wf_dg 8 s0 d) by exact D.
  destruct (C31_max_wave_speed (14 / 10) ltac:(lra) 8 s0 (fun _ => 1) (fun _ => 1) (fun _ => 1) W Eu) as [v [Ev [_ [e [He Hv]]]]].
  { intros e He. split; [lra|]. split; [lra|]. rewrite <- one_state_prim.
    assert (NF3 : s_NF s0 = 3%nat) by (unfold s_NF; rewrite Eu; reflexivity).
    rewrite !(U e) by (try exact He; rewrite NF3; lia). rewrite !at1_cmodes. reflexivity. }
  assert (Vp : 0 < v).
  { rewrite Hv. rewrite Rabs_R1. unfold sound_of. pose proof (sqrt_pos (14 / 10 * 1 / 1)). lra. }
  assert (Hp0 : b_p (s_basis s0) = p) by exact (bl_p _ _ _ _ _ _ _ B).
  assert (HI : INR (2 * p + 1) <> 0) by (apply not_0_INR; lia).
  destruct (C14_completes ExtReal (14 / 10) ExtReal_gauss ExtReal_inv 8 one_state s0 d (Some h) M0 Dw HEn B1 B2 Hg U HL rk (v * INR (2 * p + 1)) 5 3 v) as [F [evs [s' [Et HF]]]].
  - lia.
  - change (s_t s0) with (s_t s). rewrite (bl_t _ _ _ _ _ _ _ B). lra.
  - exact Ev.
  - rewrite Hp0. change (s_dx s0) with (s_dx s). rewrite Ex. replace (1 / 4 * (v * INR (2 * p + 1)) / (v * INR (2 * p + 1))) with (1 / 4) by (field; split; lra). lra.
  - exists s0, d, (Some h), v. split; [exact M0|]. split; [exact Dw|]. split; [exact HEn|]. split; [exact B1|]. split; [exact B2|]. split; [exact Hg|].
    split; [exact U|]. split; [exact HL|]. split; [discriminate|]. split; [|split; [exact Hp0|split; [exact Ev|split; [exact Vp|]]]].
    { change (s_riemann s0) with (s_riemann s). rewrite (bl_riemann _ _ _ _ _ _ _ B). reflexivity. }
    exists F, evs, s'. split; [exact Et|]. split; [|exact HF].
    intros e' f He' Hf. assert (NF3 : s_NF s0 = 3%nat) by (unfold s_NF; rewrite Eu; reflexivity).
    destruct (C14_run ExtReal (14 / 10) ExtReal_gauss ExtReal_inv 8 one_state s0 d (Some h) M0 Dw HEn B1 B2 Hg U HL rk _ 5 3%Z F evs _ (HF F (le_n _)) s' (or_intror eq_refl)) as [_ K].
    rewrite K by (try exact He'; rewrite NF3; exact Hf). rewrite (U e') by (try lia; rewrite NF3; exact Hf). rewrite Hp0. reflexivity.
Qed.

Print Assumptions C14_residual.
Print Assumptions C14_run.
Print Assumptions C14_completes.
Print Assumptions C14_witness.
