(** Property C88: sign and zero level of advected data. *)
From Coq Require Import ZArith List Bool Arith String Lia SpecFloat Reals Lra.
From Verif Require Import Num Py PyStr Lib RealLib LegNumpy Ext Basis Sensor Enhance Limiting Solution Solver RKCoeffs RK Standins
  SpecTime SpecDG SpecPoly SpecFloatText SpecLimit SpecUniform SpecLevel ProofsPoly ProofsGauss ProofsDG ProofsWf ProofsCons ProofsSol ProofsBasis ProofsLim ProofsLimRun ProofsContact ProofsAHR ProofsAdv ProofsDG2 ProofsRel ProofsUniform ProofsStageLimit ProofsLevel ProofsLevelFloat
  ExtReal Witness.
Import ListNotations.
Open Scope list_scope.
Open Scope R_scope.

(** the two solutions compared exist for every advected solution and every k, c *)
Theorem C88_lift : forall (X : Ext R) k c ne (s : solution R), made ne s -> s_euler s = false -> lifted k c ne s (lift k c ne s).
Proof. exact @lift_lifted. Qed.
(** runs without limiter: any k and c, snapshot by snapshot, including the exceptions *)
Theorem C88_unlimited : forall (X : Ext R) gamma k c ne (sol sol' : solution R) d, gauss_ok -> inv_ok -> lifted k c ne sol sol' -> enh_sound sol ->
  bc_known (s_bcl sol) -> bc_known (s_bcr sol) -> wf_dg ne sol d ->
  forall rk cfl tf nout fuel,
  let r := integrate gamma rk d None cfl tf nout fuel sol in
  let r' := integrate gamma rk d None cfl tf nout fuel sol' in
  Forall2 (lifted_event k c ne) (fst r) (fst r') /\ lifted_outcome k c ne (snd r) (snd r').
Proof. intros X gamma k c ne sol sol' d G IV H E B1 B2 D. exact (level_run gamma k c ne sol sol' d None G IV H E B1 B2 D (or_introl eq_refl)). Qed.
(** limited runs: sign at any order *)
Theorem C88_sign : forall (X : Ext R) gamma ne (sol sol' : solution R) d h, gauss_ok -> inv_ok -> lifted (-1) 0 ne sol sol' -> enh_sound sol ->
  bc_known (s_bcl sol) -> bc_known (s_bcr sol) -> wf_dg ne sol d -> Limiter "adaptive_hr" sol = Ok (Some h) -> (1 <= b_p (s_basis sol))%nat ->
  forall rk cfl tf nout fuel,
  let r := integrate gamma rk d (Some h) cfl tf nout fuel sol in
  let r' := integrate gamma rk d (Some h) cfl tf nout fuel sol' in
  Forall2 (lifted_event (-1) 0 ne) (fst r) (fst r') /\ lifted_outcome (-1) 0 ne (snd r) (snd r').
Proof.
  intros X gamma ne sol sol' d h G IV H E B1 B2 D HL Hp. apply (level_run gamma (-1) 0 ne sol sol' d (Some h) G IV H E B1 B2 D).
  right. split; [exists h; split; [reflexivity|exact HL]|]. split; [exact Hp|]. split; [right; reflexivity|left; reflexivity].
Qed.
(** .. and zero level at order 1.  Missing: zero level of limited runs from order 2 on, where it is false (C88_refuted) *)
Theorem C88_level_partial : forall (X : Ext R) gamma k c ne (sol sol' : solution R) d h, gauss_ok -> inv_ok -> lifted k c ne sol sol' -> k = 1 \/ k = -1 -> enh_sound sol ->
  bc_known (s_bcl sol) -> bc_known (s_bcr sol) -> wf_dg ne sol d -> Limiter "adaptive_hr" sol = Ok (Some h) -> b_p (s_basis sol) = 1%nat ->
  forall rk cfl tf nout fuel,
  let r := integrate gamma rk d (Some h) cfl tf nout fuel sol in
  let r' := integrate gamma rk d (Some h) cfl tf nout fuel sol' in
  Forall2 (lifted_event k c ne) (fst r) (fst r') /\ lifted_outcome k c ne (snd r) (snd r').
Proof.
  intros X gamma k c ne sol sol' d h G IV H Hk E B1 B2 D HL Hp. apply (level_run gamma k c ne sol sol' d (Some h) G IV H E B1 B2 D).
  right. split; [exists h; split; [reflexivity|exact HL]|]. split; [lia|]. split; [exact Hk|right; exact Hp].
Qed.
(** one call of limit() on data with filled ghost cells: any level, any order *)
Theorem C88_limit : forall (X : Ext R) gamma k c ne (s s' s1 : solution R) h, gauss_ok -> inv_ok -> lifted k c ne s s' -> enh_sound s -> bc_known (s_bcl s) -> bc_known (s_bcr s) ->
  k = 1 \/ k = -1 -> Limiter "adaptive_hr" s = Ok (Some h) -> (1 <= b_p (s_basis s))%nat ->
  limit gamma (Some h) s = Ok s1 -> exists s1', limit gamma (Some h) s' = Ok s1' /\ lifted k c ne s1 s1'.
Proof. exact @level_limit. Qed.
(** order 2, three cells, averages 1, 0, 0: after a limited rk3 run the first average is not the one of the data 17, 16, 16 less 16 (binary64, with a gap
    of more than 4/1000) *)
Theorem C88_refuted : exists (s s' s1 s1' : solution sf) d h,
  wf 3 s /\ wf 3 s' /\ s_basis s = @Basis _ _ Ext3 2 /\ s' = with_u s (s_u s') /\ apply_bc s = Ok s /\ apply_bc s' = Ok s' /\ DG s = Ok d /\ DG s' = Ok d /\
  (forall e n, (e < 5)%nat -> (n < 3)%nat -> value (at1 (modes s' e 0) n) = value (at1 (modes s e 0) n) + match n with O => 16 | S _ => 0 end) /\
  @Limiter _ _ Ext3 "adaptive_hr" s = Ok (Some h) /\ @Limiter _ _ Ext3 "adaptive_hr" s' = Ok (Some h) /\
  snd (@integrate _ _ LibmSF n0 "rk3" d (Some h) (lit 3 5) (lit 1 10) 2 5 s) = Finished s1 /\
  snd (@integrate _ _ LibmSF n0 "rk3" d (Some h) (lit 3 5) (lit 1 10) 2 5 s') = Finished s1' /\
  16 + value (at1 (modes s1 1 0) 0) + 4 / 1000 < value (at1 (modes s1' 1 0) 0).
Proof.
  destruct (first_mean_some low vlow mean_low) as [s1 [R1 V1]]. destruct (first_mean_some high vhigh mean_high) as [s1' [R1' V1']].
  destruct level_facts as [F1 [F2 [F3 [F4 [F5 F6]]]]]. exists low, high, s1, s1', dl3, hl3.
  split; [rewrite <- low_eq; apply step_wf|]. split; [rewrite <- high_eq; apply step_wf|]. split; [vm_compute; reflexivity|]. split; [reflexivity|].
  split; [exact F3|]. split; [exact F4|]. split; [exact F1|]. split; [exact F2|]. split; [exact level_data|]. split; [exact F5|]. split; [exact F6|].
  split; [exact R1|]. split; [exact R1'|]. rewrite V1, V1'. exact level_gap.
Qed.

(** a block with a slope on top, in eight periodic cells, with threshold 0; any order from 1 *)
Example C88_witness : forall p k c, (1 <= p)%nat -> exists (s : solution R) d h s1,
  @gauss_ok ExtReal /\ @inv_ok ExtReal /\ @made ExtReal 8 s /\ s_euler s = false /\ @lifted ExtReal k c 8 s (lift k c 8 s) /\ @enh_sound ExtReal s /\ bc_known (s_bcl s) /\ bc_known (s_bcr s) /\
  wf_dg 8 s d /\ b_p (s_basis s) = p /\ @Limiter R NumR ExtReal "adaptive_hr" s = Ok (Some h) /\ thresholds s = Some [0] /\ limit (14 / 10) (Some h) s = Ok s1 /\
  at1 (modes s 4 0) 0 = 1 /\ at1 (modes s 4 0) 1 = 1 / 2 /\ at1 (modes s 6 0) 0 = 0.
Proof.
  intros p k c Hp. destruct (sine_built p) as [s0 [d [B [_ [D [E1 [E2 _]]]]]]]. destruct (built_sens _ _ _ _ _ _ _ 0 [] B) as [_ M0]. set (sa := with_sens s0 _) in *.
  assert (Eu : s_euler sa = false) by exact (bl_euler _ _ _ _ _ _ _ B). assert (NF : s_NF sa = 1%nat) by (unfold s_NF; rewrite Eu; reflexivity).
  set (s := with_u sa (tab2 (s_Ns sa) ((8 + 2) * s_NF sa) (fun n j => match n with O => if ((3 <=? j) && (j <=? 5))%nat then 1 else 0 | S O => if (j =? 4)%nat then 1 / 2 else 0 | _ => 0 end))).
  assert (W : wf 8 s) by (apply wf_with_u; [exact (md_wf _ _ M0)|apply shape_tab2]).
  assert (M : @made ExtReal 8 s) by (apply (made_similar 8 sa); [exact M0|apply similar_with_u|exact W]).
  assert (P : b_p (s_basis s) = p) by exact (bl_p _ _ _ _ _ _ _ B).
  assert (NS : s_Ns s = (p + 1)%nat) by (rewrite <- P; exact (@made_Ns ExtReal 8 s M)).
  destruct (@Limiter_ok ExtReal ExtReal_gauss ExtReal_inv 8 s M) as [h [HL MO]].
  destruct (limit_total (14 / 10) 8 s h [0] W MO eq_refl) as [s1 L1]; [unfold needed; change (s_euler s) with (s_euler sa); rewrite Eu; cbn; lia|rewrite P; exact Hp|].
  exists s, d, h, s1. split; [exact ExtReal_gauss|]. split; [exact ExtReal_inv|]. split; [exact M|]. split; [exact Eu|]. split; [apply lift_lifted; [exact M|exact Eu]|].
  split; [unfold enh_sound; change (s_enh s) with (s_enh s0); rewrite (bl_enh _ _ _ _ _ _ _ B); exact I|].
  split; [left; change (s_bcl s) with (s_bcl s0); rewrite E1; reflexivity|]. split; [left; change (s_bcr s) with (s_bcr s0); rewrite E2; reflexivity|].
  split; [exact D|]. split; [exact P|]. split; [exact HL|]. split; [reflexivity|]. split; [exact L1|].
  assert (K : forall e n, (e < 8 + 2)%nat -> (n < s_Ns s)%nat -> at1 (modes s e 0) n = match n with O => if ((3 <=? e) && (e <=? 5))%nat then 1 else 0 | S O => if (e =? 4)%nat then 1 / 2 else 0 | _ => 0 end).
  { intros e n He Hn. rewrite (at_modes 8 s) by assumption. cbn [s with_u s_u]. rewrite at2_tab2 by (first [exact Hn|rewrite NF; lia]). reflexivity. }
  rewrite !K by lia. repeat split.
Qed.

Print Assumptions C88_lift.
Print Assumptions C88_unlimited.
Print Assumptions C88_sign.
Print Assumptions C88_level_partial.
Print Assumptions C88_limit.
Print Assumptions C88_refuted.
Print Assumptions C88_witness.
