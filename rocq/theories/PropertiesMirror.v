(** Property C72: the mirror image of a gas flow evolves into the mirror image. *)
From Coq Require Import ZArith List Bool Arith String Lia Reals Lra.
From Verif Require Import Num Py PyStr Lib RealLib Constants LegNumpy Ext Basis Sensor Enhance Limiting EulerPhysics IC Solution Solver RKCoeffs RK
  SpecTime SpecDG SpecPoly SpecRK SpecEuler SpecLimit SpecUniform SpecTrace SpecContact SpecMirror ProofsPoly ProofsDG ProofsWf ProofsCons ProofsSol ProofsRiemann ProofsUniform
  ProofsShift ProofsBasis ProofsLimRun ProofsContact ProofsSteady ProofsMirror ProofsMirrorRun ProofsSensor ProofsAHR ProofsSensorMirror ExtReal Witness PropertiesContact.
Import ListNotations.
Open Scope list_scope.
Open Scope R_scope.

(** what "mirrored" says: at the point x of a cell, the reflected solution is the original one at the opposite point of the opposite cell, with the momentum reversed *)
Theorem C72_meaning : forall (X : Ext R) ne (s s' : solution R) e f x, mirrored ne s s' -> (e < ne + 2)%nat -> (f < 3)%nat ->
  legseries (modes s' e f) x = match f with 1%nat => - legseries (modes s (ne + 1 - e) f) (- x) | _ => legseries (modes s (ne + 1 - e) f) (- x) end.
Proof. exact @mirrored_series. Qed.
(** every Euler solution has a mirror image *)
Theorem C72_reflect : forall (X : Ext R) ne (s : solution R), made ne s -> s_euler s = true -> mirrored ne s (reflect ne s).
Proof. exact @reflect_mirrored. Qed.

(** C72: runs started from mirrored data stay mirrored: same number of snapshots, same times and steps, mirrored states, same exception if one fails *)
Theorem C72_rusanov : forall (X : Ext R) gamma ne (sol sol' : solution R) d, gauss_ok -> inv_ok -> mirrored ne sol sol' -> enh_sound sol -> s_riemann sol = RRusanov -> wf_dg ne sol d ->
  forall rk cfl tf nout fuel,
  let r := integrate gamma rk d None cfl tf nout fuel sol in
  let r' := integrate gamma rk d None cfl tf nout fuel sol' in
  Forall2 (mirrored_event ne) (fst r) (fst r') /\ mirrored_outcome ne eq (snd r) (snd r').
Proof. exact @mirror_run. Qed.
(** Roe: as long as the states at the interfaces have positive density and pressure *)
Theorem C72_roe : forall (X : Ext R) gamma ne (sol sol' : solution R) d, 1 < gamma -> gauss_ok -> inv_ok -> mirrored ne sol sol' -> enh_sound sol -> s_riemann sol = RRoe -> wf_dg ne sol d ->
  forall rk cfl tf nout fuel, (forall x, evaluated gamma rk d None cfl tf nout sol x -> physical gamma ne x) ->
  let r := integrate gamma rk d None cfl tf nout fuel sol in
  let r' := integrate gamma rk d None cfl tf nout fuel sol' in
  Forall2 (mirrored_event ne) (fst r) (fst r') /\ mirrored_outcome ne eq (snd r) (snd r').
Proof. exact @mirror_run_roe. Qed.
(** the exact solver: as long as there are no supersonic collisions either (C27_godunov_refuted shows that the flux is not symmetric there); if one run fails, so does the other *)
Theorem C72_godunov : forall (X : Ext R) gamma ne (sol sol' : solution R) d, 1 < gamma -> gauss_ok -> inv_ok -> mirrored ne sol sol' -> enh_sound sol -> s_riemann sol = RGodunov -> wf_dg ne sol d ->
  forall rk cfl tf nout fuel, (forall x, evaluated gamma rk d None cfl tf nout sol x -> no_collision gamma ne x) ->
  let r := integrate gamma rk d None cfl tf nout fuel sol in
  let r' := integrate gamma rk d None cfl tf nout fuel sol' in
  Forall2 (mirrored_event ne) (fst r) (fst r') /\ mirrored_outcome ne (fun _ _ => True) (snd r) (snd r').
Proof. exact @mirror_run_godunov. Qed.
(** a flow that is its own mirror image stays so *)
Theorem C72_symmetric : forall (X : Ext R) gamma ne (sol : solution R) d, 1 < gamma -> gauss_ok -> inv_ok -> mirrored ne sol sol -> enh_sound sol -> wf_dg ne sol d ->
  forall rk cfl tf nout fuel evs o,
  match s_riemann sol with
  | RRoe => forall x, evaluated gamma rk d None cfl tf nout sol x -> physical gamma ne x
  | RGodunov => forall x, evaluated gamma rk d None cfl tf nout sol x -> no_collision gamma ne x
  | RRusanov => True
  | RUpwind => False
  end ->
  integrate gamma rk d None cfl tf nout fuel sol = (evs, o) ->
  Forall (fun ev => mirrored ne (ev_sol ev) (ev_sol ev)) evs /\ forall s1, o = Finished s1 -> mirrored ne s1 s1.
Proof. exact @mirrored_self_run. Qed.

(** * cases *)
(** rusanov: the two layers of C62 moving to the right; their mirror image moves to the left *)
Example C72_rusanov_witness : forall p, exists s d, let s' := reflect 8 s in
  @gauss_ok ExtReal /\ @inv_ok ExtReal /\ @mirrored ExtReal 8 s s' /\ @enh_sound ExtReal s /\ s_riemann s = RRusanov /\ wf_dg 8 s d /\ b_p (s_basis s) = p /\
  at1 (modes s 1 0) 0 = 1 /\ at1 (modes s 8 0) 0 = 2 /\ at1 (modes s 8 1) 0 = 2 /\ at1 (modes s' 1 0) 0 = 2 /\ at1 (modes s' 1 1) 0 = - 2.
Proof.
  intro p. destruct (two_layers_built p "rusanov" 1) as [s [d [M [D [En [Bl [Br [Eu [HR [U [DN [BC [Hp [T0 [Ex [AV FV]]]]]]]]]]]]]]]].
  pose proof (@C72_reflect ExtReal 8 s M Eu) as Mi. pose proof (md_wf _ _ M) as W.
  assert (Q : at1 (modes s 8 1) 0 = 2).
  { pose proof (proj1 (uniform_vp_cellwise (14 / 10) ltac:(lra) 1 1 8 s W) U 8%nat ltac:(lia)) as [[_ [_ C1]] _]. rewrite (C1 _ (Ns_pos s)), AV by lia. unfold two_layers. cbn. lra. }
  exists s, d. cbv zeta. split; [exact ExtReal_gauss|]. split; [exact ExtReal_inv|]. split; [exact Mi|]. split; [unfold enh_sound; rewrite En; exact I|]. split; [rewrite HR; reflexivity|].
  split; [exact D|]. split; [exact Hp|]. split; [rewrite AV by lia; reflexivity|]. split; [rewrite AV by lia; reflexivity|]. split; [exact Q|].
  rewrite !(mi_modes _ _ _ Mi) by (first [lia|apply Ns_pos]). replace (8 + 1 - 1)%nat with 8%nat by lia. rewrite Q, AV by lia. cbn. split; lra.
Qed.
(** a dense slab in the middle, at rest: its own mirror image *)
Definition slab (e : nat) : R := if ((3 <=? e) && (e <=? 6))%nat%bool then 2 else 1.
Lemma slab_range e : 1 <= slab e <= 2.
Proof. unfold slab. destruct ((3 <=? e) && (e <=? 6))%nat%bool; lra. Qed.
Lemma slab_mirror e : (e < 10)%nat -> slab (9 - e) = slab e.
Proof. intro H. do 10 (destruct e as [|e]; [reflexivity|]). lia. Qed.
Lemma slab_built (p : nat) (r : string) : exists s d,
  @made ExtReal 8 s /\ wf_dg 8 s d /\ s_enh s = None /\ bc_known (s_bcl s) /\ bc_known (s_bcr s) /\ s_bcl s = s_bcr s /\ s_euler s = true /\ s_riemann s = riemann_choice true r /\
  uniform_vp (14 / 10) 8 0 1 s /\ dense 8 s /\ apply_bc s = Ok s /\ b_p (s_basis s) = p /\
  (forall e f, (e < 10)%nat -> (f < 3)%nat -> modes s e f = cmodes p (nth f [slab e; slab e * 0; energy (14 / 10) (slab e) 0 1] 0)).
Proof.
  destruct (entropy_built p r) as [s0 [d [B [Hd [D [E1 [E2 Ex]]]]]]]. pose proof (bl_made _ _ _ _ _ _ _ B) as M0.
  assert (Eu : s_euler s0 = true) by exact (bl_euler _ _ _ _ _ _ _ B). assert (En : s_enh s0 = None) by exact (bl_enh _ _ _ _ _ _ _ B).
  destruct (layers_ok (14 / 10) 0 1 8 s0 slab ltac:(lra) M0 Eu En E1 E2 eq_refl eq_refl) as [M [U [DN [BC [AV FV]]]]].
  { intros e _. pose proof (slab_range e). lra. }
  set (s := layers (14 / 10) 0 1 8 s0 slab) in *. exists s, d.
  split; [exact M|]. split; [exact D|]. split; [exact En|].
  split; [left; change (s_bcl s) with (s_bcl s0); rewrite E1; reflexivity|]. split; [left; change (s_bcr s) with (s_bcr s0); rewrite E2; reflexivity|].
  split; [change (s_bcl s0 = s_bcr s0); rewrite E1, E2; reflexivity|].
  split; [exact Eu|]. split; [exact (bl_riemann _ _ _ _ _ _ _ B)|]. split; [exact U|]. split; [exact DN|]. split; [exact BC|].
  split; [exact (bl_p _ _ _ _ _ _ _ B)|]. intros e f He Hf. rewrite <- (bl_p _ _ _ _ _ _ _ B). apply layers_modes; [apply (md_wf _ _ M0)|exact Eu|exact He|exact Hf].
Qed.
Lemma slab_mirrored p (s : solution R) : @made ExtReal 8 s -> s_euler s = true -> s_bcl s = s_bcr s ->
  (forall e f, (e < 10)%nat -> (f < 3)%nat -> modes s e f = cmodes p (nth f [slab e; slab e * 0; energy (14 / 10) (slab e) 0 1] 0)) -> @mirrored ExtReal 8 s s.
Proof.
  intros M Eu Eb L. constructor; [exact M|exact M|split; exact Eu|repeat split|split; [exact Eb|symmetry; exact Eb]|].
  intros e f n He Hf Hn. rewrite !L by lia. rewrite slab_mirror by lia. rewrite !at1_cmodes. destruct n as [|n]; [|ring].
  destruct f as [|[|[|f]]]; [| | |lia]; unfold parity; cbn [nth pow]; ring.
Qed.
(** the states of the Riemann problems in its run *)
Lemma slab_fix_sides p s : @made ExtReal 8 s -> s_enh s = None -> bc_known (s_bcl s) -> bc_known (s_bcr s) -> s_euler s = true -> b_p (s_basis s) = p ->
  (forall e f, (e < 10)%nat -> (f < 3)%nat -> modes s e f = cmodes p (nth f [slab e; slab e * 0; energy (14 / 10) (slab e) 0 1] 0)) ->
  forall x, Fix 8 s x -> forall t, apply_bc x = Ok t -> forall e, (e <= 8)%nat ->
  exists a b, left_of t e = cons (14 / 10) (slab a) 0 1 /\ right_of t e = cons (14 / 10) (slab b) 0 1.
Proof.
  intros M En Bl Br Eu Hp L x Fx t Ht e He. pose proof (md_wf _ _ M) as W. assert (NF3 : s_NF s = 3%nat) by (unfold s_NF; rewrite Eu; reflexivity).
  pose proof Fx as [[Wx S] _]. destruct (similar_static _ _ S) as [S1 [S2 [S3 S4]]]. pose proof (similar_basis _ _ S) as S5.
  rewrite (apply_bc_eq 8 x Wx) in Ht. apply Ok_inj in Ht. subst t.
  assert (B0 : s_basis s = @Basis R NumR ExtReal p) by (rewrite (md_basis _ _ M), Hp; reflexivity).
  assert (T : forall c f, (c < 10)%nat -> (f < 3)%nat -> modes (with_u x (bc_u 8 x)) c f =
    cmodes p (nth f [slab (src_cell (s_bcl s) (s_bcr s) 8 c); slab (src_cell (s_bcl s) (s_bcr s) 8 c) * 0; energy (14 / 10) (slab (src_cell (s_bcl s) (s_bcr s) 8 c)) 0 1] 0)).
  { intros c f Hc Hf. assert (SI : (1 <= src_cell (s_bcl s) (s_bcr s) 8 c <= 8)%nat) by (apply src_interior; try assumption; lia).
    rewrite (modes_bc 8 x c f Wx Hc) by (unfold s_NF; rewrite (similar_euler _ _ S), Eu; exact Hf). rewrite S1, S2.
    rewrite (Fix_modes 8 s W x _ f Fx SI) by (rewrite NF3; exact Hf). apply L; [lia|exact Hf]. }
  assert (V : forall c, legseries (cmodes p c) 1 = c /\ legseries (cmodes p c) (-1) = c) by (intro c; rewrite !legseries_cmodes; split; reflexivity).
  exists (src_cell (s_bcl s) (s_bcr s) 8 e), (src_cell (s_bcl s) (s_bcr s) 8 (e + 1)).
  unfold left_of, right_of, face_minus, face_plus. change (s_enh (with_u x (bc_u 8 x))) with (s_enh x). change (s_basis (with_u x (bc_u 8 x))) with (s_basis x). rewrite S3, En, S5, B0.
  rewrite !T by lia. rewrite !(@psi_right ExtReal), !(@psi_left ExtReal) by (rewrite length_cmodes; reflexivity). rewrite !(proj1 (V _)), !(proj2 (V _)). split; reflexivity.
Qed.
Lemma slab_sides p r s d : In r ["roe"; "godunov"]%string -> @made ExtReal 8 s -> wf_dg 8 s d -> s_enh s = None -> bc_known (s_bcl s) -> bc_known (s_bcr s) -> s_euler s = true ->
  s_riemann s = riemann_choice true r -> uniform_vp (14 / 10) 8 0 1 s -> dense 8 s -> apply_bc s = Ok s -> b_p (s_basis s) = p ->
  (forall e f, (e < 10)%nat -> (f < 3)%nat -> modes s e f = cmodes p (nth f [slab e; slab e * 0; energy (14 / 10) (slab e) 0 1] 0)) ->
  forall rk cfl tf nout x, evaluated (14 / 10) rk d None cfl tf nout s x -> forall t, apply_bc x = Ok t -> forall e, (e <= 8)%nat ->
  exists a b, left_of t e = cons (14 / 10) (slab a) 0 1 /\ right_of t e = cons (14 / 10) (slab b) 0 1.
Proof.
  intros Hr M D En Bl Br Eu HR U DN BC Hp L rk cfl tf nout x Hx. pose proof (md_wf _ _ M) as W.
  assert (HE : @enh_sound ExtReal s) by (unfold enh_sound; rewrite En; exact I).
  assert (HR' : s_riemann s = RRoe \/ s_riemann s = RGodunov) by (rewrite HR; destruct Hr as [<- |[<- |[]]]; [left|right]; reflexivity).
  pose proof (Fix_evaluated (14 / 10) 8 s d W D Bl Br BC (@rest_steady ExtReal (14 / 10) ltac:(lra) ExtReal_gauss ExtReal_inv 1 ltac:(lra) 8 s d M D HE Bl Br Eu U DN HR') rk cfl tf nout x Hx) as Fx.
  apply (slab_fix_sides p s); assumption.
Qed.
(** roe and godunov: the slab and its run *)
Example C72_slab_witness : forall p rk (r : string), In r ["roe"; "godunov"]%string -> exists s d,
  @gauss_ok ExtReal /\ @inv_ok ExtReal /\ @mirrored ExtReal 8 s s /\ @enh_sound ExtReal s /\ (s_riemann s = RRoe \/ s_riemann s = RGodunov) /\ s_riemann s = riemann_choice true r /\ wf_dg 8 s d /\ b_p (s_basis s) = p /\
  at1 (modes s 2 0) 0 = 1 /\ at1 (modes s 3 0) 0 = 2 /\
  forall cfl tf nout x, evaluated (14 / 10) rk d None cfl tf nout s x -> physical (14 / 10) 8 x /\ no_collision (14 / 10) 8 x.
Proof.
  intros p rk r Hr. destruct (slab_built p r) as [s [d [M [D [En [Bl [Br [Eb [Eu [HR [U [DN [BC [Hp L]]]]]]]]]]]]]].
  exists s, d. split; [exact ExtReal_gauss|]. split; [exact ExtReal_inv|]. split; [apply (slab_mirrored p); assumption|]. split; [unfold enh_sound; rewrite En; exact I|].
  split; [rewrite HR; destruct Hr as [<- |[<- |[]]]; [left|right]; reflexivity|]. split; [exact HR|]. split; [exact D|]. split; [exact Hp|].
  split; [rewrite L by lia; rewrite at1_cmodes; reflexivity|]. split; [rewrite L by lia; rewrite at1_cmodes; reflexivity|].
  intros cfl tf nout x Hx. pose proof (slab_sides p r s d Hr M D En Bl Br Eu HR U DN BC Hp L rk cfl tf nout x Hx) as Q. split.
  - intros t Ht e He. destruct (Q t Ht e He) as [a [b [-> ->]]]. pose proof (slab_range a). pose proof (slab_range b).
    split; [exists (slab a), 0, 1|exists (slab b), 0, 1]; (split; [lra|]; split; [lra|reflexivity]).
  - intros t Ht e He. destruct (Q t Ht e He) as [a [b [E1 E2]]]. pose proof (slab_range a). pose proof (slab_range b).
    exists (slab a), 0, 1, (slab b), 0, 1. repeat (split; [first [lra|assumption]|]). left. unfold sound_of. apply sqrt_lt_R0. apply Rdiv_lt_0_compat; lra.
Qed.

(** C54 for whole solutions.  sensing() on the mirror image of an Euler flow gives cell e the flag of cell ne+1-e, provided at the
    interfaces of that cell the pressure jump is below the second threshold or the compression test does not depend on the
    orientation; without that proviso it is false (C54_flags_refuted). *)
Theorem C54_flags_partial : forall (X : Ext R) g ne s s' sn sn' sn1 t0 t1, 1 < g -> mirrored ne s s' ->
  (forall e, (e < ne + 2)%nat -> admissible g (state3 s e)) ->
  s_sens s = Some sn -> s_sens s' = Some sn' -> sn_thresholds sn' = sn_thresholds sn ->
  nth_error (sn_thresholds sn) 0 = Some t0 -> nth_error (sn_thresholds sn) 1 = Some t1 ->
  sensing g (s_euler s) sn (s_u s) (s_NF s) = Ok sn1 ->
  exists sn1', sensing g (s_euler s') sn' (s_u s') (s_NF s') = Ok sn1' /\
    forall e, (e < ne + 2)%nat ->
      (forall i, (i <= ne)%nat -> (i + e = ne \/ i + e = ne + 1)%nat ->
        shock_value g (state3 s i) (state3 s (i + 1)) <= t1 \/
        shock_compressive g (mirror (state3 s (i + 1))) (mirror (state3 s i)) = shock_compressive g (state3 s i) (state3 s (i + 1))) ->
      nth e (sn_sensors sn1') 0%Z = nth (ne + 1 - e) (sn_sensors sn1) 0%Z.
Proof.
  intros X g ne s s' sn sn' sn1 t0 t1 Hg M Ad Es Es' Et T0 T1 H. destruct (flags_mirror g ne s s' Hg M Ad sn sn' sn1 t0 t1 Es Es' Et T0 T1 H) as [sn1' [H' K]].
  exists sn1'. split; [exact H'|]. intros e He Hev. apply K; [exact He|]. intros i Hi Hie. apply Hev; lia.
Qed.
(** with a second threshold of at least 1/2 the proviso always holds *)
Theorem C54_flags_no_shock : forall (X : Ext R) g ne s s' sn sn' sn1 t0 t1, 1 < g -> mirrored ne s s' ->
  (forall e, (e < ne + 2)%nat -> admissible g (state3 s e)) ->
  s_sens s = Some sn -> s_sens s' = Some sn' -> sn_thresholds sn' = sn_thresholds sn ->
  nth_error (sn_thresholds sn) 0 = Some t0 -> nth_error (sn_thresholds sn) 1 = Some t1 -> 1 / 2 <= t1 ->
  sensing g (s_euler s) sn (s_u s) (s_NF s) = Ok sn1 ->
  exists sn1', sensing g (s_euler s') sn' (s_u s') (s_NF s') = Ok sn1' /\
    forall e, (e < ne + 2)%nat -> nth e (sn_sensors sn1') 0%Z = nth (ne + 1 - e) (sn_sensors sn1) 0%Z.
Proof.
  intros X g ne s s' sn sn' sn1 t0 t1 Hg M Ad Es Es' Et T0 T1 Ht H. destruct (flags_mirror g ne s s' Hg M Ad sn sn' sn1 t0 t1 Es Es' Et T0 T1 H) as [sn1' [H' K]].
  exists sn1'. split; [exact H'|]. intros e He. apply K; [exact He|]. intros i Hi _. left.
  pose proof (shock_bounds g Hg _ _ (Ad (ne - i)%nat ltac:(lia)) (Ad (ne - i + 1)%nat ltac:(lia))). lra.
Qed.
(** advection: reversing the cell averages always reverses the flags *)
Theorem C54_advection_flags : forall g ne (s s' : solution R) sn sn' sn1, wf ne s -> wf ne s' -> s_euler s = false -> s_euler s' = false ->
  (forall e, (e < ne + 2)%nat -> cell_mean s' e 0 = cell_mean s (ne + 1 - e) 0) ->
  s_sens s = Some sn -> s_sens s' = Some sn' -> sn_thresholds sn' = sn_thresholds sn -> sensing g (s_euler s) sn (s_u s) (s_NF s) = Ok sn1 ->
  exists sn1', sensing g (s_euler s') sn' (s_u s') (s_NF s') = Ok sn1' /\
    forall e, (e < ne + 2)%nat -> nth e (sn_sensors sn1') 0%Z = nth (ne + 1 - e) (sn_sensors sn1) 0%Z.
Proof. exact flags_mirror_adv. Qed.
(** gas at rest, pressure 1 on the left and 10 on the right: the two cells at the jump are flagged; in the mirror image none is.
    (This is also a pair meeting the hypotheses of C54_flags_partial.) *)
Theorem C54_flags_refuted : forall g p r, 1 < g -> exists s s' sn sn1 sn1', @mirrored ExtReal 8 s s' /\ b_p (s_basis s) = p /\ s_riemann s = riemann_choice true r /\
  (forall e, (e < 8 + 2)%nat -> admissible g (state3 s e)) /\
  s_sens s = Some sn /\ s_sens s' = Some sn /\ sn_thresholds sn = [1 / 2; 1 / 3] /\
  sensing g (s_euler s) sn (s_u s) (s_NF s) = Ok sn1 /\ sensing g (s_euler s') sn (s_u s') (s_NF s') = Ok sn1' /\
  sn_sensors sn1 = [0; 0; 0; 0; 2; 2; 0; 0; 0; 0]%Z /\ sn_sensors sn1' = [0; 0; 0; 0; 0; 0; 0; 0; 0; 0]%Z.
Proof. exact flags_not_mirrored. Qed.
(** an advection solution and its reversal *)
Example C54_advection_witness : forall p, exists s s' sn sn1, b_p (s_basis s) = p /\ wf 8 s /\ wf 8 s' /\ s_euler s = false /\ s_euler s' = false /\
  (forall e, (e < 8 + 2)%nat -> cell_mean s' e 0 = cell_mean s (8 + 1 - e) 0) /\ cell_mean s 1 0 <> cell_mean s 8 0 /\
  s_sens s = Some sn /\ s_sens s' = Some sn /\ @sensing R NumR (14 / 10) (s_euler s) sn (s_u s) (s_NF s) = Ok sn1.
Proof.
  intro p. destruct (sine_built p) as [s0 [d [B _]]]. destruct (built_sens _ _ _ _ _ _ _ (1 / 10) [] B) as [_ M0]. set (s1 := with_sens s0 _) in *.
  assert (Eu : s_euler s1 = false) by exact (bl_euler _ _ _ _ _ _ _ B). assert (NF : s_NF s1 = 1%nat) by (unfold s_NF; rewrite Eu; reflexivity).
  pose proof (md_wf _ _ M0) as W1.
  set (v := fun e : nat => INR e). set (mk := fun w : nat -> R => with_u s1 (tab2 (s_Ns s1) ((8 + 2) * s_NF s1) (fun _ j => w j))).
  assert (W : forall w, wf 8 (mk w)) by (intro w; apply wf_with_u; [exact W1|apply shape_tab2]).
  assert (C : forall w e, (e < 10)%nat -> cell_mean (mk w) e 0 = w e).
  { intros w e He. assert (P0 : (0 < s_Ns s1)%nat) by apply Ns_pos. unfold cell_mean.
    rewrite (modes_at 8 (mk w)) by (try exact (W w); try exact P0; change (s_NF (mk w)) with (s_NF s1); lia).
    change (s_NF (mk w)) with (s_NF s1). unfold mk; cbn [s_u with_u]. rewrite at2_tab2 by (try exact P0; lia). rewrite NF. f_equal. lia. }
  exists (mk v), (mk (fun e => v (9 - e)%nat)), (Sensor [1 / 10] (8 + 2)). eexists.
  split; [exact (bl_p _ _ _ _ _ _ _ B)|]. split; [apply W|]. split; [apply W|]. split; [exact Eu|]. split; [exact Eu|].
  split; [intros e He; rewrite !C by lia; reflexivity|]. split; [rewrite !C by lia; unfold v; cbn [INR]; lra|]. split; [reflexivity|]. split; [reflexivity|].
  change (s_euler (mk v)) with (s_euler s1). rewrite Eu. apply (sensing_adv (14 / 10) 8 (mk v) _ (W v) Eu eq_refl).
Qed.

Print Assumptions C72_meaning.
Print Assumptions C72_reflect.
Print Assumptions C72_rusanov.
Print Assumptions C72_roe.
Print Assumptions C72_godunov.
Print Assumptions C72_symmetric.
Print Assumptions C72_rusanov_witness.
Print Assumptions C72_slab_witness.
Print Assumptions C54_flags_partial.
Print Assumptions C54_flags_no_shock.
Print Assumptions C54_advection_flags.
Print Assumptions C54_flags_refuted.
Print Assumptions C54_advection_witness.
