(** Properties C86 and C87: limiting and mirror images, limiting and plateaus. *)
From Coq Require Import ZArith List Bool Arith String Lia Reals Lra.
From Verif Require Import Num Py PyStr Lib RealLib Constants LegNumpy Ext Basis Sensor Enhance Limiting EulerPhysics IC Solution Solver RKCoeffs RK
  SpecTime SpecDG SpecPoly SpecRK SpecEuler SpecLimit SpecUniform SpecTrace SpecClip SpecContact SpecMirror SpecMirrorLim ProofsPoly ProofsDG ProofsWf ProofsCons ProofsSol ProofsRiemann ProofsUniform
  ProofsShift ProofsBasis ProofsLim ProofsLimRun ProofsContact ProofsSteady ProofsSteadyLim ProofsMirror ProofsMirrorRun ProofsSensor ProofsAHR ProofsSensorMirror ProofsHrMirror ProofsMirrorLim
  ExtReal Witness PropertiesContact PropertiesMirror.
Import ListNotations.
Open Scope list_scope.
Open Scope R_scope.

(** one cell: reconstructing the reflected (and scaled: k = -1 for the momentum) polynomials, with the neighbours exchanged, gives the reflected reconstruction *)
Theorem C86_cell : forall (X : Ext R) p h k uc ul ur uc' ul' ur' v, gauss_ok -> inv_ok -> hr_init (Basis p) = Ok h ->
  List.length uc = (p + 1)%nat -> List.length ul = (p + 1)%nat -> List.length ur = (p + 1)%nat ->
  List.length uc' = (p + 1)%nat -> List.length ul' = (p + 1)%nat -> List.length ur' = (p + 1)%nat ->
  (forall x, legseries uc' x = k * legseries uc (- x)) -> (forall x, legseries ul' x = k * legseries ur (- x)) -> (forall x, legseries ur' x = k * legseries ul (- x)) ->
  hr h uc ul ur = Ok v -> exists v', hr h uc' ul' ur' = Ok v' /\ forall x, legseries v' x = k * legseries v (- x).
Proof. exact @hr_mirror_series. Qed.

(** one call of the limiter *)
Theorem C86_limit : forall (X : Ext R) gamma ne (s s' s1 : solution R) h th, 1 < gamma -> gauss_ok -> inv_ok -> mirrored ne s s' ->
  Limiter "adaptive_hr" s = Ok (Some h) -> thresholds s = Some th -> thresholds s' = Some th -> (2 <= List.length th)%nat -> orientation_free gamma ne s ->
  limit gamma (Some h) s = Ok s1 -> exists s1', limit gamma (Some h) s' = Ok s1' /\ mirrored ne s1 s1'.
Proof. exact @limit_mirror_free. Qed.
(** a shock threshold of at least 1/2 is enough *)
Theorem C86_no_shock : forall gamma ne (s : solution R) th t1, 1 < gamma -> (forall e, (e < ne + 2)%nat -> admissible gamma (state3 s e)) ->
  thresholds s = Some th -> nth_error th 1 = Some t1 -> 1 / 2 <= t1 -> orientation_free gamma ne s.
Proof.
  intros gamma ne s th t1 Hg Ad Th T1 Ht. split; [exact Ad|]. intros th' t1' Th' T1' i Hi. rewrite Th in Th'. injection Th' as <-. rewrite T1 in T1'. injection T1' as <-.
  left. destruct (shock_bounds gamma Hg (state3 s i) (state3 s (i + 1))) as [[_ K] _]; [apply Ad; lia|apply Ad; lia|]. lra.
Qed.

(** C86: limited runs started from mirrored data stay mirrored *)
Theorem C86_runs : forall (X : Ext R) gamma ne (sol sol' : solution R) d h th, 1 < gamma -> gauss_ok -> inv_ok -> mirrored ne sol sol' -> enh_sound sol -> wf_dg ne sol d ->
  Limiter "adaptive_hr" sol = Ok (Some h) -> (1 <= b_p (s_basis sol))%nat -> thresholds sol = Some th -> thresholds sol' = Some th -> (2 <= List.length th)%nat ->
  forall rk cfl tf nout fuel,
  match s_riemann sol with
  | RRoe => forall x, evaluated gamma rk d (Some h) cfl tf nout sol x -> physical gamma ne x
  | RGodunov => forall x, evaluated gamma rk d (Some h) cfl tf nout sol x -> no_collision gamma ne x
  | RRusanov => True
  | _ => False
  end ->
  (forall x, clipped gamma rk d (Some h) cfl tf nout sol x -> orientation_free gamma ne x) ->
  let r := integrate gamma rk d (Some h) cfl tf nout fuel sol in
  let r' := integrate gamma rk d (Some h) cfl tf nout fuel sol' in
  Forall2 (mirrored_event ne) (fst r) (fst r') /\ mirrored_outcome ne (fun e e' => s_riemann sol = RGodunov \/ e = e') (snd r) (snd r').
Proof. exact @mirror_run_limited_all. Qed.

(** the dense slab with both thresholds 0: its edges are flagged by the contact sensor and limited, in every stage of every step *)
Lemma slab_sens_built (p : nat) (r : string) : exists s d,
  @made ExtReal 8 s /\ wf_dg 8 s d /\ s_enh s = None /\ bc_known (s_bcl s) /\ bc_known (s_bcr s) /\ s_bcl s = s_bcr s /\ s_euler s = true /\ s_riemann s = riemann_choice true r /\
  uniform_vp (14 / 10) 8 0 1 s /\ dense 8 s /\ apply_bc s = Ok s /\ b_p (s_basis s) = p /\ thresholds s = Some [0; 0] /\
  (forall e f, (e < 10)%nat -> (f < 3)%nat -> modes s e f = cmodes p (nth f [slab e; slab e * 0; energy (14 / 10) (slab e) 0 1] 0)).
Proof.
  destruct (entropy_built p r) as [s1 [d [B [Hd [D [E1 [E2 Ex]]]]]]]. destruct (built_sens _ _ _ _ _ _ _ 0 [0] B) as [_ M0]. set (s0 := with_sens s1 _) in *.
  assert (Eu : s_euler s0 = true) by exact (bl_euler _ _ _ _ _ _ _ B). assert (En : s_enh s0 = None) by exact (bl_enh _ _ _ _ _ _ _ B).
  destruct (layers_ok (14 / 10) 0 1 8 s0 slab ltac:(lra) M0 Eu En E1 E2 eq_refl eq_refl) as [M [U [DN [BC [AV FV]]]]].
  { intros e _. pose proof (slab_range e). lra. }
  set (s := layers (14 / 10) 0 1 8 s0 slab) in *. exists s, d.
  split; [exact M|]. split; [exact D|]. split; [exact En|].
  split; [left; change (s_bcl s) with (s_bcl s1); rewrite E1; reflexivity|]. split; [left; change (s_bcr s) with (s_bcr s1); rewrite E2; reflexivity|].
  split; [change (s_bcl s1 = s_bcr s1); rewrite E1, E2; reflexivity|].
  split; [exact Eu|]. split; [exact (bl_riemann _ _ _ _ _ _ _ B)|]. split; [exact U|]. split; [exact DN|]. split; [exact BC|].
  split; [exact (bl_p _ _ _ _ _ _ _ B)|]. split; [reflexivity|]. intros e f He Hf. rewrite <- (bl_p _ _ _ _ _ _ _ B). apply (layers_modes (14 / 10) 0 1 8 s0); [apply (md_wf _ _ M0)|exact Eu|exact He|exact Hf].
Qed.
Lemma slab_plateau e : (1 <= e <= 8)%nat -> (2 <= e)%nat /\ slab (e - 1) = slab e \/ (e + 1 <= 8)%nat /\ slab (e + 1) = slab e.
Proof.
  intro H. do 9 (destruct e as [|e]; [first [lia|left; split; [lia|reflexivity]|right; split; [lia|reflexivity]]|]). lia.
Qed.
Example C86_slab_witness : forall p rk (r : string), (1 <= p)%nat -> In r ["roe"; "godunov"]%string -> exists s d h,
  @gauss_ok ExtReal /\ @inv_ok ExtReal /\ @mirrored ExtReal 8 s s /\ @enh_sound ExtReal s /\ wf_dg 8 s d /\ b_p (s_basis s) = p /\ s_riemann s = riemann_choice true r /\
  @Limiter R NumR ExtReal "adaptive_hr" s = Ok (Some h) /\ thresholds s = Some [0; 0] /\
  contact_at (14 / 10) s 0 2 = true /\ orientation_free (14 / 10) 8 s /\ (exists s1, limit (14 / 10) (Some h) s = Ok s1) /\
  forall cfl tf nout x,
    (evaluated (14 / 10) rk d (Some h) cfl tf nout s x -> physical (14 / 10) 8 x /\ no_collision (14 / 10) 8 x) /\
    (clipped (14 / 10) rk d (Some h) cfl tf nout s x -> orientation_free (14 / 10) 8 x).
Proof.
  intros p rk r Hp1 Hr. destruct (slab_sens_built p r) as [s [d [M [D [En [Bl [Br [Eb [Eu [HR [U [DN [BC [Hp [Th L]]]]]]]]]]]]]]].
  destruct (@Limiter_ok ExtReal ExtReal_gauss ExtReal_inv 8 s M) as [h [HL MO]]. pose proof (md_wf _ _ M) as W.
  assert (NF3 : s_NF s = 3%nat) by (unfold s_NF; rewrite Eu; reflexivity).
  assert (HE : @enh_sound ExtReal s) by (unfold enh_sound; rewrite En; exact I).
  assert (HR' : s_riemann s = RRoe \/ s_riemann s = RGodunov) by (rewrite HR; destruct Hr as [<- |[<- |[]]]; [left|right]; reflexivity).
  assert (HF : forall e f, (1 <= e <= 8)%nat -> (f < s_NF s)%nat -> exists c, modes s e f = cmodes (b_p (s_basis s)) c /\
    ((2 <= e)%nat /\ modes s (e - 1) f = modes s e f \/ (e + 1 <= 8)%nat /\ modes s (e + 1) f = modes s e f)).
  { intros e f He Hf. rewrite NF3 in Hf. eexists. split; [rewrite Hp; apply L; [lia|exact Hf]|].
    destruct (slab_plateau e He) as [[K1 K2]|[K1 K2]]; [left|right]; (split; [exact K1|rewrite !L by lia; rewrite K2; reflexivity]). }
  pose proof (@rest_steady ExtReal (14 / 10) ltac:(lra) ExtReal_gauss ExtReal_inv 1 ltac:(lra) 8 s d M D HE Bl Br Eu U DN HR') as ST.
  assert (MS : forall x, Fix 8 s x -> forall e, (e < 10)%nat -> state3 x e = cons (14 / 10) (slab e) 0 1).
  { intros x [[Wx Sx] Hx] e He. unfold state3, cell_mean. assert (K : forall f, (f < 3)%nat -> at1 (modes x e f) 0 = nth f [slab e; slab e * 0; energy (14 / 10) (slab e) 0 1] 0).
    { intros f Hf. rewrite (Fix_at 8 s x e f 0 (conj Wx Sx)) by (rewrite ?NF3; first [lia|apply Ns_pos]).
      rewrite Hx by (rewrite ?NF3; first [lia|apply Ns_pos|right; reflexivity]). rewrite <- (Fix_at 8 s s e f 0 (Wf_0 8 s W)) by (rewrite ?NF3; first [lia|apply Ns_pos]).
      rewrite L by lia. rewrite at1_cmodes. reflexivity. }
    rewrite !K by lia. reflexivity. }
  assert (OF : forall x, Fix 8 s x -> orientation_free (14 / 10) 8 x).
  { intros x Fx. pose proof (MS x Fx) as Q. split.
    - intros e He. rewrite Q by lia. pose proof (slab_range e). exists (slab e), 0, 1. repeat split; lra.
    - intros th t1 Th' T1 i Hi. left. rewrite !Q by lia. pose proof (slab_range i). pose proof (slab_range (i + 1)).
      destruct (shock_bounds (14 / 10) ltac:(lra) (cons (14 / 10) (slab i) 0 1) (cons (14 / 10) (slab (i + 1)) 0 1)) as [_ K].
      { exists (slab i), 0, 1. repeat split; lra. } { exists (slab (i + 1)), 0, 1. repeat split; lra. }
      rewrite (proj2 K) by (rewrite !pres_admissible by lra; reflexivity).
      destruct Fx as [[_ Sx] _]. rewrite (th_similar _ _ Sx), Th in Th'. injection Th' as <-. cbn in T1. injection T1 as <-. lra. }
  assert (F0 : Fix 8 s s) by (apply Fix_0; exact W).
  exists s, d, h. split; [exact ExtReal_gauss|]. split; [exact ExtReal_inv|]. split; [apply (slab_mirrored p); assumption|]. split; [exact HE|]. split; [exact D|]. split; [exact Hp|]. split; [exact HR|].
  split; [exact HL|]. split; [exact Th|]. split.
  - unfold contact_at. apply Rltb_true. rewrite !(MS s F0) by lia. unfold contact_value, cons. change (slab (2 + 1)) with 2. change (slab 2) with 1.
    assert (P : pres (14 / 10) (2, 2 * 0, energy (14 / 10) 2 0 1) - pres (14 / 10) (1, 1 * 0, energy (14 / 10) 1 0 1) = 0).
    { pose proof (pres_admissible (14 / 10) ltac:(lra) 2 0 1 ltac:(lra)) as P1. pose proof (pres_admissible (14 / 10) ltac:(lra) 1 0 1 ltac:(lra)) as P2. unfold cons in P1, P2. rewrite P1, P2. ring. }
    numR. rewrite P. rewrite sensor_fn_R. match goal with |- context [0 / ?q] => replace (0 / q) with 0 by (unfold Rdiv; ring) end. rewrite !(Rabs_right (2 - 1 - 0)) by lra. apply Rdiv_lt_0_compat; lra.
  - split; [apply OF; exact F0|]. split; [apply (limit_total (14 / 10) 8 s h [0; 0] W MO Th); [unfold needed; rewrite Eu; cbn; lia|rewrite Hp; exact Hp1]|].
    intros cfl tf nout x. split.
    + intro Hx. pose proof (flat_evaluated (14 / 10) 8 s d h W D Bl Br BC ST MO ltac:(rewrite Hp; exact Hp1) HF rk cfl tf nout x Hx) as Fx.
      pose proof (slab_fix_sides p s M En Bl Br Eu Hp L x Fx) as Q. split.
      * intros t Ht e He. destruct (Q t Ht e He) as [a [b [-> ->]]]. pose proof (slab_range a). pose proof (slab_range b).
        split; [exists (slab a), 0, 1|exists (slab b), 0, 1]; (split; [lra|]; split; [lra|reflexivity]).
      * intros t Ht e He. destruct (Q t Ht e He) as [a [b [Q1 Q2]]]. pose proof (slab_range a). pose proof (slab_range b).
        exists (slab a), 0, 1, (slab b), 0, 1. repeat (split; [first [lra|assumption]|]). left. unfold sound_of. apply sqrt_lt_R0. apply Rdiv_lt_0_compat; lra.
    + intro Hx. apply OF. exact (flat_clipped (14 / 10) 8 s d h W D Bl Br BC ST MO ltac:(rewrite Hp; exact Hp1) HF rk cfl tf nout x Hx).
Qed.

(** C87: a constant cell with an equal neighbour is left alone, whatever the other neighbour holds *)
Theorem C87_cell : forall (X : Ext R) p h c ul ur, gauss_ok -> inv_ok -> hr_init (Basis p) = Ok h -> (1 <= p)%nat -> List.length ul = (p + 1)%nat -> List.length ur = (p + 1)%nat ->
  ul = cmodes p c \/ ur = cmodes p c -> hr h (cmodes p c) ul ur = Ok (cmodes p c).
Proof. intros X p h c ul ur G IV HI. exact (hr_flat p h c ul ur (hr_init_maps G IV p h HI)). Qed.
(** in one call of the limiter, with any thresholds *)
Theorem C87_limit : forall (X : Ext R) gamma ne (s s' : solution R) h e f c, gauss_ok -> inv_ok -> made ne s -> Limiter "adaptive_hr" s = Ok (Some h) -> (1 <= b_p (s_basis s))%nat ->
  limit gamma (Some h) s = Ok s' -> (1 <= e <= ne)%nat -> (f < s_NF s)%nat -> modes s e f = cmodes (b_p (s_basis s)) c ->
  modes s (e - 1) f = modes s e f \/ modes s (e + 1) f = modes s e f -> modes s' e f = modes s e f.
Proof. intros X gamma ne s s' h e f c G IV M HL Hp. exact (limit_plateau gamma ne s h s' e f c (md_wf _ _ M) (Limiter_maps G IV ne s h M HL) Hp). Qed.
(** layers of gas at rest, each at least two cells wide: limited runs do not change them *)
Theorem C87_layers_at_rest : forall (X : Ext R) (gamma : R), 1 < gamma -> gauss_ok -> inv_ok -> forall p, 0 < p -> forall ne (sol0 : solution R) d h,
  made ne sol0 -> wf_dg ne sol0 d -> enh_sound sol0 -> bc_known (s_bcl sol0) -> bc_known (s_bcr sol0) -> s_euler sol0 = true -> uniform_vp gamma ne 0 p sol0 -> dense ne sol0 ->
  s_riemann sol0 = RRoe \/ s_riemann sol0 = RGodunov -> apply_bc sol0 = Ok sol0 -> Limiter "adaptive_hr" sol0 = Ok (Some h) -> (1 <= b_p (s_basis sol0))%nat ->
  (forall e f, (1 <= e <= ne)%nat -> (f < 3)%nat -> exists c, modes sol0 e f = cmodes (b_p (s_basis sol0)) c /\
    ((2 <= e)%nat /\ modes sol0 (e - 1) f = modes sol0 e f \/ (e + 1 <= ne)%nat /\ modes sol0 (e + 1) f = modes sol0 e f)) ->
  forall rk cfl tf nout fuel evs out, integrate gamma rk d (Some h) cfl tf nout fuel sol0 = (evs, out) ->
  forall s, (exists ev, In ev evs /\ s = ev_sol ev) \/ out = Finished s ->
  similar sol0 s /\ forall e f, (1 <= e <= ne)%nat -> (f < 3)%nat -> modes s e f = modes sol0 e f.
Proof.
  intros X gamma Hg G IV p Hp ne sol0 d h M D HE Bl Br Eu U DN HR BC HL Hp1 HF rk cfl tf nout fuel evs out H s Hs.
  assert (NF3 : s_NF sol0 = 3%nat) by (unfold s_NF; rewrite Eu; reflexivity). rewrite <- NF3 in *.
  exact (flat_run gamma ne sol0 d h (md_wf _ _ M) D Bl Br BC (rest_steady gamma Hg G IV p Hp ne sol0 d M D HE Bl Br Eu U DN HR) (Limiter_maps G IV ne sol0 h M HL) Hp1 HF rk cfl tf nout fuel evs out H s Hs).
Qed.
Example C87_witness : forall p (r : string), (1 <= p)%nat -> In r ["roe"; "godunov"]%string -> exists s d h,
  @gauss_ok ExtReal /\ @inv_ok ExtReal /\ @made ExtReal 8 s /\ wf_dg 8 s d /\ @enh_sound ExtReal s /\ bc_known (s_bcl s) /\ bc_known (s_bcr s) /\ s_euler s = true /\
  uniform_vp (14 / 10) 8 0 1 s /\ dense 8 s /\ (s_riemann s = RRoe \/ s_riemann s = RGodunov) /\ apply_bc s = Ok s /\ @Limiter R NumR ExtReal "adaptive_hr" s = Ok (Some h) /\ b_p (s_basis s) = p /\
  (forall e f, (1 <= e <= 8)%nat -> (f < 3)%nat -> exists c, modes s e f = cmodes (b_p (s_basis s)) c /\
    ((2 <= e)%nat /\ modes s (e - 1) f = modes s e f \/ (e + 1 <= 8)%nat /\ modes s (e + 1) f = modes s e f)) /\
  modes s 2 0 <> modes s 3 0 /\ exists s1, limit (14 / 10) (Some h) s = Ok s1.
Proof.
  intros p r Hp1 Hr. destruct (slab_sens_built p r) as [s [d [M [D [En [Bl [Br [Eb [Eu [HR [U [DN [BC [Hp [Th L]]]]]]]]]]]]]]].
  destruct (@Limiter_ok ExtReal ExtReal_gauss ExtReal_inv 8 s M) as [h [HL MO]]. pose proof (md_wf _ _ M) as W. exists s, d, h.
  split; [exact ExtReal_gauss|]. split; [exact ExtReal_inv|]. split; [exact M|]. split; [exact D|]. split; [unfold enh_sound; rewrite En; exact I|]. split; [exact Bl|]. split; [exact Br|]. split; [exact Eu|].
  split; [exact U|]. split; [exact DN|]. split; [rewrite HR; destruct Hr as [<- |[<- |[]]]; [left|right]; reflexivity|]. split; [exact BC|]. split; [exact HL|]. split; [exact Hp|]. split; [|split].
  - intros e f He Hf. eexists. split; [rewrite Hp; apply L; [lia|exact Hf]|].
    destruct (slab_plateau e He) as [[K1 K2]|[K1 K2]]; [left|right]; (split; [exact K1|rewrite !L by lia; rewrite K2; reflexivity]).
  - intro K. apply (f_equal (fun l => at1 l 0)) in K. rewrite !L, !at1_cmodes in K by lia. cbn in K. lra.
  - apply (limit_total (14 / 10) 8 s h [0; 0] W MO Th); [unfold needed; rewrite Eu; cbn; lia|rewrite Hp; exact Hp1].
Qed.

Print Assumptions C86_cell.
Print Assumptions C86_limit.
Print Assumptions C86_no_shock.
Print Assumptions C86_runs.
Print Assumptions C87_cell.
Print Assumptions C87_limit.
Print Assumptions C87_layers_at_rest.
