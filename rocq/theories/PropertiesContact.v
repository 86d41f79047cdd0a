(** Properties C61-C64: flows of uniform velocity and pressure (contact discontinuities, entropy waves). *)
From Coq Require Import ZArith List Bool Arith String Lia Reals Lra.
From Verif Require Import Num Py PyStr Lib RealLib Constants LegNumpy Ext Basis Sensor Enhance Limiting EulerPhysics IC Solution Solver RKCoeffs RK
  SpecTime SpecDG SpecPoly SpecRK SpecEuler SpecLimit SpecUniform SpecTrace SpecContact ProofsPoly ProofsDG ProofsWf ProofsCons ProofsSol ProofsRiemann ProofsGodunov ProofsLimRun ProofsUniform
  ProofsShift ProofsBasis ProofsContact ProofsEntropy ProofsEntropy2 ExtReal Witness.
Import ListNotations.
Open Scope list_scope.
Open Scope R_scope.

(** C61: if every state handed to the residual has positive density where it is read, every snapshot has the initial velocity and pressure, at every point of every cell *)
Theorem C61_uniform_velocity_pressure : forall (X : Ext R) (gamma : R), 1 < gamma -> gauss_ok -> inv_ok -> forall v p, 0 < p -> forall ne (sol0 : solution R) d,
  made ne sol0 -> wf_dg ne sol0 d -> enh_sound sol0 -> bc_known (s_bcl sol0) -> bc_known (s_bcr sol0) -> s_euler sol0 = true -> uniform_vp gamma ne v p sol0 ->
  forall rk cfl tf nout fuel evs out, (forall x, evaluated gamma rk d None cfl tf nout sol0 x -> dense ne x) ->
  integrate gamma rk d None cfl tf nout fuel sol0 = (evs, out) ->
  forall s, (exists ev, In ev evs /\ s = ev_sol ev) \/ out = Finished s -> similar sol0 s /\ uniform_vp gamma ne v p s.
Proof. exact @vp_run. Qed.

(** C62: a contact at rest does not change, with the Roe and the exact solver *)
Theorem C62_stationary_contact : forall (X : Ext R) (gamma : R), 1 < gamma -> gauss_ok -> inv_ok -> forall p, 0 < p -> forall ne (sol0 : solution R) d,
  made ne sol0 -> wf_dg ne sol0 d -> enh_sound sol0 -> bc_known (s_bcl sol0) -> bc_known (s_bcr sol0) -> s_euler sol0 = true -> uniform_vp gamma ne 0 p sol0 -> dense ne sol0 ->
  s_riemann sol0 = RRoe \/ s_riemann sol0 = RGodunov -> apply_bc sol0 = Ok sol0 ->
  forall rk cfl tf nout fuel evs out, integrate gamma rk d None cfl tf nout fuel sol0 = (evs, out) ->
  forall s, (exists ev, In ev evs /\ s = ev_sol ev) \/ out = Finished s ->
  similar sol0 s /\ forall e f, (1 <= e <= ne)%nat -> (f < 3)%nat -> modes s e f = modes sol0 e f.
Proof. exact @rest_run. Qed.
Theorem C62_completes : forall (X : Ext R) (gamma : R), 1 < gamma -> gauss_ok -> inv_ok -> forall p, 0 < p -> forall ne (sol0 : solution R) d,
  made ne sol0 -> wf_dg ne sol0 d -> enh_sound sol0 -> bc_known (s_bcl sol0) -> bc_known (s_bcr sol0) -> s_euler sol0 = true -> uniform_vp gamma ne 0 p sol0 -> dense ne sol0 ->
  s_riemann sol0 = RRoe \/ s_riemann sol0 = RGodunov -> apply_bc sol0 = Ok sol0 ->
  forall rk cfl tf nout w, (2 <= nout)%Z -> s_t sol0 <= tf -> max_wave_speed gamma sol0 = Ok w ->
  1 / 100000000000000 <= s_dx sol0 * cfl / (w * INR (2 * b_p (s_basis sol0) + 1)) ->
  exists F evs s, s_t s = tf /\ forall fuel, (F <= fuel)%nat -> integrate gamma rk d None cfl tf nout fuel sol0 = (evs, Finished s).
Proof. exact @rest_completes. Qed.
(** .. but with Rusanov's flux a cell with a density jump at exactly one of its two interfaces changes its average at once *)
Theorem C62_rusanov_smears : forall (X : Ext R) (gamma : R), 1 < gamma -> inv_ok -> forall p, 0 < p -> forall ne (sol0 : solution R) d,
  made ne sol0 -> wf_dg ne sol0 d -> enh_sound sol0 -> bc_known (s_bcl sol0) -> bc_known (s_bcr sol0) -> s_euler sol0 = true -> uniform_vp gamma ne 0 p sol0 -> dense ne sol0 ->
  s_riemann sol0 = RRusanov -> forall s1 F, residual gamma d sol0 = Ok (s1, F) ->
  forall e, (1 <= e <= ne)%nat ->
  (rho_minus ne sol0 (e - 1) = rho_plus ne sol0 (e - 1) /\ rho_minus ne sol0 e <> rho_plus ne sol0 e) \/
  (rho_minus ne sol0 (e - 1) <> rho_plus ne sol0 (e - 1) /\ rho_minus ne sol0 e = rho_plus ne sol0 e) -> at2 F 0 (e * 3 + 0) <> 0.
Proof. exact @rest_rusanov. Qed.

(** C63: a step of an entropy wave advances the density exactly as a step of length v dt of the advection solver *)
Theorem C63_entropy_wave : forall (X : Ext R) (gamma : R), 1 < gamma -> gauss_ok -> inv_ok -> forall v p, 0 <= v -> 0 < p -> forall ne (sol0 : solution R) d,
  made ne sol0 -> wf_dg ne sol0 d -> enh_sound sol0 -> bc_known (s_bcl sol0) -> bc_known (s_bcr sol0) -> s_euler sol0 = true ->
  s_riemann sol0 = RRoe \/ s_riemann sol0 = RGodunov -> uniform_vp gamma ne v p sol0 ->
  forall rk cfl tf nout,
  (forall k tout touts s sc evs dt o dn, visits gamma rk d None cfl tf nout sol0 k tout touts s sc evs ->
     get_next_time_step gamma s tout cfl tf = Ok (dt, o, dn) -> dense_stages ne (rk_choice rk) (v * dt) s) ->
  forall k tout touts s sc evs, visits gamma rk d None cfl tf nout sol0 k tout touts s sc evs ->
  uniform_vp gamma ne v p s /\
  forall dt o dn, get_next_time_step gamma s tout cfl tf = Ok (dt, o, dn) ->
  exists s' sc', time_step gamma (rk_inner gamma rk d None) None cfl tf tout s sc = Ok (s', sc', (dt, o, dn)) /\ uniform_vp gamma ne v p s' /\
  let a := density_of ne s in
  exists d' a' sca, DG a = Ok d' /\ rk_inner gamma rk d' None (v * dt) a {| sc_us := a; sc_uk := a; sc_K := rk_K0 rk a |} = Ok (a', sca) /\
    forall e, (1 <= e <= ne)%nat -> modes s' e 0 = modes a' e 0.
Proof. exact @wave_steps. Qed.

(** C64: first-order runs of such flows keep the density in range, and velocity and pressure exactly *)
Theorem C64_first_order : forall (X : Ext R) (gamma : R), 1 < gamma -> gauss_ok -> inv_ok -> forall v p, 0 <= v -> 0 < p -> forall ne (sol0 : solution R) d,
  made ne sol0 -> wf_dg ne sol0 d -> s_enh sol0 = None -> b_p (s_basis sol0) = 0%nat -> bc_known (s_bcl sol0) -> bc_known (s_bcr sol0) -> s_euler sol0 = true ->
  s_riemann sol0 = RRoe \/ s_riemann sol0 = RGodunov -> uniform_vp gamma ne v p sol0 -> apply_bc sol0 = Ok sol0 ->
  forall lo hi, 0 < lo -> (forall e, (1 <= e <= ne)%nat -> lo <= at1 (modes sol0 e 0) 0 <= hi) ->
  forall rk cfl tf nout, In rk ["rk3"; "rk4"; "low_storage_rk4"]%string -> 0 <= cfl <= 1 / 2 -> (2 <= nout)%Z -> s_t sol0 <= tf ->
  forall fuel evs out, integrate gamma rk d None cfl tf nout fuel sol0 = (evs, out) ->
  forall s, (exists ev, In ev evs /\ s = ev_sol ev) \/ out = Finished s ->
  similar sol0 s /\ uniform_vp gamma ne v p s /\ forall e, (1 <= e <= ne)%nat -> lo <= at1 (modes s e 0) 0 <= hi.
Proof. exact @first_run. Qed.
Theorem C64_completes : forall (X : Ext R) (gamma : R), 1 < gamma -> gauss_ok -> inv_ok -> forall v p, 0 <= v -> 0 < p -> forall ne (sol0 : solution R) d,
  made ne sol0 -> wf_dg ne sol0 d -> s_enh sol0 = None -> b_p (s_basis sol0) = 0%nat -> bc_known (s_bcl sol0) -> bc_known (s_bcr sol0) -> s_euler sol0 = true ->
  s_riemann sol0 = RRoe \/ s_riemann sol0 = RGodunov -> uniform_vp gamma ne v p sol0 -> apply_bc sol0 = Ok sol0 ->
  forall lo hi, 0 < lo -> (forall e, (1 <= e <= ne)%nat -> lo <= at1 (modes sol0 e 0) 0 <= hi) ->
  forall rk cfl tf nout, In rk ["rk3"; "rk4"; "low_storage_rk4"]%string -> 0 <= cfl <= 1 / 2 -> (2 <= nout)%Z -> s_t sol0 <= tf ->
  1 / 100000000000000 <= s_dx sol0 * cfl / (v + sqrt (gamma * p / lo)) ->
  exists F evs s, s_t s = tf /\ forall fuel, (F <= fuel)%nat -> integrate gamma rk d None cfl tf nout fuel sol0 = (evs, Finished s).
Proof. exact @first_completes. Qed.

(** * cases *)
(** velocity v, pressure p and density [rho e] in cell e *)
Definition layers (gamma v p : R) (ne : nat) (s : solution R) (rho : nat -> R) : solution R :=
  with_u s (tab2 (s_Ns s) ((ne + 2) * s_NF s) (fun n j => match n with O => let r := rho (j / 3)%nat in nth (j mod 3) [r; r * v; energy gamma r v p] 0 | S _ => 0 end)).
Lemma layers_modes gamma v p ne (s : solution R) rho e f : wf ne s -> s_euler s = true -> (e < ne + 2)%nat -> (f < 3)%nat ->
  modes (layers gamma v p ne s rho) e f = cmodes (b_p (s_basis s)) (nth f [rho e; rho e * v; energy gamma (rho e) v p] 0).
Proof.
  intros W Eu He Hf. assert (NF3 : s_NF s = 3%nat) by (unfold s_NF; rewrite Eu; reflexivity).
  assert (W' : wf ne (layers gamma v p ne s rho)) by (apply wf_with_u; [exact W|apply shape_tab2]).
  apply (vec_ext (s_Ns s)); [apply (length_modes ne _ e f W')|rewrite length_cmodes, Ns_p; lia|].
  intros n Hn. change (at1 (modes (layers gamma v p ne s rho) e f) n = at1 (cmodes (b_p (s_basis s)) (nth f [rho e; rho e * v; energy gamma (rho e) v p] 0)) n).
  rewrite (modes_at ne _ e f n W' He ltac:(change (s_NF (layers gamma v p ne s rho)) with (s_NF s); rewrite NF3; exact Hf) Hn), at1_cmodes.
  change (s_NF (layers gamma v p ne s rho)) with (s_NF s). cbn [s_u layers with_u]. rewrite at2_tab2 by (first [exact Hn|rewrite NF3; lia]).
  rewrite NF3. destruct n; [|reflexivity]. cbv zeta. rewrite Nat.div_add_l by lia. rewrite (Nat.div_small f 3) by exact Hf. rewrite Nat.add_0_r.
  rewrite (Nat.add_comm (e * 3) f), Nat.mod_add by lia. rewrite (Nat.mod_small f 3) by exact Hf. reflexivity.
Qed.
Lemma with_u_same (s : solution R) u : u = s_u s -> with_u s u = s.
Proof. intros ->. destruct s. reflexivity. Qed.
Lemma layers_ok gamma v p ne (s : solution R) rho : 1 < gamma -> @made ExtReal ne s -> s_euler s = true -> s_enh s = None ->
  s_bcl s = pylit "periodic" -> s_bcr s = pylit "periodic" -> rho 0%nat = rho ne -> rho (ne + 1)%nat = rho 1%nat -> (forall e, (1 <= e <= ne)%nat -> 0 < rho e) ->
  let s0 := layers gamma v p ne s rho in
  @made ExtReal ne s0 /\ uniform_vp gamma ne v p s0 /\ dense ne s0 /\ apply_bc s0 = Ok s0 /\ (forall e, (1 <= e <= ne)%nat -> at1 (modes s0 e 0) 0 = rho e) /\ (forall e, (e <= ne)%nat -> rho_minus ne s0 e = rho e /\ rho_plus ne s0 e = rho (e + 1)%nat).
Proof.
  intros Hg M Eu En E1 E2 R1 R2 Rp s0. pose proof (md_wf _ _ M) as W. assert (NF3 : s_NF s = 3%nat) by (unfold s_NF; rewrite Eu; reflexivity).
  assert (W' : wf ne s0) by (apply wf_with_u; [exact W|apply shape_tab2]).
  assert (M' : @made ExtReal ne s0) by (eapply made_similar; [exact M|apply similar_with_u|exact W']).
  assert (LM : forall e f, (e < ne + 2)%nat -> (f < 3)%nat -> modes s0 e f = cmodes (b_p (s_basis s)) (nth f [rho e; rho e * v; energy gamma (rho e) v p] 0)) by (intros; apply layers_modes; assumption).
  pose proof (wf_ne _ _ W) as Hne.
  assert (SC : forall e, (e < ne + 2)%nat -> rho (src_cell (s_bcl s0) (s_bcr s0) ne e) = rho e /\ (src_cell (s_bcl s0) (s_bcr s0) ne e < ne + 2)%nat).
  { intros e He. change (s_bcl s0) with (s_bcl s). change (s_bcr s0) with (s_bcr s). rewrite E1, E2. unfold src_cell.
    destruct (Nat.eqb_spec e 0) as [-> |N0]; [cbn; split; [symmetry; exact R1|lia]|]. destruct (Nat.eqb_spec e (ne + 1)) as [-> |N1]; [cbn; split; [symmetry; exact R2|lia]|]. split; [reflexivity|exact He]. }
  assert (FL : forall e f, (e < ne + 2)%nat -> (f < 3)%nat -> filled ne s0 e f = modes s0 e f).
  { intros e f He Hf. unfold filled. destruct (SC e He) as [S1 S2]. rewrite !LM by assumption. rewrite S1. reflexivity. }
  assert (FV : forall e, (e <= ne)%nat -> rho_minus ne s0 e = rho e /\ rho_plus ne s0 e = rho (e + 1)%nat).
  { intros e He. unfold rho_minus, rho_plus, face_minus, face_plus. change (s_enh s0) with (s_enh s). rewrite En. rewrite !FL, !LM by lia.
    change (s_basis s0) with (s_basis s). rewrite (md_basis _ _ M), !b_p_Basis. cbn [nth].
    rewrite (@psi_right ExtReal), (@psi_left ExtReal) by (rewrite length_cmodes; reflexivity). rewrite !legseries_cmodes. split; reflexivity. }
  split; [exact M'|]. split; [|split; [|split; [|split; [|exact FV]]]].
  - intros e x He. rewrite !LM by lia. cbn [nth]. rewrite !legseries_cmodes. split; reflexivity.
  - split.
    + intros e g He Hgg. rewrite LM by lia. rewrite legseries_cmodes. cbn [nth]. apply Rp. exact He.
    + intros e He. destruct (FV e He) as [-> ->]. assert (Rq : forall e, (e < ne + 2)%nat -> 0 < rho e).
      { intros e' He'. destruct (Nat.eq_dec e' 0) as [-> |]; [rewrite R1; apply Rp; lia|]. destruct (Nat.eq_dec e' (ne + 1)) as [-> |]; [rewrite R2; apply Rp; lia|]. apply Rp. lia. }
      split; apply Rq; lia.
  - rewrite (apply_bc_eq ne s0 W'). f_equal. apply with_u_same. pose proof (wf_u _ _ (wf_apply_bc ne s0 W')) as U1. cbn [s_u with_u] in U1.
    apply (mat_ext _ _ _ _ U1 (wf_u _ _ W')). intros n j Hn Hj. change (j < (ne + 2) * s_NF s)%nat in Hj. rewrite NF3 in Hj.
    pose proof (Nat.div_mod_eq j 3) as Dj. pose proof (Nat.mod_upper_bound j 3 ltac:(lia)) as Mj. assert (Hj3 : (j / 3 < ne + 2)%nat) by (apply Nat.div_lt_upper_bound; lia).
    assert (Q := FL (j / 3)%nat (j mod 3)%nat Hj3 Mj). unfold filled in Q. rewrite <- (modes_bc ne s0) in Q by (first [exact W'|exact Hj3|change (s_NF s0) with (s_NF s); rewrite NF3; exact Mj]).
    apply (f_equal (fun w => at1 w n)) in Q. rewrite (modes_at ne _ _ _ n (wf_apply_bc ne s0 W')), (modes_at ne _ _ _ n W') in Q by (first [exact Hj3|exact Hn|change (s_NF s = 3%nat) in NF3; change (j mod 3 < s_NF s)%nat; rewrite NF3; exact Mj]).
    change (s_NF (with_u s0 (bc_u ne s0))) with (s_NF s) in Q. change (s_NF s0) with (s_NF s) in Q. rewrite NF3 in Q. replace (j / 3 * 3 + j mod 3)%nat with j in Q by lia. exact Q.
  - intros e He. rewrite LM by lia. rewrite at1_cmodes. reflexivity.
Qed.

(** density 1 in cells 1-4 and 2 in cells 5-8, periodic *)
Definition two_layers (e : nat) : R := if ((1 <=? e) && (e <=? 4) || (e =? 9))%nat%bool then 1 else 2.
Lemma two_layers_range e : 1 <= two_layers e <= 2.
Proof. unfold two_layers. destruct ((1 <=? e) && (e <=? 4) || (e =? 9))%nat%bool; lra. Qed.
(** any order: two layers moving with velocity v at pressure 1 *)
Lemma two_layers_built (p : nat) (r : string) (v : R) : exists s d,
  @made ExtReal 8 s /\ wf_dg 8 s d /\ s_enh s = None /\ bc_known (s_bcl s) /\ bc_known (s_bcr s) /\ s_euler s = true /\ s_riemann s = riemann_choice true r /\
  uniform_vp (14 / 10) 8 v 1 s /\ dense 8 s /\ apply_bc s = Ok s /\ b_p (s_basis s) = p /\ s_t s = 0 /\ s_dx s = 1 / 4 /\
  (forall e, (1 <= e <= 8)%nat -> at1 (modes s e 0) 0 = two_layers e) /\ (forall e, (e <= 8)%nat -> rho_minus 8 s e = two_layers e /\ rho_plus 8 s e = two_layers (e + 1)).
Proof.
  destruct (entropy_built p r) as [s0 [d [B [Hd [D [E1 [E2 Ex]]]]]]]. pose proof (bl_made _ _ _ _ _ _ _ B) as M0.
  assert (Eu : s_euler s0 = true) by exact (bl_euler _ _ _ _ _ _ _ B). assert (En : s_enh s0 = None) by exact (bl_enh _ _ _ _ _ _ _ B).
  destruct (layers_ok (14 / 10) v 1 8 s0 two_layers ltac:(lra) M0 Eu En E1 E2 eq_refl eq_refl) as [M [U [DN [BC [AV FV]]]]].
  { intros e _. pose proof (two_layers_range e). lra. }
  set (s := layers (14 / 10) v 1 8 s0 two_layers) in *. exists s, d.
  split; [exact M|]. split; [exact D|]. split; [exact En|].
  split; [left; change (s_bcl s) with (s_bcl s0); rewrite E1; reflexivity|]. split; [left; change (s_bcr s) with (s_bcr s0); rewrite E2; reflexivity|].
  split; [exact Eu|]. split; [exact (bl_riemann _ _ _ _ _ _ _ B)|]. split; [exact U|]. split; [exact DN|]. split; [exact BC|].
  split; [exact (bl_p _ _ _ _ _ _ _ B)|]. split; [exact (bl_t _ _ _ _ _ _ _ B)|]. split; [exact Ex|]. split; [exact AV|exact FV].
Qed.
(** the wave speed of such a state *)
Lemma layers_speed (s : solution R) : @made ExtReal 8 s -> s_euler s = true -> bc_known (s_bcl s) -> bc_known (s_bcr s) -> uniform_vp (14 / 10) 8 0 1 s ->
  apply_bc s = Ok s -> (forall e, (1 <= e <= 8)%nat -> at1 (modes s e 0) 0 = two_layers e) ->
  exists w, max_wave_speed (14 / 10) s = Ok w /\ 0 < w <= sqrt (14 / 10).
Proof.
  intros M Eu Bl Br U BC AV. pose proof (md_wf _ _ M) as W. assert (NF3 : s_NF s = 3%nat) by (unfold s_NF; rewrite Eu; reflexivity).
  set (src := src_cell (s_bcl s) (s_bcr s) 8).
  assert (SI : forall e, (e < 8 + 2)%nat -> (1 <= src e <= 8)%nat) by (intros e He; apply src_interior; try assumption; lia).
  assert (MB : forall e f, (e < 8 + 2)%nat -> (f < 3)%nat -> modes s e f = modes s (src e) f).
  { intros e f He Hf. rewrite (apply_bc_eq 8 s W) in BC. apply Ok_inj in BC. rewrite <- BC at 1. apply (modes_bc 8 s e f W He). rewrite NF3. exact Hf. }
  pose proof (proj1 (uniform_vp_cellwise (14 / 10) ltac:(lra) 0 1 8 s W) U) as C.
  destruct (max_speed_bounds (14 / 10) ltac:(lra) 8 s (fun e => two_layers (src e)) (fun _ => 0) (fun _ => 1) W Eu) as [w [Ew [_ [e [He Hw]]]]].
  { intros e He. specialize (SI e He). split; [pose proof (two_layers_range (src e)); lra|]. split; [lra|].
    rewrite (MB e 0%nat), (MB e 1%nat), (MB e 2%nat) by (first [exact He|lia]). rewrite (AV _ SI). destruct (C _ SI) as [[_ [_ C1]] [_ [_ C2]]].
    rewrite (C1 _ (Ns_pos s)), (C2 _ (Ns_pos s)), (AV _ SI). unfold cons, energy. cbn [unit0]. st3; field; lra. }
  exists w. split; [exact Ew|]. rewrite Hw. rewrite Rabs_R0, Rplus_0_l. unfold sound_of. pose proof (two_layers_range (src e)) as Q. set (r := two_layers (src e)) in *.
  assert (14 / 10 * 1 / r <= 14 / 10). { apply (Rmult_le_reg_r r); [lra|]. replace (14 / 10 * 1 / r * r) with (14 / 10) by (field; lra). nra. }
  assert (0 < 14 / 10 * 1 / r) by (apply Rdiv_lt_0_compat; lra).
  split; [apply sqrt_lt_R0; assumption|apply sqrt_le_1; lra].
Qed.

(** C62, C61: the two layers at rest, any order, scheme and CFL number: the run ends with the data it started from *)
Example C62_witness : forall p rk (r : string), In r ["roe"; "godunov"]%string -> exists s d,
  @made ExtReal 8 s /\ wf_dg 8 s d /\ @enh_sound ExtReal s /\ bc_known (s_bcl s) /\ bc_known (s_bcr s) /\ s_euler s = true /\ uniform_vp (14 / 10) 8 0 1 s /\ dense 8 s /\
  (s_riemann s = RRoe \/ s_riemann s = RGodunov) /\ apply_bc s = Ok s /\ b_p (s_basis s) = p /\ at1 (modes s 4 0) 0 = 1 /\ at1 (modes s 5 0) 0 = 2 /\
  (forall cfl tf nout x, evaluated (14 / 10) rk d None cfl tf nout s x -> dense 8 x) /\
  exists F evs s', s_t s' = 5 /\ (forall fuel, (F <= fuel)%nat -> integrate (14 / 10) rk d None (INR (2 * p + 1)) 5 3 fuel s = (evs, Finished s')) /\
    (forall e f, (1 <= e <= 8)%nat -> (f < 3)%nat -> modes s' e f = modes s e f) /\ uniform_vp (14 / 10) 8 0 1 s'.
Proof.
  intros p rk r Hr. destruct (two_layers_built p r 0) as [s [d [M [D [En [Bl [Br [Eu [HR [U [DN [BC [Hp [T0 [Ex [AV FV]]]]]]]]]]]]]]]].
  assert (HE : @enh_sound ExtReal s) by (unfold enh_sound; rewrite En; exact I).
  assert (HR' : s_riemann s = RRoe \/ s_riemann s = RGodunov) by (rewrite HR; destruct Hr as [<- |[<- |[]]]; [left|right]; reflexivity).
  destruct (layers_speed s M Eu Bl Br U BC AV) as [w [Ew [W1 W2]]].
  assert (EV : forall cfl tf nout x, evaluated (14 / 10) rk d None cfl tf nout s x -> dense 8 x).
  { intros cfl tf nout. exact (@rest_evaluated ExtReal (14 / 10) ltac:(lra) ExtReal_gauss ExtReal_inv 1 ltac:(lra) 8 s d M D HE Bl Br Eu U DN HR' BC rk cfl tf nout). }
  assert (HI : 0 < INR (2 * p + 1)) by (apply lt_0_INR; lia).
  destruct (C62_completes ExtReal (14 / 10) ltac:(lra) ExtReal_gauss ExtReal_inv 1 ltac:(lra) 8 s d M D HE Bl Br Eu U DN HR' BC rk (INR (2 * p + 1)) 5 3%Z w ltac:(lia) ltac:(lra) Ew) as [F [evs [s' [Et HF]]]].
  { rewrite Hp, Ex. replace (1 / 4 * INR (2 * p + 1) / (w * INR (2 * p + 1))) with (1 / 4 / w) by (field; split; lra).
    assert (sqrt (14 / 10) <= 2). { rewrite <- (sqrt_square 2) by lra. apply sqrt_le_1; lra. }
    apply (Rmult_le_reg_r w); [lra|]. replace (1 / 4 / w * w) with (1 / 4) by (field; lra). lra. }
  exists s, d. repeat (split; [assumption|]). split; [rewrite AV by lia; reflexivity|]. split; [rewrite AV by lia; reflexivity|]. split; [exact EV|].
  exists F, evs, s'. split; [exact Et|]. split; [exact HF|]. split.
  - apply (C62_stationary_contact ExtReal (14 / 10) ltac:(lra) ExtReal_gauss ExtReal_inv 1 ltac:(lra) 8 s d M D HE Bl Br Eu U DN HR' BC rk (INR (2 * p + 1)) 5 3%Z F evs _ (HF F (le_n F))). right. reflexivity.
  - apply (C61_uniform_velocity_pressure ExtReal (14 / 10) ltac:(lra) ExtReal_gauss ExtReal_inv 0 1 ltac:(lra) 8 s d M D HE Bl Br Eu U rk (INR (2 * p + 1)) 5 3%Z F evs _ (EV _ _ _) (HF F (le_n F))). right. reflexivity.
Qed.
(** .. and with Rusanov's flux the four cells beside the jumps lose or gain mass *)
Example C62_rusanov_witness : forall p, exists s d s1 F,
  @made ExtReal 8 s /\ wf_dg 8 s d /\ uniform_vp (14 / 10) 8 0 1 s /\ dense 8 s /\ s_riemann s = RRusanov /\ b_p (s_basis s) = p /\ residual (14 / 10) d s = Ok (s1, F) /\
  at2 F 0 (1 * 3 + 0) <> 0 /\ at2 F 0 (4 * 3 + 0) <> 0 /\ at2 F 0 (5 * 3 + 0) <> 0 /\ at2 F 0 (8 * 3 + 0) <> 0.
Proof.
  intro p. destruct (two_layers_built p "rusanov" 0) as [s [d [M [D [En [Bl [Br [Eu [HR [U [DN [BC [Hp [T0 [Ex [AV FV]]]]]]]]]]]]]]]].
  assert (HE : @enh_sound ExtReal s) by (unfold enh_sound; rewrite En; exact I). assert (HR' : s_riemann s = RRusanov) by (rewrite HR; reflexivity).
  destruct (@rest_residual ExtReal (14 / 10) ltac:(lra) ExtReal_gauss ExtReal_inv 1 ltac:(lra) 8 s d M D HE Bl Br Eu U DN s) as [s1 [F [R1 _]]]; [apply Wf_0; apply (md_wf _ _ M)|reflexivity|].
  assert (J : forall e, (1 <= e <= 8)%nat -> (two_layers (e - 1) = two_layers e /\ two_layers e <> two_layers (e + 1)) \/ (two_layers (e - 1) <> two_layers e /\ two_layers e = two_layers (e + 1)) -> at2 F 0 (e * 3 + 0) <> 0).
  { intros e He Hj. apply (C62_rusanov_smears ExtReal (14 / 10) ltac:(lra) ExtReal_inv 1 ltac:(lra) 8 s d M D HE Bl Br Eu U DN HR' s1 F R1 e He).
    destruct (FV (e - 1)%nat ltac:(lia)) as [-> ->]. destruct (FV e ltac:(lia)) as [-> ->]. replace (e - 1 + 1)%nat with e by lia. exact Hj. }
  exists s, d, s1, F. repeat (split; [assumption|]). unfold two_layers in J.
  split; [apply (J 1%nat ltac:(lia)); cbn; lra|]. split; [apply (J 4%nat ltac:(lia)); cbn; lra|]. split; [apply (J 5%nat ltac:(lia)); cbn; lra|apply (J 8%nat ltac:(lia)); cbn; lra].
Qed.
(** C63, C64: the two layers moving with velocity 1 at first order *)
Example C64_witness : forall rk (r : string), In rk ["rk3"; "rk4"; "low_storage_rk4"]%string -> In r ["roe"; "godunov"]%string -> exists s d,
  @made ExtReal 8 s /\ wf_dg 8 s d /\ s_enh s = None /\ b_p (s_basis s) = 0%nat /\ bc_known (s_bcl s) /\ bc_known (s_bcr s) /\ s_euler s = true /\
  (s_riemann s = RRoe \/ s_riemann s = RGodunov) /\ uniform_vp (14 / 10) 8 1 1 s /\ apply_bc s = Ok s /\ at1 (modes s 4 0) 0 = 1 /\ at1 (modes s 5 0) 0 = 2 /\
  (forall e, (1 <= e <= 8)%nat -> 1 <= at1 (modes s e 0) 0 <= 2) /\
  (forall k tout touts s2 sc evs dt o dn, visits (14 / 10) rk d None (1 / 2) 5 3 s k tout touts s2 sc evs ->
     get_next_time_step (14 / 10) s2 tout (1 / 2) 5 = Ok (dt, o, dn) -> dense_stages 8 (rk_choice rk) (1 * dt) s2) /\
  exists F evs s', s_t s' = 5 /\ (forall fuel, (F <= fuel)%nat -> integrate (14 / 10) rk d None (1 / 2) 5 3 fuel s = (evs, Finished s')) /\
    uniform_vp (14 / 10) 8 1 1 s' /\ forall e, (1 <= e <= 8)%nat -> 1 <= at1 (modes s' e 0) 0 <= 2.
Proof.
  intros rk r Hk Hr. destruct (two_layers_built 0 r 1) as [s [d [M [D [En [Bl [Br [Eu [HR [U [DN [BC [Hp [T0 [Ex [AV FV]]]]]]]]]]]]]]]].
  assert (HR' : s_riemann s = RRoe \/ s_riemann s = RGodunov) by (rewrite HR; destruct Hr as [<- |[<- |[]]]; [left|right]; reflexivity).
  assert (RG : forall e, (1 <= e <= 8)%nat -> 1 <= at1 (modes s e 0) 0 <= 2) by (intros e He; rewrite AV by exact He; apply two_layers_range).
  assert (ST : forall k tout touts s2 sc evs dt o dn, visits (14 / 10) rk d None (1 / 2) 5 3 s k tout touts s2 sc evs ->
     get_next_time_step (14 / 10) s2 tout (1 / 2) 5 = Ok (dt, o, dn) -> dense_stages 8 (rk_choice rk) (1 * dt) s2).
  { intros k tout touts s2 sc evs dt o dn. apply (@first_stages ExtReal (14 / 10) ltac:(lra) ExtReal_gauss ExtReal_inv 1 1 ltac:(lra) ltac:(lra) 8 s d M D En Hp Bl Br Eu HR' U BC 1 2 ltac:(lra) RG rk (1 / 2) 5 3%Z Hk ltac:(lra) ltac:(lia) ltac:(lra)). }
  destruct (C64_completes ExtReal (14 / 10) ltac:(lra) ExtReal_gauss ExtReal_inv 1 1 ltac:(lra) ltac:(lra) 8 s d M D En Hp Bl Br Eu HR' U BC 1 2 ltac:(lra) RG rk (1 / 2) 5 3%Z Hk ltac:(lra) ltac:(lia) ltac:(lra)) as [F [evs [s' [Et HF]]]].
  { rewrite Ex. assert (0 <= sqrt (14 / 10 * 1 / 1) <= 2). { split; [apply sqrt_pos|]. rewrite <- (sqrt_square 2) by lra. apply sqrt_le_1; lra. }
    set (q := sqrt _) in *. apply (Rmult_le_reg_r (1 + q)); [lra|]. replace (1 / 4 * (1 / 2) / (1 + q) * (1 + q)) with (1 / 8) by (field; lra). lra. }
  exists s, d. repeat (split; [assumption|]). split; [rewrite AV by lia; reflexivity|]. split; [rewrite AV by lia; reflexivity|]. split; [exact RG|]. split; [exact ST|].
  exists F, evs, s'. split; [exact Et|]. split; [exact HF|].
  apply (C64_first_order ExtReal (14 / 10) ltac:(lra) ExtReal_gauss ExtReal_inv 1 1 ltac:(lra) ltac:(lra) 8 s d M D En Hp Bl Br Eu HR' U BC 1 2 ltac:(lra) RG rk (1 / 2) 5 3%Z Hk ltac:(lra) ltac:(lia) ltac:(lra) F evs _ (HF F (le_n F))). right. reflexivity.
Qed.

Print Assumptions C61_uniform_velocity_pressure.
Print Assumptions C62_stationary_contact.
Print Assumptions C62_completes.
Print Assumptions C62_rusanov_smears.
Print Assumptions C63_entropy_wave.
Print Assumptions C64_first_order.
Print Assumptions C64_completes.
Print Assumptions C62_witness.
Print Assumptions C62_rusanov_witness.
Print Assumptions C64_witness.
