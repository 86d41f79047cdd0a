(** Properties C26-C35: the Riemann solvers, in exact arithmetic.  States are given by density,
    velocity and pressure ([cons], [eflux] in SpecEuler); [admissible_states] says these are all the
    states with positive density and pressure. *)
From Coq Require Import ZArith List Bool Arith String Reals Lra Lia SpecFloat.
From Verif Require Import Num Py RealLib Sensor Enhance AdvectionPhysics EulerPhysics Solution Solver SpecEuler SpecDG ProofsRiemann ProofsGodunov ProofsFloatGodunov.
Import ListNotations.
Open Scope R_scope.

Theorem admissible_states : forall g, 1 < g -> forall rho m E,
  admissible g (rho, m, E) <-> 0 < rho /\ 0 < (g - 1) * (E - m * m / (2 * rho)).
Proof. exact admissible_iff. Qed.
Theorem euler_flux : forall g, 1 < g -> forall rho v p, 0 < rho ->
  flux1 g (cons g rho v p) = eflux g rho v p.
Proof. exact flux1_prim. Qed.

(** C26 *)
Theorem C26_consistent : forall g, 1 < g -> forall rho v p, 0 < rho -> 0 < p ->
  let u := cons g rho v p in
  rusanov1 g u u = eflux g rho v p /\ roe1 g u u = eflux g rho v p /\ godunov1 g u u = Ok (eflux g rho v p).
Proof. exact (fun g Hg rho v p Hr Hp => conj (rusanov_consistent g Hg rho v p Hr) (conj (roe_consistent g Hg rho v p Hr Hp) (godunov_consistent g Hg rho v p Hr Hp))). Qed.
Theorem C26_arrays : forall g, 1 < g -> forall (s : solution R) u,
  (s_riemann s = RUpwind <-> s_euler s = false) ->
  (s_euler s = true -> forall c, In c (split3 u) -> admissible g c) ->
  exists f, riemann g s u u = Ok f /\ interior_flux g s [u] = [f].
Proof. exact riemann_consistent. Qed.

(** C27 *)
Theorem C27_rusanov_roe : forall g, 1 < g -> forall rl vl pl rr vr pr, 0 < rl -> 0 < pl -> 0 < rr -> 0 < pr ->
  let l := cons g rl vl pl in let r := cons g rr vr pr in
  rusanov1 g (mirror r) (mirror l) = mirror_flux (rusanov1 g l r) /\ roe1 g (mirror r) (mirror l) = mirror_flux (roe1 g l r).
Proof. exact (fun g Hg rl vl pl rr vr pr A B C D => conj (rusanov_mirror g Hg rl vl pl rr vr pr A C) (roe_mirror g Hg rl vl pl rr vr pr A B C D)). Qed.
(** missing for the full C27: states with vl >= al and vr <= -ar, where it is false *)
Theorem C27_godunov_partial : forall g, 1 < g -> forall rl vl pl rr vr pr, 0 < rl -> 0 < pl -> 0 < rr -> 0 < pr ->
  vl < sound_of g rl pl \/ - sound_of g rr pr < vr ->
  let l := cons g rl vl pl in let r := cons g rr vr pr in
  godunov1 g (mirror r) (mirror l) = rbind (godunov1 g l r) (fun f => Ok (mirror_flux f)).
Proof. exact godunov_mirror. Qed.

(** C28 *)
Theorem C28_contacts : forall g, 1 < g -> forall rl rr p, 0 < rl -> 0 < rr -> 0 < p ->
  let l := cons g rl 0 p in let r := cons g rr 0 p in
  roe1 g l r = (0, p, 0) /\ godunov1 g l r = Ok (0, p, 0) /\ (fst (fst (rusanov1 g l r)) = 0 -> rl = rr).
Proof. exact (fun g Hg rl rr p A B C => conj (roe_contact g Hg rl rr p A B C) (conj (godunov_contact g Hg rl rr p A B C) (rusanov_contact g Hg rl rr p A B C))). Qed.

(** C29: averages, real sound speed, wave decomposition, upwinding.
    [roe_v], [roe_H], [roe_a] are spelled out by C29_averages. *)
Theorem C29_averages : forall g, 1 < g -> forall rl vl pl rr vr pr, 0 < rl -> 0 < pl -> 0 < rr -> 0 < pr ->
  let v := (sqrt rl * vl + sqrt rr * vr) / (sqrt rl + sqrt rr) in
  let H := (sqrt rl * enthalpy g rl vl pl + sqrt rr * enthalpy g rr vr pr) / (sqrt rl + sqrt rr) in
  let a := sqrt ((g - 1) * (H - / 2 * v * v)) in
  0 < (g - 1) * (H - / 2 * v * v) /\ roe_v rl vl rr vr = v /\ roe_H g rl vl pl rr vr pr = H /\ roe_a g rl vl pl rr vr pr = a /\
  ra_v (roe_average g (cons g rl vl pl) (cons g rr vr pr)) = v /\
  ra_H (roe_average g (cons g rl vl pl) (cons g rr vr pr)) = H /\
  ra_a (roe_average g (cons g rl vl pl) (cons g rr vr pr)) = a.
Proof.
  intros g Hg rl vl pl rr vr pr Hrl Hpl Hrr Hpr v H a.
  assert (Ev : roe_v rl vl rr vr = v) by (apply roe_v_sqrt; assumption).
  assert (EH : roe_H g rl vl pl rr vr pr = H) by (apply roe_H_sqrt; assumption).
  assert (Ea : roe_a g rl vl pl rr vr pr = a) by (unfold roe_a; rewrite Ev, EH; reflexivity).
  pose proof (roe_radicand g Hg rl vl pl rr vr pr Hrl Hpl Hrr Hpr) as K. cbv zeta in K.
  fold (roe_v rl vl rr vr) in K. fold (roe_H g rl vl pl rr vr pr) in K. rewrite Ev, EH in K.
  rewrite (roe_average_prim g Hg) by assumption. cbn [ra_v ra_H ra_a]. split; [exact K|]. split; [exact Ev|]. split; [exact EH|]. split; [exact Ea|].
  split; [exact Ev|]. split; [exact EH|exact Ea].
Qed.
Theorem C29_linearisation : forall g, 1 < g -> forall rl vl pl rr vr pr, 0 < rl -> 0 < pl -> 0 < rr -> 0 < pr ->
  let v := roe_v rl vl rr vr in let H := roe_H g rl vl pl rr vr pr in let a := roe_a g rl vl pl rr vr pr in
  let uL := cons g rl vl pl in let uR := cons g rr vr pr in
  let FL := eflux g rl vl pl in let FR := eflux g rr vr pr in
  exists d0 d1 d2,
    let waves w0 w1 w2 := st_plus (st_plus (st_scale (w0 * d0) (1, v - a, H - v * a)) (st_scale (w1 * d1) (1, v, / 2 * v * v)))
                                  (st_scale (w2 * d2) (1, v + a, H + v * a)) in
    waves 1 1 1 = st_minus uR uL /\ waves (v - a) v (v + a) = st_minus FR FL /\
    exists w0 w2,
      Rabs (v - a) <= w0 /\ Rabs (v + a) <= w2 /\
      (2 * (vr - sound_of g rr pr - (vl - sound_of g rl pl)) <= Rabs (v - a) -> w0 = Rabs (v - a)) /\
      (2 * (vr + sound_of g rr pr - (vl + sound_of g rl pl)) <= Rabs (v + a) -> w2 = Rabs (v + a)) /\
      roe1 g uL uR = st_minus (st_scale (/ 2) (st_plus FL FR)) (st_scale (/ 2) (waves w0 (Rabs v) w2)).
Proof.
  intros g Hg rl vl pl rr vr pr Hrl Hpl Hrr Hpr v H a uL uR FL FR.
  exists (roe_dV0 g rl vl pl rr vr pr), (roe_dV1 g rl vl pl rr vr pr), (roe_dV2 g rl vl pl rr vr pr). cbv zeta.
  split; [exact (roe_jump g Hg rl vl pl rr vr pr Hrl Hpl Hrr Hpr)|].
  split; [exact (roe_linearisation g Hg rl vl pl rr vr pr Hrl Hpl Hrr Hpr)|].
  exists (Efix (Rabs (v - a)) (vl - sound_of g rl pl) (vr - sound_of g rr pr)), (Efix (Rabs (v + a)) (vl + sound_of g rl pl) (vr + sound_of g rr pr)).
  split; [apply Efix_ge|]. split; [apply Efix_ge|].
  split; [intro K; apply Efix_none; [apply Rabs_pos|exact K]|]. split; [intro K; apply Efix_none; [apply Rabs_pos|exact K]|].
  exact (roe_prim g Hg rl vl pl rr vr pr Hrl Hpl Hrr Hpr).
Qed.
(** [no_fix w l r]: the entropy fix of a wave with speed w and left/right speeds l, r does not act *)
Theorem C29_upwind_right : forall g, 1 < g -> forall rl vl pl rr vr pr, 0 < rl -> 0 < pl -> 0 < rr -> 0 < pr ->
  let v := roe_v rl vl rr vr in let a := roe_a g rl vl pl rr vr pr in
  let aL := sound_of g rl pl in let aR := sound_of g rr pr in
  0 <= v - a -> no_fix (v - a) (vl - aL) (vr - aR) -> no_fix (v + a) (vl + aL) (vr + aR) ->
  roe1 g (cons g rl vl pl) (cons g rr vr pr) = eflux g rl vl pl.
Proof. exact roe_upwind_right. Qed.
Theorem C29_upwind_left : forall g, 1 < g -> forall rl vl pl rr vr pr, 0 < rl -> 0 < pl -> 0 < rr -> 0 < pr ->
  let v := roe_v rl vl rr vr in let a := roe_a g rl vl pl rr vr pr in
  let aL := sound_of g rl pl in let aR := sound_of g rr pr in
  v + a <= 0 -> no_fix (- (v - a)) (vl - aL) (vr - aR) -> no_fix (- (v + a)) (vl + aL) (vr + aR) ->
  roe1 g (cons g rl vl pl) (cons g rr vr pr) = eflux g rr vr pr.
Proof. exact roe_upwind_left. Qed.
Example C29_witness :
  let g := 2 in let rl := 1 in let vl := 3 in let pl := 2 in let rr := 1 in let vr := 3 in let pr := 2 in
  let v := roe_v rl vl rr vr in let a := roe_a g rl vl pl rr vr pr in
  0 <= v - a /\ no_fix (v - a) (vl - sound_of g rl pl) (vr - sound_of g rr pr) /\ no_fix (v + a) (vl + sound_of g rl pl) (vr + sound_of g rr pr).
Proof.
  cbv zeta. assert (Ev : roe_v 1 3 1 3 = 3) by (unfold roe_v; pose proof (sqrt_pos (1 / 1)); field; lra).
  assert (Ea : roe_a 2 1 3 2 1 3 2 = 2).
  { unfold roe_a. rewrite Ev. unfold roe_H. replace ((enthalpy 2 1 3 2 + sqrt (1 / 1) * enthalpy 2 1 3 2) / (1 + sqrt (1 / 1))) with (enthalpy 2 1 3 2)
      by (pose proof (sqrt_pos (1 / 1)); field; lra). unfold enthalpy, energy.
    replace ((2 - 1) * ((2 / (2 - 1) + 1 * 3 * 3 / 2 + 2) / 1 - / 2 * 3 * 3)) with (2 * 2) by field. apply sqrt_square. lra. }
  rewrite Ev, Ea. unfold no_fix. repeat split; lra.
Qed.

(** C30 *)
Theorem C30_entropy_fix : forall w lamL lamR : R, 0 <= w ->
  let spread := Rmax 0 (4 * (lamR - lamL)) in
  w <= entropy_fix w lamL lamR /\
  (w < spread / 2 -> 0 < spread /\ entropy_fix w lamL lamR = w * w / spread + spread / 4 /\ spread / 4 <= entropy_fix w lamL lamR) /\
  (spread / 2 <= w -> entropy_fix w lamL lamR = w).
Proof.
  intros w a b Hw D. rewrite entropy_fix_R. split; [apply Efix_ge|]. unfold Efix. fold D. split; intro H.
  - assert (HD : 0 < D) by lra. destruct (Rlt_dec w (D / 2)); [|lra]. split; [assumption|]. split; [reflexivity|].
    assert (0 <= w * w / D); [|lra]. apply Rmult_le_pos; [nra|apply Rlt_le, Rinv_0_lt_compat; assumption].
  - destruct (Rlt_dec w (D / 2)); [lra|reflexivity].
Qed.
Example C30_acts : entropy_fix 1 0 1 = 5 / 4.
Proof. rewrite entropy_fix_R. unfold Efix. rewrite Rmax_right by lra. destruct (Rlt_dec 1 (4 * (1 - 0) / 2)); lra. Qed.

(** C31: rho, v, p are the averages of cell e, ghost cells included *)
Theorem C31_max_wave_speed : forall g, 1 < g -> forall ne (s : solution R) (rho v p : nat -> R), wf ne s -> s_euler s = true ->
  (forall e, (e < ne + 2)%nat -> 0 < rho e /\ 0 < p e /\
     (at1 (modes s e 0) 0, at1 (modes s e 1) 0, at1 (modes s e 2) 0) = cons g (rho e) (v e) (p e)) ->
  exists m, max_wave_speed g s = Ok m /\
    (forall e, (e < ne + 2)%nat -> Rabs (v e) <= m /\ Rabs (v e - sound_of g (rho e) (p e)) <= m /\ Rabs (v e + sound_of g (rho e) (p e)) <= m) /\
    (exists e, (e < ne + 2)%nat /\ m = Rabs (v e) + sound_of g (rho e) (p e)).
Proof. exact max_speed_bounds. Qed.
Theorem C31_advection : forall g (s : solution R), s_euler s = false -> max_wave_speed g s = Ok 1.
Proof. intros g s H. unfold max_wave_speed. rewrite H. reflexivity. Qed.

(** C32, one interface and any number of interfaces *)
Theorem C32_rusanov : forall g, 1 < g -> forall rl vl pl rr vr pr, 0 < rl -> 0 < pl -> 0 < rr -> 0 < pr ->
  let s := Rmax (Rabs vl + sound_of g rl pl) (Rabs vr + sound_of g rr pr) in
  rusanov1 g (cons g rl vl pl) (cons g rr vr pr) =
  st_minus (st_scale (/ 2) (st_plus (eflux g rl vl pl) (eflux g rr vr pr)))
           (st_scale (/ 2 * s) (st_minus (cons g rr vr pr) (cons g rl vl pl))).
Proof. exact (fun g Hg rl vl pl rr vr pr A _ C _ => rusanov_prim g Hg rl vl pl rr vr pr A C). Qed.
Theorem C32_interfaces : forall g (l : list (st * st)),
  riemann_rusanov g (join3 (map fst l)) (join3 (map snd l)) = Ok (join3 (map (fun p => rusanov1 g (fst p) (snd p)) l)).
Proof. exact rusanov_array. Qed.

(** C33: one side of the star state.  m is the mass flux the code computes for this side. *)
Theorem C33_shock_side : forall g, 1 < g -> forall r v pQ pm vm, 0 < r -> 0 < pQ -> pQ <= pm ->
  let m := massflux g r (sound_of g r pQ) pQ pm in
  vm = v - (pm - pQ) / m -> left_shock g r v pQ (godunov_rm g r pQ pm) vm pm (v - m / r).
Proof. exact left_shock_of. Qed.
Theorem C33_rarefaction_side : forall g, 1 < g -> forall r v pQ pm vm, 0 < r -> 0 < pQ -> 0 < pm -> pm / pQ < 1 - 1 / 1000000000000000 ->
  vm = v - (pm - pQ) / massflux g r (sound_of g r pQ) pQ pm -> left_rarefaction g r v pQ (godunov_rm g r pQ pm) vm pm.
Proof. exact rarefaction_relations. Qed.
(** a rarefaction weaker than 1e-15 is treated with the shock mass flux: the invariant holds up to 2e-15 sound speeds *)
Theorem C33_weak_rarefaction_side : forall g, 1 < g -> forall r v pQ pm vm, 0 < r -> 0 < pQ -> 0 < pm -> 1 - 1 / 1000000000000000 <= pm / pQ -> pm < pQ ->
  vm = v - (pm - pQ) / massflux g r (sound_of g r pQ) pQ pm ->
  same_isentrope g r pQ (godunov_rm g r pQ pm) pm /\
  Rabs (vm + 2 * sound_of g (godunov_rm g r pQ pm) pm / (g - 1) - (v + 2 * sound_of g r pQ / (g - 1))) <= 2 / 1000000000000000 * sound_of g r pQ.
Proof. exact weak_rarefaction. Qed.
(** at a fixed point both curves pass through the star state *)
Theorem C33_curves_meet : forall g, 1 < g -> forall rl vl pl rr vr pr p, 0 < rl -> 0 < pl -> 0 < rr -> 0 < pr -> 0 < p ->
  gstep g rl vl pl rr vr pr p = p ->
  let mL := massflux g rl (sound_of g rl pl) pl p in
  let mR := massflux g rr (sound_of g rr pr) pr p in
  star_v g rl vl pl rr vr pr p = vl - (p - pl) / mL /\ star_v g rl vl pl rr vr pr p = vr - (p - pr) / (- mR).
Proof. exact star_curves. Qed.
Theorem C33_sonic_state : forall g, 1 < g -> forall r u1 c1 P1 u2 c2, 0 < r -> 0 < P1 -> c1 = sound_of g r P1 -> 0 < c2 ->
  u1 - c1 < 0 -> 0 < u2 - c2 -> u2 + 2 * c2 / (g - 1) = u1 + 2 * c1 / (g - 1) ->
  exists rs us Ps, 0 < rs /\ 0 < Ps /\ sonic g u1 c1 P1 u2 c2 (u1 - c1) (u2 - c2) = (rs, rs * us, Ps / (g - 1) + / 2 * rs * us * us) /\
    us = sound_of g rs Ps /\ same_isentrope g r P1 rs Ps /\ same_invariant g r u1 P1 rs us Ps.
Proof. exact sonic_state. Qed.
(** the flux of the exact solution on x/t = 0: whenever the iteration ends at a fixed point ... *)
Theorem C33_exact_flux : forall g, 1 < g -> forall rl vl pl rr vr pr p1 p, 0 < rl -> 0 < pl -> 0 < rr -> 0 < pr -> 0 < p ->
  vl < sound_of g rl pl -> - sound_of g rr pr < vr ->
  godunov_iter (gstep g rl vl pl rr vr pr) 101 (gguess g rl vl pl rr vr pr) = Ok (p1, p) ->
  gstep g rl vl pl rr vr pr p = p -> off_band p pl -> off_band p pr ->
  exists r0 v0 p0, godunov1 g (cons g rl vl pl) (cons g rr vr pr) = Ok (eflux g r0 v0 p0) /\ riemann_at0 g rl vl pl rr vr pr r0 v0 p0.
Proof. exact godunov_fixed_point. Qed.
(** ... and unconditionally for two rarefactions, q being the star pressure *)
Theorem C33_two_rarefactions : forall g, 1 < g -> forall rl vl pl rr vr pr q, 0 < rl -> 0 < pl -> 0 < rr -> 0 < pr -> 0 < q ->
  vl < sound_of g rl pl -> - sound_of g rr pr < vr ->
  q / pl < 1 - 1 / 1000000000000000 -> q / pr < 1 - 1 / 1000000000000000 ->
  sound_of g rl pl * Rpower (q / pl) ((g - 1) / (2 * g)) + sound_of g rr pr * Rpower (q / pr) ((g - 1) / (2 * g))
    = sound_of g rl pl + sound_of g rr pr + (g - 1) / 2 * (vl - vr) ->
  exists r0 v0 p0, godunov1 g (cons g rl vl pl) (cons g rr vr pr) = Ok (eflux g r0 v0 p0) /\ riemann_at0 g rl vl pl rr vr pr r0 v0 p0.
Proof. exact godunov_two_rarefactions. Qed.
Lemma sound_one : sound_of (7 / 5) (7 / 5) 1 = 1.
Proof. unfold sound_of. replace (7 / 5 * 1 / (7 / 5)) with 1 by field. apply sqrt_1. Qed.
Example C33_two_rarefactions_witness :
  let g := 7 / 5 in let q := / 128 in
  1 < g /\ -5/2 < sound_of g (7/5) 1 /\ - sound_of g (7/5) 1 < 5/2 /\ q / 1 < 1 - 1 / 1000000000000000 /\
  sound_of g (7/5) 1 * Rpower (q / 1) ((g - 1) / (2 * g)) + sound_of g (7/5) 1 * Rpower (q / 1) ((g - 1) / (2 * g))
    = sound_of g (7/5) 1 + sound_of g (7/5) 1 + (g - 1) / 2 * (- 5/2 - 5/2).
Proof.
  cbv zeta. rewrite !sound_one. repeat split; try lra.
  replace ((7 / 5 - 1) / (2 * (7 / 5))) with (/ 7) by field. replace (/ 128 / 1) with (/ 128) by field.
  assert (E : Rpower (/ 128) (/ 7) = / 2).
  { replace (/ 128) with ((/ 2) ^ 7) by (field; lra). rewrite <- Rpower_pow by lra. rewrite Rpower_mult.
    replace (INR 7 * / 7) with 1 by (rewrite INR_IZR_INZ; cbn [Z.of_nat Pos.of_succ_nat Pos.succ]; field). apply Rpower_1. lra. }
  rewrite E. field.
Qed.

(** C34 in exact arithmetic.  Missing: rounding; in binary64 the claim is false (C34_float_refuted). *)
Theorem C34_outcomes_partial : forall g, 1 < g -> forall rl vl pl rr vr pr, 0 < rl -> 0 < pl -> 0 < rr -> 0 < pr ->
  let l := cons g rl vl pl in let r := cons g rr vr pr in
  (sound_of g rl pl <= vl /\ godunov1 g l r = Ok (eflux g rl vl pl))
  \/ (vr <= - sound_of g rr pr /\ godunov1 g l r = Ok (eflux g rr vr pr))
  \/ (exists k f, (k <= 100)%nat /\ godunov1 g l r = Ok f /\
        let p1 := iterate (gstep g rl vl pl rr vr pr) k (gguess g rl vl pl rr vr pr) in
        Rabs (gstep g rl vl pl rr vr pr p1 - p1) < / 1000000 /\ gtail g rl vl pl rr vr pr (gstep g rl vl pl rr vr pr p1) = Ok f)
  \/ godunov1 g l r = Raise (SysExit "Godunov fixed-point iteration did not converge. Exiting.").
Proof.
  intros g Hg rl vl pl rr vr pr Hrl Hpl Hrr Hpr. cbv zeta. rewrite (godunov_prim g Hg) by assumption.
  destruct (Rle_dec (sound_of g rl pl) vl) as [K1|K1]; [left; split; [assumption|reflexivity]|].
  destruct (Rle_dec vr (- sound_of g rr pr)) as [K2|K2]; [right; left; split; [assumption|reflexivity]|]. right. right.
  destruct (iter_outcome (gstep g rl vl pl rr vr pr) 101 (gguess g rl vl pl rr vr pr)) as [[k [p1 [p2 [H1 [H2 [H3 [H4 H5]]]]]]]|E].
  - left. destruct (gtail_total g rl vl pl rr vr pr p2 ltac:(lra) ltac:(lra)) as [f Hf]. exists k, f. split; [lia|]. rewrite H2. cbn [rbind snd].
    split; [exact Hf|]. rewrite <- H3, <- H4. split; assumption.
  - right. rewrite E. reflexivity.
Qed.

(** binary64: densities 1 and 2, momenta -7 and 8, energies 25 and 26 (two rarefactions, almost a
    vacuum) end in UnboundLocalError for every pow that rounds five values correctly and returns NaN
    for negative bases *)
Theorem C34_float_refuted : forall (L : Libm spec_float), pow_facts L ->
  godunov1 (lit 7 5) (nofZ 1, nofZ (-7), nofZ 25) (nofZ 2, nofZ 8, nofZ 26) = Raise UnboundLocalError.
Proof. exact w_unbound. Qed.
Example C34_float_states_admissible : admissible (7/5) (1, -7, 25) /\ admissible (7/5) (2, 8, 26).
Proof. split; apply admissible_iff; lra. Qed.
Example pow_facts_satisfiable : exists L, pow_facts L.
Proof.
  exists {| npow := fun x y => match x with
     | S754_finite true _ _ => S754_nan
     | _ => if SFeqb x (fl false 7205759403792792 (-55)) then fl false 5667775405156691 (-52)
            else if SFeqb x (fl false 9007199254740990 (-51)) then fl false 7388924007269683 (-53)
            else if SFeqb x (fl false 5588253809141436 (-62)) then fl false 5099342954178371 (-120)
            else if SFeqb x (fl false 6374178692722965 (-118)) then fl false 7032811554724694 (-62)
            else if SFeqb x (fl false 5099342954178372 (-122)) then fl false 4584242177983083 (-62) else x end;
     nsin := fun x => x; ncos := fun x => x; ntanh := fun x => x; npi := nofZ 3 |}.
  unfold pow_facts. cbn [npow]. repeat (apply conj; [vm_compute; reflexivity|]). intros m e. reflexivity.
Qed.

(** C35: single left-facing shock (S its speed).  The interface is covered by the left state iff
    0 <= S.  Missing: the iteration is only shown to have the right fixed point, and a shock moving
    left into supersonic flow gets the wrong side. *)
Theorem C35_left_shock_partial : forall g, 1 < g -> forall rl vl pl rr vr pr S, 0 < rl -> 0 < pl -> 0 < rr -> 0 < pr ->
  left_shock g rl vl pl rr vr pr S -> pl < pr ->
  (0 <= S -> godunov1 g (cons g rl vl pl) (cons g rr vr pr) = Ok (eflux g rl vl pl)) /\
  (vl < sound_of g rl pl -> vr <= - sound_of g rr pr -> godunov1 g (cons g rl vl pl) (cons g rr vr pr) = Ok (eflux g rr vr pr)) /\
  (vl < sound_of g rl pl -> - sound_of g rr pr < vr ->
     gstep g rl vl pl rr vr pr pr = pr /\ gtail g rl vl pl rr vr pr pr = Ok (eflux g rr vr pr)) /\
  (sound_of g rl pl <= vl -> godunov1 g (cons g rl vl pl) (cons g rr vr pr) = Ok (eflux g rl vl pl)).
Proof. exact left_shock_flux. Qed.
Theorem C35_right_shock_partial : forall g, 1 < g -> forall rl vl pl rr vr pr S, 0 < rl -> 0 < pl -> 0 < rr -> 0 < pr ->
  left_shock g rr (- vr) pr rl (- vl) pl S -> pr < pl ->
  (0 <= S -> godunov1 g (cons g rl vl pl) (cons g rr vr pr) = Ok (eflux g rr vr pr)) /\
  (- sound_of g rr pr < vr -> sound_of g rl pl <= vl -> godunov1 g (cons g rl vl pl) (cons g rr vr pr) = Ok (eflux g rl vl pl)) /\
  (- sound_of g rr pr < vr -> vl < sound_of g rl pl ->
     gstep g rl vl pl rr vr pr pl = pl /\ gtail g rl vl pl rr vr pr pl = Ok (eflux g rl vl pl)) /\
  (vr <= - sound_of g rr pr -> vl < sound_of g rl pl -> godunov1 g (cons g rl vl pl) (cons g rr vr pr) = Ok (eflux g rr vr pr)).
Proof. exact right_shock_flux. Qed.

(** the shocks of the examples: gamma 1.4, density 1.4, pressure 1 (sound speed 1), pressure ratio 4.5, mass flux 2.8 *)
Lemma shock_45 v : left_shock (7/5) (7/5) v 1 (56/15) (v - 5/4) (9/2) (v - 2).
Proof.
  split; [lra|]. rewrite sound_one. split.
  - unfold rankine_hugoniot, st_minus, st_scale, eflux, cons, energy. st3; field.
  - split; [lra|]. assert (sound_of (7 / 5) (56 / 15) (9 / 2) >= 3/4); [|lra].
    unfold sound_of. apply Rle_ge. rewrite <- (sqrt_square (3/4)) by lra. apply sqrt_le_1; lra.
Qed.
Theorem C35_refuted : exists g rl vl pl rr vr pr S, 1 < g /\ 0 < rl /\ 0 < pl /\ 0 < rr /\ 0 < pr /\
  left_shock g rl vl pl rr vr pr S /\ S < 0 /\
  exists f, godunov1 g (cons g rl vl pl) (cons g rr vr pr) = Ok f /\ f <> eflux g rr vr pr.
Proof.
  exists (7/5), (7/5), 1, 1, (56/15), (1 - 5/4), (9/2), (1 - 2). repeat (split; [lra|]). split; [apply (shock_45 1)|]. split; [lra|].
  exists (eflux (7/5) (7/5) 1 1). apply (supersonic_shock_wrong (7/5) ltac:(lra) (7/5) 1 1 (56/15) (1 - 5/4) (9/2) (1 - 2)); try lra; [apply (shock_45 1)|rewrite sound_one; lra].
Qed.
Lemma sound_post : 1299 / 1000 <= sound_of (7 / 5) (56 / 15) (9 / 2) <= 13 / 10.
Proof.
  unfold sound_of. split.
  - rewrite <- (sqrt_square (1299/1000)) by lra. apply sqrt_le_1; lra.
  - rewrite <- (sqrt_square (13/10)) by lra. apply sqrt_le_1; lra.
Qed.
(** the subsonic case of C35 and a fixed point for C33: the shock above in gas at rest *)
Example C33_C35_witness :
  let g := 7/5 in let rl := 7/5 in let pl := 1 in let rr := 56/15 in let vr := -5/4 in let pr := 9/2 in
  left_shock g rl 0 pl rr vr pr (-2) /\ 0 < sound_of g rl pl /\ - sound_of g rr pr < vr /\
  gstep g rl 0 pl rr vr pr pr = pr /\ off_band pr pl /\ off_band pr pr /\ gtail g rl 0 pl rr vr pr pr = Ok (eflux g rr vr pr).
Proof.
  cbv zeta. assert (SH : left_shock (7/5) (7/5) 0 1 (56/15) (-5/4) (9/2) (-2)).
  { pose proof (shock_45 0) as K. replace (0 - 5/4) with (-5/4) in K by field. replace (0 - 2) with (-2) in K by ring. exact K. }
  pose proof sound_post as SP.
  destruct (left_shock_flux (7/5) ltac:(lra) (7/5) 0 1 (56/15) (-5/4) (9/2) (-2) ltac:(lra) ltac:(lra) ltac:(lra) ltac:(lra) SH ltac:(lra)) as [_ [_ [F _]]].
  rewrite sound_one in *. destruct (F ltac:(lra) ltac:(lra)) as [F1 F2].
  split; [exact SH|]. split; [lra|]. split; [lra|]. split; [exact F1|]. split; [left; lra|]. split; [left; lra|exact F2].
Qed.
(** C27 is false for Godunov when both sides are supersonic towards the interface *)
Theorem C27_godunov_refuted : exists g rl vl pl rr vr pr, 1 < g /\ 0 < rl /\ 0 < pl /\ 0 < rr /\ 0 < pr /\
  let l := cons g rl vl pl in let r := cons g rr vr pr in
  godunov1 g (mirror r) (mirror l) <> rbind (godunov1 g l r) (fun f => Ok (mirror_flux f)).
Proof.
  exists (7/5), (7/5), 2, 1, (7/5), (-3), 1. repeat (split; [lra|]). cbv zeta. rewrite !mirror_cons by lra. rewrite !godunov_prim by lra.
  rewrite sound_one. destruct (Rle_dec 1 (- -3)); [|lra]. destruct (Rle_dec 1 2); [|lra]. cbn [rbind].
  unfold eflux, mirror_flux, energy. intro E. injection E as E _ _. lra.
Qed.

Print Assumptions C26_arrays.
Print Assumptions C27_rusanov_roe.
Print Assumptions C27_godunov_partial.
Print Assumptions C28_contacts.
Print Assumptions C29_linearisation.
Print Assumptions C30_entropy_fix.
Print Assumptions C31_max_wave_speed.
Print Assumptions C33_exact_flux.
Print Assumptions C33_two_rarefactions.
Print Assumptions C34_outcomes_partial.
Print Assumptions C34_float_refuted.
Print Assumptions C35_refuted.
Print Assumptions C26_consistent.
Print Assumptions C27_godunov_refuted.
Print Assumptions C29_averages.
Print Assumptions C29_upwind_right.
Print Assumptions C29_upwind_left.
Print Assumptions C31_advection.
Print Assumptions C32_rusanov.
Print Assumptions C32_interfaces.
Print Assumptions C33_shock_side.
Print Assumptions C33_rarefaction_side.
Print Assumptions C33_weak_rarefaction_side.
Print Assumptions C33_curves_meet.
Print Assumptions C33_sonic_state.
Print Assumptions C35_left_shock_partial.
Print Assumptions C35_right_shock_partial.
