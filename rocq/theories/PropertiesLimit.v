(** Properties C13 (with limiter), C36-C44, C52, C54: sensors and limiting.
    [gauss_ok] and [inv_ok] are the contracts of numpy's leggauss and inv; ExtReal meets them. *)
From Coq Require Import ZArith List Bool Arith String Reals Lra Lia.
From Coq Require Import Floats.SpecFloat.
From Verif Require Import Num Py PyStr Lib RealLib Constants LegNumpy Ext Basis Sensor Enhance Limiting AdvectionPhysics EulerPhysics Solution Solver
  RKCoeffs RK SpecTime ProofsTime SpecDG SpecPoly ProofsDG ProofsWf ProofsCons ProofsSol ProofsRun ProofsLeg SpecLimit ProofsLim ProofsAHR SpecEuler
  ProofsRiemann ProofsLimRun ProofsLimShift ProofsStageLimit ProofsSensor ExtReal Witness.
Import ListNotations.
Open Scope list_scope.
Open Scope R_scope.

(** C37 *)
Theorem C37_minmod : forall a b : R, scalar_minmod a b = minmod a b.
Proof. exact scalar_minmod_ok. Qed.
Theorem C37_laws : forall a b k : R,
  minmod a b = minmod b a /\ minmod (k * a) (k * b) = k * minmod a b /\ minmod (- a) (- b) = - minmod a b /\
  Rabs (minmod a b) <= Rabs a /\ Rabs (minmod a b) <= Rabs b /\ 0 <= minmod a b * a /\ 0 <= minmod a b * b /\
  (a * b <= 0 -> minmod a b = 0).
Proof.
  intros a b k. split; [apply minmod_sym|]. split; [apply minmod_scale|]. split.
  { pose proof (minmod_scale (-1) a b) as H. replace (- a) with (-1 * a) by ring. replace (- b) with (-1 * b) by ring. rewrite H. ring. }
  pose proof (minmod_bound a b). split; [tauto|]. split; [tauto|]. split; [tauto|]. split; [tauto|].
  intro H1. unfold minmod. destruct (Rle_dec (a * b) 0); [reflexivity|contradiction].
Qed.

(** C36: [average c v] says that v is the mean of the polynomial with Legendre coefficients c *)
Theorem C36_cell : forall (X : Ext R), gauss_ok -> inv_ok -> forall p h uc ul ur v,
  hr_init (Basis p) = Ok h -> List.length uc = (p + 1)%nat -> List.length ul = (p + 1)%nat -> List.length ur = (p + 1)%nat ->
  hr h uc ul ur = Ok v -> List.length v = (p + 1)%nat /\ forall m, average v m <-> average uc m.
Proof.
  intros X G I p h uc ul ur v Hh Lc Ll Lr H. pose proof (hr_init_maps G I p h Hh) as M.
  destruct (hr_mean p h uc ul ur v M Lc Ll Lr H) as [Lv E]. split; [exact Lv|]. intro m.
  rewrite !average_mode. rewrite E. tauto.
Qed.
Theorem C36_limit : forall (X : Ext R), gauss_ok -> inv_ok -> forall gamma ne (s s' : solution R) l t,
  made ne s -> Limiter t s = Ok l -> limit gamma l s = Ok s' ->
  forall e f, (1 <= e <= ne)%nat -> (f < s_NF s)%nat -> forall m, average (modes s' e f) m <-> average (modes s e f) m.
Proof.
  intros X G I gamma ne s s' l t M HL H e f He Hf m. rewrite !average_mode.
  pose proof (any_limiter_keeps G I gamma ne s t l M HL s s' (md_wf _ _ M) (similar_refl s) H e f He Hf) as E.
  unfold at1 in E. numR. rewrite E. tauto.
Qed.
(** C13: periodic limited runs conserve *)
Theorem C13_limited_run : forall (X : Ext R), gauss_ok -> inv_ok -> forall gamma ne (sol0 : solution R) d l t,
  made ne sol0 -> wf_dg ne sol0 d -> s_bcl sol0 = pylit "periodic" -> s_bcr sol0 = pylit "periodic" -> Limiter t sol0 = Ok l ->
  forall rk cfl tf nout fuel evs out f, (f < s_NF sol0)%nat ->
  integrate gamma rk d l cfl tf nout fuel sol0 = (evs, out) ->
  (forall ev, In ev evs -> total ne (ev_sol ev) f = total ne sol0 f) /\
  (forall s', out = Finished s' -> total ne s' f = total ne sol0 f).
Proof.
  intros X G I gamma ne sol0 d l t M D Bl Br HL. apply (@run_conserves X); try assumption. apply (any_limiter_keeps G I gamma ne sol0 t l M HL).
Qed.

(** C38 *)
Theorem C38_cell : forall (X : Ext R), gauss_ok -> inv_ok -> forall p h uc ul ur,
  hr_init (Basis p) = Ok h -> (1 <= p)%nat -> List.length uc = (p + 1)%nat -> List.length ul = (p + 1)%nat -> List.length ur = (p + 1)%nat ->
  one_polynomial ul uc ur -> hr h uc ul ur = Ok uc.
Proof. intros X G I p h uc ul ur Hh. apply hr_identity. apply (hr_init_maps G I p h Hh). Qed.
Theorem C38_limit : forall (X : Ext R), gauss_ok -> inv_ok -> forall gamma ne (s s' : solution R) h,
  made ne s -> Limiter "adaptive_hr" s = Ok (Some h) -> (1 <= b_p (s_basis s))%nat -> limit gamma (Some h) s = Ok s' ->
  forall e f, (1 <= e <= ne)%nat -> (f < s_NF s)%nat -> one_polynomial (modes s (e - 1) f) (modes s e f) (modes s (e + 1) f) ->
  modes s' e f = modes s e f.
Proof.
  intros X G I gamma ne s s' h M HL Hp H e f. apply (limit_identity gamma ne s h s'); try assumption; [apply (md_wf _ _ M)|].
  apply (Limiter_maps G I ne); assumption.
Qed.
(** three cells carrying x^2 (in the middle cell's coordinate) *)
Example C38_witness : one_polynomial [13 / 3; -4; 2 / 3] [1 / 3; 0; 2 / 3] [13 / 3; 4; 2 / 3].
Proof.
  intro x. unfold legseries. cbn [List.length Rsum nth]. rewrite !LegP_SS, !LegP_1, !LegP_0. cbn [INR]. split; field.
Qed.

(** C39 *)
Theorem C39_no_new_extrema : forall (X : Ext R), gauss_ok -> inv_ok -> forall gamma ne (s s' : solution R) h,
  made ne s -> Limiter "adaptive_hr" s = Ok (Some h) -> b_p (s_basis s) = 1%nat -> limit gamma (Some h) s = Ok s' ->
  forall e f, (1 <= e <= ne)%nat -> (f < s_NF s)%nat ->
  let l := cell_mean s (e - 1) f in let a := cell_mean s e f in let r := cell_mean s (e + 1) f in
  modes s' e f = modes s e f \/
  (forall x, -1 <= x <= 1 -> Rmin l (Rmin a r) <= legseries (modes s' e f) x <= Rmax l (Rmax a r) /\
     ((l <= a /\ r <= a) \/ (a <= l /\ a <= r) -> legseries (modes s' e f) x = a)).
Proof.
  intros X G I gamma ne s s' h M HL Hp H e f He Hf l a r. pose proof (Limiter_maps G I ne s h M HL) as Mo. rewrite Hp in Mo.
  destruct (limit_p1 gamma ne s h s' e f (md_wf _ _ M) Mo Hp H He Hf) as [E|E]; [left; exact E|right].
  cbv zeta in E. fold l a r in E. intros x Hx. rewrite E. apply p1_bounds. exact Hx.
Qed.
(** the cell-wise form: the linear polynomial returned for one cell *)
Theorem C39_cell : forall (X : Ext R), gauss_ok -> inv_ok -> forall h uc ul ur v,
  hr_init (Basis 1) = Ok h -> List.length uc = 2%nat -> List.length ul = 2%nat -> List.length ur = 2%nat -> hr h uc ul ur = Ok v ->
  let l := nth 0 ul 0 in let a := nth 0 uc 0 in let r := nth 0 ur 0 in
  v = [a; minmod ((a - l) / 2) ((r - a) / 2)] /\
  forall x, -1 <= x <= 1 -> Rmin l (Rmin a r) <= legseries v x <= Rmax l (Rmax a r) /\
     ((l <= a /\ r <= a) \/ (a <= l /\ a <= r) -> legseries v x = a).
Proof.
  intros X G I h uc ul ur v Hh Lc Ll Lr H l a r. pose proof (hr_init_maps G I 1 h Hh) as M.
  pose proof (hr_p1 h uc ul ur v M Lc Ll Lr H) as E. cbv zeta in E. unfold at1 in E. change (IZR 0) with 0 in E. fold l a r in E.
  split; [exact E|]. intros x Hx. rewrite E. apply p1_bounds. exact Hx.
Qed.

(** C40: any arithmetic.  V e f is the limited cell: computed from the unlimited neighbours when the
    cell is an interior one with its sensor set, unchanged otherwise; then ghosts are refreshed. *)
Theorem C40_flagged_cells_only : forall (A : Type) (N : Num A) (L : Libm A) (gamma : A) ne h (s s' : solution A),
  wf ne s -> List.length (h_M2L h) = s_Ns s -> limit gamma (Some h) s = Ok s' ->
  exists sn sn' V, s_sens s = Some sn /\ sensing gamma (s_euler s) sn (s_u s) (s_NF s) = Ok sn' /\
    s_sens s' = Some sn' /\ similar s s' /\ s_t s' = s_t s /\ s_n s' = s_n s /\ wf ne s' /\
    (forall e f, (e < ne + 2)%nat -> (f < s_NF s)%nat ->
       (limited ne (sn_sensors sn') e = true -> hr h (modes s e f) (modes s (e - 1) f) (modes s (e + 1) f) = Ok (V e f)) /\
       (limited ne (sn_sensors sn') e = false -> V e f = modes s e f)) /\
    forall e f, (e < ne + 2)%nat -> (f < s_NF s)%nat -> modes s' e f = V (src_cell (s_bcl s) (s_bcr s) ne e) f.
Proof. intros A N L gamma ne h s s' W Lh H. exact (adaptive_hr_spec gamma ne h s s' W Lh H). Qed.

(** C41: orders >= 1 *)
Theorem C41_limit_partial : forall (X : Ext R), gauss_ok -> inv_ok -> forall gamma ne (s : solution R) h th,
  made ne s -> Limiter "adaptive_hr" s = Ok (Some h) -> thresholds s = Some th -> (needed s <= List.length th)%nat ->
  (1 <= b_p (s_basis s))%nat -> exists s', limit gamma (Some h) s = Ok s'.
Proof.
  intros X G I gamma ne s h th M HL Ht Hn Hp. apply (limit_total gamma ne s h th (md_wf _ _ M)); try assumption. apply (Limiter_maps G I ne); assumption.
Qed.
Theorem C41_limiter_exists : forall (X : Ext R), gauss_ok -> inv_ok -> forall ne (s : solution R),
  made ne s -> exists h, Limiter "adaptive_hr" s = Ok (Some h).
Proof. intros X G I ne s M. destruct (Limiter_ok G I ne s M) as [h [E _]]. eauto. Qed.
(** limited runs fail at the time-step check only, and limited advection runs complete *)
Theorem C41_runs_partial : forall (X : Ext R), gauss_ok -> inv_ok -> forall gamma ne (sol0 : solution R) d l th,
  made ne sol0 -> wf_dg ne sol0 d -> Limiter "adaptive_hr" sol0 = Ok l -> thresholds sol0 = Some th -> (needed sol0 <= List.length th)%nat ->
  (1 <= b_p (s_basis sol0))%nat -> s_riemann sol0 <> RGodunov ->
  forall rk cfl tf nout fuel evs e, (2 <= nout)%Z -> s_t sol0 <= tf ->
  integrate gamma rk d l cfl tf nout fuel sol0 = (evs, Failed e) ->
  exists k tout touts s sc, visits gamma rk d l cfl tf nout sol0 k tout touts s sc evs /\ get_next_time_step gamma s tout cfl tf = Raise e.
Proof.
  intros X G I gamma ne sol0 d l th M D HL Ht Hn Hp HR rk cfl tf nout fuel evs e Ho Htf H.
  apply (only_dt_fails_limited gamma ne sol0 d l rk cfl tf nout fuel evs e); try assumption; [|apply (md_wf _ _ M)].
  apply (limited_run_total G I gamma ne sol0 l th); assumption.
Qed.
Theorem C41_advection_runs_partial : forall (X : Ext R), gauss_ok -> inv_ok -> forall gamma ne (sol0 : solution R) d l th,
  made ne sol0 -> wf_dg ne sol0 d -> Limiter "adaptive_hr" sol0 = Ok l -> thresholds sol0 = Some th -> (1 <= List.length th)%nat ->
  (1 <= b_p (s_basis sol0))%nat -> s_euler sol0 = false ->
  forall rk cfl tf nout, (2 <= nout)%Z -> s_t sol0 <= tf -> 1 / 100000000000000 <= s_dx sol0 * cfl / INR (2 * b_p (s_basis sol0) + 1) ->
  exists F evs s, s_t s = tf /\ forall fuel, (F <= fuel)%nat -> integrate gamma rk d l cfl tf nout fuel sol0 = (evs, Finished s).
Proof.
  intros X G I gamma ne sol0 d l th M D HL Ht Hn Hp HE rk cfl tf nout Ho Htf Hc.
  apply (advection_completes_limited gamma ne sol0 d l rk cfl tf nout); try assumption; [|apply (md_wf _ _ M)].
  apply (limited_run_total G I gamma ne sol0 l th); try assumption. unfold needed. rewrite HE. exact Hn.
Qed.
(** order 0: the first flagged cell raises UnboundLocalError *)
Theorem C41_order0_fails : forall (X : Ext R), gauss_ok -> inv_ok -> forall gamma ne (s : solution R) h sn sn',
  made ne s -> Limiter "adaptive_hr" s = Ok (Some h) -> b_p (s_basis s) = 0%nat ->
  s_sens s = Some sn -> (needed s <= List.length (sn_thresholds sn))%nat -> sensing gamma (s_euler s) sn (s_u s) (s_NF s) = Ok sn' ->
  (exists e, (1 <= e <= ne)%nat /\ nth e (sn_sensors sn') 0%Z <> 0%Z) -> limit gamma (Some h) s = Raise UnboundLocalError.
Proof.
  intros X G I gamma ne s h sn sn' M HL Hp Es Hn E Hf.
  apply (limit_order0 gamma ne s h (sn_thresholds sn) (md_wf _ _ M)) with (sn := sn) (sn' := sn'); try assumption.
  - apply (Limiter_maps G I ne); assumption.
  - unfold thresholds. rewrite Es. reflexivity.
Qed.
Theorem C41_refuted : exists s, wf 3 s /\ b_p (s_basis s) = 0%nat /\
  exists h, @Limiter _ _ Ext1 "adaptive_hr" s = Ok (Some h) /\ limit n0 (Some h) s = Raise UnboundLocalError.
Proof. exists flat3. split; [exact flat3_wf|]. split; [reflexivity|]. exact order0_fails. Qed.
(** limited runs of every order >= 1 and every RK option complete *)
Example C41_witness : forall p rk, (1 <= p)%nat -> exists s d h F evs s',
  @Solution R NumR LibmR ExtReal "sinewave 8" "advection" p "" "" [1 / 10] = Ok (s, gamma_default) /\ DG s = Ok d /\
  @Limiter R NumR ExtReal "adaptive_hr" s = Ok (Some h) /\ s_t s' = 10 /\
  forall fuel, (F <= fuel)%nat -> integrate gamma_default rk d (Some h) (4 * INR (2 * p + 1)) 10 3 fuel s = (evs, Finished s').
Proof.
  intros p rk Hp. destruct (sine_built p) as [s [d [B [Hd [D [_ [_ Ex]]]]]]].
  destruct (built_sens _ _ _ _ _ _ _ (1 / 10) [] B) as [E M]. set (s0 := with_sens s _) in *.
  destruct (C41_limiter_exists ExtReal ExtReal_gauss ExtReal_inv 8 s0 M) as [h Hh].
  assert (Hd' : DG s0 = Ok d) by exact Hd.
  destruct (C41_advection_runs_partial ExtReal ExtReal_gauss ExtReal_inv gamma_default 8 s0 d (Some h) [1 / 10] M D Hh eq_refl) with (rk := rk) (cfl := 4 * INR (2 * p + 1)) (tf := 10) (nout := 3%Z) as [F [evs [s' [Et H]]]].
  - cbn. lia.
  - change (1 <= b_p (s_basis s))%nat. rewrite (bl_p _ _ _ _ _ _ _ B). exact Hp.
  - exact (bl_euler _ _ _ _ _ _ _ B).
  - lia.
  - change (s_t s0) with (s_t s). rewrite (bl_t _ _ _ _ _ _ _ B). lra.
  - change (s_dx s0) with (s_dx s). change (s_basis s0) with (s_basis s). rewrite (bl_p _ _ _ _ _ _ _ B), Ex.
    replace (1 / 4 * (4 * INR (2 * p + 1)) / INR (2 * p + 1)) with 1 by (field; apply not_0_INR; lia). lra.
  - exists s0, d, h, F, evs, s'. auto.
Qed.

(** C42: any arithmetic *)
Theorem C42_euler : forall (A : Type) (N : Num A) (gamma : A) ne (s : solution A) sn,
  wf ne s -> s_euler s = true -> s_sens s = Some sn ->
  sensing gamma true sn (s_u s) (s_NF s) =
    match nth_error (sn_thresholds sn) 0, nth_error (sn_thresholds sn) 1 with
    | Some t0, Some t1 => Ok {| sn_thresholds := sn_thresholds sn;
         sn_sensors := tab (ne + 2) (fun e => if near ne (shock_at gamma s t1) e then 2
                                              else if near ne (contact_at gamma s t0) e then 1 else 0)%Z |}
    | _, _ => Raise IndexError end.
Proof. exact @sensing_euler. Qed.
Theorem C42_advection : forall (A : Type) (N : Num A) (gamma : A) ne (s : solution A) sn,
  wf ne s -> s_euler s = false -> s_sens s = Some sn ->
  sensing gamma false sn (s_u s) (s_NF s) =
    match nth_error (sn_thresholds sn) 0 with
    | Some t0 => Ok {| sn_thresholds := sn_thresholds sn;
         sn_sensors := tab (ne + 2) (fun e => if near ne (jump_at s t0) e then 1 else 0)%Z |}
    | None => Raise IndexError end.
Proof. exact @sensing_adv. Qed.
(** the quantities the thresholds are compared with, in physical variables *)
Theorem C42_jump_value : forall a b : R, adv_sensor_value a b = bump (Rabs (b - a)).
Proof. intros. unfold adv_sensor_value. rewrite sensor_fn_R. reflexivity. Qed.
Theorem C42_euler_values : forall g, 1 < g -> forall rl vl pl rr vr pr, 0 < rl -> 0 < pl -> 0 < rr -> 0 < pr ->
  let v := roe_v rl vl rr vr in let a := roe_a g rl vl pl rr vr pr in
  contact_value g (cons g rl vl pl) (cons g rr vr pr) = bump (Rabs (rr - rl - (pr - pl) / (a * a)) / (rl + rr)) /\
  shock_value g (cons g rl vl pl) (cons g rr vr pr) = bump (Rabs (pr - pl) / (pl + pr)) /\
  (shock_compressive g (cons g rl vl pl) (cons g rr vr pr) = true <-> vr - sound_of g rr pr < v - a < vl - sound_of g rl pl).
Proof.
  intros g Hg rl vl pl rr vr pr Hrl Hpl Hrr Hpr v a. split; [apply contact_value_prim; assumption|].
  split; [apply shock_value_prim; assumption|apply shock_compressive_prim; assumption].
Qed.

(** C43 *)
Theorem C43_bounds : forall x, 0 <= x -> 0 <= bump x <= 1 / 2 /\ (bump x = 0 <-> x = 0) /\ (bump x = 1 / 2 <-> x = 1).
Proof. intros x Hx. pose proof (sensor_bounds x Hx) as H. rewrite sensor_fn_R in H. exact H. Qed.
Theorem C43_euler_bounds : forall g, 1 < g -> forall sl sr, admissible g sl -> admissible g sr ->
  0 <= contact_value g sl sr <= 1 / 2 /\ 0 <= shock_value g sl sr <= 1 / 2 /\ (shock_value g sl sr = 0 <-> pres g sl = pres g sr) /\
  contact_value g sl sl = 0.
Proof.
  intros g Hg sl sr Hl Hr. split; [apply contact_bounds; assumption|]. split; [apply shock_bounds; assumption|].
  split; [apply shock_bounds; assumption|apply contact_same].
Qed.
(** thresholds >= 1/2 flag nothing *)
Theorem C43_large_thresholds : forall gamma, 1 < gamma -> forall ne (s : solution R),
  wf ne s -> quiet s (fun t => 1 / 2 <= t) -> (s_euler s = true -> forall e, (e < ne + 2)%nat -> admissible gamma (state3 s e)) ->
  exists sn sn', s_sens s = Some sn /\ sensing gamma (s_euler s) sn (s_u s) (s_NF s) = Ok sn' /\ sn_sensors sn' = tab (ne + 2) (fun _ => 0%Z).
Proof. exact sensing_half. Qed.
(** uniform averages are not flagged *)
Theorem C43_uniform : forall gamma ne (s : solution R),
  wf ne s -> quiet s (fun t => 0 <= t) ->
  (forall e f, (e < ne + 2)%nat -> (f < s_NF s)%nat -> cell_mean s e f = cell_mean s 0 f) ->
  exists sn sn', s_sens s = Some sn /\ sensing gamma (s_euler s) sn (s_u s) (s_NF s) = Ok sn' /\ sn_sensors sn' = tab (ne + 2) (fun _ => 0%Z).
Proof. exact sensing_uniform. Qed.
(** .. and then limit only refreshes the ghost cells *)
Theorem C43_unflagged_limit : forall (X : Ext R), gauss_ok -> inv_ok -> forall gamma ne (s : solution R) h sn sn',
  made ne s -> Limiter "adaptive_hr" s = Ok (Some h) -> s_sens s = Some sn ->
  sensing gamma (s_euler s) sn (s_u s) (s_NF s) = Ok sn' -> sn_sensors sn' = tab (ne + 2) (fun _ => 0%Z) ->
  exists s', limit gamma (Some h) s = Ok s' /\ similar s s' /\ s_t s' = s_t s /\ s_n s' = s_n s /\
    forall e f, (e < ne + 2)%nat -> (f < s_NF s)%nat -> modes s' e f = modes s (src_cell (s_bcl s) (s_bcr s) ne e) f.
Proof.
  intros X G I gamma ne s h sn sn' M HL Es E Ez. apply (limit_unflagged gamma ne s h sn sn' (md_wf _ _ M)); try assumption.
  apply (Limiter_maps G I ne); assumption.
Qed.

(** C44: one call of limit() on a periodic solution whose ghost cells are up to date (the initial condition, the end of every step) treats
    all cells alike, in any arithmetic; flags move with the cells.  Missing: the calls inside RK stages, where it is false (C44_refuted) *)
Theorem C44_limit_partial : forall (A : Type) (N : Num A) (L : Libm A) (gamma : A) ne k h (s s' s1 : solution A),
  shift_of ne k s s' -> s_bcl s = pylit "periodic" -> s_bcr s = pylit "periodic" -> apply_bc s = Ok s -> apply_bc s' = Ok s' ->
  List.length (h_M2L h) = s_Ns s -> limit gamma (Some h) s = Ok s1 ->
  exists s1', limit gamma (Some h) s' = Ok s1' /\ shift_of ne k s1 s1' /\
    exists sn sn', s_sens s1 = Some sn /\ s_sens s1' = Some sn' /\
      forall e, (1 <= e <= ne)%nat -> nth e (sn_sensors sn') 0%Z = nth (shift_cell ne k e) (sn_sensors sn) 0%Z.
Proof. intros A N L gamma ne k h s s' s1 H1 H2 H3 H4 H5. exact (limit_shift gamma ne k s s' H1 H2 H3 H4 H5 h s1). Qed.
Example C44_limit_witness : exists (s s' s1 : solution sf) h,
  shift_of 3 2 s s' /\ s_bcl s = pylit "periodic" /\ s_bcr s = pylit "periodic" /\ apply_bc s = Ok s /\ apply_bc s' = Ok s' /\
  @Limiter _ _ ExtSF "adaptive_hr" s = Ok (Some h) /\ List.length (h_M2L h) = s_Ns s /\ limit (n0 : sf) (Some h) s = Ok s1 /\ s_u s <> s_u s1.
Proof.
  destruct (limit (n0 : sf) (Some h3) (sloped 1 0 0)) as [s1|e] eqn:E; [|vm_compute in E; discriminate].
  exists (sloped 1 0 0), (sloped 0 1 0), s1, h3. split; [apply sloped_shift|]. split; [reflexivity|]. split; [reflexivity|].
  split; [vm_compute; reflexivity|]. split; [vm_compute; reflexivity|]. split; [vm_compute; reflexivity|]. split; [vm_compute; reflexivity|]. split; [exact E|].
  vm_compute in E. injection E as <-. vm_compute. discriminate.
Qed.
(** C44 is false: a limited periodic three-cell run (binary64) does not commute with cyclic shifts *)
Theorem C44_refuted : exists k (s s' : solution sf) d l s1 s1',
  shift_of 3 k s s' /\ DG s = Ok d /\ s_bcl s = pylit "periodic" /\ s_bcr s = pylit "periodic" /\
  apply_bc s = Ok s /\ apply_bc s' = Ok s' /\ @Limiter _ _ ExtSF "adaptive_hr" s = Ok l /\ @Limiter _ _ ExtSF "adaptive_hr" s' = Ok l /\
  snd (@integrate _ _ LibmSF n0 "rk3" d l (lit 3 5) (lit 1 10) 2 5 s) = Finished s1 /\
  snd (@integrate _ _ LibmSF n0 "rk3" d l (lit 3 5) (lit 1 10) 2 5 s') = Finished s1' /\
  ~ shift_of 3 k s1 s1'.
Proof. exact stage_limit_shift. Qed.

(** C52: any arithmetic *)
Theorem C52_no_thresholds : forall (A : Type) (N : Num A) (L : Libm A) (gamma : A) ne (sol0 : solution A) d h rk cfl tf nout fuel evs out,
  wf ne sol0 -> wf_dg ne sol0 d -> thresholds sol0 = None ->
  integrate gamma rk d (Some h) cfl tf nout fuel sol0 = (evs, out) ->
  (evs = [] \/ evs = [{| ev_nout := 0; ev_dt := n0; ev_sol := sol0 |}]) /\ forall s, out <> Finished s.
Proof.
  intros A N L gamma ne sol0 d h rk cfl tf nout fuel evs out W D Ht. apply (doomed_run gamma ne sol0 d (Some h) AttributeError W D).
  intros s [_ S]. apply no_thresholds_raise. rewrite (similar_thr _ _ S). exact Ht.
Qed.
Theorem C52_few_thresholds : forall (A : Type) (N : Num A) (L : Libm A) (gamma : A) ne (sol0 : solution A) d h th rk cfl tf nout fuel evs out,
  wf ne sol0 -> wf_dg ne sol0 d -> thresholds sol0 = Some th -> (List.length th < needed sol0)%nat ->
  integrate gamma rk d (Some h) cfl tf nout fuel sol0 = (evs, out) ->
  (evs = [] \/ evs = [{| ev_nout := 0; ev_dt := n0; ev_sol := sol0 |}]) /\ forall s, out <> Finished s.
Proof.
  intros A N L gamma ne sol0 d h th rk cfl tf nout fuel evs out W D Ht Hn. apply (doomed_run gamma ne sol0 d (Some h) IndexError W D).
  intros s [W' S]. apply (few_thresholds_raise gamma ne h s th W'); [rewrite (similar_thr _ _ S); exact Ht|]. unfold needed. rewrite (similar_euler _ _ S). exact Hn.
Qed.
(** with a first step that passes the time-step check: snapshot 0, then the exception *)
Theorem C52_exception : forall (A : Type) (N : Num A) (L : Libm A) (gamma : A) ne (sol0 : solution A) d h rk cfl tf nout fuel tout touts r x,
  wf ne sol0 -> wf_dg ne sol0 d ->
  (thresholds sol0 = None /\ x = AttributeError) \/ (exists th, thresholds sol0 = Some th /\ (List.length th < needed sol0)%nat /\ x = IndexError) ->
  s_riemann sol0 <> RGodunov -> (0 <= nout)%Z -> (1 <= fuel)%nat ->
  slice_from (linspace (s_t sol0) tf (Z.to_nat nout)) 1 = tout :: touts -> get_next_time_step gamma sol0 tout cfl tf = Ok r ->
  integrate gamma rk d (Some h) cfl tf nout fuel sol0 = ([{| ev_nout := 0; ev_dt := n0; ev_sol := sol0 |}], Failed x).
Proof.
  intros A N L gamma ne sol0 d h rk cfl tf nout fuel tout touts r x W D Hx HR Hn Hf Hl Hg.
  apply (doomed_run_exn gamma ne sol0 d (Some h) x W D) with (tout := tout) (touts := touts) (r := r); try assumption.
  intros s [W' S]. destruct Hx as [[Ht ->]|[th [Ht [Hk ->]]]].
  - apply no_thresholds_raise. rewrite (similar_thr _ _ S). exact Ht.
  - apply (few_thresholds_raise gamma ne h s th W'); [rewrite (similar_thr _ _ S); exact Ht|]. unfold needed. rewrite (similar_euler _ _ S). exact Hk.
Qed.
(** thresholds without limiter: the sensors keep their initial value in every snapshot *)
Theorem C52_sensors_unused : forall (A : Type) (N : Num A) (L : Libm A) (gamma : A) rk d cfl tf nout fuel (sol0 : solution A) evs out,
  integrate gamma rk d None cfl tf nout fuel sol0 = (evs, out) ->
  (forall ev, In ev evs -> s_sens (ev_sol ev) = s_sens sol0) /\ (forall s, out = Finished s -> s_sens s = s_sens sol0).
Proof. exact @sensors_unused. Qed.
(** .. which is all zeros for a constructed solution *)
Theorem C52_initial_sensors : forall (A : Type) (N : Num A) th n, @sn_sensors A (Sensor th n) = repeat 0%Z n.
Proof. intros A N th n. unfold Sensor. cbn. induction n as [|n IH]; [reflexivity|]. rewrite tab_S. cbn. f_equal. exact IH. Qed.

(** C54: the advection and contact sensors are invariant under reflection; so is the size of the
    shock sensor but not its compression test, which looks at the slow acoustic wave only *)
Theorem C54_reflection_partial : forall g, 1 < g -> forall sl sr, admissible g sl -> admissible g sr ->
  contact_value g (mirror sr) (mirror sl) = contact_value g sl sr /\ shock_value g (mirror sr) (mirror sl) = shock_value g sl sr.
Proof. intros g Hg sl sr Hl Hr. split; [apply contact_mirror; assumption|apply shock_mirror; assumption]. Qed.
Theorem C54_advection_reflection : forall a b : R, adv_sensor_value b a = adv_sensor_value a b.
Proof. intros. rewrite !C42_jump_value, Rabs_minus_sym. reflexivity. Qed.
Theorem C54_refuted : forall g, 1 < g -> exists sl sr, admissible g sl /\ admissible g sr /\
  1 / 3 < shock_value g sl sr /\ shock_compressive g sl sr = true /\ shock_compressive g (mirror sr) (mirror sl) = false.
Proof.
  intros g Hg. exists (cons g 1 0 1), (cons g 1 0 10). destruct (shock_not_mirror g Hg) as [H1 [H2 H3]].
  split; [exists 1, 0, 1; repeat split; lra|]. split; [exists 1, 0, 10; repeat split; lra|]. auto.
Qed.

(** an Euler solution with thresholds meets the hypotheses of C36-C43 and C52, at every order *)
Example C36_C43_euler_witness : forall p, (1 <= p)%nat -> exists s d h s',
  @Solution R NumR LibmR ExtReal "entrpyw 8" "euler" p "roe" "" [1 / 10; 1 / 10] = Ok (s, gamma_default) /\ DG s = Ok d /\
  @made ExtReal 8 s /\ wf_dg 8 s d /\ s_euler s = true /\ s_bcl s = pylit "periodic" /\ s_bcr s = pylit "periodic" /\
  @Limiter R NumR ExtReal "adaptive_hr" s = Ok (Some h) /\ quiet s (fun t => 0 <= t) /\ limit gamma_default (Some h) s = Ok s'.
Proof.
  intros p Hp. destruct (entropy_built p "roe") as [s [d [B [Hd [D [E1 [E2 _]]]]]]].
  destruct (built_sens _ _ _ _ _ _ _ (1 / 10) [1 / 10] B) as [E M]. set (s0 := with_sens s _) in *.
  destruct (C41_limiter_exists ExtReal ExtReal_gauss ExtReal_inv 8 s0 M) as [h Hh].
  assert (Eu : s_euler s0 = true) by exact (bl_euler _ _ _ _ _ _ _ B).
  destruct (C41_limit_partial ExtReal ExtReal_gauss ExtReal_inv gamma_default 8 s0 h [1 / 10; 1 / 10] M Hh eq_refl) as [s' H].
  - unfold needed. rewrite Eu. cbn. lia.
  - change (1 <= b_p (s_basis s))%nat. rewrite (bl_p _ _ _ _ _ _ _ B). exact Hp.
  - exists s0, d, h, s'. split; [exact E|]. split; [exact Hd|]. split; [exact M|]. split; [exact D|]. split; [exact Eu|].
    split; [exact E1|]. split; [exact E2|]. split; [exact Hh|]. split; [|exact H].
    eexists. split; [reflexivity|]. split; [unfold needed; rewrite Eu; cbn; lia|]. cbn [sn_thresholds Sensor]. repeat constructor; lra.
Qed.
(** C52: adaptive_hr on a solution built without thresholds *)
Example C52_witness : forall p rk, exists s d h,
  @Solution R NumR LibmR ExtReal "sinewave 8" "advection" p "" "" [] = Ok (s, gamma_default) /\ DG s = Ok d /\
  @Limiter R NumR ExtReal "adaptive_hr" s = Ok (Some h) /\ wf 8 s /\ wf_dg 8 s d /\ thresholds s = None /\
  integrate gamma_default rk d (Some h) (4 * INR (2 * p + 1)) 10 3 1 s = ([{| ev_nout := 0; ev_dt := n0; ev_sol := s |}], Failed AttributeError).
Proof.
  intros p rk. destruct (sine_built p) as [s [d [B [Hd [D [_ [_ Ex]]]]]]]. pose proof (bl_made _ _ _ _ _ _ _ B) as M. pose proof (md_wf _ _ M) as W.
  destruct (C41_limiter_exists ExtReal ExtReal_gauss ExtReal_inv 8 s M) as [h Hh].
  assert (Ht : thresholds s = None) by (unfold thresholds; rewrite (bl_sens _ _ _ _ _ _ _ B); reflexivity).
  assert (EA : s_euler s = false) by exact (bl_euler _ _ _ _ _ _ _ B).
  destruct (adv_next_step gamma_default s (nth 1 (linspace (s_t s) 10 3) 0) (4 * INR (2 * p + 1)) 10 EA) as [r Hr].
  { rewrite (bl_p _ _ _ _ _ _ _ B), Ex. assert (INR (2 * p + 1) <> 0) by (apply not_0_INR; lia).
    replace (1 / 4 * (4 * INR (2 * p + 1)) / INR (2 * p + 1)) with 1 by (field; assumption). unfold eps_dt. lra. }
  exists s, d, h. split; [exact (bl_sol _ _ _ _ _ _ _ B)|]. split; [exact Hd|]. split; [exact Hh|]. split; [exact W|]. split; [exact D|]. split; [exact Ht|].
  apply (C52_exception R NumR LibmR gamma_default 8) with (tout := nth 1 (linspace (s_t s) 10 3) 0) (touts := [nth 2 (linspace (s_t s) 10 3) 0]) (r := r); try assumption; try lia.
  - left. auto.
  - rewrite (bl_riemann _ _ _ _ _ _ _ B). discriminate.
  - reflexivity.
Qed.

Print Assumptions C37_minmod.
Print Assumptions C37_laws.
Print Assumptions C36_cell.
Print Assumptions C36_limit.
Print Assumptions C13_limited_run.
Print Assumptions C38_cell.
Print Assumptions C38_limit.
Print Assumptions C38_witness.
Print Assumptions C39_no_new_extrema.
Print Assumptions C39_cell.
Print Assumptions C40_flagged_cells_only.
Print Assumptions C41_limit_partial.
Print Assumptions C41_limiter_exists.
Print Assumptions C41_runs_partial.
Print Assumptions C41_advection_runs_partial.
Print Assumptions C41_order0_fails.
Print Assumptions C41_refuted.
Print Assumptions C41_witness.
Print Assumptions C42_euler.
Print Assumptions C42_advection.
Print Assumptions C42_jump_value.
Print Assumptions C42_euler_values.
Print Assumptions C43_bounds.
Print Assumptions C43_euler_bounds.
Print Assumptions C43_large_thresholds.
Print Assumptions C43_uniform.
Print Assumptions C43_unflagged_limit.
Print Assumptions C44_limit_partial.
Print Assumptions C44_limit_witness.
Print Assumptions C44_refuted.
Print Assumptions C52_no_thresholds.
Print Assumptions C52_few_thresholds.
Print Assumptions C52_exception.
Print Assumptions C52_sensors_unused.
Print Assumptions C52_initial_sensors.
Print Assumptions C54_reflection_partial.
Print Assumptions C54_advection_reflection.
Print Assumptions C54_refuted.
Print Assumptions C36_C43_euler_witness.
Print Assumptions C52_witness.
