(** Property C76: the clock of a run in double arithmetic (binary64, every operation correctly rounded). *)
From Coq Require Import ZArith List Bool Arith String Reals Lra Lia.
From Coq Require Import Floats.SpecFloat.
From Verif Require Import Num Py PyStr Lib LegNumpy Ext Basis Limiting Solution Solver RKCoeffs RK IO Deck Main SpecTime SpecDG
  FloatText SpecFloatText ProofsFloatText ProofsFloatAdd ProofsClock ProofsStageLimit.
Import ListNotations.
Open Scope list_scope.
Open Scope R_scope.

(** every completed run of every deck ends within one part in 2^52 of the requested final time *)
Theorem C76_final_time : forall (L : Libm spec_float) (X : Ext spec_float) (d : deck spec_float) fuel evs s,
  is_finite64 (dk_finaltime d) = true -> 0 <= value (dk_finaltime d) <= powerRZ 2 1000 ->
  run_deck fuel d = (evs, Finished s) ->
  is_finite64 (s_t s) = true /\ Rabs (value (s_t s) - value (dk_finaltime d)) <= powerRZ 2 (-52) * value (dk_finaltime d).
Proof.
  intros L X d fuel evs s F V H. unfold run_deck in H. destruct (setup d) as [[[[s0 g] dgs] l]|e] eqn:E; [|discriminate].
  destruct (final_time g _ _ _ _ _ _ s0 (proj1 (setup_start _ _ _ _ _ E)) (conj F V) _ _ _ H) as [A [B _]]. split; assumption.
Qed.
(** it is the final time itself when the last step starts at 0 or in the second half of the run *)
Theorem C76_last_step : forall (L : Libm spec_float) (X : Ext spec_float) (gamma : spec_float) rk d l cfl tf nout sol0 k tout touts s sc evs s' sc' dt o,
  s_t sol0 = n0 -> is_finite64 tf = true -> 0 <= value tf <= powerRZ 2 1000 ->
  visits gamma rk d l cfl tf nout sol0 k tout touts s sc evs ->
  time_step gamma (rk_inner gamma rk d l) l cfl tf tout s sc = Ok (s', sc', (dt, o, true)) ->
  value (s_t s) = 0 \/ value tf <= 2 * value (s_t s) -> value (s_t s') = value tf.
Proof.
  intros L X gamma rk d l cfl tf nout sol0 k tout touts s sc evs s' sc' dt o T0 F V Hv Hs H.
  destruct (visits_clock gamma rk d l cfl tf nout sol0 T0 (conj F V) _ _ _ _ _ _ Hv) as [T _]. destruct (step_next _ _ _ _ _ _ _ _ _ _ _ _ _ _ Hs) as [Hn ->]. apply next_step_sf in Hn.
  destruct Hn as [c [_ [_ [_ [_ [[_ [-> _]]|[[_ [_ [_ [_ K]]]]|[_ [_ [_ [_ K]]]]]]]]]]]; try discriminate. apply (last_step tf (s_t s) (conj F V) T). exact H.
Qed.
(** every run of every deck with final time at most 22 stops *)
Theorem C76_terminates : forall (L : Libm spec_float) (X : Ext spec_float) (d : deck spec_float),
  is_finite64 (dk_finaltime d) = true -> 0 <= value (dk_finaltime d) <= 22 ->
  exists n evs out, out <> OutOfFuel /\ forall fuel, (n <= fuel)%nat -> run_deck fuel d = (evs, out).
Proof.
  intros L X d F V. unfold run_deck. destruct (setup d) as [[[[s0 g] dgs] l]|e] eqn:E; [|exists 0%nat, [], (Failed e); split; [discriminate|reflexivity]].
  assert (V' : 0 <= value (dk_finaltime d) <= powerRZ 2 1000). { split; [apply V|]. apply Rle_trans with (powerRZ 2 5); [|apply pw_le; [lra|lia]]. change (powerRZ 2 5) with (2 * (2 * (2 * (2 * (2 * 1))))). lra. }
  destruct (run_ends g (dk_rk d) dgs l (dk_cfl d) (dk_finaltime d) (dk_nout d) s0 (proj1 (setup_start _ _ _ _ _ E)) (conj F V') (value eps64)) as [n [[evs out] [H1 H2]]].
  - apply eps64_val.
  - apply Rle_trans with 22; [apply V|]. replace eps64 with (S754_finite false 6338253001141147 (-99)) by (vm_compute; reflexivity). rewrite value_finite. cbn [sgn]. rewrite Rmult_1_l.
    replace (powerRZ 2 51 * (IZR 6338253001141147 * powerRZ 2 (-99))) with (IZR 6338253001141147 * powerRZ 2 (51 + -99)) by (rewrite pw_add by lra; ring). change (51 + -99)%Z with (-48)%Z.
    apply Rmult_le_reg_r with (powerRZ 2 48); [apply pw_pos; lra|]. rewrite Rmult_assoc, <- pw_add by lra. change (-48 + 48)%Z with 0%Z. rewrite powerRZ_O, Rmult_1_r. rewrite <- IZR_pow by lia. rewrite <- mult_IZR. apply IZR_le. vm_compute. discriminate.
  - intros k tout touts s sc evs c _ _ Fc Hc. destruct eps64_val as [Fe _]. destruct (Rle_lt_dec (value eps64) (value c)) as [|K]; [assumption|]. apply (ltb_value _ _ Fc Fe) in K. congruence.
  - exists n, evs, out. split; assumption.
Qed.
(** advection with two requested times: completed runs end at the requested bits *)
Theorem C76_advection_exact : forall (L : Libm spec_float) (X : Ext spec_float) (d : deck spec_float) fuel evs s,
  dk_system d <> "euler"%string -> dk_nout d = 2%Z -> is_finite64 (dk_finaltime d) = true -> 0 < value (dk_finaltime d) <= powerRZ 2 1000 ->
  run_deck fuel d = (evs, Finished s) -> s_t s = dk_finaltime d.
Proof.
  intros L X d fuel evs s Hsys N2 F V H. unfold run_deck in H. destruct (setup d) as [[[[s0 g] dgs] l]|e] eqn:E; [|discriminate]. destruct (setup_start _ _ _ _ _ E) as [T0 Eu].
  apply (adv_final g (dk_rk d) dgs l (dk_cfl d) (dk_finaltime d) (dk_nout d) s0 T0) with (fuel := fuel) (evs := evs); try assumption; [split; [exact F|lra]|rewrite Eu; apply String.eqb_neq; exact Hsys|lra].
Qed.
(** the CFL step of advection, as the program computes it *)
Definition adv_step_size (s : solution spec_float) (cfl : spec_float) : spec_float :=
  SFdiv prec64 emax64 (SFmul prec64 emax64 (s_dx s) cfl) (SFmul prec64 emax64 n1 (nnat (2 * b_p (s_basis s) + 1))).
(** without limiter they do complete, if the step is at least 1e-14 and at least tf / 2^51 *)
Theorem C76_advection_completes : forall (L : Libm spec_float) (X : Ext spec_float) (gamma : spec_float) rk d cfl tf (sol0 : solution spec_float) ne,
  s_t sol0 = n0 -> s_euler sol0 = false -> wf ne sol0 -> wf_dg ne sol0 d -> is_finite64 tf = true -> 0 < value tf <= powerRZ 2 1000 ->
  let dt := adv_step_size sol0 cfl in
  is_finite64 dt = true -> value (lit 1 100000000000000) <= value dt -> value tf <= powerRZ 2 51 * value dt ->
  exists n evs s, (forall fuel, (n <= fuel)%nat -> integrate gamma rk d None cfl tf 2 fuel sol0 = (evs, Finished s)) /\ s_t s = tf.
Proof.
  intros L X gamma rk d cfl tf sol0 ne T0 Ha W D F V dt Fd C1 C2. apply (adv_finishes gamma rk d None cfl tf 2 sol0 T0 (conj F (conj (Rlt_le _ _ (proj1 V)) (proj2 V))) Ha ne); try assumption; try reflexivity. apply V.
Qed.
(** ... and with a step below tf / 2^55, which the check on the time step lets pass when tf is above 361,
    no advection run completes, whatever the options *)
Theorem C76_never_completes : forall (L : Libm spec_float) (X : Ext spec_float) (gamma : spec_float) rk d l cfl tf nout (sol0 : solution spec_float),
  s_t sol0 = n0 -> s_euler sol0 = false -> is_finite64 tf = true -> 0 <= value tf <= powerRZ 2 1000 ->
  let dt := adv_step_size sol0 cfl in
  is_finite64 dt = true -> 0 < value dt -> powerRZ 2 55 * value dt <= value tf ->
  forall fuel evs s, integrate gamma rk d l cfl tf nout fuel sol0 <> (evs, Finished s).
Proof. intros L X gamma rk d l cfl tf nout sol0 T0 Ha F V dt Fd D0 B. apply (never_finished gamma rk d l cfl tf nout sol0 T0 (conj F V) Ha Fd D0 B). Qed.
(** without limiter it loops for ever: termination (C01) fails in doubles *)
Theorem C76_never_stops : forall (L : Libm spec_float) (X : Ext spec_float) (gamma : spec_float) rk d cfl tf (sol0 : solution spec_float) ne,
  s_t sol0 = n0 -> s_euler sol0 = false -> wf ne sol0 -> wf_dg ne sol0 d -> is_finite64 tf = true -> 0 <= value tf <= powerRZ 2 1000 ->
  let dt := adv_step_size sol0 cfl in
  is_finite64 dt = true -> value (lit 1 100000000000000) <= value dt -> powerRZ 2 55 * value dt <= value tf ->
  forall fuel, exists ev, integrate gamma rk d None cfl tf 2 fuel sol0 = ([ev], OutOfFuel).
Proof.
  intros L X gamma rk d cfl tf sol0 ne T0 Ha W D F V dt Fd C1 B. assert (D0 : 0 < value dt) by (pose proof (proj2 eps64_val); unfold eps64 in *; lra).
  apply (never_ends gamma rk d None cfl tf 2 sol0 T0 (conj F V) Ha Fd D0 B ne); try assumption; reflexivity.
Qed.

(** C01, which holds in real arithmetic, fails for this state of three cells, cfl 3/2^46 and final time 1000 *)
Example C76_never_stops_witness : let cfl := S754_finite false 6755399441055744 (-97) in
  adv_step_size (three 1 2 3) cfl = S754_finite false 4503599627370496 (-98) /\
  forall rk fuel, exists ev, @integrate _ _ LibmSF n0 rk d3 None cfl (nofZ 1000) 2 fuel (three 1 2 3) = ([ev], OutOfFuel).
Proof.
  cbv zeta. assert (E : adv_step_size (three 1 2 3) (S754_finite false 6755399441055744 (-97)) = S754_finite false 4503599627370496 (-98)) by (vm_compute; reflexivity). split; [exact E|].
  intros rk fuel. assert (P : powerRZ 2 52 = IZR (2 ^ 52)) by (rewrite IZR_pow by lia; reflexivity).
  assert (ED : value (S754_finite false 4503599627370496 (-98)) = powerRZ 2 (-46)) by (rewrite value_finite; cbn [sgn]; rewrite Rmult_1_l; change 4503599627370496%Z with (2 ^ 52)%Z; rewrite <- P, <- pw_add by lra; reflexivity).
  assert (ET : value (nofZ 1000 : spec_float) = 1000).
  { replace (nofZ 1000 : spec_float) with (S754_finite false 8796093022208000 (-43)) by (vm_compute; reflexivity). rewrite value_finite. cbn [sgn]. rewrite Rmult_1_l.
    change 8796093022208000%Z with (1000 * 2 ^ 43)%Z. rewrite mult_IZR, IZR_pow by lia. rewrite Rmult_assoc, <- pw_add by lra. change (43 + -43)%Z with 0%Z. rewrite powerRZ_O. ring. }
  apply (@C76_never_stops LibmSF ExtSF n0 rk d3 (S754_finite false 6755399441055744 (-97)) (nofZ 1000) (three 1 2 3) 3); try reflexivity; try apply three_wf; try (split; reflexivity).
  - rewrite ET. split; [lra|]. apply Rle_trans with (powerRZ 2 10); [change (powerRZ 2 10) with (2 * (2 * (2 * (2 * (2 * (2 * (2 * (2 * (2 * (2 * 1)))))))))); lra|apply pw_le; [lra|lia]].
  - rewrite E, ED. change (lit 1 100000000000000) with eps64. replace eps64 with (S754_finite false 6338253001141147 (-99)) by (vm_compute; reflexivity). rewrite value_finite. cbn [sgn]. rewrite Rmult_1_l.
    change (-46)%Z with (53 + -99)%Z. rewrite pw_add by lra. apply Rmult_le_compat_r; [apply Rlt_le, pw_pos; lra|]. rewrite <- IZR_pow by lia. apply IZR_le. vm_compute. discriminate.
  - rewrite E, ED, ET, <- pw_add by lra. change (55 + -46)%Z with 9%Z. change (powerRZ 2 9) with (2 * (2 * (2 * (2 * (2 * (2 * (2 * (2 * (2 * 1))))))))). lra.
Qed.
(** runs that do complete: the last step starts at 3/4 of the run; the requested bits are met *)
Example C76_completes_witness :
  let d rk := {| dk_system := "advection"; dk_rk := rk; dk_riemann := ""; dk_ic := "ictest 3"; dk_nout := 2; dk_finaltime := lit 7 10;
              dk_cfl := n1; dk_order := 1; dk_limiting := ""; dk_enhance := ""; dk_thresholds := [] |} in
  exists evs s, @run_deck _ _ LibmSF ExtSF 20 (d "rk3"%string) = (evs, Finished s) /\ s_t s = lit 7 10 /\ s_n s = 4%nat.
Proof. cbv zeta. do 2 eexists. split; [vm_compute; reflexivity|]. split; vm_compute; reflexivity. Qed.
Print Assumptions C76_final_time.
Print Assumptions C76_last_step.
Print Assumptions C76_terminates.
Print Assumptions C76_advection_exact.
Print Assumptions C76_advection_completes.
Print Assumptions C76_never_completes.
Print Assumptions C76_never_stops.
