(** Property C90: NaN in the data of binary64 runs. *)
From Coq Require Import ZArith List Bool Arith String Lia Floats.SpecFloat.
From Verif Require Import Num Py PyStr Ext Basis Sensor Enhance Limiting Solution Solver RKCoeffs RK Standins SpecTime SpecDG ProofsDG ProofsDG2 ProofsWf ProofsCons ProofsRel ProofsStageLimit ProofsLevelFloat ProofsOdd ProofsNan ProofsNanSpread.
Import ListNotations.
Open Scope list_scope.

(** C90: a mode of a cell that is NaN in a snapshot is NaN in every later one and in the final solution, for both systems and with the limiter *)
Theorem C90_persist : forall (L : Libm spec_float) (gamma : spec_float) ne s d l, wf ne s -> wf_dg ne s d ->
  (forall h, l = Some h -> shape (s_Ns s) (s_Ns s) (h_L2M h) /\ shape (s_Ns s) (s_Ns s) (h_M2L h)) ->
  forall e f n, 1 <= e <= ne -> f < s_NF s -> n < s_Ns s ->
  forall rk cfl tf nout fuel evs out, integrate gamma rk d l cfl tf nout fuel s = (evs, out) ->
  (forall i j x y, i < j -> nth_error evs i = Some x -> nth_error evs j = Some y -> at1 (modes (ev_sol x) e f) n = S754_nan -> at1 (modes (ev_sol y) e f) n = S754_nan) /\
  (forall s' x, out = Finished s' -> In x evs -> at1 (modes (ev_sol x) e f) n = S754_nan -> at1 (modes s' e f) n = S754_nan).
Proof. exact @nan_kept. Qed.
(** advection without limiter does not notice it: two runs that differ only in their data print at the same times, take the same steps and end in the same way *)
Theorem C90_unnoticed : forall (A : Type) (N : Num A) (L : Libm A) (gamma : A) ne (s s' : solution A) d,
  wf ne s -> wf ne s' -> similar s s' -> s_t s = s_t s' -> s_n s = s_n s' -> s_euler s = false -> wf_dg ne s d -> forall rk cfl tf nout fuel,
  let r := integrate gamma rk d None cfl tf nout fuel s in
  let r' := integrate gamma rk d None cfl tf nout fuel s' in
  Forall2 (fun x y => ev_nout x = ev_nout y /\ ev_dt x = ev_dt y /\ s_t (ev_sol x) = s_t (ev_sol y) /\ s_n (ev_sol x) = s_n (ev_sol y)) (fst r) (fst r') /\
  match snd r, snd r' with
  | Finished a, Finished b => s_t a = s_t b /\ s_n a = s_n b
  | Failed a, Failed b => a = b
  | OutOfFuel, OutOfFuel => True
  | _, _ => False
  end.
Proof. exact @blind_run. Qed.
(** and it spreads with the flow by at least a cell per step: m steps after a mode of cell e is NaN, all modes of the cells up to m downstream of it are
    (around the periodic domain too), for any RK scheme, limiter and enhancement *)
Theorem C90_spread : forall (L : Libm spec_float) (gamma : spec_float) ne s d l, wf ne s -> wf_dg ne s d ->
  (forall h, l = Some h -> shape (s_Ns s) (s_Ns s) (h_L2M h) /\ shape (s_Ns s) (s_Ns s) (h_M2L h)) -> s_euler s = false ->
  forall e n0, 1 <= e <= ne -> n0 < s_Ns s -> at1 (modes s e 0) n0 = S754_nan ->
  forall rk cfl tf nout fuel evs out, integrate gamma rk d l cfl tf nout fuel s = (evs, out) ->
  forall s', (exists x, In x evs /\ s' = ev_sol x) \/ out = Finished s' ->
  forall c, 1 <= c <= ne -> e <= c \/ is_literal (s_bcl s) "periodic" = true ->
  1 <= s_n s' - s_n s -> (if e <=? c then c - e else c + ne - e) <= s_n s' - s_n s -> forall n, n < s_Ns s -> at1 (modes s' c 0) n = S754_nan.
Proof. exact @nan_spread. Qed.
(** the limiter's minmod hides a NaN in its first argument, which comes from the left neighbour, and keeps one in the second, from the right *)
Theorem C90_minmod : forall b : spec_float, scalar_minmod S754_nan b = (if nltb n0 b then n0 else b) /\ scalar_minmod b S754_nan = S754_nan.
Proof. intro b. split; [apply minmod_nan_l|apply minmod_nan_r]. Qed.

(** three flagged cells, NaN only in the slope of the left (1) or the right (3) neighbour of cell 2 *)
Example C90_hidden : exists s h s1, wf 3 s /\ Limiter (X := ExtSF) "adaptive_hr" s = Ok (Some h) /\ limit n0 (Some h) s = Ok s1 /\
  at1 (modes s 1 0) 1 = S754_nan /\ at1 (modes s1 2 0) 0 = nofZ 2 /\ at1 (modes s1 2 0) 1 = n0.
Proof. exists (nan_at 1), h3. eexists. split; [apply nan_at_wf|]. split; [vm_compute; reflexivity|]. split; [vm_compute; reflexivity|]. vm_compute. auto. Qed.
Example C90_seen : exists s h s1, wf 3 s /\ Limiter (X := ExtSF) "adaptive_hr" s = Ok (Some h) /\ limit n0 (Some h) s = Ok s1 /\
  at1 (modes s 3 0) 1 = S754_nan /\ at1 (modes s1 2 0) 1 = S754_nan.
Proof. exists (nan_at 3), h3. eexists. split; [apply nan_at_wf|]. split; [vm_compute; reflexivity|]. split; [vm_compute; reflexivity|]. vm_compute. auto. Qed.

(** a limited run that starts with one NaN slope and ends, all NaN, as if nothing had happened *)
Example C90_witness : exists s d h s1, wf 3 s /\ wf_dg 3 s d /\ shape (s_Ns s) (s_Ns s) (h_L2M h) /\ shape (s_Ns s) (s_Ns s) (h_M2L h) /\ s_euler s = false /\
  at1 (modes s 3 0) 1 = S754_nan /\ at1 (modes s 3 0) 0 = nofZ 4 /\ is_literal (s_bcl s) "periodic" = true /\
  snd (@integrate _ _ LibmSF n0 "rk3" d (Some h) (lit 3 5) (lit 1 2) 2 5 s) = Finished s1 /\ s_n s1 = 3 /\ at1 (modes s1 2 0) 0 = S754_nan.
Proof.
  exists (nan_at 3), d3, h3.
  destruct (snd (@integrate _ _ LibmSF n0 "rk3" d3 (Some h3) (lit 3 5) (lit 1 2) 2 5 (nan_at 3))) as [s1| |] eqn:E.
  - exists s1. split; [apply nan_at_wf|]. split; [split; vm_compute; reflexivity|]. split; [apply shape_lit; vm_compute; reflexivity|]. split; [apply shape_lit; vm_compute; reflexivity|].
    split; [reflexivity|]. split; [vm_compute; reflexivity|]. split; [vm_compute; reflexivity|]. split; [vm_compute; reflexivity|]. split; [reflexivity|].
    vm_compute in E. injection E as <-. vm_compute. split; reflexivity.
  - vm_compute in E. discriminate.
  - vm_compute in E. discriminate.
Qed.

Print Assumptions C90_persist.
Print Assumptions C90_unnoticed.
Print Assumptions C90_spread.
Print Assumptions C90_minmod.
Print Assumptions C90_hidden.
Print Assumptions C90_seen.
Print Assumptions C90_witness.
