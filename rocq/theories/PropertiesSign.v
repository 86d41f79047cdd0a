(** Property C89: the sign of advected data in binary64. *)
From Coq Require Import ZArith List Bool Arith String Lia Floats.SpecFloat Reals Lra.
From Verif Require Import Num Py PyStr Ext Basis Sensor Enhance Limiting Solution Solver RKCoeffs RK SpecTime SpecDG SpecFloatText SpecSign ProofsDG ProofsWf ProofsStageLimit ProofsOdd ProofsOddFloat
  ProofsLevelFloat.
Import ListNotations.
Open Scope list_scope.

(** what [opposite] says about the numbers *)
Theorem C89_value : forall x y, opposite x y -> value y = (- value x)%R /\ (y = S754_nan <-> x = S754_nan).
Proof. exact opposite_value. Qed.
Theorem C89_negate : forall ne s, wf ne s -> negated ne s (negate s).
Proof. exact negate_negated. Qed.
(** C89: the run from negated data is the negated run, number by number, without any rounding difference *)
Theorem C89_runs : forall (L : Libm spec_float) (gamma : spec_float) ne s s' d, negated ne s s' -> s_euler s = false -> wf_dg ne s d -> forall rk cfl tf nout fuel,
  let r := integrate gamma rk d None cfl tf nout fuel s in
  let r' := integrate gamma rk d None cfl tf nout fuel s' in
  Forall2 (negated_event ne) (fst r) (fst r') /\ negated_outcome ne (snd r) (snd r').
Proof. exact @negate_run. Qed.
(** the same for any arithmetic and any relation between numbers that survives sums, differences and multiplication by a common number *)
Theorem C89_any : forall (A : Type) (N : Num A) (L : Libm A) (gamma : A) (rho : A -> A -> Prop),
  rho n0 n0 -> (forall x x' y y', rho x x' -> rho y y' -> rho (nadd x y) (nadd x' y')) -> (forall x x' y y', rho x x' -> rho y y' -> rho (nsub x y) (nsub x' y')) ->
  (forall c x x', rho x x' -> rho (nmul c x) (nmul c x')) -> (forall c x x', rho x x' -> rho (nmul x c) (nmul x' c)) ->
  forall ne (s s' : solution A) d, wf ne s -> wf ne s' -> similar s s' -> s_t s = s_t s' -> s_n s = s_n s' -> s_euler s = false -> wf_dg ne s d ->
  (forall e f n, (e < ne + 2)%nat -> (f < s_NF s)%nat -> (n < s_Ns s)%nat -> rho (at1 (modes s e f) n) (at1 (modes s' e f) n)) ->
  forall rk cfl tf nout fuel s1, snd (integrate gamma rk d None cfl tf nout fuel s) = Finished s1 ->
  exists s1', snd (integrate gamma rk d None cfl tf nout fuel s') = Finished s1' /\
    forall e f n, (e < ne + 2)%nat -> (f < s_NF s)%nat -> (n < s_Ns s)%nat -> rho (at1 (modes s1 e f) n) (at1 (modes s1' e f) n).
Proof. exact @any_run. Qed.

Example C89_witness : exists s s' d, negated 3 s s' /\ s_euler s = false /\ wf_dg 3 s d /\ at1 (modes s 1 0) 0 = n1 /\ at1 (modes s' 1 0) 0 = nopp n1 /\
  exists s1, snd (@integrate _ _ LibmSF n0 "rk3" d None (lit 3 5) (lit 1 10) 2 5 s) = Finished s1 /\ at1 (modes s1 1 0) 1 <> n0.
Proof.
  destruct (snd (@integrate _ _ LibmSF n0 "rk3" dl3 None (lit 3 5) (lit 1 10) 2 5 low)) as [s1| |] eqn:E.
  - exists low, (negate low), dl3. split; [apply negate_negated; rewrite <- low_eq; apply step_wf|]. split; [reflexivity|]. split; [split; vm_compute; reflexivity|].
    split; [vm_compute; reflexivity|]. split; [vm_compute; reflexivity|]. exists s1. split; [exact E|]. vm_compute in E. injection E as <-. vm_compute. discriminate.
  - vm_compute in E. discriminate.
  - vm_compute in E. discriminate.
Qed.

Print Assumptions C89_value.
Print Assumptions C89_negate.
Print Assumptions C89_runs.
Print Assumptions C89_any.
Print Assumptions C89_witness.
