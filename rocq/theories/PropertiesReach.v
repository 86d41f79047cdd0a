(** Property C92: how far data travel in either system of equations. *)
From Coq Require Import ZArith List Bool Arith String Lia Floats.SpecFloat.
From Verif Require Import Num Py PyStr Ext Basis Sensor Enhance Limiting Solution Solver RKCoeffs RK Standins SpecTime SpecDG SpecInfluence SpecReach ProofsDG ProofsDG2 ProofsWf ProofsCons ProofsStageLimit ProofsReach PropertiesInfluence.
Import ListNotations.
Open Scope list_scope.

(** C92, in any arithmetic, for advection and the Euler equations, every Riemann solver, with and without interface enhancement and limiter: after steps of the
    same lengths a cell is the same for data that agree up to one cell further to either side per evaluation of the right-hand side, two with the limiter.
    (The limiter reads the ghost cells, which must be filled at the start, and its matrices must have the size of the solution.) *)
Theorem C92_steps : forall (A : Type) (N : Num A) (L : Libm A) (gamma : A) (l : limiter (A:=A)) ne (s s' : solution A) d rk dts a sc b sc',
  wf ne s -> wf ne s' -> similar s s' -> wf_dg ne s d ->
  (forall h, l = Some h -> List.length (h_M2L h) = s_Ns s) -> (l <> None -> apply_bc s = Ok s /\ apply_bc s' = Ok s') ->
  steps gamma rk d l dts s (fresh rk s) = Ok (a, sc) -> steps gamma rk d l dts s' (fresh rk s') = Ok (b, sc') ->
  untouched ne (radius l rk * List.length dts) s s' a b.
Proof. exact @steps_untouched. Qed.
(** every run that ends without error is such a sequence, one step per count *)
Theorem C92_run : forall (A : Type) (N : Num A) (L : Libm A) (gamma : A) (l : limiter (A:=A)) rk d cfl tf nout fuel (s a : solution A),
  snd (integrate gamma rk d l cfl tf nout fuel s) = Finished a ->
  exists dts sc, steps gamma rk d l dts s (fresh rk s) = Ok (a, sc) /\ s_n a = s_n s + List.length dts.
Proof. exact @run_steps. Qed.
(** advection runs: the lengths are the same whatever the data, so the bound holds of whole runs *)
Theorem C92_advection : forall (A : Type) (N : Num A) (L : Libm A) (gamma : A) (l : limiter (A:=A)) ne (s s' : solution A) d rk cfl tf nout fuel a b,
  wf ne s -> wf ne s' -> similar s s' -> s_t s = s_t s' -> s_euler s = false -> wf_dg ne s d ->
  (forall h, l = Some h -> List.length (h_M2L h) = s_Ns s) -> (l <> None -> apply_bc s = Ok s /\ apply_bc s' = Ok s') ->
  snd (integrate gamma rk d l cfl tf nout fuel s) = Finished a -> snd (integrate gamma rk d l cfl tf nout fuel s') = Finished b ->
  s_t a = s_t b /\ s_n s <= s_n a /\ untouched ne (radius l rk * (s_n a - s_n s)) s s' a b.
Proof. exact @adv_run. Qed.
(** the cells within reach, between walls and in a ring *)
Theorem C92_distance : forall bl br ne, 1 <= ne -> is_literal bl "periodic" = false -> is_literal br "periodic" = false ->
  forall j c c', c <= ne -> In c' (reach bl br ne j c) -> c - j <= c' <= c + j.
Proof. exact reach_dist. Qed.
Theorem C92_ring : forall bl br ne, is_literal bl "periodic" = true -> is_literal br "periodic" = true ->
  forall j c c', 1 <= c <= ne -> In c' (reach bl br ne j c) -> exists i, i <= 2 * j /\ c' = (c - 1 + i + j * (ne - 1)) mod ne + 1.
Proof. exact reach_periodic. Qed.

(** a gas at rest in nine cells, denser in the first, with energy z / 2 in the last *)
Definition gas9 (z : Z) : solution sf :=
  let cell r e := [nofZ r; n0; lit e 2] in
  {| s_basis := @Basis _ _ ExtSF 0; s_icname := ""; s_params := []; s_t := n0; s_n := 0; s_NE := 9; s_x := map nofZ [0; 1; 2; 3; 4; 5; 6; 7; 8; 9]%Z;
     s_xc := map (fun z => lit z 2) [1; 3; 5; 7; 9; 11; 13; 15; 17]%Z; s_dx := n1;
     s_u := [cell 2 10 ++ cell 2 10 ++ List.concat (repeat (cell 1 5) 7) ++ cell 1 z ++ cell 1 z]%Z; s_minv := [n1]; s_euler := true; s_riemann := RRusanov;
     s_bcl := pylit "zerograd"; s_bcr := pylit "zerograd"; s_enh := None; s_sens := None |}.
Lemma gas9_wf z : wf 9 (gas9 z).
Proof.
  constructor; try reflexivity; try exact I.
  - lia.
  - vm_compute. lia.
  - apply shape_lit. reflexivity.
  - apply shape_lit. vm_compute. reflexivity.
  - apply shape_lit. vm_compute. reflexivity.
  - apply shape_lit. vm_compute. reflexivity.
  - split; discriminate.
Qed.
Definition d9 : dg := {| dg_rows := 1; dg_cols := 27 |}.
Definition far9 : sf := lit 7 5.
Definition go9 (z : Z) := snd (@integrate _ _ LibmSF far9 "rk3" d9 None (lit 3 5) (lit 3 5) 2 5 (gas9 z)).
Definition step9 (z : Z) := @steps _ _ LibmSF far9 "rk3" d9 None [lit 3 10; lit 3 10] (gas9 z) (fresh "rk3" (gas9 z)).
Definition after9 (r : res (solution sf * scratch sf)) (c : nat) : option (vec sf) := match r with Ok (s1, _) => Some (modes s1 c 0) | _ => None end.
Lemma after_differ r r' c a b : after9 r c = Some a -> after9 r' c = Some b -> a <> b -> exists s1 sc s1' sc', r = Ok (s1, sc) /\ r' = Ok (s1', sc') /\ modes s1 c 0 <> modes s1' c 0.
Proof. destruct r as [[s1 sc]|], r' as [[s1' sc']|]; cbn [after9]; try discriminate. intros E E' H. exists s1, sc, s1', sc'. split; [reflexivity|]. split; [reflexivity|congruence]. Qed.
Definition count_pick (o : outcome sf) (c : nat) : option (nat * vec sf) := match o with Finished s1 => Some (s_n s1, modes s1 c 0) | _ => None end.
Lemma count_differ o o' c n a b : count_pick o c = Some (n, a) -> count_pick o' c = Some (n, b) -> a <> b -> exists s1 s1', o = Finished s1 /\ o' = Finished s1' /\ s_n s1 = n /\ s_n s1' = n /\ modes s1 c 0 <> modes s1' c 0.
Proof. destruct o as [s1| |], o' as [s1'| |]; cbn [count_pick]; try discriminate. intros E E' H. exists s1, s1'. injection E as E1 E2. injection E' as E3 E4. repeat split; try assumption; congruence. Qed.
Lemma gas9_agree c f z z' : c <= 8 -> f < 3 -> modes (gas9 z) c f = modes (gas9 z') c f.
Proof. intros Hc Hf. do 9 (destruct c as [|c]; [do 3 (destruct f as [|f]; [reflexivity|]); lia|]); lia. Qed.
Lemma gas9_similar z z' : similar (gas9 z) (gas9 z').
Proof. exists n0, 0, None, (s_u (gas9 z')). split; [reflexivity|exact I]. Qed.
Definition v3 : vec sf := Eval vm_compute in match after9 (step9 5) 3 with Some v => v | None => [] end.
Definition w3 : vec sf := Eval vm_compute in match after9 (step9 10) 3 with Some v => v | None => [] end.
(** the bound is attained: two gases that differ in cell 9 only differ in cell 3 after two steps of three evaluations *)
Example C92_attained : exists s s' d dts, wf 9 s /\ wf 9 s' /\ similar s s' /\ wf_dg 9 s d /\ s_euler s = true /\
  (forall c f, c <= 8 -> f < 3 -> modes s c f = modes s' c f) /\ radius (A := sf) None "rk3" * List.length dts = 6 /\
  exists a sc b sc', @steps _ _ LibmSF far9 "rk3" d None dts s (fresh "rk3" s) = Ok (a, sc) /\ @steps _ _ LibmSF far9 "rk3" d None dts s' (fresh "rk3" s') = Ok (b, sc') /\ modes a 3 0 <> modes b 3 0.
Proof.
  exists (gas9 5), (gas9 10), d9, [lit 3 10; lit 3 10]. split; [apply gas9_wf|]. split; [apply gas9_wf|]. split; [apply gas9_similar|]. split; [split; vm_compute; reflexivity|]. split; [reflexivity|].
  split; [intros; apply gas9_agree; assumption|]. split; [reflexivity|].
  apply (after_differ _ _ 3 v3 w3); [vm_compute; reflexivity|vm_compute; reflexivity|discriminate].
Qed.
Definition v1 : vec sf := Eval vm_compute in match count_pick (go9 5) 1 with Some (_, v) => v | None => [] end.
Definition w1 : vec sf := Eval vm_compute in match count_pick (go9 10) 1 with Some (_, v) => v | None => [] end.
(** whole Euler runs do not obey it: the step length is chosen from all cells, so that what is in cell 9 decides what two steps make of cell 1, eight cells away *)
Theorem C92_global : exists s s' d, wf 9 s /\ wf 9 s' /\ similar s s' /\ wf_dg 9 s d /\ s_euler s = true /\
  (forall c f, c <= 8 -> f < 3 -> modes s c f = modes s' c f) /\
  exists a b, snd (@integrate _ _ LibmSF far9 "rk3" d None (lit 3 5) (lit 3 5) 2 5 s) = Finished a /\ snd (@integrate _ _ LibmSF far9 "rk3" d None (lit 3 5) (lit 3 5) 2 5 s') = Finished b /\
  s_n a = 2 /\ s_n b = 2 /\ modes a 1 0 <> modes b 1 0.
Proof.
  exists (gas9 5), (gas9 10), d9. split; [apply gas9_wf|]. split; [apply gas9_wf|]. split; [apply gas9_similar|]. split; [split; vm_compute; reflexivity|]. split; [reflexivity|].
  split; [intros; apply gas9_agree; assumption|].
  apply (count_differ _ _ 1 2 v1 w1); [vm_compute; reflexivity|vm_compute; reflexivity|discriminate].
Qed.
(** order 1 with the interface enhancement "icb 0 1" *)
Definition enh1 : res (enhance sf) := Eval vm_compute in @Enhance _ _ ExtSF 1 "icb 0 1".
Definition open3e (z : Z) : solution sf :=
  let s := open3 "zerograd" z in
  {| s_basis := s_basis s; s_icname := ""; s_params := []; s_t := n0; s_n := 0; s_NE := 3; s_x := s_x s; s_xc := s_xc s; s_dx := n1; s_u := s_u s; s_minv := s_minv s;
     s_euler := false; s_riemann := RUpwind; s_bcl := s_bcl s; s_bcr := s_bcr s; s_enh := match enh1 with Ok e => Some e | Raise _ => None end; s_sens := None |}.
Definition go3e (z : Z) := snd (@integrate _ _ LibmSF n0 "rk3" d3 None (lit 1 10) (lit 1 20) 2 5 (open3e z)).
Lemma open3e_wf z : wf 3 (open3e z).
Proof.
  destruct (open3_wf "zerograd" z). constructor; try assumption; try exact I. vm_compute. repeat split.
Qed.
Definition v2 : vec sf := Eval vm_compute in match count_pick (go3e 0) 2 with Some (_, v) => v | None => [] end.
Definition w2 : vec sf := Eval vm_compute in match count_pick (go3e 2) 2 with Some (_, v) => v | None => [] end.
(** the hypotheses for advection are met by enhanced runs, in which data do travel upstream: cell 2 feels cell 3 *)
Example C92_enhanced : exists s s' d e, wf 3 s /\ wf 3 s' /\ similar s s' /\ s_t s = s_t s' /\ wf_dg 3 s d /\ s_euler s = false /\ @Enhance _ _ ExtSF 1 "icb 0 1" = Ok e /\ s_enh s = Some e /\
  is_literal (s_bcl s) "periodic" = false /\ (forall c, c <= 2 -> modes s c 0 = modes s' c 0) /\
  exists a b, snd (@integrate _ _ LibmSF n0 "rk3" d None (lit 1 10) (lit 1 20) 2 5 s) = Finished a /\ snd (@integrate _ _ LibmSF n0 "rk3" d None (lit 1 10) (lit 1 20) 2 5 s') = Finished b /\
  s_n a = 2 /\ s_n b = 2 /\ modes a 2 0 <> modes b 2 0.
Proof.
  exists (open3e 0), (open3e 2), d3. eexists. split; [apply open3e_wf|]. split; [apply open3e_wf|].
  split; [exists n0, 0, None, (s_u (open3e 2)); split; [reflexivity|exact I]|]. split; [reflexivity|]. split; [split; vm_compute; reflexivity|]. split; [reflexivity|]. split; [vm_compute; reflexivity|]. split; [vm_compute; reflexivity|].
  split; [vm_compute; reflexivity|]. split; [intros [|[|[|c]]] Hc; [vm_compute; reflexivity|vm_compute; reflexivity|vm_compute; reflexivity|lia]|].
  apply (count_differ _ _ 2 2 v2 w2); [vm_compute; reflexivity|vm_compute; reflexivity|discriminate].
Qed.

(** the hypotheses with limiter are met by the limited runs of C91, which differ in cell 2 because cell 3 does *)
Example C92_limited : exists s s' d h, wf 3 s /\ wf 3 s' /\ similar s s' /\ s_t s = s_t s' /\ s_euler s = false /\ wf_dg 3 s d /\
  @Limiter _ _ ExtSF "adaptive_hr" s = Ok (Some h) /\ List.length (h_M2L h) = s_Ns s /\ apply_bc s = Ok s /\ apply_bc s' = Ok s' /\ (forall c, c <= 2 -> modes s c 0 = modes s' c 0) /\
  exists a b, snd (@integrate _ _ LibmSF n0 "rk3" d (Some h) (lit 3 5) (lit 1 2) 2 5 s) = Finished a /\
  snd (@integrate _ _ LibmSF n0 "rk3" d (Some h) (lit 3 5) (lit 1 2) 2 5 s') = Finished b /\ modes a 2 0 <> modes b 2 0.
Proof.
  exists (open3 "zerograd" (-1)), (open3 "zerograd" 2), d3, h3. split; [apply open3_wf|]. split; [apply open3_wf|].
  split; [exists n0, 0, (s_sens (open3 "zerograd" 2)), (s_u (open3 "zerograd" 2)); split; reflexivity|]. split; [reflexivity|]. split; [reflexivity|]. split; [split; vm_compute; reflexivity|].
  split; [vm_compute; reflexivity|]. split; [vm_compute; reflexivity|]. split; [vm_compute; reflexivity|]. split; [vm_compute; reflexivity|].
  split; [intros [|[|[|c]]] Hc; [vm_compute; reflexivity|vm_compute; reflexivity|vm_compute; reflexivity|lia]|].
  apply (pick_differ _ _ 2 a2 b2); [vm_compute; reflexivity|vm_compute; reflexivity|discriminate].
Qed.

Print Assumptions C92_steps.
Print Assumptions C92_run.
Print Assumptions C92_advection.
Print Assumptions C92_distance.
Print Assumptions C92_ring.
Print Assumptions C92_attained.
Print Assumptions C92_global.
Print Assumptions C92_enhanced.
Print Assumptions C92_limited.
