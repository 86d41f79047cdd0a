(** Property C91: how far advected data travel. *)
From Coq Require Import ZArith List Bool Arith String Lia Floats.SpecFloat.
From Verif Require Import Num Py PyStr Ext Basis Sensor Enhance Limiting Solution Solver RKCoeffs RK Standins SpecTime SpecDG SpecInfluence ProofsDG ProofsDG2 ProofsWf ProofsCons ProofsStageLimit ProofsInfluence.
Import ListNotations.
Open Scope list_scope.

(** C91, in any arithmetic: a cell differs between two runs only if the data differ in it or in a cell upstream of it by at most the number of evaluations of
    the right-hand side made so far; times, step sizes and the way the runs end are the same *)
Theorem C91_influence : forall (A : Type) (N : Num A) (L : Libm A) (gamma : A) ne (s s' : solution A) d,
  wf ne s -> wf ne s' -> similar s s' -> s_t s = s_t s' -> s_n s = s_n s' -> s_euler s = false -> s_enh s = None -> wf_dg ne s d ->
  forall rk cfl tf nout fuel,
  let r := integrate gamma rk d None cfl tf nout fuel s in
  let r' := integrate gamma rk d None cfl tf nout fuel s' in
  Forall2 (fun x y => ev_nout x = ev_nout y /\ ev_dt x = ev_dt y /\ s_t (ev_sol x) = s_t (ev_sol y) /\ s_n (ev_sol x) = s_n (ev_sol y) /\ s_n s <= s_n (ev_sol x) /\
    unreached ne s s' rk (ev_sol x) (ev_sol y)) (fst r) (fst r') /\
  match snd r, snd r' with
  | Finished a, Finished b => s_t a = s_t b /\ s_n a = s_n b /\ s_n s <= s_n a /\ unreached ne s s' rk a b
  | Failed a, Failed b => a = b
  | OutOfFuel, OutOfFuel => True
  | _, _ => False
  end.
Proof. exact @influence. Qed.
(** i cells upstream in a periodic domain *)
Theorem C91_periodic : forall bl br ne, is_literal bl "periodic" = true -> forall i c, 1 <= c <= ne -> above bl br ne i c = (c - 1 + i * (ne - 1)) mod ne + 1.
Proof. exact above_periodic. Qed.
(** nothing travels upstream: in a domain that is not periodic, data that differ only to the right of cell e give the same cells 1..e for ever *)
Theorem C91_upstream : forall (A : Type) (N : Num A) (L : Libm A) (gamma : A) ne (s s' : solution A) d,
  wf ne s -> wf ne s' -> similar s s' -> s_t s = s_t s' -> s_n s = s_n s' -> s_euler s = false -> s_enh s = None -> wf_dg ne s d ->
  is_literal (s_bcl s) "periodic" = false -> forall e, 1 <= e <= ne -> (forall c, c <= e -> modes s c 0 = modes s' c 0) ->
  forall rk cfl tf nout fuel s1, snd (integrate gamma rk d None cfl tf nout fuel s) = Finished s1 ->
  exists s1', snd (integrate gamma rk d None cfl tf nout fuel s') = Finished s1' /\ forall c, 1 <= c <= e -> modes s1 c 0 = modes s1' c 0.
Proof.
  intros A N L gamma ne s s' d W W' S T Hn Eu En D Hb e He H rk cfl tf nout fuel s1 E.
  destruct (influence gamma ne s s' d W W' S T Hn Eu En D rk cfl tf nout fuel) as [_ R]. rewrite E in R.
  destruct (snd (integrate gamma rk d None cfl tf nout fuel s')) as [s1'| |]; try contradiction. exists s1'. split; [reflexivity|]. intros c Hc. apply R; [lia|].
  intros i _. apply H. apply (above_le _ _ ne e); lia || assumption.
Qed.
(** evaluations per step *)
Theorem C91_evaluations : map evaluations ["low_storage_rk4"; "rk3"; "rk4"; "rk5"; "rk6"; "rk8"; "rk10"; "rk12"; "rk14"]%string = [4; 3; 4; 6; 7; 13; 17; 25; 35].
Proof. reflexivity. Qed.

(** three cells, order 1, with the given boundary conditions and averages *)
Definition open3 (b : string) (z : Z) : solution sf :=
  let s := three 1 0 z in
  {| s_basis := s_basis s; s_icname := ""; s_params := []; s_t := n0; s_n := 0; s_NE := 3; s_x := s_x s; s_xc := s_xc s; s_dx := n1;
     s_u := [map nofZ [1; 1; 0; z; z]; map nofZ [0; 0; 0; 0; 0]]%Z; s_minv := s_minv s; s_euler := false; s_riemann := RUpwind; s_bcl := pylit b; s_bcr := pylit b;
     s_enh := None; s_sens := s_sens s |}.
Lemma open3_wf b z : wf 3 (open3 b z).
Proof.
  destruct (three_wf 1 0 z). constructor; try assumption; try reflexivity.
  - apply shape_lit. reflexivity.
Qed.
Definition go3 (l : limiter) (s : solution sf) := snd (@integrate _ _ LibmSF n0 "rk3" d3 l (lit 3 5) (lit 1 2) 2 5 s).
Definition pick (o : outcome sf) (c : nat) : option (vec sf) := match o with Finished s1 => Some (modes s1 c 0) | _ => None end.
Lemma pick_differ o o' c a b : pick o c = Some a -> pick o' c = Some b -> a <> b -> exists s1 s1', o = Finished s1 /\ o' = Finished s1' /\ modes s1 c 0 <> modes s1' c 0.
Proof. destruct o as [s1| |], o' as [s1'| |]; cbn [pick]; try discriminate. intros E E' H. exists s1, s1'. split; [reflexivity|]. split; [reflexivity|congruence]. Qed.
Definition value3 l s c : vec sf := match pick (go3 l s) c with Some v => v | None => [] end.
Definition a3 : vec sf := Eval vm_compute in value3 None (open3 "zerograd" 0) 3.
Definition b3 : vec sf := Eval vm_compute in value3 None (open3 "zerograd" 2) 3.
Definition a2 : vec sf := Eval vm_compute in value3 (Some h3) (open3 "zerograd" (-1)) 2.
Definition b2 : vec sf := Eval vm_compute in value3 (Some h3) (open3 "zerograd" 2) 2.
(** the hypotheses are met by two runs that differ in cell 3 and stay different there *)
Example C91_witness : exists s s' d, wf 3 s /\ wf 3 s' /\ similar s s' /\ s_euler s = false /\ s_enh s = None /\ wf_dg 3 s d /\ is_literal (s_bcl s) "periodic" = false /\
  (forall c, c <= 2 -> modes s c 0 = modes s' c 0) /\ exists s1 s1', snd (@integrate _ _ LibmSF n0 "rk3" d None (lit 3 5) (lit 1 2) 2 5 s) = Finished s1 /\
  snd (@integrate _ _ LibmSF n0 "rk3" d None (lit 3 5) (lit 1 2) 2 5 s') = Finished s1' /\ modes s1 3 0 <> modes s1' 3 0.
Proof.
  exists (open3 "zerograd" 0), (open3 "zerograd" 2), d3. split; [apply open3_wf|]. split; [apply open3_wf|].
  split; [exists n0, 0, (s_sens (open3 "zerograd" 2)), (s_u (open3 "zerograd" 2)); split; reflexivity|]. split; [reflexivity|]. split; [reflexivity|]. split; [split; vm_compute; reflexivity|]. split; [vm_compute; reflexivity|].
  split; [intros [|[|[|c]]] Hc; [vm_compute; reflexivity|vm_compute; reflexivity|vm_compute; reflexivity|lia]|].
  apply (pick_differ _ _ 3 a3 b3); [vm_compute; reflexivity|vm_compute; reflexivity|discriminate].
Qed.
(** with the limiter, which reads the right neighbour, data do travel upstream: two such runs, limited, differ in cell 2 *)
Example C91_limited : exists s s' d h, wf 3 s /\ wf 3 s' /\ (forall c, c <= 2 -> modes s c 0 = modes s' c 0) /\ is_literal (s_bcl s) "periodic" = false /\
  @Limiter _ _ ExtSF "adaptive_hr" s = Ok (Some h) /\
  exists s1 s1', snd (@integrate _ _ LibmSF n0 "rk3" d (Some h) (lit 3 5) (lit 1 2) 2 5 s) = Finished s1 /\
  snd (@integrate _ _ LibmSF n0 "rk3" d (Some h) (lit 3 5) (lit 1 2) 2 5 s') = Finished s1' /\ modes s1 2 0 <> modes s1' 2 0.
Proof.
  exists (open3 "zerograd" (-1)), (open3 "zerograd" 2), d3, h3. split; [apply open3_wf|]. split; [apply open3_wf|].
  split; [intros [|[|[|c]]] Hc; [vm_compute; reflexivity|vm_compute; reflexivity|vm_compute; reflexivity|lia]|]. split; [vm_compute; reflexivity|]. split; [vm_compute; reflexivity|].
  apply (pick_differ _ _ 2 a2 b2); [vm_compute; reflexivity|vm_compute; reflexivity|discriminate].
Qed.

Print Assumptions C91_influence.
Print Assumptions C91_periodic.
Print Assumptions C91_upstream.
Print Assumptions C91_evaluations.
Print Assumptions C91_witness.
Print Assumptions C91_limited.
