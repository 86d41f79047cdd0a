(** Properties C12, C13, C17, C18, C19: the semi-discrete scheme, conservation, locality, shifts,
    boundary conditions.  [made]/[wf] hold of every solution the constructor builds (Solution_made). *)
From Coq Require Import ZArith List Bool Arith String Lia Reals Lra.
From Verif Require Import Num Py PyStr Lib Constants LegNumpy Ext Basis Sensor Enhance Limiting EulerPhysics Solution Solver
  RKCoeffs RK SpecTime ProofsTime SpecDG ProofsDG ProofsDG2 ProofsRaise ProofsWf ProofsCons ProofsSol ProofsRel ProofsShift ProofsRun ExtReal Witness.
Import ListNotations.
Open Scope list_scope.
Open Scope nat_scope.

(** C12: the sum over the interior cells of dx times the residual of the cell averages is the flux
    through the left end minus the flux through the right end *)
Theorem C12_residual_conservative :
  forall (X : Ext R) (gamma : R) ne (s : solution R) d s1 F f,
  made ne s -> wf_dg ne s d -> f < s_NF s ->
  residual gamma d s = Ok (s1, F) ->
  exists q, (forall e, e <= ne -> iface_flux gamma s1 (modes s1) e = Ok (q e)) /\
    nsum (tab ne (fun i => s_dx s * at2 F 0 ((i + 1) * s_NF s + f))%R) = (at1 (q 0%nat) f - at1 (q ne) f)%R.
Proof. exact @residual_conservative. Qed.

(** the residual is exactly the DG semi-discretisation, cell by cell and mode by mode, for any
    arithmetic; it raises iff some interface flux raises *)
Theorem C12_residual_characterised :
  forall (A : Type) (N : Num A) (L : Libm A) (gamma : A) ne (s : solution A) d s1 F,
  wf ne s -> wf_dg ne s d ->
  residual gamma d s = Ok (s1, F) <->
  apply_bc s = Ok s1 /\
  exists q, (forall e, e <= ne -> iface_flux gamma s1 (modes s1) e = Ok (q e)) /\ F = residual_mat gamma ne s1 q.
Proof. exact @residual_char. Qed.

(** .. a failing residual fails with the exception of the first interface, from the left, whose flux fails *)
Theorem C12_residual_failure :
  forall (A : Type) (N : Num A) (L : Libm A) (gamma : A) ne (s : solution A) d, wf ne s -> wf_dg ne s d ->
  let s1 := with_u s (bc_u ne s) in
  residual gamma d s = match mapM (iface_flux gamma s1 (modes s1)) (seq 0 (ne + 1)) with
                       | Ok qs => Ok (s1, residual_mat gamma ne s1 (fun e => nth e qs []))
                       | Raise x => Raise x
                       end.
Proof. exact @residual_first. Qed.

(** C17 *)
Theorem C17_residual_local :
  forall (A : Type) (N : Num A) (L : Libm A) (gamma : A) ne (s : solution A) u d s1 F s1' F' e,
  wf ne s -> shape (s_Ns s) ((ne + 2) * s_NF s) u -> wf_dg ne s d -> 1 <= e <= ne ->
  residual gamma d s = Ok (s1, F) -> residual gamma d (with_u s u) = Ok (s1', F') ->
  let src := src_cell (s_bcl s) (s_bcr s) ne in
  (forall c f, In c [src (e - 1); e; src (e + 1)] -> f < s_NF s -> modes s c f = modes (with_u s u) c f) ->
  forall n f, n < s_Ns s -> f < s_NF s -> at2 F n (e * s_NF s + f) = at2 F' n (e * s_NF s + f).
Proof. exact @residual_local_cells. Qed.

(** C18: shifting the cells of a periodic solution by k shifts the residual by k (any arithmetic) *)
Theorem C18_residual_shift :
  forall (A : Type) (N : Num A) (L : Libm A) (gamma : A) ne k (s s' : solution A) d s1 F,
  shift_of ne k s s' -> wf_dg ne s d -> s_bcl s = pylit "periodic" -> s_bcr s = pylit "periodic" ->
  residual gamma d s = Ok (s1, F) ->
  exists s1' F', residual gamma d s' = Ok (s1', F') /\ shift_of ne k s1 s1' /\
    forall n e f, n < s_Ns s -> 1 <= e <= ne -> f < s_NF s ->
      at2 F' n (e * s_NF s + f) = at2 F n (shift_cell ne k e * s_NF s + f).
Proof. exact @shift_of_residual. Qed.
(** .. and the result of every RK step of the same length: both steps fail or both succeed with
    shifted results *)
Theorem C18_step_shift :
  forall (A : Type) (N : Num A) (L : Libm A) (gamma : A) ne k (s s' : solution A) d rk dt,
  shift_of ne k s s' -> wf_dg ne s d -> s_bcl s = pylit "periodic" -> s_bcr s = pylit "periodic" ->
  res_rel (fun p p' => shift_of ne k (fst p) (fst p'))
    (rk_inner gamma rk d None dt s {| sc_us := s; sc_uk := s; sc_K := rk_K0 rk s |})
    (rk_inner gamma rk d None dt s' {| sc_us := s'; sc_uk := s'; sc_K := rk_K0 rk s' |}).
Proof. exact @shift_of_step. Qed.
(** .. and whole runs in exact arithmetic: same times and step counts, shifted snapshots, same way
    of ending *)
Theorem C18_run_shift :
  forall (gamma : R) ne k (s s' : solution R) d rk cfl tf nout fuel,
  shift_of ne k s s' -> wf_dg ne s d -> s_bcl s = pylit "periodic" -> s_bcr s = pylit "periodic" ->
  apply_bc s = Ok s -> apply_bc s' = Ok s' ->
  let r := integrate gamma rk d None cfl tf nout fuel s in
  let r' := integrate gamma rk d None cfl tf nout fuel s' in
  Forall2 (fun ev ev' => ev_nout ev = ev_nout ev' /\ ev_dt ev = ev_dt ev' /\ shift_of ne k (ev_sol ev) (ev_sol ev')) (fst r) (fst r')
  /\ out_rel (shift_of ne k) (snd r) (snd r').
Proof. exact @shift_of_run. Qed.

(** C19 *)
Theorem C19_apply_bc :
  forall (A : Type) (N : Num A) ne (s : solution A), wf ne s ->
  exists s', apply_bc s = Ok s' /\ similar s s' /\ wf ne s' /\
    forall e f, e < ne + 2 -> f < s_NF s -> modes s' e f = modes s (src_cell (s_bcl s) (s_bcr s) ne e) f.
Proof. exact @apply_bc_modes. Qed.
Theorem C19_apply_bc_idempotent :
  forall (A : Type) (N : Num A) ne (s s' : solution A), wf ne s -> apply_bc s = Ok s' -> apply_bc s' = Ok s'.
Proof. exact @apply_bc_idem. Qed.
Theorem C19_ghosts_after_step :
  forall (A : Type) (N : Num A) (L : Libm A) (gamma : A) ne (sol0 : solution A) d rk l cfl tf nout k tout touts s sc evs s' sc' r,
  wf ne sol0 -> wf_dg ne sol0 d ->
  visits gamma rk d l cfl tf nout sol0 k tout touts s sc evs ->
  time_step gamma (rk_inner gamma rk d l) l cfl tf tout s sc = Ok (s', sc', r) ->
  apply_bc s' = Ok s'.
Proof. exact @step_bc_fixed. Qed.
Example C19_cells : map (src_cell (pylit "periodic") (pylit "periodic") 4) [0; 1; 2; 3; 4; 5] = [4; 1; 2; 3; 4; 1]
  /\ map (src_cell (pylit "zerograd") (pylit "zerograd") 4) [0; 1; 2; 3; 4; 5] = [1; 1; 2; 3; 4; 4].
Proof. split; reflexivity. Qed.

(** the entropy wave on eight cells, with its ghosts set, and the same cells shifted by k (after one apply_bc); the residual succeeds;
    changing the sixth cell leaves the stencil of the second one alone *)
Example C12_C19_witness : forall gamma p k riemann, riemann_choice true riemann <> RGodunov ->
  exists (s s' : solution R) u d s1 F s1' F',
  @made ExtReal 8 s /\ wf_dg 8 s d /\ s_NF s = 3 /\ b_p (s_basis s) = p /\ apply_bc s = Ok s /\ apply_bc s' = Ok s' /\
  s_bcl s = pylit "periodic" /\ s_bcr s = pylit "periodic" /\ shift_of 8 k s s' /\
  residual gamma d s = Ok (s1, F) /\
  shape (s_Ns s) (10 * s_NF s) u /\ residual gamma d (with_u s u) = Ok (s1', F') /\
  (forall c f, In c (map (src_cell (s_bcl s) (s_bcr s) 8) [1; 2; 3]) -> f < 3 -> modes s c f = modes (with_u s u) c f) /\ s_u s <> u.
Proof.
  intros gamma p k riemann HR. destruct (entropy_built p riemann) as [s0 [d [B [_ [D0 [E1 [E2 _]]]]]]].
  pose proof (bl_made _ _ _ _ _ _ _ B) as M0. pose proof (bl_p _ _ _ _ _ _ _ B) as Bp. pose proof (bl_euler _ _ _ _ _ _ _ B : s_euler s0 = true) as Eu.
  destruct (C19_apply_bc R NumR 8 s0 (md_wf _ _ M0)) as [s [B0 [Sim [W _]]]].
  pose proof (C19_apply_bc_idempotent R NumR 8 s0 s (md_wf _ _ M0) B0) as Bs.
  assert (M : @made ExtReal 8 s) by (eapply made_similar; [exact M0|exact Sim|exact W]).
  assert (K : s_NF s = 3 /\ b_p (s_basis s) = p /\ s_bcl s = pylit "periodic" /\ s_bcr s = pylit "periodic" /\ wf_dg 8 s d /\ s_riemann s <> RGodunov).
  { destruct Sim as [t [n [sn [u [E _]]]]]. subst s. split; [unfold s_NF; cbn [with_u with_sens with_n with_t s_euler]; rewrite Eu; reflexivity|]. split; [exact Bp|].
    split; [exact E1|]. split; [exact E2|]. split; [exact D0|]. change (s_riemann s0 <> RGodunov). rewrite (bl_riemann _ _ _ _ _ _ _ B). exact HR. }
  destruct K as [NF [K2 [K3 [K4 [D HR']]]]].
  set (us := tab2 (s_Ns s) ((8 + 2) * s_NF s) (fun n j => at2 (s_u s) n (shift_cell 8 k (j / s_NF s) * s_NF s + j mod s_NF s))).
  assert (Wu : wf 8 (with_u s us)) by (apply wf_with_u; [exact W|apply shape_tab2]).
  set (s' := with_u (with_u s us) (bc_u 8 (with_u s us))).
  assert (B' : apply_bc (with_u s us) = Ok s') by (apply apply_bc_eq; exact Wu).
  pose proof (C19_apply_bc_idempotent R NumR 8 _ s' Wu B') as Bs'.
  set (u := tab2 (s_Ns s) ((8 + 2) * s_NF s) (fun n j => if (j =? 18)%nat then (at2 (s_u s) n j + 1)%R else at2 (s_u s) n j)).
  assert (W2 : wf 8 (with_u s u)) by (apply wf_with_u; [exact W|apply shape_tab2]).
  destruct (residual_total gamma 8 s d W D HR') as [s1 [F R1]]. destruct (residual_total gamma 8 (with_u s u) d W2 D HR') as [s1' [F' R2]].
  exists s, s', u, d, s1, F, s1', F'.
  assert (Ns : 1 <= s_Ns s) by (unfold s_Ns, b_Ns; lia).
  repeat (split; [first [exact M|exact D|exact NF|exact K2|exact Bs|exact Bs'|exact K3|exact K4]|]).
  assert (L : forall (a b : solution R) c c' f, wf 8 a -> wf 8 b -> s_Ns a = s_Ns s -> s_Ns b = s_Ns s ->
    (forall n, n < s_Ns s -> at1 (modes a c f) n = at1 (modes b c' f) n) -> modes a c f = modes b c' f).
  { intros a b c c' f Wa Wb Na Nb H. apply (nth_ext _ _ n0 n0).
    - rewrite (length_modes 8 a), (length_modes 8 b) by assumption. congruence.
    - intros n Hn. rewrite (length_modes 8 a), Na in Hn by assumption. apply H. exact Hn. }
  assert (Q : forall e f, f < s_NF s -> (e * s_NF s + f) / s_NF s = e /\ (e * s_NF s + f) mod s_NF s = f).
  { intros e f Hf. split; [rewrite Nat.div_add_l, Nat.div_small; lia|]. rewrite (Nat.add_comm (e * s_NF s)), Nat.mod_add, Nat.mod_small; lia. }
  split.
  { split; [exact W|]. split; [apply wf_apply_bc; exact Wu|]. split.
    { change s' with (with_u s (bc_u 8 (with_u s us))). apply similar_with_u. }
    split; [reflexivity|]. split; [reflexivity|].
    intros e f He Hf. unfold s'. rewrite (modes_bc 8 (with_u s us) e f Wu) by (first [lia|exact Hf]).
    replace (src_cell (s_bcl (with_u s us)) (s_bcr (with_u s us)) 8 e) with e.
    2:{ change (s_bcl (with_u s us)) with (s_bcl s). change (s_bcr (with_u s us)) with (s_bcr s). rewrite K3, K4.
        unfold src_cell. destruct (e =? 0) eqn:X0; [apply Nat.eqb_eq in X0; lia|]. destruct (e =? 8 + 1) eqn:X1; [apply Nat.eqb_eq in X1; lia|]. reflexivity. }
    assert (Sr : 1 <= shift_cell 8 k e <= 8) by (apply shift_range; lia).
    apply L; [exact Wu|exact W|reflexivity|reflexivity|]. intros n Hn.
    rewrite (modes_at 8 (with_u s us)) by (first [exact Wu|exact Hf|exact Hn|lia]). rewrite (modes_at 8 s) by (first [exact W|exact Hf|exact Hn|lia]).
    change (s_NF (with_u s us)) with (s_NF s). cbn [with_u s_u]. unfold us.
    rewrite at2_tab2 by (first [exact Hn|rewrite NF in *; lia]). destruct (Q e f Hf) as [Q1 Q2]. rewrite Q1, Q2. reflexivity. }
  split; [exact R1|]. split; [apply shape_tab2|]. split; [exact R2|]. split.
  - intros c f Hc Hf. rewrite K3, K4 in Hc. cbn in Hc. assert (c <= 3) by lia.
    apply L; [exact W|exact W2|reflexivity|reflexivity|]. intros n Hn.
    rewrite (modes_at 8 (with_u s u)) by (first [exact W2|exact Hn|lia|change (s_NF (with_u s u)) with (s_NF s); lia]). rewrite (modes_at 8 s) by (first [exact W|exact Hn|lia]).
    change (s_NF (with_u s u)) with (s_NF s). cbn [with_u s_u]. unfold u.
    rewrite at2_tab2 by (first [exact Hn|rewrite NF in *; lia]). replace (c * s_NF s + f =? 18) with false; [reflexivity|].
    symmetry. apply Nat.eqb_neq. rewrite NF. lia.
  - intro E. assert (E0 : at2 (s_u s) 0 18 = at2 u 0 18) by (rewrite <- E; reflexivity). unfold u in E0. rewrite at2_tab2 in E0 by (rewrite ?NF; lia). cbn [Nat.eqb] in E0. lra.
Qed.

(** what the constructor builds satisfies the hypotheses above *)
Theorem constructed_solutions_are_made :
  forall (X : Ext R) icline system order riemann enh th (s : solution R) g,
  (forall n, 1 <= n -> List.length (fst (leggauss n)) = n) ->
  ic_succeeds icline system order riemann ->
  Solution icline system order riemann enh th = Ok (s, g) -> (1 <= s_NE s)%Z -> enh_lengths s ->
  made (Z.to_nat (s_NE s)) s.
Proof. exact @Solution_made. Qed.

Print Assumptions C12_residual_conservative.
Print Assumptions C12_residual_characterised.
Print Assumptions C12_residual_failure.
Print Assumptions C17_residual_local.
Print Assumptions C18_residual_shift.
Print Assumptions C18_step_shift.
Print Assumptions C18_run_shift.
Print Assumptions C19_apply_bc.
Print Assumptions C19_apply_bc_idempotent.
Print Assumptions C19_ghosts_after_step.
Print Assumptions constructed_solutions_are_made.
