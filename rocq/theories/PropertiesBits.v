(** C81: data that are the same polynomial in every cell, between boundaries that copy a neighbour or the other end.
    In every arithmetic the cells stay identical for the whole run; in binary64 the averages never move: whatever the order, the
    Runge-Kutta option, the Riemann solver, the enhancement, the libm and the library routines, an average printed by the run is
    the starting one (zeros of either sign being equal) or NaN. *)
From Coq Require Import ZArith List Bool Arith String Lia Reals Floats.SpecFloat.
From Verif Require Import Num Py PyStr Lib LegNumpy Ext Basis Constants Sensor Enhance Limiting AdvectionPhysics EulerPhysics IC
  Solution Solver RKCoeffs RK Standins SpecTime ProofsTime SpecDG ProofsDG ProofsDG2 ProofsWf ProofsCons ProofsRel ProofsShift ProofsSol ProofsStageLimit ProofsBits ProofsShiftBits.
Import ListNotations.
Open Scope list_scope.
Open Scope nat_scope.

(** boundary conditions that fill the ghost cells with interior cells *)
Definition filled {A} (s : solution A) : Prop :=
  In (s_bcl s) [pylit "periodic"; pylit "zerograd"] /\ In (s_bcr s) [pylit "periodic"; pylit "zerograd"].
(** the same coefficients in the cells 1..ne *)
Definition one_polynomial {A} {N : Num A} ne (s : solution A) : Prop :=
  forall e f, 1 <= e <= ne -> f < s_NF s -> modes s e f = modes s 1 f.

Theorem C81_cells_alike : forall (A : Type) (N : Num A) (L : Libm A) (X : Ext A) (gamma : A) ne p (sol0 : solution A) d rk cfl tf nout fuel evs out,
  wf ne sol0 -> wf_dg ne sol0 d -> s_basis sol0 = Basis p -> filled sol0 -> one_polynomial ne sol0 ->
  integrate gamma rk d None cfl tf nout fuel sol0 = (evs, out) ->
  Forall (fun ev => one_polynomial ne (ev_sol ev)) evs /\ (forall s, out = Finished s -> one_polynomial ne s).
Proof.
  intros A N L X gamma ne p sol0 d rk cfl tf nout fuel evs out W D Hb [B1 B2] H E.
  destruct (alike_run gamma (fun _ => True) (fun _ _ => True) I (fun _ _ _ _ => I) (fun _ _ _ _ => I) (fun _ _ _ => I) (fun _ _ _ => I) (fun _ => I) (fun _ _ _ _ _ => I)
    ne p sol0 d W D Hb B1 B2 rk cfl tf nout fuel evs out) as [R1 R2]; [split; [split; [exact W|apply similar_refl]|split; [exact H|intros; exact I]]|exact E|].
  assert (K : forall s, Alike (fun _ _ => True) ne sol0 s -> one_polynomial ne s).
  { intros s [W' [H' _]] e f He Hf. apply H'; [exact He|]. rewrite <- (similar_NF _ _ (proj2 W')). exact Hf. }
  split; [revert R1; apply Forall_impl; intros ev; apply K|]. intros s Hs. apply K, R2, Hs.
Qed.
Print Assumptions C81_cells_alike.

Theorem C81_averages_stay : forall (L : Libm spec_float) (X : Ext spec_float) (gamma : spec_float) ne p (sol0 : solution spec_float) d rk cfl tf nout fuel evs out,
  wf ne sol0 -> wf_dg ne sol0 d -> s_basis sol0 = Basis p -> filled sol0 -> one_polynomial ne sol0 ->
  integrate gamma rk d None cfl tf nout fuel sol0 = (evs, out) ->
  let stays s := forall e f, 1 <= e <= ne -> f < s_NF sol0 ->
    at1 (modes s e f) 0 = S754_nan \/ SFeqb (at1 (modes s e f) 0) (at1 (modes sol0 e f) 0) = true in
  Forall (fun ev => stays (ev_sol ev)) evs /\ (forall s, out = Finished s -> stays s).
Proof.
  intros L X gamma ne p sol0 d rk cfl tf nout fuel evs out W D Hb [B1 B2] H E stays.
  destruct (alike_run gamma nought (fun f => same_or_nan (at1 (modes sol0 1 f) 0)) nought_0 nought_add nought_sub nought_mul_l nought_mul_r nought_self (fun f => same_add _)
    ne p sol0 d W D Hb B1 B2 rk cfl tf nout fuel evs out) as [R1 R2]; [split; [split; [exact W|apply similar_refl]|split; [exact H|intros; apply SFeqb_self]]|exact E|].
  assert (K : forall s, Alike (fun f => same_or_nan (at1 (modes sol0 1 f) 0)) ne sol0 s -> stays s).
  { intros s [W' [H' H2]] e f He Hf. rewrite (H' e f He Hf), (H e f He Hf). apply H2. exact Hf. }
  split; [revert R1; apply Forall_impl; intros ev; apply K|]. intros s Hs. apply K, R2, Hs.
Qed.
Print Assumptions C81_averages_stay.

(** in exact arithmetic the averages are the starting ones *)
Theorem C81_averages_real : forall (L : Libm R) (X : Ext R) (gamma : R) ne p (sol0 : solution R) d rk cfl tf nout fuel evs out,
  wf ne sol0 -> wf_dg ne sol0 d -> s_basis sol0 = Basis p -> filled sol0 -> one_polynomial ne sol0 ->
  integrate gamma rk d None cfl tf nout fuel sol0 = (evs, out) ->
  let stays s := forall e f, 1 <= e <= ne -> f < s_NF sol0 -> at1 (modes s e f) 0 = at1 (modes sol0 e f) 0 in
  Forall (fun ev => stays (ev_sol ev)) evs /\ (forall s, out = Finished s -> stays s).
Proof.
  intros L X gamma ne p sol0 d rk cfl tf nout fuel evs out W D Hb [B1 B2] H E stays.
  assert (Z0 : n0 (A := R) = 0%R) by reflexivity.
  assert (Za : forall x y : R, x = 0%R -> y = 0%R -> nadd x y = 0%R) by (cbn; intros; subst; ring).
  assert (Zs : forall x y : R, x = 0%R -> y = 0%R -> nsub x y = 0%R) by (cbn; intros; subst; ring).
  assert (Zl : forall x y : R, x = 0%R -> nmul x y = 0%R) by (cbn; intros; subst; ring).
  assert (Zr : forall x y : R, y = 0%R -> nmul x y = 0%R) by (cbn; intros; subst; ring).
  assert (Zx : forall x : R, nsub x x = 0%R) by (cbn; intros; ring).
  assert (Zv : forall f (x z : R), x = at1 (modes sol0 1 f) 0 -> z = 0%R -> nadd x z = at1 (modes sol0 1 f) 0) by (cbn; intros; subst; ring).
  destruct (alike_run gamma (fun x => x = 0%R) (fun f x => x = at1 (modes sol0 1 f) 0) Z0 Za Zs Zl Zr Zx Zv
    ne p sol0 d W D Hb B1 B2 rk cfl tf nout fuel evs out) as [R1 R2]; [split; [split; [exact W|apply similar_refl]|split; [exact H|reflexivity]]|exact E|].
  assert (K : forall s, Alike (fun f x => x = at1 (modes sol0 1 f) 0) ne sol0 s -> stays s).
  { intros s [W' [H' H2]] e f He Hf. rewrite (H' e f He Hf), (H e f He Hf). apply H2. exact Hf. }
  split; [revert R1; apply Forall_impl; intros ev; apply K|]. intros s Hs. apply K, R2, Hs.
Qed.
Print Assumptions C81_averages_real.

(** decks that start so: scktube with the same density, velocity and pressure on both sides, in every arithmetic *)
Theorem C81_still_tube : forall (A : Type) (N : Num A) (L : Libm A) (X : Ext A) icline system order riem enh th (s : solution A) g params,
  split_ws icline = "scktube"%string :: params -> (forall i, In i [2; 3; 4] -> float_param (A := A) params (i + 3) = float_param params i) ->
  ic_succeeds (A := A) icline system order riem -> Solution icline system order riem enh th = Ok (s, g) -> (1 <= s_NE s)%Z ->
  one_polynomial (Z.to_nat (s_NE s)) s /\ filled s.
Proof.
  intros A N L X icline system order riem enh th s g params H1 H2 H3 H4 H5. destruct (still_start _ _ _ _ _ _ s g params H1 H2 H3 H4 H5) as [K1 [K2 K3]].
  split; [exact K1|]. unfold filled. rewrite K2, K3. split; cbn; auto.
Qed.
Print Assumptions C81_still_tube.

(** such a deck, read in binary64 *)
Definition still_line : string := "scktube 4 0.0 1.0 0.5 1.0 1.0 0.5 1.0".
Definition ExtB : Ext spec_float := {|
  leggauss := fun n => if n =? 2 then gaussSF 2 else (repeat n0 n, repeat n0 n); linv := gj_inv; legfit := quad_fit gaussSF; parse_float := parse_decimal; fmt_e18 := fun _ => EmptyString |}.
Definition still_built : res (solution spec_float * spec_float) := @Solution _ NumSF LibmSF ExtB still_line "euler" 1 "roe" "" [].
Example C81_deck : exists s g d, still_built = Ok (s, g) /\ DG s = Ok d /\ wf 4 s /\ wf_dg 4 s d /\ s_basis s = @Basis _ NumSF ExtB 1 /\ filled s /\ one_polynomial 4 s /\
  at1 (modes s 1 1) 0 = SFdiv prec64 emax64 n1 (nofZ 2).
Proof.
  assert (E : exists s g, still_built = Ok (s, g) /\ s_NE s = 4%Z /\ s_enh s = None /\ at1 (modes s 1 1) 0 = SFdiv prec64 emax64 n1 (nofZ 2)).
  { vm_compute. do 2 eexists. split; [reflexivity|]. split; [reflexivity|]. split; reflexivity. }
  destruct E as [s [g [E [NE [En Hm]]]]]. exists s, g.
  assert (Hic : @ic_succeeds _ NumSF LibmSF ExtB still_line "euler" 1 "roe") by (vm_compute; reflexivity).
  pose proof E as E1. unfold still_built in E1. apply Solution_wf in E1; [|intros n Hn; cbn; destruct (Nat.eqb_spec n 2); [subst; reflexivity|apply repeat_length]|exact Hic|lia|unfold enh_lengths; rewrite En; exact I].
  rewrite NE in E1. destruct E1 as [W B]. destruct (DG_total 4 s W) as [d D]. exists d.
  destruct (C81_still_tube _ _ LibmSF ExtB still_line "euler" 1 "roe" "" [] s g ["4"; "0.0"; "1.0"; "0.5"; "1.0"; "1.0"; "0.5"; "1.0"]%string eq_refl) as [F1 F2];
    [intros i [<-|[<-|[<-|[]]]]; vm_compute; reflexivity|exact Hic|exact E|lia|]. rewrite NE in F1.
  split; [exact E|]. split; [exact D|]. split; [exact W|]. split; [apply DG_wf; assumption|]. split; [exact B|]. split; [exact F2|]. split; [exact F1|exact Hm].
Qed.

(** C18 for whole runs in floating point: the snapshots of the shifted run are the shifted snapshots, bit for bit (the model adds up
    the products of every column in the same order). Linear advection in any arithmetic .. *)
Theorem C18_run_shift_advection :
  forall (A : Type) (N : Num A) (L : Libm A) (gamma : A) ne k (s s' : solution A) d rk cfl tf nout fuel, s_euler s = false ->
  shift_of ne k s s' -> wf_dg ne s d -> s_bcl s = pylit "periodic" -> s_bcr s = pylit "periodic" ->
  apply_bc s = Ok s -> apply_bc s' = Ok s' ->
  let r := integrate gamma rk d None cfl tf nout fuel s in
  let r' := integrate gamma rk d None cfl tf nout fuel s' in
  Forall2 (fun ev ev' => ev_nout ev = ev_nout ev' /\ ev_dt ev = ev_dt ev' /\ shift_of ne k (ev_sol ev) (ev_sol ev')) (fst r) (fst r')
  /\ out_rel (shift_of ne k) (snd r) (snd r').
Proof. exact @shift_of_run_advection. Qed.
Print Assumptions C18_run_shift_advection.
(** .. and both systems in binary64, NaN and infinities included *)
Theorem C18_run_shift_float :
  forall (L : Libm spec_float) (gamma : spec_float) ne k (s s' : solution spec_float) d rk cfl tf nout fuel,
  shift_of ne k s s' -> wf_dg ne s d -> s_bcl s = pylit "periodic" -> s_bcr s = pylit "periodic" ->
  apply_bc s = Ok s -> apply_bc s' = Ok s' ->
  let r := integrate gamma rk d None cfl tf nout fuel s in
  let r' := integrate gamma rk d None cfl tf nout fuel s' in
  Forall2 (fun ev ev' => ev_nout ev = ev_nout ev' /\ ev_dt ev = ev_dt ev' /\ shift_of ne k (ev_sol ev) (ev_sol ev')) (fst r) (fst r')
  /\ out_rel (shift_of ne k) (snd r) (snd r').
Proof. exact @shift_of_run_sf. Qed.
Print Assumptions C18_run_shift_float.

(** three periodic cells of gas with different densities, velocities and energies, and the same cells shifted by two *)
Definition gas (a b c : Z * Z * Z) : solution spec_float :=
  let l := map nofZ (List.concat (map (fun '(r, m, E) => [r; m; E]) [c; a; b; c; a])) in
  {| s_basis := @Basis _ NumSF ExtB 1; s_icname := ""; s_params := []; s_t := n0; s_n := 0; s_NE := 3;
     s_x := map nofZ [0; 1; 2; 3]%Z; s_xc := map (fun z => lit z 2) [1; 3; 5]%Z; s_dx := n1;
     s_u := [l; map (fun _ => n0) l]; s_minv := [n1; nofZ 3];
     s_euler := true; s_riemann := RRoe; s_bcl := pylit "periodic"; s_bcr := pylit "periodic";
     s_enh := None; s_sens := None |}.
Lemma gas_wf a b c : wf 3 (gas a b c).
Proof.
  destruct a as [[a1 a2] a3], b as [[b1 b2] b3], c as [[c1 c2] c3]. constructor.
  - lia.
  - reflexivity.
  - vm_compute. lia.
  - apply shape_lit. reflexivity.
  - apply shape_lit. vm_compute. reflexivity.
  - apply shape_lit. vm_compute. reflexivity.
  - apply shape_lit. vm_compute. reflexivity.
  - reflexivity.
  - split; [discriminate|intro H; discriminate H].
  - exact I.
  - reflexivity.
  - reflexivity.
Qed.
Example C18_float_witness : let a := (1, 2, 9)%Z in let b := (3, 1, 7)%Z in let c := (2, -1, 5)%Z in
  exists d, DG (gas a b c) = Ok d /\ wf_dg 3 (gas a b c) d /\ shift_of 3 2 (gas a b c) (gas c a b) /\
  apply_bc (gas a b c) = Ok (gas a b c) /\ apply_bc (gas c a b) = Ok (gas c a b) /\
  (exists s, snd (@integrate _ NumSF LibmSF (lit 7 5) "rk3" d None (lit 1 2) (lit 1 10) 2 20 (gas a b c)) = Finished s /\ s_n s = 3 /\
     modes s 1 0 <> modes (gas a b c) 1 0).
Proof.
  intros a b c. destruct (DG_total 3 (gas a b c) (gas_wf a b c)) as [d D]. exists d. split; [exact D|].
  split; [apply DG_wf; [apply gas_wf|exact D]|]. split.
  { split; [apply gas_wf|]. split; [apply gas_wf|]. split; [exists n0, 0, None, (s_u (gas c a b)); split; reflexivity|].
    split; [reflexivity|]. split; [reflexivity|]. intros e f He Hf. change (s_NF (gas a b c)) with 3 in Hf.
    assert (K : e = 1 \/ e = 2 \/ e = 3) by lia. assert (K' : f = 0 \/ f = 1 \/ f = 2) by lia.
    destruct K as [K|[K|K]], K' as [K'|[K'|K']]; subst e f; vm_compute; reflexivity. }
  split; [vm_compute; reflexivity|]. split; [vm_compute; reflexivity|].
  vm_compute in D. injection D as <-. vm_compute. eexists. split; [reflexivity|]. split; [reflexivity|discriminate].
Qed.
