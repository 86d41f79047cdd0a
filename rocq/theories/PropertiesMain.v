(** Properties C47, C51, C52 (decks) and C53: what main.py and the Solution constructor do. *)
From Coq Require Import ZArith List Bool Arith String Reals Lra Lia.
From Coq Require Import Floats.SpecFloat.
From Verif Require Import Num Py PyStr Lib RealLib Constants LegNumpy Ext Basis Sensor Enhance Limiting AdvectionPhysics EulerPhysics IC Solution Solver
  RKCoeffs RK IO Deck Main SpecTime ProofsTime SpecDG SpecPoly ProofsDG ProofsWf ProofsCons ProofsSol ProofsIC ProofsMain ExtReal Witness Standins ProofsStageLimit.
Import ListNotations.
Open Scope list_scope.
Open Scope R_scope.

(** C47.  [stillborn]: the run does not finish, and it writes nothing or a single snapshot, number 0, without any cell. *)
Theorem C47_unknown_ic : forall (X : Ext R) fuel (d : deck R) name,
  hd_error (split_ws (dk_ic d)) = Some name ->
  ~ In name ["sinewave"; "simplew"; "entrpyw"; "acsticw"; "scktube"; "shuoshe"; "ictest"]%string ->
  let '(evs, out) := run_deck fuel d in
  (forall s, out <> Finished s) /\ (evs = [] \/ exists ev, evs = [ev] /\ ev_nout ev = 0%nat /\ s_xc (ev_sol ev) = []).
Proof.
  intros X fuel d name H1 H2. pose proof (invalid_ic_run fuel d no_step_R (unknown_ic_invalid d name H1 H2)) as H.
  destruct (run_deck fuel d). exact H.
Qed.
Theorem C47_unknown_ic_float : forall (L : Libm spec_float) (X : Ext spec_float) fuel (d : deck spec_float) name,
  hd_error (split_ws (dk_ic d)) = Some name ->
  ~ In name ["sinewave"; "simplew"; "entrpyw"; "acsticw"; "scktube"; "shuoshe"; "ictest"]%string ->
  let '(evs, out) := run_deck fuel d in
  (forall s, out <> Finished s) /\ (evs = [] \/ exists ev, evs = [ev] /\ ev_nout ev = 0%nat /\ s_xc (ev_sol ev) = []).
Proof.
  intros L X fuel d name H1 H2. pose proof (invalid_ic_run fuel d no_step_SF (unknown_ic_invalid d name H1 H2)) as H.
  destruct (run_deck fuel d). exact H.
Qed.
(** any initial condition that raises on the way (missing or unreadable parameters, too few fields for the system, ...), or has
    no cells *)
Theorem C47_invalid_ic : forall (X : Ext R) fuel (d : deck R), ~ ic_valid d ->
  let '(evs, out) := run_deck fuel d in
  (forall s, out <> Finished s) /\ (evs = [] \/ exists ev, evs = [ev] /\ ev_nout ev = 0%nat /\ s_xc (ev_sol ev) = []).
Proof. intros X fuel d H. pose proof (invalid_ic_run fuel d no_step_R H) as K. destruct (run_deck fuel d). exact K. Qed.
Theorem C47_invalid_ic_float : forall (L : Libm spec_float) (X : Ext spec_float) fuel (d : deck spec_float), ~ ic_valid d ->
  let '(evs, out) := run_deck fuel d in
  (forall s, out <> Finished s) /\ (evs = [] \/ exists ev, evs = [ev] /\ ev_nout ev = 0%nat /\ s_xc (ev_sol ev) = []).
Proof. intros L X fuel d H. pose proof (invalid_ic_run fuel d no_step_SF H) as K. destruct (run_deck fuel d). exact K. Qed.
Theorem C47_scktube_parameters : forall (A : Type) (N : Num A) (L : Libm A) (X : Ext A) fuel (d : deck A) params,
  (0 <= dk_order d)%Z -> split_ws (dk_ic d) = "scktube"%string :: params -> List.length params <> 8%nat ->
  exists m, run_deck fuel d = ([], Failed (SysExit m)).
Proof. exact @scktube_params. Qed.
(** a misspelt name: snapshot 0 is written, then the program exits *)
Example C47_witness :
  let d := {| dk_system := "advection"; dk_rk := "rk4"; dk_riemann := ""; dk_ic := "sinwave 8"; dk_nout := 10; dk_finaltime := n1;
              dk_cfl := lit 1 2; dk_order := 1; dk_limiting := ""; dk_enhance := ""; dk_thresholds := [] |} in
  exists ev, @run_deck _ _ LibmSF ExtSF 5 d = ([ev], Failed (SysExit "Next time step is too small")).
Proof. cbv zeta. eexists. vm_compute. reflexivity. Qed.
(** a one-field initial condition for the Euler system raises inside the constructor and is swallowed there *)
Example C47_witness_fields :
  let d := {| dk_system := "euler"; dk_rk := "rk4"; dk_riemann := ""; dk_ic := "sinewave 8"; dk_nout := 10; dk_finaltime := n1;
              dk_cfl := lit 1 2; dk_order := 1; dk_limiting := ""; dk_enhance := ""; dk_thresholds := [] |} in
  ~ @ic_valid _ _ LibmSF ExtSF d /\ @run_deck _ _ LibmSF ExtSF 5 d = ([], Failed ValueError).
Proof. cbv zeta. split; [|vm_compute; reflexivity]. intros [H _]. vm_compute in H. discriminate. Qed.

(** C52: decks *)
Theorem C52_deck : forall (A : Type) (N : Num A) (L : Libm A) (X : Ext A) fuel (d : deck A),
  dk_limiting d = "adaptive_hr"%string ->
  (List.length (dk_thresholds d) < (if String.eqb (dk_system d) "euler" then 2 else 1))%nat ->
  exists e, run_deck fuel d = ([], Failed e).
Proof. exact @few_thresholds_deck. Qed.
Example C52_deck_witness :
  let d th := {| dk_system := "euler"; dk_rk := "rk4"; dk_riemann := ""; dk_ic := "entrpyw 4"; dk_nout := 10; dk_finaltime := n1;
              dk_cfl := lit 1 2; dk_order := 1; dk_limiting := "adaptive_hr"; dk_enhance := ""; dk_thresholds := th |} in
  @run_deck _ _ LibmSF ExtSF 0 (d []) = ([], Failed AttributeError) /\
  @run_deck _ _ LibmSF ExtSF 0 (d [lit 1 10]) = ([], Failed IndexError) /\
  exists ev, @run_deck _ _ LibmSF ExtSF 0 (d [lit 1 10; lit 1 10]) = ([ev], OutOfFuel).
Proof. cbv zeta. split; [vm_compute; reflexivity|]. split; [vm_compute; reflexivity|]. eexists. vm_compute. reflexivity. Qed.

(** C53 *)
Theorem C53_mesh : forall (X : Ext R) icline system order riem enh th (s : solution R) g,
  ic_succeeds icline system order riem -> Solution icline system order riem enh th = Ok (s, g) -> (1 <= s_NE s)%Z ->
  let ne := Z.to_nat (s_NE s) in
  exists name params a b, split_ws icline = name :: params /\ domain name = (a, b) /\ a < b /\
    List.length (s_x s) = (ne + 1)%nat /\ at1 (s_x s) 0 = a /\ at1 (s_x s) ne = b /\ s_dx s = (b - a) / INR ne /\
    (forall i, (i < ne)%nat -> at1 (s_x s) (i + 1) - at1 (s_x s) i = s_dx s) /\
    List.length (s_xc s) = ne /\ (forall i, (i < ne)%nat -> at1 (s_xc s) i = (at1 (s_x s) i + at1 (s_x s) (i + 1)) / 2) /\
    List.length (s_minv s) = (order + 1)%nat /\ (forall n, (n <= order)%nat -> at1 (s_minv s) n = INR (2 * n + 1) / s_dx s).
Proof.
  intros X icline system order riem enh th s g Hic H HNE ne. destruct (Solution_mesh _ _ _ _ _ _ _ _ Hic H HNE) as [name [params [ic [H1 [H2 H3]]]]].
  exists name, params, (ic_A ic), (ic_B ic). destruct (ic_lookup_domain _ _ _ _ H2) as [E _]. split; [exact H1|]. split; [symmetry; exact E|]. exact H3.
Qed.
(** every initial condition with a readable, non-negative cell count and enough fields succeeds *)
Theorem C53_constructible : forall (X : Ext R) icline system order riem name params p0 NE ic,
  split_ws icline = name :: params -> ic_lookup (A:=R) name params gamma_default = Ok ic ->
  nth_error params 0 = Some p0 -> parse_int p0 = Some (Z.of_nat NE) ->
  ((if String.eqb system "euler" then 3 else 1) <= (if (String.eqb name "sinewave" || String.eqb name "ictest")%bool then 1 else 3))%nat ->
  ic_succeeds (A:=R) icline system order riem /\ exists s g, Solution (A:=R) icline system order riem "" [] = Ok (s, g) /\ s_NE s = Z.of_nat NE.
Proof.
  intros X icline system order riem name params p0 NE ic H1 H2 H3 H4 H5. split; [exact (ic_ok _ _ _ _ _ _ _ _ _ H1 H2 H3 H4 H5)|].
  destruct (Solution_ok icline system order riem name params p0 NE ic H1 H2 H3 H4 H5) as [s [E1 E2]]. eauto.
Qed.
Example C53_witness : forall (X : Ext R) order, exists s g,
  ic_succeeds (A:=R) "simplew 16" "euler" order "roe" /\ Solution (A:=R) "simplew 16" "euler" order "roe" "" [] = Ok (s, g) /\ (1 <= s_NE s)%Z.
Proof.
  intros X order. destruct (C53_constructible X "simplew 16" "euler" order "roe" "simplew" ["16"%string] "16" 16 _ eq_refl eq_refl eq_refl eq_refl) as [H [s [g [E1 E2]]]]; [cbn; lia|].
  exists s, g. split; [exact H|]. split; [exact E1|]. rewrite E2. lia.
Qed.

(** C51: constants.gamma is the last constructed solution's *)
Theorem C51_gamma_partial : forall (A : Type) (N : Num A) (L : Libm A) (X : Ext A) icline system order riem enh th s g,
  Solution (A:=A) icline system order riem enh th = Ok (s, g) ->
  g = if match split_ws icline with name :: _ => String.eqb name "simplew" | [] => false end then nofZ 3 else gamma_default.
Proof. exact @Solution_gamma. Qed.
(** two constructions that agree on being simplew do not influence each other *)
Theorem C51_same_kind_partial : forall (A : Type) (N : Num A) (L : Libm A) (X : Ext A) ic1 sy1 or1 ri1 en1 th1 s1 g1 ic2 sy2 or2 ri2 en2 th2 s2 g2,
  Solution (A:=A) ic1 sy1 or1 ri1 en1 th1 = Ok (s1, g1) -> Solution (A:=A) ic2 sy2 or2 ri2 en2 th2 = Ok (s2, g2) ->
  (hd_error (split_ws ic1) = Some "simplew"%string <-> hd_error (split_ws ic2) = Some "simplew"%string) ->
  forall ug ul ur, interior_flux g2 s1 ug = interior_flux g1 s1 ug /\ riemann g2 s1 ul ur = riemann g1 s1 ul ur.
Proof.
  intros A N L X ic1 sy1 or1 ri1 en1 th1 s1 g1 ic2 sy2 or2 ri2 en2 th2 s2 g2 H1 H2 Hk ug ul ur.
  assert (E : g1 = g2); [|rewrite E; split; reflexivity].
  rewrite (Solution_gamma _ _ _ _ _ _ _ _ H1), (Solution_gamma _ _ _ _ _ _ _ _ H2).
  destruct (split_ws ic1) as [|n1 p1], (split_ws ic2) as [|n2 p2]; cbn [hd_error] in Hk; try reflexivity.
  - destruct (String.eqb_spec n2 "simplew") as [->|]; [|reflexivity]. destruct Hk as [_ Hk]. specialize (Hk eq_refl). discriminate.
  - destruct (String.eqb_spec n1 "simplew") as [->|]; [|reflexivity]. destruct Hk as [Hk _]. specialize (Hk eq_refl). discriminate.
  - destruct (String.eqb_spec n1 "simplew") as [->|N1], (String.eqb_spec n2 "simplew") as [->|N2]; try reflexivity; exfalso.
    + destruct Hk as [Hk _]. specialize (Hk eq_refl). congruence.
    + destruct Hk as [_ Hk]. specialize (Hk eq_refl). congruence.
Qed.
(** constructing a simplew solution changes the flux of an existing one *)
Theorem C51_refuted : forall (X : Ext R), exists s1 g1 s2 g2 ug,
  Solution (A:=R) "entrpyw 8" "euler" 1 "roe" "" [] = Ok (s1, g1) /\
  Solution (A:=R) "simplew 8" "euler" 1 "roe" "" [] = Ok (s2, g2) /\
  interior_flux g2 s1 ug <> interior_flux g1 s1 ug.
Proof.
  intro X.
  destruct (Solution_ok "entrpyw 8" "euler" 1 "roe" "entrpyw" ["8"%string] "8" 8 _ eq_refl eq_refl eq_refl eq_refl) as [s1 [E1 _]]; [cbn; lia|].
  destruct (Solution_ok "simplew 8" "euler" 1 "roe" "simplew" ["8"%string] "8" 8 _ eq_refl eq_refl eq_refl eq_refl) as [s2 [E2 _]]; [cbn; lia|].
  eexists s1, _, s2, _, [[1; 0; 1]]. split; [exact E1|]. split; [exact E2|].
  apply Solution_inv in E1. destruct E1 as [nm [ps [s' [e [Hsp [Hr [_ [F _]]]]]]]].
  destruct (run_ic_sens _ _ _ _ _ Hr) as [_ S2]. destruct F as [_ [_ [_ [_ [F _]]]]].
  unfold interior_flux. rewrite F, S2. cbn. unfold gamma_default. numR. intro H. injection H. lra.
Qed.

Print Assumptions C47_unknown_ic.
Print Assumptions C47_unknown_ic_float.
Print Assumptions C47_invalid_ic.
Print Assumptions C47_invalid_ic_float.
Print Assumptions C47_scktube_parameters.
Print Assumptions C52_deck.
Print Assumptions C53_mesh.
Print Assumptions C53_constructible.
Print Assumptions C51_gamma_partial.
Print Assumptions C51_same_kind_partial.
Print Assumptions C51_refuted.
