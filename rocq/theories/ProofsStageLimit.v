(** C44: limiting inside the stages reads stale ghost cells.  binary64, order 1, three cells. *)
From Coq Require Import ZArith List Bool Arith String Lia SpecFloat.
From Verif Require Import Num Py PyStr LegNumpy Ext Basis Sensor Enhance Limiting Solution Solver RKCoeffs RK Standins
  SpecTime SpecDG ProofsDG.
Import ListNotations.
Open Scope list_scope.

(** the library values used: leggauss(2) as numpy returns it, inverses by elimination *)
Definition gaussSF (n : nat) : list spec_float * list spec_float :=
  let g := S754_finite false 5200308914369308 (-53) in
  ([SFopp g; g], [nofZ 1; nofZ 1]).
Definition ExtSF : Ext spec_float := {|
  leggauss := gaussSF; linv := gj_inv; legfit := quad_fit gaussSF; parse_float := parse_decimal; fmt_e18 := fun _ => EmptyString |}.
Definition LibmSF : Libm spec_float := {|
  npow := fun x _ => x; nsin := fun x => x; ncos := fun x => x; ntanh := fun x => x; npi := nofZ 3 |}.
#[local] Existing Instance ExtSF.
#[local] Existing Instance LibmSF.
Notation sf := spec_float.
(** three periodic cells of width 1 with averages a b c and zero slopes *)
Definition three (a b c : Z) : solution sf :=
  {| s_basis := Basis 1; s_icname := ""; s_params := []; s_t := n0; s_n := 0; s_NE := 3;
     s_x := map nofZ [0; 1; 2; 3]%Z; s_xc := map (fun z => lit z 2) [1; 3; 5]%Z; s_dx := n1;
     s_u := [map nofZ [c; a; b; c; a]; map nofZ [0; 0; 0; 0; 0]]%Z; s_minv := [n1; nofZ 3];
     s_euler := false; s_riemann := RUpwind; s_bcl := pylit "periodic"; s_bcr := pylit "periodic";
     s_enh := None; s_sens := Some {| sn_thresholds := [lit 1 10]; sn_sensors := [0; 0; 0; 0; 0]%Z |} |}.
Definition d3 : dg := {| dg_rows := 2; dg_cols := 3 |}.
Lemma shape_lit (m : mat sf) r c : (Nat.eqb (List.length m) r && forallb (fun x => Nat.eqb (List.length x) c) m)%bool = true -> shape r c m.
Proof.
  intro H. apply andb_prop in H. destruct H as [H1 H2]. split; [apply Nat.eqb_eq; exact H1|].
  intros x Hx. rewrite forallb_forall in H2. apply Nat.eqb_eq. apply H2. exact Hx.
Qed.
Lemma three_wf a b c : wf 3 (three a b c).
Proof.
  constructor.
  - lia.
  - reflexivity.
  - vm_compute. lia.
  - apply shape_lit. reflexivity.
  - apply shape_lit. vm_compute. reflexivity.
  - apply shape_lit. vm_compute. reflexivity.
  - apply shape_lit. vm_compute. reflexivity.
  - reflexivity.
  - split; reflexivity.
  - exact I.
  - reflexivity.
  - reflexivity.
Qed.
Lemma three_shift a b c : shift_of 3 2 (three a b c) (three c a b).
Proof.
  split; [apply three_wf|]. split; [apply three_wf|]. split.
  { exists n0, 0%nat, (s_sens (three c a b)), (s_u (three c a b)). split; reflexivity. }
  split; [reflexivity|]. split; [reflexivity|]. intros e f He Hf. change (s_NF (three a b c)) with 1%nat in Hf.
  assert (f = 0%nat) as -> by lia. assert (K : e = 1%nat \/ e = 2%nat \/ e = 3%nat) by lia. destruct K as [K|K]; [subst e; reflexivity|]. destruct K as [K|K]; subst e; reflexivity.
Qed.
Lemma three_dg a b c : DG (three a b c) = Ok d3. Proof. reflexivity. Qed.
Definition s100 : solution sf := Eval vm_compute in three 1 0 0.
Definition s010 : solution sf := Eval vm_compute in three 0 1 0.
Definition h3 : hr_maps sf := Eval vm_compute in match hr_init (s_basis s100) with Ok h => h | Raise _ => {| h_L2M := []; h_M2L := [] |} end.
Lemma s100_eq : three 1 0 0 = s100. Proof. vm_compute. reflexivity. Qed.
Lemma s010_eq : three 0 1 0 = s010. Proof. vm_compute. reflexivity. Qed.
Definition run3 (s : solution sf) := snd (integrate n0 "rk3" d3 (Some h3) (lit 3 5) (lit 1 10) 2 5 s).
(** average of the cell the unit is put in, after the run *)
Definition peak (s : solution sf) (e : nat) : option sf := match run3 s with Finished s => Some (at1 (modes s e 0) 0) | _ => None end.
Lemma peak1 : peak s100 1 = Some (S754_finite false 8150764725602702 (-53)).
Proof. vm_compute. reflexivity. Qed.
Lemma peak2 : peak s010 2 = Some (S754_finite false 8151140025571650 (-53)).
Proof. vm_compute. reflexivity. Qed.
Lemma facts : DG s100 = Ok d3 /\ apply_bc s100 = Ok s100 /\ apply_bc s010 = Ok s010 /\
  Limiter "adaptive_hr" s100 = Ok (Some h3) /\ Limiter "adaptive_hr" s010 = Ok (Some h3).
Proof. vm_compute. repeat split. Qed.
Lemma peak_some (s : solution sf) e v : peak s e = Some v ->
  exists s1, snd (integrate n0 "rk3" d3 (Some h3) (lit 3 5) (lit 1 10) 2 5 s) = Finished s1 /\ at1 (modes s1 e 0) 0 = v.
Proof.
  unfold peak, run3. generalize (snd (integrate n0 "rk3" d3 (Some h3) (lit 3 5) (lit 1 10) 2 5 s)).
  intros o H. destruct o as [s1| |]; try discriminate. exists s1. split; [reflexivity|congruence].
Qed.
Lemma stage_limit_shift : exists k (s s' : solution sf) d l s1 s1',
  shift_of 3 k s s' /\ DG s = Ok d /\ s_bcl s = pylit "periodic" /\ s_bcr s = pylit "periodic" /\
  apply_bc s = Ok s /\ apply_bc s' = Ok s' /\ Limiter "adaptive_hr" s = Ok l /\ Limiter "adaptive_hr" s' = Ok l /\
  snd (integrate n0 "rk3" d l (lit 3 5) (lit 1 10) 2 5 s) = Finished s1 /\
  snd (integrate n0 "rk3" d l (lit 3 5) (lit 1 10) 2 5 s') = Finished s1' /\
  ~ shift_of 3 k s1 s1'.
Proof.
  pose proof peak1 as P1. pose proof peak2 as P2. destruct facts as [F1 [F2 [F3 [F4 F5]]]]. pose proof (three_shift 1 0 0) as Sh. rewrite s100_eq, s010_eq in Sh.
  destruct (peak_some _ _ _ P1) as [s1 [E1 Q1]]. destruct (peak_some _ _ _ P2) as [s1' [E2 Q2]].
  exists 2%nat, s100, s010, d3, (Some h3), s1, s1'.
  split; [exact Sh|]. split; [exact F1|]. split; [reflexivity|]. split; [reflexivity|]. split; [exact F2|]. split; [exact F3|].
  split; [exact F4|]. split; [exact F5|]. split; [exact E1|]. split; [exact E2|].
  intros [_ [_ [_ [_ [_ H]]]]]. specialize (H 2%nat 0%nat ltac:(lia)). change (shift_cell 3 2 2) with 1%nat in H.
  rewrite H in Q2; [rewrite Q1 in Q2; discriminate Q2|]. unfold s_NF. destruct (s_euler s1); lia.
Qed.

(** the same cells with equal slopes *)
Definition sloped (a b c : Z) : solution sf := with_u (three a b c) [row (s_u (three a b c)) 0; [n1; n1; n1; n1; n1]].
Lemma sloped_wf a b c : wf 3 (sloped a b c).
Proof. destruct (three_wf a b c). constructor; try assumption. apply shape_lit. reflexivity. Qed.
Lemma sloped_shift a b c : shift_of 3 2 (sloped a b c) (sloped c a b).
Proof.
  split; [apply sloped_wf|]. split; [apply sloped_wf|]. split.
  { exists n0, 0%nat, (s_sens (three c a b)), (s_u (sloped c a b)). split; reflexivity. }
  split; [reflexivity|]. split; [reflexivity|]. intros e f He Hf. change (s_NF (sloped a b c)) with 1%nat in Hf.
  assert (f = 0%nat) as -> by lia. assert (K : e = 1%nat \/ e = 2%nat \/ e = 3%nat) by lia. destruct K as [K|K]; [subst e; reflexivity|]. destruct K as [K|K]; subst e; reflexivity.
Qed.

(** C41: order 0 with a flagged cell *)
Definition gauss1 (n : nat) : list sf * list sf := ([n0], [nofZ 2]).
Definition Ext1 : Ext sf := {|
  leggauss := gauss1; linv := gj_inv; legfit := quad_fit gauss1; parse_float := parse_decimal; fmt_e18 := fun _ => EmptyString |}.
Definition flat3 : solution sf := Eval vm_compute in
  {| s_basis := @Basis _ _ Ext1 0; s_icname := ""; s_params := []; s_t := n0; s_n := 0; s_NE := 3;
     s_x := map nofZ [0; 1; 2; 3]%Z; s_xc := map (fun z => lit z 2) [1; 3; 5]%Z; s_dx := n1;
     s_u := [map nofZ [0; 1; 0; 0; 1]]%Z; s_minv := [n1];
     s_euler := false; s_riemann := RUpwind; s_bcl := pylit "periodic"; s_bcr := pylit "periodic";
     s_enh := None; s_sens := Some {| sn_thresholds := [lit 1 10]; sn_sensors := [0; 0; 0; 0; 0]%Z |} |}.
Lemma flat3_wf : wf 3 flat3.
Proof.
  constructor; try reflexivity; try (apply shape_lit; reflexivity).
  - lia.
  - split; reflexivity.
Qed.
Lemma order0_fails : exists h, @Limiter _ _ Ext1 "adaptive_hr" flat3 = Ok (Some h) /\ limit n0 (Some h) flat3 = Raise UnboundLocalError.
Proof.
  exists {| h_L2M := [[n1]]; h_M2L := [[n1]] |}. split; vm_compute; reflexivity.
Qed.
