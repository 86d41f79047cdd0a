(** Limited runs depend on the zero level of the data: ghost cells that take part in a stage receive the volume term without
    the interface fluxes, which is proportional to the level, and the limiter reads them.  binary64, order 2, three cells. *)
From Coq Require Import ZArith List Bool Arith String Lia SpecFloat Reals Lra.
From Verif Require Import Num Py PyStr LegNumpy Ext Basis Sensor Enhance Limiting Solution Solver RKCoeffs RK Standins
  SpecTime SpecDG SpecFloatText ProofsDG ProofsStageLimit.
Import ListNotations.
Open Scope list_scope.

(** leggauss(3) as numpy returns it *)
Definition gauss3 (n : nat) : list spec_float * list spec_float :=
  let g := S754_finite false 6976946541916744 (-53) in
  ([SFopp g; nofZ 0; g], [lit 5 9; lit 8 9; lit 5 9]).
Definition Ext3 : Ext spec_float := {|
  leggauss := gauss3; linv := gj_inv; legfit := quad_fit gauss3; parse_float := parse_decimal; fmt_e18 := fun _ => EmptyString |}.
#[local] Existing Instance Ext3.
#[local] Existing Instance LibmSF.
(** three periodic cells of width 1 with averages z + 1, z, z and nothing else *)
Definition step_at (z : Z) : solution sf :=
  {| s_basis := Basis 2; s_icname := ""; s_params := []; s_t := n0; s_n := 0; s_NE := 3;
     s_x := map nofZ [0; 1; 2; 3]%Z; s_xc := map (fun z => lit z 2) [1; 3; 5]%Z; s_dx := n1;
     s_u := [map nofZ [z; z + 1; z; z; z + 1]; map nofZ [0; 0; 0; 0; 0]; map nofZ [0; 0; 0; 0; 0]]%Z; s_minv := [n1; nofZ 3; nofZ 5];
     s_euler := false; s_riemann := RUpwind; s_bcl := pylit "periodic"; s_bcr := pylit "periodic";
     s_enh := None; s_sens := Some {| sn_thresholds := [lit 1 10]; sn_sensors := [0; 0; 0; 0; 0]%Z |} |}.
Definition dl3 : dg := {| dg_rows := 3; dg_cols := 3 |}.
Lemma step_wf z : wf 3 (step_at z).
Proof.
  constructor.
  - lia.
  - reflexivity.
  - vm_compute. lia.
  - apply shape_lit. reflexivity.
  - apply shape_lit. vm_compute. reflexivity.
  - apply shape_lit. vm_compute. reflexivity.
  - apply shape_lit. vm_compute. reflexivity.
  - reflexivity.
  - split; reflexivity.
  - exact I.
  - reflexivity.
  - reflexivity.
Qed.
Definition low : solution sf := Eval vm_compute in step_at 0.
Definition high : solution sf := Eval vm_compute in step_at 16.
Lemma low_eq : step_at 0 = low. Proof. vm_compute. reflexivity. Qed.
Lemma high_eq : step_at 16 = high. Proof. vm_compute. reflexivity. Qed.
Definition hl3 : hr_maps sf := Eval vm_compute in match hr_init (s_basis low) with Ok h => h | Raise _ => {| h_L2M := []; h_M2L := [] |} end.
Definition first_mean (s : solution sf) : option sf :=
  match snd (integrate n0 "rk3" dl3 (Some hl3) (lit 3 5) (lit 1 10) 2 5 s) with Finished s => Some (at1 (modes s 1 0) 0) | _ => None end.
Lemma level_facts : DG low = Ok dl3 /\ DG high = Ok dl3 /\ apply_bc low = Ok low /\ apply_bc high = Ok high /\
  Limiter "adaptive_hr" low = Ok (Some hl3) /\ Limiter "adaptive_hr" high = Ok (Some hl3).
Proof. vm_compute. repeat split. Qed.
Definition vlow : sf := Eval vm_compute in match first_mean low with Some v => v | None => n0 end.
Definition vhigh : sf := Eval vm_compute in match first_mean high with Some v => v | None => n0 end.
Lemma mean_low : first_mean low = Some vlow. Proof. vm_compute. reflexivity. Qed.
Lemma mean_high : first_mean high = Some vhigh. Proof. vm_compute. reflexivity. Qed.
Lemma first_mean_some (s : solution sf) v : first_mean s = Some v ->
  exists s1, snd (integrate n0 "rk3" dl3 (Some hl3) (lit 3 5) (lit 1 10) 2 5 s) = Finished s1 /\ at1 (modes s1 1 0) 0 = v.
Proof.
  unfold first_mean. generalize (snd (integrate n0 "rk3" dl3 (Some hl3) (lit 3 5) (lit 1 10) 2 5 s)).
  intros o H. destruct o as [s1| |]; try discriminate. exists s1. split; [reflexivity|congruence].
Qed.
Open Scope R_scope.
Lemma level_gap : 16 + value vlow + 4 / 1000 < value vhigh.
Proof. unfold vlow, vhigh, value. cbn [powerRZ]. change (Pos.to_nat 53) with 53%nat. change (Pos.to_nat 48) with 48%nat.  cbn [pow]. lra. Qed.
Lemma level_data e n : (e < 5)%nat -> (n < 3)%nat -> value (at1 (modes high e 0) n) = value (at1 (modes low e 0) n) + match n with O => 16 | S _ => 0 end.
Proof.
  intros He Hn. destruct e as [|[|[|[|[|e]]]]]; [| | | | |lia]; (destruct n as [|[|[|n]]]; [| | |lia]);
    match goal with |- value ?a = value ?b + _ => let x := eval vm_compute in a in let y := eval vm_compute in b in change a with x; change b with y end;
    unfold value; cbn [powerRZ]; change (Pos.to_nat 48) with 48%nat; change (Pos.to_nat 52) with 52%nat; cbn [pow]; lra.
Qed.
