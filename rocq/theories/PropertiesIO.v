(** Properties C20, C48, C49, C50: snapshot files, decimal text of doubles, deck files. *)
From Coq Require Import ZArith List Bool Arith String Ascii Reals SpecFloat Lia Lra PrimFloat FloatAxioms FloatOps.
From Verif Require Import Num Py PyStr ProofsStr LegNumpy Ext Basis Sensor Enhance Limiting Solution Solver RKCoeffs RK IO Deck FloatText Standins FloatInst
  SpecDG SpecText SpecDeck SpecFloatText SpecIO ProofsText ProofsDeck ProofsFloatText ProofsIO ProofsStageLimit.
Import ListNotations.
Open Scope string_scope.
Open Scope list_scope.
Open Scope nat_scope.

(** C48: a saved snapshot loads back, over any arithmetic.  [texts_ok]: the numbers in it survive
    being written and read (C49 proves this of every double); [bc_name_ok]: the boundary-condition
    names contain no separators.  The directory may hold any other files. *)
Theorem C48_roundtrip :
  forall (A : Type) (N : Num A) (X : Ext A) ne (s s0 : solution A) (ev : event A) (before after : directory),
  wf ne s -> 2 <= ne -> texts_ok ne s -> bc_name_ok (s_bcl s) -> bc_name_ok (s_bcr s) -> s_euler s0 = s_euler s ->
  ev_sol ev = s -> NoDup (map fst (before ++ printed_files ev ++ after)) ->
  exists s1, loader (before ++ printed_files ev ++ after) (ev_nout ev) s0 = Ok s1 /\ restored ne s s1.
Proof. exact @roundtrip. Qed.

(** .. and every snapshot of a run loads back from the files the whole run wrote *)
Theorem C48_run :
  forall (A : Type) (N : Num A) (L : Libm A) (X : Ext A) (gamma : A) ne rk d l cfl tf nout fuel sol0 evs out ev s0,
  wf ne sol0 -> wf_dg ne sol0 d -> 2 <= ne ->
  integrate gamma rk d l cfl tf nout fuel sol0 = (evs, out) -> In ev evs ->
  texts_ok ne (ev_sol ev) -> bc_name_ok (s_bcl sol0) -> bc_name_ok (s_bcr sol0) -> s_euler s0 = s_euler sol0 ->
  exists s1, loader (flat_map printed_files evs) (ev_nout ev) s0 = Ok s1 /\ restored ne (ev_sol ev) s1.
Proof. exact @run_reload. Qed.

(** .. for doubles nothing need be assumed about the numbers: infinities and NaN included *)
Theorem C48_run_double :
  forall (N : Num float) (L : Libm float) (X : Ext float), double_text X ->
  forall (gamma : float) ne rk d l cfl tf nout fuel sol0 evs out ev s0,
  wf ne sol0 -> wf_dg ne sol0 d -> 2 <= ne ->
  integrate gamma rk d l cfl tf nout fuel sol0 = (evs, out) -> In ev evs ->
  bc_name_ok (s_bcl sol0) -> bc_name_ok (s_bcr sol0) -> s_euler s0 = s_euler sol0 ->
  exists s1, loader (flat_map printed_files evs) (ev_nout ev) s0 = Ok s1 /\ restored ne (ev_sol ev) s1.
Proof. exact @run_reload_double. Qed.

(** .. in exact arithmetic the mesh comes back too *)
Theorem C48_mesh :
  forall (X : Ext R) ne a b (s s0 s1 : solution R) dir step,
  wf ne s -> 2 <= ne -> texts_ok ne s -> bc_name_ok (s_bcl s) -> bc_name_ok (s_bcr s) -> s_euler s0 = s_euler s ->
  (forall f name, nth_error (format_fnames step (s_fields s)) f = Some name -> read_file dir name = Some (field_file s f)) ->
  mesh_of ne a b s -> loader dir step s0 = Ok s1 -> s_x s1 = s_x s /\ s_dx s1 = s_dx s.
Proof. exact @reload_mesh. Qed.

(** .. a solution with a single cell does not load back *)
Theorem C48_single_cell :
  forall (A : Type) (N : Num A) (X : Ext A) (s s0 : solution A) dir step,
  wf 1 s -> texts_ok 1 s -> bc_name_ok (s_bcl s) -> bc_name_ok (s_bcr s) -> s_euler s0 = s_euler s ->
  (forall f name, nth_error (format_fnames step (s_fields s)) f = Some name -> read_file dir name = Some (field_file s f)) ->
  loader dir step s0 = Raise TypeError.
Proof. exact @loader_one. Qed.

(** Example: three cells of spec_float numbers and the text routines of C49. *)
Definition Ext64 : Ext spec_float := {|
  leggauss := gaussSF; linv := gj_inv; legfit := quad_fit gaussSF; parse_float := parse64; fmt_e18 := fmt18 |}.
Definition saved : solution spec_float := Eval vm_compute in three 1 2 4.
Definition event3 : event spec_float := {| ev_nout := 7; ev_dt := n1; ev_sol := saved |}.
Lemma saved_wf : wf 3 saved. Proof. exact (three_wf 1 2 4). Qed.
Lemma saved_texts : texts_ok (X := Ext64) 3 saved.
Proof.
  assert (K : forall x, SpecFloat.valid_binary prec64 emax64 x = true -> text_ok (X := Ext64) x).
  { intros x H. destruct (fmt_plain x) as [P1 P2]. split; [exact P2|]. split; [exact P1|]. exact (fmt_parse x H). }
  split; [apply K; reflexivity|]. split.
  - intros e He. apply K. do 3 (destruct e as [|e]; [reflexivity|]). lia.
  - intros n j Hn [Hj1 Hj2]. apply K. change (n < 2)%nat in Hn. change (s_NF saved) with 1%nat in Hj1, Hj2.
    do 2 (destruct n as [|n]; [do 4 (destruct j as [|j]; [reflexivity|]); lia|]). lia.
Qed.
Lemma saved_bc : bc_name_ok (s_bcl saved) /\ bc_name_ok (s_bcr saved). Proof. repeat split. Qed.
Example C48_roundtrip_used : exists s1, loader (X := Ext64) ([("old.dat", "xyz")] ++ printed_files (X := Ext64) event3 ++ []) 7 saved = Ok s1 /\ restored (X := Ext64) 3 saved s1.
Proof.
  apply (C48_roundtrip spec_float _ Ext64 3 saved saved event3 [("old.dat", "xyz")] []); try reflexivity; try apply saved_bc.
  - exact saved_wf.
  - lia.
  - exact saved_texts.
  - cbn. repeat constructor; cbn; intuition discriminate.
Qed.
(** the file itself *)
Example snapshot_text : map fst (printed_files (X := Ext64) event3) = ["u0000000007.dat"; "sensor0000000007.dat"] /\
  hd "" (map snd (printed_files (X := Ext64) event3)) = 
"# n=0, t=0.000000000000000000e+00, bc_l=periodic, bc_r=periodic
# xc, u0, u1
5.000000000000000000e-01,1.000000000000000000e+00,0.000000000000000000e+00
1.500000000000000000e+00,2.000000000000000000e+00,0.000000000000000000e+00
2.500000000000000000e+00,4.000000000000000000e+00,0.000000000000000000e+00
".
Proof. vm_compute. split; reflexivity. Qed.
(** Example for the reals: two cells of order 0 on [0,2], all coefficients zero *)
Definition text_R (x : R) : string := if Req_EM_T x (1 / 2) then "0.5" else if Req_EM_T x (3 / 2) then "1.5" else "0".
Definition ExtR2 : Ext R := {|
  leggauss := fun _ => ([0%R], [2%R]); linv := fun m => Ok m; legfit := fun _ _ _ => []; fmt_e18 := text_R;
  parse_float := fun s => Some (if String.eqb s "0.5" then (1 / 2)%R else if String.eqb s "1.5" then (3 / 2)%R else 0%R) |}.
Definition pair2 : solution R :=
  {| s_basis := Basis (X := ExtR2) 0; s_icname := ""; s_params := []; s_t := 0%R; s_n := 0; s_NE := 2;
     s_x := linspace 0%R 2%R 3; s_xc := centroids (linspace 0%R 2%R 3); s_dx := linspace_step 0%R 2%R 3;
     s_u := [[0%R; 0%R; 0%R; 0%R]]; s_minv := [1%R];
     s_euler := false; s_riemann := RUpwind; s_bcl := pylit "periodic"; s_bcr := pylit "periodic"; s_enh := None; s_sens := None |}.
Lemma pair2_wf : wf 2 pair2.
Proof.
  constructor; try reflexivity; try (cbn; lia); try exact I; try (split; [reflexivity|]; repeat constructor). 
  all: intros x H; repeat (destruct H as [<-|H]; [reflexivity|]); destruct H.
Qed.
Lemma pair2_xc : s_xc pair2 = [(1 / 2)%R; (3 / 2)%R].
Proof.
  cbn. change (Pos.to_nat 1) with 1. change (Pos.to_nat 2) with 2. cbn [skipn firstn map2]. f_equal; [field|]. f_equal; field.
Qed.
Lemma pair2_texts : texts_ok (X := ExtR2) 2 pair2.
Proof.
  assert (T0 : text_ok (X := ExtR2) 0%R).
  { unfold text_ok. cbn [fmt_e18 parse_float ExtR2]. unfold text_R. destruct (Req_EM_T 0 (1 / 2)); [exfalso; lra|]. destruct (Req_EM_T 0 (3 / 2)); [exfalso; lra|].
    repeat split. discriminate. }
  assert (T1 : text_ok (X := ExtR2) (1 / 2)%R).
  { unfold text_ok. cbn [fmt_e18 parse_float ExtR2]. unfold text_R. destruct (Req_EM_T (1 / 2) (1 / 2)); [|exfalso; lra]. repeat split. discriminate. }
  assert (T2 : text_ok (X := ExtR2) (3 / 2)%R).
  { unfold text_ok. cbn [fmt_e18 parse_float ExtR2]. unfold text_R. destruct (Req_EM_T (3 / 2) (1 / 2)); [exfalso; lra|].
    destruct (Req_EM_T (3 / 2) (3 / 2)); [|exfalso; lra]. repeat split. discriminate. }
  split; [exact T0|]. split.
  - intros e He. rewrite pair2_xc. destruct e as [|[|e]]; [exact T1|exact T2|lia].
  - intros n j Hn [Hj1 Hj2]. change (n < 1) in Hn. change (s_NF pair2) with 1 in Hj1, Hj2. assert (n = 0) as -> by lia.
    do 4 (destruct j as [|j]; [exact T0|]). lia.
Qed.
Example C48_mesh_used : exists s1, loader (X := ExtR2) (printed_files (X := ExtR2) {| ev_nout := 3; ev_dt := 0%R; ev_sol := pair2 |}) 3 pair2 = Ok s1 /\
  s_x s1 = s_x pair2 /\ s_dx s1 = s_dx pair2.
Proof.
  set (ev := {| ev_nout := 3; ev_dt := 0%R; ev_sol := pair2 |}).
  assert (D : exists s1, loader (X := ExtR2) (printed_files (X := ExtR2) ev) 3 pair2 = Ok s1 /\ restored (X := ExtR2) 2 pair2 s1).
  { rewrite <- (app_nil_r (printed_files (X := ExtR2) ev)), <- (app_nil_l (printed_files (X := ExtR2) ev ++ [])).
    apply (C48_roundtrip R _ ExtR2 2 pair2 pair2 ev [] []); try reflexivity; try (split; reflexivity).
    - exact pair2_wf.
    - exact pair2_texts.
    - repeat constructor. intros []. }
  destruct D as [s1 [D _]]. exists s1. split; [exact D|].
  apply (C48_mesh ExtR2 2 0%R 2%R pair2 pair2 s1 (printed_files (X := ExtR2) ev) 3); try reflexivity; try (split; reflexivity).
  - exact pair2_wf.
  - exact pair2_texts.
  - intros f name Hf. destruct f as [|f]; [|destruct f; discriminate]. injection Hf as <-. reflexivity.
  - split; [reflexivity|]. split; reflexivity.
  - exact D.
Qed.
(** [double_text] is met by the instance used for running the model on hardware doubles *)
Example double_text_used : double_text ExtF. Proof. split; reflexivity. Qed.

(** C20: after loading, apply_bc does nothing and the ghost coefficients stay zero: the loaded
    boundary-condition names are never the string objects apply_bc compares with by identity. *)
Theorem C20_reloaded_bc_ignored :
  forall (A : Type) (N : Num A) (X : Ext A) ne (s s0 s1 : solution A) dir step,
  wf ne s -> 2 <= ne -> texts_ok ne s -> bc_name_ok (s_bcl s) -> bc_name_ok (s_bcr s) -> s_euler s0 = s_euler s ->
  (forall f name, nth_error (format_fnames step (s_fields s)) f = Some name -> read_file dir name = Some (field_file s f)) ->
  loader dir step s0 = Ok s1 ->
  apply_bc s1 = Ok s1 /\
  forall n j, n < s_Ns s -> j < (ne + 2) * s_NF s -> ~ interior_col ne (s_NF s) j -> at2 (s_u s1) n j = n0.
Proof. exact @reloaded_bc. Qed.
(** .. so the property fails: [s] has its boundary conditions applied, [s1] is [s] saved and loaded,
    and applying the boundary conditions to [s1] does not give [s]'s coefficients *)
Theorem C20_refuted :
  exists (X : Ext spec_float) ne (s s1 s2 : solution spec_float) ev,
  wf ne s /\ apply_bc s = Ok s /\ ev_sol ev = s /\ loader (printed_files ev) (ev_nout ev) s = Ok s1 /\
  restored ne s s1 /\ apply_bc s1 = Ok s2 /\ s_u s2 <> s_u s.
Proof.
  destruct C48_roundtrip_used as [s1 [_ R]].
  assert (D : exists s1, loader (X := Ext64) (printed_files (X := Ext64) event3) 7 saved = Ok s1 /\ restored (X := Ext64) 3 saved s1).
  { rewrite <- (app_nil_r (printed_files (X := Ext64) event3)), <- (app_nil_l (printed_files (X := Ext64) event3 ++ [])).
    apply (C48_roundtrip spec_float _ Ext64 3 saved saved event3 [] []); try reflexivity; try apply saved_bc.
    - exact saved_wf.
    - lia.
    - exact saved_texts.
    - cbn. repeat constructor; cbn; intuition discriminate. }
  destruct D as [t1 [D1 D2]].
  destruct (C20_reloaded_bc_ignored spec_float _ Ext64 3 saved saved t1 (printed_files (X := Ext64) event3) 7) as [B G]; try reflexivity; try apply saved_bc.
  - exact saved_wf.
  - lia.
  - exact saved_texts.
  - intros f name Hf. destruct f as [|f]; [|destruct f; discriminate]. injection Hf as <-. vm_compute. reflexivity.
  - exact D1.
  - exists Ext64, 3, saved, t1, t1, event3. split; [exact saved_wf|]. split; [vm_compute; reflexivity|]. split; [reflexivity|]. split; [exact D1|].
    split; [exact D2|]. split; [exact B|]. intro E. specialize (G 0 0). rewrite E in G. change (s_NF saved) with 1 in G. change (s_Ns saved) with 2 in G.
    specialize (G ltac:(lia) ltac:(lia) ltac:(unfold interior_col; lia)). vm_compute in G. discriminate.
Qed.

(** C49: a double written with '%.18e' and read back is the same double (zeros with their sign,
    infinities and NaN too) *)
Theorem C49_identified :
  forall x : spec_float, SpecFloat.valid_binary prec64 emax64 x = true -> parse64 (fmt18 x) = Some x.
Proof. exact @fmt_parse. Qed.
Theorem C49_identified_prim :
  forall x : float, option_map SF2Prim (parse64 (fmt18 (Prim2SF x))) = Some x.
Proof. exact @fmt_parse_prim. Qed.
(** .. distinct doubles get distinct texts *)
Theorem C49_distinct :
  forall x y : float, fmt18 (Prim2SF x) = fmt18 (Prim2SF y) -> x = y.
Proof. exact @fmt_inj. Qed.
(** what the two routines compute, in real numbers: the text has 19 digits and is off by at most half
    a unit in the last; reading gives a double no other double is closer than *)
Theorem C49_written :
  forall s m e, SpecFloat.bounded prec64 emax64 m e = true -> exists D E,
  fmt18 (S754_finite s m e) = (sign_text s ++ sci_text D E)%string /\ (10 ^ 18 <= D < 10 ^ 19)%Z /\
  (Rabs (IZR D * powerRZ 10 (E - 18) - Rabs (value (S754_finite s m e))) <= Rabs (value (S754_finite s m e)) / 2000000000000000000)%R.
Proof. exact @fmt_digits. Qed.
Theorem C49_read :
  forall s D E x, (0 <= D < 10 ^ 19)%Z -> parse64 (sign_text s ++ sci_text D E) = Some x -> (forall t, x <> S754_infinity t) ->
  is_finite64 x = true /\ forall y, is_finite64 y = true ->
  (Rabs ((if s then -1 else 1) * (IZR D * powerRZ 10 (E - 18)) - value x) <= Rabs ((if s then -1 else 1) * (IZR D * powerRZ 10 (E - 18)) - value y))%R.
Proof. exact @read_nearest. Qed.
(** the smallest and largest doubles, and one tenth *)
Example C49_texts :
  fmt18 (S754_finite false 1 (-1074)) = "4.940656458412465442e-324" /\
  fmt18 (S754_finite true 9007199254740991 971) = "-1.797693134862315708e+308" /\
  fmt18 (S754_finite false 7205759403792794 (-56)) = "1.000000000000000056e-01" /\
  parse64 "0.1" = Some (S754_finite false 7205759403792794 (-56)) /\
  SpecFloat.bounded prec64 emax64 1 (-1074) = true /\ SpecFloat.bounded prec64 emax64 9007199254740991 971 = true.
Proof. vm_compute. repeat split. Qed.

(** C50: parsing what write_deck wrote: each setting gets the last value given for it, numeric
    settings that are not numbers are a ValueError.  [def_ok] asks that unrecognised names and their
    values contain none of the headings. *)
Theorem C50_roundtrip_partial :
  forall (A : Type) (X : Ext A) (defs : list (string * string)), Forall def_ok defs ->
  forall d0 : deck A,
  if forallb readable defs then exists d, parser (write_deck defs) d0 = Ok d /\ deck_given defs d0 d
  else parser (write_deck defs) d0 = Raise ValueError.
Proof. exact @parse_written. Qed.
Definition defs3 : list (string * string) :=
  [("PDE system", "euler"); ("order", " 3"); ("author", "someone"); ("final time", "0.25"); ("order", "2"); ("sensor thresholds", "1 0.5  1e-3")].
Example C50_used : Forall def_ok defs3 /\ forallb (readable (X := Ext64)) defs3 = true /\ last_value "order" defs3 = Some "2" /\
  forallb (readable (X := Ext64)) (defs3 ++ [("order", "two")]) = false.
Proof.
  split; [|vm_compute; repeat split].
  unfold defs3. repeat (apply Forall_cons; [split; [reflexivity|split; [reflexivity|]]|]); try apply Forall_nil; try (left; cbn; tauto). right. split; intros n Hn; cbn in Hn; repeat (destruct Hn as [<-|Hn]; [reflexivity|]); contradiction.
Qed.
(** without that, values are taken for headings: an unrecognised entry makes the parser fail *)
Theorem C50_refuted :
  exists defs : list (string * string), Forall (fun d => one_line (fst d) = true /\ one_line (snd d) = true) defs /\
  (forall (A : Type) (N : Num A) (X : Ext A), forallb readable defs = true /\ parser (write_deck defs) (Deck (A := A)) = Raise ValueError).
Proof.
  exists [("comment", "#order"); ("limiting", "adaptive_hr")]. split; [repeat constructor|]. intros. split; reflexivity.
Qed.

Print Assumptions C48_roundtrip.
Print Assumptions C48_run.
Print Assumptions C48_run_double.
Print Assumptions C48_mesh.
Print Assumptions C48_single_cell.
Print Assumptions C20_reloaded_bc_ignored.
Print Assumptions C20_refuted.
Print Assumptions C49_identified.
Print Assumptions C49_identified_prim.
Print Assumptions C49_distinct.
Print Assumptions C49_written.
Print Assumptions C49_read.
Print Assumptions C50_roundtrip_partial.
Print Assumptions C50_refuted.
