(** Properties C66-C68: the scripts around the solver.  Definitions in Scripts.v (dg1d/plot.py, regressions/plot.py,
    regressions/regressions.py, advection_convergence/run.py and plot.py); vocabulary in SpecScripts.v. *)
From Coq Require Import ZArith List Bool Arith String Ascii Reals Lra Lia.
From Verif Require Import Num Py PyStr Lib RealLib Constants Ext Basis Sensor Enhance Limiting IC Solution Solver RKCoeffs RK IO Deck Main Scripts
  SpecDG SpecText SpecIO SpecMonotone SpecTime SpecPoly SpecScripts
  ProofsDG ProofsWf ProofsIC ProofsSol ProofsMain ProofsBasis ProofsText ProofsScripts ProofsScripts2 ProofsScripts3 ExtReal WitnessText.
Import ListNotations.
Open Scope string_scope.
Open Scope list_scope.
Open Scope R_scope.

(** * C66: plots show the solution *)
(** For every snapshot of every run: plotting it draws, per field and cell, a circle at every Gauss node and a square at either
    edge, at the height of the polynomial of the cell there; for Euler, density, velocity and pressure at gamma = 1.4. *)
Theorem C66_plot_shows_state : forall (X : Ext R) (gamma : R) ne a b rk d l cfl tf nout fuel (sol0 : solution R) evs out ev system,
  wf ne sol0 -> wf_dg ne sol0 d -> (2 <= ne)%nat ->
  integrate gamma rk d l cfl tf nout fuel sol0 = (evs, out) -> In ev evs ->
  texts_ok ne (ev_sol ev) -> bc_name_ok (s_bcl sol0) -> bc_name_ok (s_bcr sol0) -> String.eqb system "euler" = s_euler sol0 -> mesh_of ne a b sol0 ->
  plot_points (flat_map printed_files evs) (ev_nout ev) system = Ok (tab (s_NF sol0) (fun f => tab ne (fun i =>
    (map (fun x => (a + (INR i + (x + 1) / 2) * ((b - a) / INR ne), shown (14 / 10) (ev_sol ev) (i + 1) f x)) (fst (leggauss (b_p (s_basis sol0) + 1))),
     [(a + INR i * ((b - a) / INR ne), shown (14 / 10) (ev_sol ev) (i + 1) f (-1)); (a + INR (i + 1) * ((b - a) / INR ne), shown (14 / 10) (ev_sol ev) (i + 1) f 1)])))).
Proof. exact @plot_run. Qed.
(** plotting a snapshot that was not written, or with the wrong system, fails on the missing file *)
Theorem C66_absent : forall (A : Type) (N : Num A) (L : Libm A) (X : Ext A) (gamma : A) rk d l cfl tf nout fuel (sol0 : solution A) evs out step system ne,
  wf ne sol0 -> wf_dg ne sol0 d -> integrate gamma rk d l cfl tf nout fuel sol0 = (evs, out) ->
  (List.length evs <= step)%nat \/ String.eqb system "euler" <> s_euler sol0 ->
  plot_points (flat_map printed_files evs) step system = Raise FileNotFound.
Proof. exact @plot_absent. Qed.
(** the sensors drawn are those of the snapshot; none without thresholds *)
Theorem C66_sensors : forall (A : Type) (N : Num A) (L : Libm A) (X : Ext A) (gamma : A) ne rk d l cfl tf nout fuel (sol0 : solution A) evs out ev sn,
  wf ne sol0 -> wf_dg ne sol0 d -> integrate gamma rk d l cfl tf nout fuel sol0 = (evs, out) -> In ev evs -> s_sens (ev_sol ev) = Some sn ->
  texts_ok ne (ev_sol ev) -> bc_name_ok (s_bcl sol0) -> bc_name_ok (s_bcr sol0) ->
  (forall k, parse_float (" " ++ show_nat k)%string = Some (nofZ (Z.of_nat k))) ->
  plot_sensors (flat_map printed_files evs) (ev_nout ev) =
    Ok (tab ne (fun e => (at1 (s_xc sol0) e, nofZ (Z.of_nat (Z.to_nat (nth (e + 1) (sn_sensors sn) 0%Z)))))).
Proof. exact @plot_sensors_run. Qed.
Theorem C66_no_sensors : forall (A : Type) (N : Num A) (L : Libm A) (X : Ext A) (gamma : A) ne rk d l cfl tf nout fuel (sol0 : solution A) evs out step,
  wf ne sol0 -> wf_dg ne sol0 d -> integrate gamma rk d l cfl tf nout fuel sol0 = (evs, out) -> s_sens sol0 = None ->
  plot_sensors (flat_map printed_files evs) step = Ok [].
Proof. exact @plot_no_sensors. Qed.
(** the regression plots: cell centres with the primitive variables of the averages *)
Theorem C66_regression : forall (A : Type) (N : Num A) (L : Libm A) (X : Ext A) ne (s : solution A) dir step,
  wf ne s -> (2 <= ne)%nat -> texts_ok ne s -> bc_name_ok (s_bcl s) -> bc_name_ok (s_bcr s) -> s_euler s = true ->
  (forall f name, nth_error (format_fnames step (s_fields s)) f = Some name -> read_file dir name = Some (field_file s f)) ->
  regression_points dir step = Ok (tab ne (fun i => (at1 (s_xc s) i,
    (let rho := at2 (s_u s) 0 ((i + 1) * 3) in
     let u := ndiv (at2 (s_u s) 0 ((i + 1) * 3 + 1)) rho in
     (rho, u, nmul (nsub (lit 14 10) n1) (nsub (at2 (s_u s) 0 ((i + 1) * 3 + 2)) (nmul (nmul (nmul nhalf rho) u) u))))))).
Proof. exact @regression_file. Qed.
(** the pressure drawn is not that of the run when the run's gamma is not 1.4: for simplew (gamma = 3) it is a fifth of it *)
Theorem C66_pressure_refuted : forall (X : Ext R) icline order riemann enh th (s : solution R) g params,
  Solution icline "euler" order riemann enh th = Ok (s, g) -> split_ws icline = "simplew" :: params ->
  g = 3 /\ forall (s' : solution R) e x, s_euler s' = true -> shown (14 / 10) s' e 2 x = / 5 * shown g s' e 2 x.
Proof.
  intros X icline order riemann enh th s g params H E. apply Solution_gamma in H. rewrite E in H. cbn in H. split; [exact H|].
  intros s' e x He. rewrite (shown_pressure g) by (try exact He; rewrite H; lra). rewrite H. f_equal. lra.
Qed.
(** the reference curve of advection plots is the solution at whole times only *)
Theorem C66_reference_curve : forall t : R,
  (forall x y, In (x, y) (plot_exact (A := R)) -> y = sin (2 * PI * (x - t))) <-> exists k : Z, t = IZR k.
Proof. exact exact_curve. Qed.

(** ** Example: two cells of order 0 on [0,2]: density 1, 2; velocity 0, 1/2; pressure 1, 11/10 *)
Definition ExtDec0 : Ext R := {| leggauss := fun _ => ([0], [2]); linv := invR; legfit := fitR; parse_float := parseD; fmt_e18 := fmtD |}.
Definition cells2 (t : R) (sens : option (sensor R)) (m : R) : solution R :=
  {| s_basis := Basis (X := ExtDec0) 0; s_icname := ""; s_params := []; s_t := t; s_n := 0; s_NE := 2;
     s_x := linspace 0 2 3; s_xc := centroids (linspace 0 2 3); s_dx := linspace_step 0 2 3;
     s_u := [[1; 0; 5 / 2; 1; 0; 5 / 2; 2; m; 3; 2; 1; 3]]; s_minv := [1];
     s_euler := true; s_riemann := RRusanov; s_bcl := pylit "zerograd"; s_bcr := pylit "zerograd"; s_enh := None; s_sens := sens |}.
Lemma cells2_wf t sens m : match sens with None => True | Some sn => List.length (sn_sensors sn) = 4%nat end -> wf 2 (cells2 t sens m).
Proof.
  intro Hs. constructor; try reflexivity; try (cbn; lia); try exact I; try (split; [reflexivity|]; repeat constructor).
  all: try (intros x H; repeat (destruct H as [<-|H]; [reflexivity|]); destruct H).
  all: try (split; discriminate). exact Hs.
Qed.
Lemma cells2_xc t sens m : s_xc (cells2 t sens m) = [1 / 2; 3 / 2].
Proof. cbn. change (Pos.to_nat 1) with 1%nat. change (Pos.to_nat 2) with 2%nat. cbn [skipn firstn map2]. f_equal; [field|]. f_equal; field. Qed.
Lemma exact0 z x : x * unit18 = IZR z -> text_ok (X := ExtDec0) x.
Proof. exact (ExtDec_exact z x). Qed.
Lemma cells2_texts t sens m zt zm : t * unit18 = IZR zt -> m * unit18 = IZR zm -> texts_ok (X := ExtDec0) 2 (cells2 t sens m).
Proof.
  intros Ht Hm. split; [exact (exact0 zt t Ht)|]. split.
  - intros e He. rewrite cells2_xc. destruct e as [|[|e]]; [apply (exact0 500000000000000000%Z)|apply (exact0 1500000000000000000%Z)|lia]; cbn; unfold unit18; lra.
  - intros n j Hn [Hj1 Hj2]. change (n < 1)%nat in Hn. change (s_NF (cells2 t sens m)) with 3%nat in Hj1, Hj2. assert (n = 0)%nat as -> by lia.
    do 3 (destruct j as [|j]; [lia|]).
    destruct j as [|j]; [apply (exact0 1000000000000000000%Z); cbn; unfold unit18; lra|].
    destruct j as [|j]; [apply (exact0 0%Z); cbn; unfold unit18; lra|].
    destruct j as [|j]; [apply (exact0 2500000000000000000%Z); cbn; unfold unit18; lra|].
    destruct j as [|j]; [apply (exact0 2000000000000000000%Z); cbn; unfold unit18; lra|].
    destruct j as [|j]; [apply (exact0 zm); exact Hm|].
    destruct j as [|j]; [apply (exact0 3000000000000000000%Z); cbn; unfold unit18; lra|]. lia.
Qed.
Lemma cells2_bc t sens m : bc_name_ok (s_bcl (cells2 t sens m)) /\ bc_name_ok (s_bcr (cells2 t sens m)).
Proof. split; split; reflexivity. Qed.
Lemma cells2_mesh t sens m : mesh_of 2 0 2 (cells2 t sens m). Proof. split; [reflexivity|]. split; reflexivity. Qed.
(** a run of that state: one output asked for, so it stops after snapshot 0 *)
Lemma cells2_run sens : match sens with None => True | Some sn => List.length (sn_sensors sn) = 4%nat end ->
  exists d, wf_dg 2 (cells2 0 sens 1) d /\
  integrate (14 / 10) "rk4" d None (1 / 2) 1 1 0 (cells2 0 sens 1) = ([{| ev_nout := 0; ev_dt := 0; ev_sol := cells2 0 sens 1 |}], Failed StopIteration).
Proof.
  intro Hs. pose proof (cells2_wf 0 sens 1 Hs) as W. destruct (DG_total _ _ W) as [d Hd]. exists d. split; [apply DG_wf; [exact W|exact Hd]|].
  unfold integrate. cbn [String.eqb Ascii.eqb Bool.eqb]. unfold classic_rk, run_rk. cbn [Z.ltb Z.compare]. rewrite (printer_total 2 _ _ _ W). reflexivity.
Qed.
Example C66_plot_used : exists d evs out, wf 2 (cells2 0 None 1) /\ wf_dg 2 (cells2 0 None 1) d /\ integrate (14 / 10) "rk4" d None (1 / 2) 1 1 0 (cells2 0 None 1) = (evs, out) /\
  plot_points (X := ExtDec0) (flat_map (printed_files (X := ExtDec0)) evs) 0 "euler" = Ok
  [[([(1 / 2, 1)], [(0, 1); (1, 1)]); ([(3 / 2, 2)], [(1, 2); (2, 2)])];
   [([(1 / 2, 0)], [(0, 0); (1, 0)]); ([(3 / 2, 1 / 2)], [(1, 1 / 2); (2, 1 / 2)])];
   [([(1 / 2, 1)], [(0, 1); (1, 1)]); ([(3 / 2, 11 / 10)], [(1, 11 / 10); (2, 11 / 10)])]] /\
  plot_points (X := ExtDec0) (flat_map (printed_files (X := ExtDec0)) evs) 0 "advection" = Raise FileNotFound /\
  plot_points (X := ExtDec0) (flat_map (printed_files (X := ExtDec0)) evs) 1 "euler" = Raise FileNotFound /\
  plot_sensors (X := ExtDec0) (flat_map (printed_files (X := ExtDec0)) evs) 0 = Ok [].
Proof.
  destruct (cells2_run None I) as [d [D H]]. pose proof (cells2_wf 0 None 1 I) as W. do 3 eexists. split; [exact W|]. split; [exact D|]. split; [exact H|].
  split; [|split; [|split]].
  - assert (T : texts_ok (X := ExtDec0) 2 (cells2 0 None 1)) by (apply (cells2_texts 0 None 1 0%Z 1000000000000000000%Z); unfold unit18; lra).
    refine (eq_trans (C66_plot_shows_state ExtDec0 _ 2 0 2 _ _ _ _ _ _ _ _ _ _ _ "euler" W D ltac:(lia) H (or_introl eq_refl) T (proj1 (cells2_bc _ _ _)) (proj2 (cells2_bc _ _ _)) eq_refl (cells2_mesh _ _ _)) _).
    cbn [s_NF s_euler cells2 tab seq map fst leggauss ExtDec0 ev_sol]. unfold shown, value_at, modes, col. cbn [s_euler cells2 s_u map at1 nth s_NF Nat.add Nat.mul].
    unfold legseries, Rsum. cbn. repeat match goal with |- @eq R _ _ => fail 1 | |- _ => progress f_equal end; lra.
  - eapply C66_absent; [exact W|exact D|exact H|right; discriminate].
  - eapply C66_absent; [exact W|exact D|exact H|left; cbn; lia].
  - eapply C66_no_sensors; [exact W|exact D|exact H|reflexivity].
Qed.
Example C66_sensors_used : let sn := {| sn_thresholds := [1 / 2]; sn_sensors := [0; 1; 0; 0]%Z |} in
  exists d evs out, wf 2 (cells2 0 (Some sn) 1) /\ integrate (14 / 10) "rk4" d None (1 / 2) 1 1 0 (cells2 0 (Some sn) 1) = (evs, out) /\
  plot_sensors (X := ExtDec0) (flat_map (printed_files (X := ExtDec0)) evs) 0 = Ok [(1 / 2, 1); (3 / 2, 0)].
Proof.
  intro sn. destruct (cells2_run (Some sn) eq_refl) as [d [D H]]. pose proof (cells2_wf 0 (Some sn) 1 eq_refl) as W. do 3 eexists. split; [exact W|]. split; [exact H|].
  assert (T : texts_ok (X := ExtDec0) 2 (cells2 0 (Some sn) 1)) by (apply (cells2_texts 0 (Some sn) 1 0%Z 1000000000000000000%Z); unfold unit18; lra).
  refine (eq_trans (C66_sensors R _ _ ExtDec0 _ 2 _ _ _ _ _ _ _ _ _ _ _ sn W D H (or_introl eq_refl) eq_refl T (proj1 (cells2_bc _ _ _)) (proj2 (cells2_bc _ _ _)) ExtDec_spaced) _).
  rewrite cells2_xc. reflexivity.
Qed.
Example C66_simplew_used : exists s g, Solution (X := ExtReal) "simplew 16" "euler" 2 "roe" "" [] = Ok (s, g) /\ g = 3.
Proof.
  destruct (@Solution_ok ExtReal "simplew 16" "euler" 2 "roe" "simplew" ["16"] "16" 16 _ eq_refl eq_refl eq_refl eq_refl ltac:(cbn; lia)) as [s [E _]].
  exists s. eexists. split; [exact E|]. exact (proj1 (C66_pressure_refuted ExtReal _ _ _ _ _ _ _ _ E eq_refl)).
Qed.

(** * C67: the comparison with the gold files *)
(** compare_with_golds accepts exactly the directories in which the two states have the same number of cells and modes, and
    centroids and modes closer than 1.5e-10.  Time, step count, boundary conditions and sensors are not compared. *)
Theorem C67_compare : forall (X : Ext R) ne ne' (s g : solution R) dir, wf ne s -> wf ne' g -> s_euler s = true -> s_euler g = true ->
  texts_ok ne s -> texts_ok ne' g -> bc_name_ok (s_bcl s) -> bc_name_ok (s_bcr s) -> bc_name_ok (s_bcl g) -> bc_name_ok (s_bcr g) ->
  (forall f name, nth_error (s_fields s) f = Some name -> read_file dir (name ++ "0000000001.dat")%string = Some (field_file s f)) ->
  (forall f name, nth_error (s_fields s) f = Some name -> read_file dir (name ++ "0000000001.gold")%string = Some (field_file g f)) ->
  exists b, compare_with_golds dir = Ok b /\ (b = true <-> ne = ne' /\ agree (15 / 100000000000) ne s g).
Proof. exact @compare_ok. Qed.
Definition golds (s g : solution R) : directory :=
  [("rho0000000001.dat", field_file (X := ExtDec0) s 0); ("rhou0000000001.dat", field_file (X := ExtDec0) s 1); ("E0000000001.dat", field_file (X := ExtDec0) s 2);
   ("rho0000000001.gold", field_file (X := ExtDec0) g 0); ("rhou0000000001.gold", field_file (X := ExtDec0) g 1); ("E0000000001.gold", field_file (X := ExtDec0) g 2)].
Lemma golds_compared t m zt zm : t * unit18 = IZR zt -> m * unit18 = IZR zm ->
  exists b, compare_with_golds (X := ExtDec0) (golds (cells2 t None m) (cells2 0 None 1)) = Ok b /\ (b = true <-> Rabs (m - 1) < 15 / 100000000000).
Proof.
  intros Ht Hm. pose proof (cells2_wf t None m I) as W. pose proof (cells2_wf 0 None 1 I) as W'.
  assert (T : texts_ok (X := ExtDec0) 2 (cells2 t None m)) by (apply (cells2_texts t None m zt zm); assumption).
  assert (T' : texts_ok (X := ExtDec0) 2 (cells2 0 None 1)) by (apply (cells2_texts 0 None 1 0%Z 1000000000000000000%Z); unfold unit18; lra).
  destruct (C67_compare ExtDec0 2 2 _ _ (golds (cells2 t None m) (cells2 0 None 1)) W W' eq_refl eq_refl T T') as [b [B1 B2]]; try apply cells2_bc.
  - intros f name Hf. change (s_fields (cells2 t None m)) with ["rho"; "rhou"; "E"] in Hf.
    destruct f as [|[|[|f]]]; [injection Hf as <-; reflexivity|injection Hf as <-; reflexivity|injection Hf as <-; reflexivity|destruct f; discriminate].
  - intros f name Hf. change (s_fields (cells2 t None m)) with ["rho"; "rhou"; "E"] in Hf.
    destruct f as [|[|[|f]]]; [injection Hf as <-; reflexivity|injection Hf as <-; reflexivity|injection Hf as <-; reflexivity|destruct f; discriminate].
  - exists b. split; [exact B1|]. rewrite B2. split.
    + intros [_ [_ [_ U]]]. apply (U 0%nat 2%nat 1%nat); cbn; lia.
    + intro C. split; [reflexivity|]. split; [reflexivity|].
      assert (Z : forall x, Rabs (x - x) < 15 / 100000000000) by (intro x; replace (x - x) with 0 by ring; rewrite Rabs_R0; lra). split.
      * intros e He. rewrite !cells2_xc. apply Z.
      * intros n e f Hn He Hf. change (n < 1)%nat in Hn. change (s_NF (cells2 t None m)) with 3%nat in *. assert (n = 0)%nat as -> by lia.
        destruct e as [|[|[|e]]]; [lia| | |lia]; destruct f as [|[|[|f]]]; try lia; try apply Z. exact C.
Qed.
(** a momentum off by 1e-11 at another time is accepted, by 2e-10 rejected *)
Example C67_used :
  compare_with_golds (X := ExtDec0) (golds (cells2 5 None (1 + / 100000000000)) (cells2 0 None 1)) = Ok true /\
  compare_with_golds (X := ExtDec0) (golds (cells2 0 None (1 + / 5000000000)) (cells2 0 None 1)) = Ok false.
Proof.
  split.
  - destruct (golds_compared 5 (1 + / 100000000000) 5000000000000000000 1000000000010000000) as [b [-> H]]; [unfold unit18; lra|unfold unit18; lra|].
    destruct b; [reflexivity|]. exfalso. assert (false = true); [|discriminate]. apply H. replace (1 + / 100000000000 - 1) with (/ 100000000000) by ring. rewrite Rabs_pos_eq; lra.
  - destruct (golds_compared 0 (1 + / 5000000000) 0 1000000000200000000) as [b [-> H]]; [unfold unit18; lra|unfold unit18; lra|].
    destruct b; [|reflexivity]. exfalso. pose proof (proj1 H eq_refl) as K. replace (1 + / 5000000000 - 1) with (/ 5000000000) in K by ring. rewrite Rabs_pos_eq in K; lra.
Qed.

(** * C68: the convergence study *)
(** Every run of the study, at any order and resolution: the deck that run.py writes makes the program finish at t = 8 with 11
    snapshots, 0.8 apart; and plot.py's error, from the files, is half the root mean square change of the cell averages, up to
    the accuracy delta with which numbers survive the files.  The change is the error: after eight periods the exact solution
    is back where it started. *)
Theorem C68_study : forall (X : Ext R), gauss_ok (X := X) -> legfit_ok (X := X) -> parse_float "8" = Some 8 -> parse_float "0.5" = Some (1 / 2) ->
  forall p ne, (2 <= ne)%nat -> INR (ne * (2 * p + 1)) <= 100000000000000 ->
  exists F evs s, (forall fuel, (F <= fuel)%nat -> main fuel (study_deck p ne) = (evs, Finished s)) /\ s_t s = 8 /\ List.length evs = 11%nat /\
    (forall i ev, nth_error evs i = Some ev -> ev_nout ev = i /\ s_t (ev_sol ev) = INR i * (8 / 10) /\ (i = 10%nat -> ev_sol ev = s)) /\
    forall ev0 delta, 0 <= delta -> nth_error evs 0 = Some ev0 -> texts_near delta ne (ev_sol ev0) -> texts_near delta ne s ->
    exists err, study_error (flat_map printed_files evs) ne = Ok err /\ Rabs (err - / 2 * rms ne (fun e => average s e - average (ev_sol ev0) e)) <= delta.
Proof. exact @study_run. Qed.
(** the factor one half does not reach the printed orders, .. *)
Theorem C68_orders_scale : forall c (errs : list R) resolutions, 0 < c -> (forall x, In x errs -> 0 < x) ->
  observed_orders ln (map (Rmult c) errs) resolutions = observed_orders ln errs resolutions.
Proof. exact orders_scale. Qed.
(** .. which are q when the errors are C h^q *)
Theorem C68_orders_exact : forall C q (resolutions : list nat), 0 < C -> (forall n, In n resolutions -> (1 <= n)%nat) -> NoDup resolutions ->
  observed_orders ln (map (fun n => C * Rpower (INR n) (- q)) resolutions) resolutions = repeat q (List.length resolutions - 1).
Proof. exact orders_exact. Qed.
Example C68_study_used : forall p ne, (2 <= ne)%nat -> INR (ne * (2 * p + 1)) <= 100000000000000 ->
  exists F evs s ev0 err, (forall fuel, (F <= fuel)%nat -> main (X := ExtDec) fuel (study_deck p ne) = (evs, Finished s)) /\ nth_error evs 0 = Some ev0 /\
    study_error (X := ExtDec) (flat_map (printed_files (X := ExtDec)) evs) ne = Ok err /\
    Rabs (err - / 2 * rms ne (fun e => average s e - average (ev_sol ev0) e)) <= / unit18.
Proof.
  intros p ne Hne Hsz.
  assert (P8 : parse_float (Ext := ExtDec) "8" = Some 8).
  { change "8" with (show_nat 8). rewrite ExtDec_int, INR_IZR_INZ. reflexivity. }
  destruct (C68_study ExtDec ExtDec_gauss ExtDec_fit P8 eq_refl p ne Hne Hsz) as [F [evs [s [H [_ [L [_ E]]]]]]].
  destruct evs as [|ev0 evs]; [discriminate|]. exists F, (ev0 :: evs), s, ev0.
  destruct (E ev0 (/ unit18)) as [err [E1 E2]].
  - left. apply Rinv_0_lt_compat. unfold unit18. lra.
  - reflexivity.
  - split; [apply ExtDec_near|]. split; intros; apply ExtDec_near.
  - split; [apply ExtDec_near|]. split; intros; apply ExtDec_near.
  - exists err. split; [exact H|]. split; [reflexivity|]. split; [exact E1|exact E2].
Qed.
Example C68_deck : study_deck 2 16 = "#PDE system
advection
#RK scheme
rk12
#initial condition
sinewave 16
#number of outputs
11
#final time
8
#Courant-Friedrichs-Lewy condition
0.5
#order
2
#limiting
0
".
Proof. reflexivity. Qed.
Example C68_orders_used : NoDup [2; 4; 8; 16]%nat /\ (forall n, In n [2; 4; 8; 16]%nat -> (1 <= n)%nat).
Proof. split; [repeat constructor; cbn; intuition lia|cbn; intuition lia]. Qed.

Print Assumptions C66_plot_shows_state.
Print Assumptions C66_absent.
Print Assumptions C66_sensors.
Print Assumptions C66_no_sensors.
Print Assumptions C66_regression.
Print Assumptions C66_pressure_refuted.
Print Assumptions C66_reference_curve.
Print Assumptions C66_plot_used.
Print Assumptions C66_sensors_used.
Print Assumptions C67_compare.
Print Assumptions C67_used.
Print Assumptions C68_study.
Print Assumptions C68_orders_scale.
Print Assumptions C68_orders_exact.
Print Assumptions C68_study_used.
