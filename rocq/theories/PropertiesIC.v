(** Property C46: the built-in Euler initial conditions.  [gauss_ok], [legfit_ok], [inv_ok] are the contracts of numpy's leggauss,
    legfit and inv; ExtReal meets them.  [euler_ic name params] (ProofsIC2) holds for simplew, entrpyw, acsticw and shuoshe, and for
    scktube when the densities and pressures given as parameters are positive. *)
From Coq Require Import ZArith List Bool Arith String Reals Lra Lia.
From Verif Require Import Lib Num Py PyStr Constants LegNumpy Ext Basis Enhance Sensor Limiting IC Solution Solver RKCoeffs RK IO Deck Main Standins RealLib SpecDG SpecPoly SpecEuler
  ProofsDG ProofsWf ProofsSol ProofsIC ProofsMain ProofsIC2 ExtReal Witness.
Import ListNotations.
Open Scope list_scope.
Open Scope R_scope.

(** positive density and pressure at every x; gamma is the one in force afterwards *)
Theorem C46_pointwise : forall (X : Ext R) name params ic, euler_ic name params -> ic_lookup (A:=R) name params gamma_default = Ok ic ->
  1 < ic_gamma_after ic /\ forall x, exists rho v p, 0 < rho /\ 0 < p /\ ic_f ic x = Ok [rho; rho * v; energy (ic_gamma_after ic) rho v p].
Proof. exact @ic_admissible. Qed.
(** admissible cell averages of the constructed solution *)
Theorem C46_averages : forall (X : Ext R), gauss_ok -> legfit_ok -> forall icline system order riem enh th (s : solution R) g name params,
  split_ws icline = name :: params -> euler_ic name params ->
  ic_succeeds icline system order riem -> Solution icline system order riem enh th = Ok (s, g) -> (1 <= s_NE s)%Z -> s_euler s = true ->
  1 < g /\ forall e, (1 <= e <= Z.to_nat (s_NE s))%nat -> admissible g (at1 (modes s e 0) 0, at1 (modes s e 1) 0, at1 (modes s e 2) 0).
Proof. exact @averages_admissible. Qed.
(** when main has built, limited (or not) and handed over the solution, all cells (ghosts included) are admissible on average and the
    CFL time step is positive *)
Theorem C46_first_step : forall (X : Ext R), gauss_ok -> legfit_ok -> inv_ok -> forall (d : deck R) s g dgs l name params,
  split_ws (dk_ic d) = name :: params -> euler_ic name params -> dk_system d = "euler"%string -> ic_valid d -> setup d = Ok (s, g, dgs, l) ->
  1 < g /\ (forall e, (e < Z.to_nat (s_NE s) + 2)%nat -> admissible g (at1 (modes s e 0) 0, at1 (modes s e 1) 0, at1 (modes s e 2) 0)) /\
  (0 < dk_cfl d -> exists dt, cfl_time_step g s (dk_cfl d) = Ok dt /\ 0 < dt).
Proof. exact @first_step. Qed.

(** reading the parameters of Sod's problem *)
Lemma dec_val (t a b : string) m n : split_dot t = (a, b) -> digits_val (a ++ b)%string 0 = Some m -> (10 ^ Z.of_nat (String.length b))%Z = n ->
  parse_decimal_pos (A:=R) t = Some (IZR m / IZR n).
Proof. intros E1 E2 E3. unfold parse_decimal_pos. rewrite E1, E2, E3. reflexivity. Qed.
Lemma dec_0 : parse_decimal (A:=R) "0.0" = Some (IZR 0 / IZR 10).
Proof. change (parse_decimal (A:=R) "0.0") with (parse_decimal_pos (A:=R) "0.0"). eapply dec_val; reflexivity. Qed.
Lemma dec_1 : parse_decimal (A:=R) "1.0" = Some (IZR 10 / IZR 10).
Proof. change (parse_decimal (A:=R) "1.0") with (parse_decimal_pos (A:=R) "1.0"). eapply dec_val; reflexivity. Qed.
Lemma dec_125 : parse_decimal (A:=R) "0.125" = Some (IZR 125 / IZR 1000).
Proof. change (parse_decimal (A:=R) "0.125") with (parse_decimal_pos (A:=R) "0.125"). eapply dec_val; reflexivity. Qed.
Lemma dec_01 : parse_decimal (A:=R) "0.1" = Some (IZR 1 / IZR 10).
Proof. change (parse_decimal (A:=R) "0.1") with (parse_decimal_pos (A:=R) "0.1"). eapply dec_val; reflexivity. Qed.
Lemma float_param_dec (l : list string) i q v : nth_error l i = Some q -> parse_decimal q = Some v -> @float_param R ExtReal l i = Ok v.
Proof. intros E1 E2. unfold float_param. rewrite E1. cbn [parse_float ExtReal]. rewrite E2. reflexivity. Qed.

Definition sod_line : string := "scktube 100 0.0 1.0 0.0 1.0 0.125 0.0 0.1".
Definition sod_params : list string := ["100"; "0.0"; "1.0"; "0.0"; "1.0"; "0.125"; "0.0"; "0.1"]%string.
Lemma sod_float : @float_param R ExtReal sod_params 1 = Ok (IZR 0 / IZR 10) /\ @float_param R ExtReal sod_params 2 = Ok (IZR 10 / IZR 10) /\
  @float_param R ExtReal sod_params 3 = Ok (IZR 0 / IZR 10) /\ @float_param R ExtReal sod_params 4 = Ok (IZR 10 / IZR 10) /\
  @float_param R ExtReal sod_params 5 = Ok (IZR 125 / IZR 1000) /\ @float_param R ExtReal sod_params 6 = Ok (IZR 0 / IZR 10) /\
  @float_param R ExtReal sod_params 7 = Ok (IZR 1 / IZR 10).
Proof.
  repeat split; (eapply float_param_dec; [reflexivity|]); first [exact dec_0|exact dec_1|exact dec_125|exact dec_01].
Qed.
Lemma sod_lookup : exists ic, @ic_lookup R NumR LibmR ExtReal "scktube" sod_params gamma_default = Ok ic.
Proof.
  destruct sod_float as [E1 [E2 [E3 [E4 [E5 [E6 E7]]]]]]. eexists. unfold ic_lookup.
  cbn [String.eqb Ascii.eqb Bool.eqb]. change (negb (List.length sod_params =? 8)%nat) with false. cbv iota.
  rewrite E1, E2, E3, E4, E5, E6, E7. cbn [rbind]. reflexivity.
Qed.
Lemma sod_positive : @euler_ic ExtReal "scktube" sod_params.
Proof.
  destruct sod_float as [_ [E2 [_ [E4 [E5 [_ E7]]]]]]. right. split; [reflexivity|]. intros i v Hi H. cbn [In] in Hi.
  destruct Hi as [<-|[<-|[<-|[<-|[]]]]]; [rewrite E2 in H|rewrite E4 in H|rewrite E5 in H|rewrite E7 in H]; apply Ok_inj in H; subst; lra.
Qed.

Lemma witness_deck p r icline name params p0 NE ic : split_ws icline = name :: params -> @ic_lookup R NumR LibmR ExtReal name params gamma_default = Ok ic ->
  nth_error params 0 = Some p0 -> parse_int p0 = Some (Z.of_nat NE) -> (1 <= NE)%nat -> (3 <= ic_fields name)%nat ->
  let d := {| dk_system := "euler"; dk_rk := "rk4"; dk_riemann := r; dk_ic := icline; dk_nout := 10; dk_finaltime := 1;
              dk_cfl := 1 / 2; dk_order := Z.of_nat p; dk_limiting := ""; dk_enhance := ""; dk_thresholds := [] |} in
  @ic_valid R NumR LibmR ExtReal d /\ exists s g dgs l, @setup R NumR LibmR ExtReal d = Ok (s, g, dgs, l).
Proof.
  intros H1 H2 H3 H4 H5 H6 d.
  pose proof (@ic_ok ExtReal icline "euler" p r name params p0 NE ic H1 H2 H3 H4 H6) as Hic.
  destruct (@Solution_ok ExtReal icline "euler" p r name params p0 NE ic H1 H2 H3 H4 H6) as [s [E EN]].
  assert (M : @made ExtReal NE s).
  { rewrite <- (Nat2Z.id NE), <- EN. eapply (@Solution_made ExtReal); [exact ExtReal_len|exact Hic|exact E|lia|].
    unfold enh_lengths. apply (@Solution_Ok R NumR LibmR ExtReal) in E; [|exact Hic]. destruct E as [? [? [? [? [_ [_ [K ->]]]]]]]. cbn [String.eqb] in K. subst. exact I. }
  pose proof (md_wf _ _ M) as W. pose proof (apply_bc_eq _ _ W) as EB. pose proof (wf_apply_bc _ _ W) as W1. destruct (DG_total _ _ W1) as [dgs Hd].
  split.
  - split; [cbn [dk_ic dk_system dk_order dk_riemann d]; rewrite Nat2Z.id; exact Hic|]. exists s. eexists. split; [cbn [dk_ic dk_system dk_order dk_riemann dk_enhance dk_thresholds d]; rewrite Nat2Z.id; exact E|]. rewrite EN. lia.
  - exists (with_u s (bc_u NE s)). do 3 eexists. unfold setup. cbn [dk_ic dk_system dk_order dk_riemann dk_enhance dk_thresholds dk_limiting d].
    destruct (Z.ltb_spec (Z.of_nat p) 0); [lia|]. rewrite Nat2Z.id, E. cbn [rbind]. rewrite EB. cbn [rbind]. rewrite Hd. cbn [rbind]. reflexivity.
Qed.

(** Sod's shock tube and the four waves, any order and Riemann solver *)
Example C46_witness : forall p r icline, In icline [sod_line; "simplew 16"; "entrpyw 8"; "acsticw 5"; "shuoshe 40"]%string ->
  let d := {| dk_system := "euler"; dk_rk := "rk4"; dk_riemann := r; dk_ic := icline; dk_nout := 10; dk_finaltime := 1;
              dk_cfl := 1 / 2; dk_order := Z.of_nat p; dk_limiting := ""; dk_enhance := ""; dk_thresholds := [] |} in
  exists name params, split_ws (dk_ic d) = name :: params /\ @euler_ic ExtReal name params /\ @ic_valid R NumR LibmR ExtReal d /\
    exists s g dgs l, @setup R NumR LibmR ExtReal d = Ok (s, g, dgs, l).
Proof.
  intros p r icline Hin d. cbn [In] in Hin. destruct Hin as [<-|[<-|[<-|[<-|[<-|[]]]]]].
  - destruct sod_lookup as [ic Hic]. exists "scktube"%string, sod_params. split; [reflexivity|]. split; [exact sod_positive|].
    apply (witness_deck p r sod_line "scktube" sod_params "100" 100 ic); [reflexivity|exact Hic|reflexivity|reflexivity|lia|cbn; lia].
  - exists "simplew"%string, ["16"%string]. split; [reflexivity|]. split; [left; cbn; tauto|].
    eapply (witness_deck p r _ "simplew" ["16"%string] "16" 16); [reflexivity|reflexivity|reflexivity|reflexivity|lia|cbn; lia].
  - exists "entrpyw"%string, ["8"%string]. split; [reflexivity|]. split; [left; cbn; tauto|].
    eapply (witness_deck p r _ "entrpyw" ["8"%string] "8" 8); [reflexivity|reflexivity|reflexivity|reflexivity|lia|cbn; lia].
  - exists "acsticw"%string, ["5"%string]. split; [reflexivity|]. split; [left; cbn; tauto|].
    eapply (witness_deck p r _ "acsticw" ["5"%string] "5" 5); [reflexivity|reflexivity|reflexivity|reflexivity|lia|cbn; lia].
  - exists "shuoshe"%string, ["40"%string]. split; [reflexivity|]. split; [left; cbn; tauto|].
    eapply (witness_deck p r _ "shuoshe" ["40"%string] "40" 40); [reflexivity|reflexivity|reflexivity|reflexivity|lia|cbn; lia].
Qed.

Print Assumptions C46_pointwise.
Print Assumptions C46_averages.
Print Assumptions C46_first_step.
Print Assumptions C46_witness.
