(** Which initial conditions succeed (C46, C53, and concrete solutions for examples). *)
From Coq Require Import ZArith List Bool Arith String Lia Reals Lra.
From Verif Require Import Num Py PyStr Lib RealLib LegNumpy Ext Basis Constants Sensor Enhance Limiting AdvectionPhysics EulerPhysics
  IC Solution Solver RKCoeffs RK SpecDG SpecPoly ProofsDG ProofsDG2 ProofsWf ProofsCons ProofsSol.
Import ListNotations.
Open Scope list_scope.
Open Scope nat_scope.

Section Ctor.
  Context {A : Type} {N : Num A} {L : Libm A} {X : Ext A}.
  Implicit Types s : solution A.

  Lemma projection_total (b : basis A) l r f c : (forall x, exists fx, f x = Ok fx /\ c < List.length fx) ->
    exists v, projection b l r f c = Ok v.
  Proof.
    intro H. unfold projection.
    rewrite (mapM_total _ (fun x => match f x with Ok fx => nth c fx n0 | Raise _ => n0 end)); [cbn [rbind]; eauto|].
    intros x _. destruct (H x) as [fx [-> Hc]]. cbn [rbind]. destruct (nth_error fx c) as [v|] eqn:E.
    - apply nth_error_nth with (d := n0) in E. rewrite E. reflexivity.
    - apply nth_error_None in E. lia.
  Qed.
  Lemma populate_total (b : basis A) x NE NF f u0 : 1 <= NF ->
    (forall x, exists fx, f x = Ok fx /\ NF <= List.length fx) ->
    exists u, populate b x NE NF f u0 = (u, None).
  Proof.
    intros HNF Hf. unfold populate. generalize (NE * NF). intro k. induction k as [|k IH]; [cbn; eauto|].
    rewrite seq_S, fold_left_app. destruct IH as [u ->]. cbn [fold_left Nat.add].
    destruct (projection_total b (at1 x (k / NF)) (at1 x (k / NF + 1)) f (k mod NF)) as [v ->]; [|eauto].
    intro y. destruct (Hf y) as [fx [E Hl]]. exists fx. split; [exact E|]. pose proof (Nat.mod_upper_bound k NF ltac:(lia)). lia.
  Qed.
  Lemma run_ic_total s0 g ic NE p0 : ic_lookup (s_icname s0) (s_params s0) g = Ok ic ->
    nth_error (s_params s0) 0 = Some p0 -> parse_int p0 = Some (Z.of_nat NE) ->
    (forall x, exists fx, ic_f ic x = Ok fx /\ s_NF s0 <= List.length fx) ->
    exists s, run_ic s0 g = (s, (if 0 <? NE then ic_gamma_after ic else ic_gamma ic), None) /\ s_NE s = Z.of_nat NE.
  Proof.
    intros H1 H2 H3 H4. unfold run_ic. rewrite H1. unfold setup_common_ic. cbn [s_params with_bc]. rewrite H2, H3.
    destruct (Z.ltb_spec (Z.of_nat NE + 1) 0); [lia|]. destruct (Z.ltb_spec (Z.of_nat NE) 0); [lia|].
    match goal with |- context [populate ?b ?x ?n ?f ?g ?u] => destruct (populate_total b x n f g u) as [u' ->]; [apply NF_pos|exact H4|] end.
    cbn [s_NE with_minv with_u with_mesh with_NE].
    match goal with |- exists s, (?t, _, _) = _ /\ _ => exists t end. split; [|reflexivity].
    replace (0 <? Z.of_nat NE)%Z with (0 <? NE); [reflexivity|]. destruct (Nat.ltb_spec 0 NE), (Z.ltb_spec 0 (Z.of_nat NE)); try reflexivity; lia.
  Qed.
End Ctor.

Section CtorR.
  Context {X : Ext R}.
  Implicit Types s : solution R.
  Open Scope R_scope.

  (** over the reals the functions of the initial conditions never raise *)
  Definition ic_fields (name : string) : nat :=
    if (String.eqb name "sinewave" || String.eqb name "ictest")%bool then 1 else 3.
  Ltac rb x y := destruct (Rltb x y) eqn:?; cbn [rbind andb]; eauto.
  Lemma simplew_u_total g x : exists u, simplew_u (A:=R) g x = Ok u.
  Proof.
    unfold simplew_u. numR.
    repeat match goal with |- context [if ?c then _ else _] => destruct c eqn:?; [eauto|] end.
    exfalso. repeat match goal with H : (_ && _)%bool = false |- _ => apply andb_false_iff in H end.
    repeat match goal with H : Rleb ?a ?b = false |- _ => apply Rleb_false in H end.
    destruct Heqb0 as [E|E]; [apply Rltb_false in E|apply Rltb_false in E]; try lra.
    destruct Heqb1 as [E1|E1]; apply Rleb_false in E1; try lra.
    destruct Heqb2 as [E2|E2]; apply Rltb_false in E2; lra.
  Qed.
  Ltac fin := match goal with E : String.eqb ?name ?a = true, D : forall a b, _ -> _ -> _ |- _ =>
    try rewrite (D a "ictest"%string E eq_refl) end; cbn [orb].
  Lemma ic_f_total name params g ic : ic_lookup (A:=R) name params g = Ok ic ->
    forall x, exists fx, ic_f ic x = Ok fx /\ List.length fx = ic_fields name.
  Proof.
    unfold ic_lookup, ic_fields. intro H.
    assert (D : forall a b, String.eqb name a = true -> String.eqb a b = false -> String.eqb name b = false).
    { intros a b E1 E2. apply String.eqb_eq in E1. subst name. exact E2. }
    destruct (String.eqb name "sinewave") eqn:?;  [apply Ok_inj in H; subst ic; fin; cbn [ic_f]; intro; eexists; split; reflexivity|].
    destruct (String.eqb name "simplew") eqn:?.
    { apply Ok_inj in H; subst ic. fin. cbn. intro x. unfold f_simplew. destruct (simplew_u_total (IZR 3) x) as [u Hu].
      cbn [nofZ NumR] in *. rewrite Hu. cbn [rbind]. eexists; split; reflexivity. }
    destruct (String.eqb name "entrpyw") eqn:?;  [apply Ok_inj in H; subst ic; fin; cbn [ic_f]; intro; eexists; split; reflexivity|].
    destruct (String.eqb name "acsticw") eqn:?;  [apply Ok_inj in H; subst ic; fin; cbn [ic_f]; intro; eexists; split; reflexivity|].
    destruct (String.eqb name "scktube") eqn:?.
    { destruct (negb _); [discriminate|]. repeat inv_bind H. apply Ok_inj in H; subst ic. fin. cbn [ic_f]. intro y. unfold f_scktube. numR.
      Rcase y x; cbn [rbind]; [eexists; split; reflexivity|]. unfold Rleb. destruct (Rle_dec x y); [cbn [rbind]; eexists; split; reflexivity|lra]. }
    destruct (String.eqb name "shuoshe") eqn:?.
    { apply Ok_inj in H; subst ic. fin. cbn [ic_f]. intro y. unfold f_shuoshe. numR.
      Rcase y 1; cbn [rbind]; [eexists; split; reflexivity|]. unfold Rleb. destruct (Rle_dec 1 y); [cbn [rbind]; eexists; split; reflexivity|lra]. }
    destruct (String.eqb name "ictest") eqn:?;  [apply Ok_inj in H; subst ic; fin; cbn [ic_f]; intro; eexists; split; reflexivity|]. discriminate.
  Qed.

  (** a known initial condition with enough fields succeeds *)
  Lemma ic_ok icline system order riemann name params p0 NE ic :
    split_ws icline = name :: params -> ic_lookup (A:=R) name params gamma_default = Ok ic ->
    nth_error params 0 = Some p0 -> parse_int p0 = Some (Z.of_nat NE) ->
    ((if String.eqb system "euler" then 3 else 1) <= ic_fields name)%nat ->
    ic_succeeds (A:=R) icline system order riemann.
  Proof.
    intros H1 H2 H3 H4 H5. unfold ic_succeeds. rewrite H1.
    match goal with |- context [run_ic ?s0 ?g] => destruct (run_ic_total s0 g ic NE p0) as [s [E _]]; [exact H2|exact H3|exact H4| |rewrite E; reflexivity] end.
    intro x. destruct (ic_f_total _ _ _ _ H2 x) as [fx [E Hl]]. exists fx. split; [exact E|]. cbn. rewrite Hl. exact H5.
  Qed.
  Lemma Solution_ok icline system order riemann name params p0 NE ic :
    split_ws icline = name :: params -> ic_lookup (A:=R) name params gamma_default = Ok ic ->
    nth_error params 0 = Some p0 -> parse_int p0 = Some (Z.of_nat NE) ->
    ((if String.eqb system "euler" then 3 else 1) <= ic_fields name)%nat ->
    exists s, Solution (A:=R) icline system order riemann "" [] = Ok (s, if (0 <? NE)%nat then ic_gamma_after ic else ic_gamma ic)
      /\ s_NE s = Z.of_nat NE.
  Proof.
    intros H1 H2 H3 H4 H5. unfold Solution. rewrite H1.
    match goal with |- context [run_ic ?s0 ?g] => destruct (run_ic_total s0 g ic NE p0) as [s [E EN]]; [exact H2|exact H3|exact H4| |rewrite E] end.
    { intro x. destruct (ic_f_total _ _ _ _ H2 x) as [fx [E Hl]]. exists fx. split; [exact E|]. cbn. rewrite Hl. exact H5. }
    cbn [String.eqb rbind]. exists s. split; [reflexivity|exact EN].
  Qed.
End CtorR.
