(** Concrete solutions, built by the constructor with the library routines of ExtReal, that meet the
    hypotheses of the theorems: used in the Examples of the Properties files. *)
From Coq Require Import ZArith List Bool Arith String Lia Reals Lra.
From Verif Require Import Num Py PyStr Lib RealLib LegNumpy Ext Basis Constants Sensor Enhance Limiting AdvectionPhysics EulerPhysics
  IC Solution Solver RKCoeffs RK SpecDG SpecPoly ProofsDG ProofsDG2 ProofsWf ProofsCons ProofsSol ProofsIC ExtReal.
Import ListNotations.
Open Scope list_scope.
Open Scope R_scope.

Lemma ExtReal_len n : (1 <= n)%nat -> List.length (fst (@leggauss _ ExtReal n)) = n.
Proof. intro H. apply (gr_lx _ _ _ (ExtReal_gauss n H)). Qed.

(** what the examples need to know about a constructed solution *)
Record built (icline system riemann : string) (p ne : nat) (s : solution R) (g : R) : Prop := {
  bl_sol : @Solution R NumR LibmR ExtReal icline system p riemann "" [] = Ok (s, g);
  bl_made : @made ExtReal ne s;
  bl_p : b_p (s_basis s) = p;
  bl_t : s_t s = 0;
  bl_n : s_n s = 0%nat;
  bl_euler : s_euler s = String.eqb system "euler";
  bl_riemann : s_riemann s = riemann_choice (String.eqb system "euler") riemann;
  bl_enh : s_enh s = None;
  bl_sens : s_sens s = None
}.
Lemma built_ok icline system riemann p name params p0 NE ic :
  split_ws icline = name :: params -> @ic_lookup R NumR LibmR ExtReal name params gamma_default = Ok ic ->
  nth_error params 0 = Some p0 -> parse_int p0 = Some (Z.of_nat NE) -> (1 <= NE)%nat ->
  ((if String.eqb system "euler" then 3 else 1) <= ic_fields name)%nat ->
  exists s, built icline system riemann p NE s (ic_gamma_after ic) /\
    s_bcl s = pylit (ic_bc ic) /\ s_bcr s = pylit (ic_bc ic) /\ s_dx s = (ic_B ic - ic_A ic) / INR NE.
Proof.
  intros H1 H2 H3 H4 HN H5. destruct (@Solution_ok ExtReal icline system p riemann name params p0 NE ic H1 H2 H3 H4 H5) as [s [E EN]].
  pose proof (@ic_ok ExtReal icline system p riemann name params p0 NE ic H1 H2 H3 H4 H5) as Hic.
  replace (0 <? NE)%nat with true in E by (symmetry; apply Nat.ltb_lt; lia).
  pose proof E as E'. apply (@Solution_Ok R NumR LibmR ExtReal) in E'; [|exact Hic].
  destruct E' as [nm [ps [s1 [en [K1 [K2 [K3 K4]]]]]]]. cbn [String.eqb] in K3. subst en.
  rewrite H1 in K1. injection K1 as <- <-.
  apply (@run_ic_Ok R NumR LibmR ExtReal) in K2. destruct K2 as [ic' [NE' [u [p0' [L1 [L2 [L3 [L4 [L5 L6]]]]]]]]].
  cbn [s_icname s_params blank_solution] in L1, L2. rewrite H2 in L1. apply Ok_inj in L1. subst ic'.
  rewrite H3 in L2. injection L2 as <-. rewrite H4 in L3. injection L3 as L3. apply Nat2Z.inj in L3. subst NE'.
  unfold ic_state in L4. subst s1.
  assert (En : s_enh s = None) by (subst s; reflexivity).
  exists s. split; [|split; [subst s; reflexivity|split; [subst s; reflexivity|]]].
  - constructor; try (subst s; reflexivity).
    + exact E.
    + rewrite <- (Nat2Z.id NE), <- EN. apply (@Solution_made ExtReal icline system p riemann "" [] s (ic_gamma_after ic)).
      * exact ExtReal_len.
      * exact Hic.
      * exact E.
      * rewrite EN. lia.
      * unfold enh_lengths. rewrite En. exact I.
    + subst s. cbn. apply b_p_Basis'.
  - subst s. cbn. unfold linspace_step. destruct (Nat.leb_spec (NE + 1) 1); [lia|]. numR. rewrite INR_IZR_INZ. f_equal. f_equal. f_equal. lia.
Qed.

(** sin(2 pi x) on eight cells, any order *)
Lemma sine_built p : exists s d, built "sinewave 8" "advection" "" p 8 s gamma_default /\ DG s = Ok d /\ wf_dg 8 s d /\
  s_bcl s = pylit "periodic" /\ s_bcr s = pylit "periodic" /\ s_dx s = 1 / 4.
Proof.
  destruct (built_ok "sinewave 8" "advection" "" p "sinewave" ["8"%string] "8" 8 _ eq_refl eq_refl eq_refl eq_refl) as [s [B [E1 [E2 E3]]]]; [lia|cbn; lia|].
  cbn [ic_bc ic_A ic_B ic_gamma_after] in *. numR.
  destruct (DG_total 8 s (md_wf _ _ (bl_made _ _ _ _ _ _ _ B))) as [d Hd]. exists s, d.
  split; [exact B|]. split; [exact Hd|]. split; [apply DG_wf; [apply (md_wf _ _ (bl_made _ _ _ _ _ _ _ B))|exact Hd]|].
  split; [exact E1|]. split; [exact E2|]. rewrite E3, INR_IZR_INZ. cbn [Z.of_nat Pos.of_succ_nat Pos.succ]. lra.
Qed.
(** the periodic entropy wave on eight cells, any order and Riemann solver *)
Lemma entropy_built p r : exists s d, built "entrpyw 8" "euler" r p 8 s gamma_default /\ DG s = Ok d /\ wf_dg 8 s d /\
  s_bcl s = pylit "periodic" /\ s_bcr s = pylit "periodic" /\ s_dx s = 1 / 4.
Proof.
  destruct (built_ok "entrpyw 8" "euler" r p "entrpyw" ["8"%string] "8" 8 _ eq_refl eq_refl eq_refl eq_refl) as [s [B [E1 [E2 E3]]]]; [lia|cbn; lia|].
  cbn [ic_bc ic_A ic_B ic_gamma_after] in *. numR.
  destruct (DG_total 8 s (md_wf _ _ (bl_made _ _ _ _ _ _ _ B))) as [d Hd]. exists s, d.
  split; [exact B|]. split; [exact Hd|]. split; [apply DG_wf; [apply (md_wf _ _ (bl_made _ _ _ _ _ _ _ B))|exact Hd]|].
  split; [exact E1|]. split; [exact E2|]. rewrite E3, INR_IZR_INZ. cbn [Z.of_nat Pos.of_succ_nat Pos.succ]. lra.
Qed.

(** the same with sensor thresholds *)
Lemma built_sens icline system riemann p ne s g t th : built icline system riemann p ne s g ->
  let s' := with_sens s (Some (Sensor (t :: th) (ne + 2))) in
  @Solution R NumR LibmR ExtReal icline system p riemann "" (t :: th) = Ok (s', g) /\ @made ExtReal ne s'.
Proof.
  intros B s'. pose proof (bl_sol _ _ _ _ _ _ _ B) as E. pose proof (bl_made _ _ _ _ _ _ _ B) as M. pose proof (md_wf _ _ M) as W.
  assert (Em : Z.to_nat (s_NE s + 2) = (ne + 2)%nat) by (rewrite (wf_NE _ _ W); lia).
  split.
  - unfold Solution in E |- *. destruct (split_ws icline) as [|nm ps]; [discriminate|].
    destruct (run_ic _ _) as [[s1 g1] x]. change (String.eqb "" "") with true in E |- *. cbn [rbind] in E |- *.
    assert (K : (s1, g1) = (s, g) -> (if (s_NE s1 + 2 <? 0)%Z then Raise ValueError else Ok (with_sens s1 (Some (Sensor (t :: th) (Z.to_nat (s_NE s1 + 2)))), g1)) = Ok (s', g)).
    { intro K. injection K as -> ->. rewrite Em. rewrite (wf_NE _ _ W). destruct (Z.ltb_spec (Z.of_nat ne + 2) 0); [lia|reflexivity]. }
    destruct x as [[]|]; try discriminate E; apply Ok_inj in E; apply K; exact E.
  - constructor.
    + destruct W. constructor; try assumption. cbn. apply length_tab.
    + exact (md_basis _ _ M).
    + exact (md_dx _ _ M).
    + exact (md_minv _ _ M).
Qed.
