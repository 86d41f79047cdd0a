(** The face weights of two enhancements of order 3: modes 0 1 2 (the case analysis/dg_stability.py plots) and modes 0 1 2 3. *)
From Coq Require Import ZArith List Bool Arith String Reals Lra Lia Permutation Sorting.Sorted.
From Verif Require Import Num Py PyStr Lib LegNumpy Ext Basis Enhance Sensor Limiting Solution RealLib SpecDG SpecPoly SpecEnh
  ProofsPoly ProofsLeg ProofsGauss ProofsDG ProofsWf ProofsSol ProofsBasis ProofsEnh ProofsDescartes ProofsEnh2.
Import ListNotations.
Open Scope list_scope.
Open Scope R_scope.

Lemma LegP_2 x : LegP 2 x = (3 * x ^ 2 - 1) / 2. Proof. rewrite LegP_SS, LegP_1, LegP_0. cbn [INR]. field. Qed.
Lemma LegP_3 x : LegP 3 x = (5 * x ^ 3 - 3 * x) / 2. Proof. rewrite LegP_SS, LegP_2, LegP_1. cbn [INR]. field. Qed.
Lemma LegP_4 x : LegP 4 x = (35 * x ^ 4 - 30 * x ^ 2 + 3) / 8. Proof. rewrite LegP_SS, LegP_3, LegP_2. cbn [INR]. field. Qed.
Lemma LegP_5 x : LegP 5 x = (63 * x ^ 5 - 70 * x ^ 3 + 15 * x) / 8. Proof. rewrite LegP_SS, LegP_4, LegP_3. cbn [INR]. field. Qed.
Lemma LegP_6 x : LegP 6 x = (231 * x ^ 6 - 315 * x ^ 4 + 105 * x ^ 2 - 5) / 16. Proof. rewrite LegP_SS, LegP_5, LegP_4. cbn [INR]. field. Qed.
Lemma LegP_7 x : LegP 7 x = (429 * x ^ 7 - 693 * x ^ 5 + 315 * x ^ 3 - 35 * x) / 16. Proof. rewrite LegP_SS, LegP_6, LegP_5. cbn [INR]. field. Qed.
Ltac legs := unfold legseries; cbn [List.length Rsum nth]; rewrite ?LegP_7, ?LegP_6, ?LegP_5, ?LegP_4, ?LegP_3, ?LegP_2, ?LegP_1, ?LegP_0.

Section Alpha.
  Context {X : Ext R}.
  Hypothesis IV : inv_ok.
  (** what the weights of the right face compute *)
  Lemma alpha_value p mthd e cell nb : Enhance p mthd = Ok e -> NoDup (e_modes e) -> (forall m, In m (e_modes e) -> (m <= p)%nat) ->
    List.length cell = (p + 1)%nat -> List.length nb = (p + 1)%nat ->
    reconstructed_value p (e_modes e) 2 cell nb 1 (vdot (e_alphaL e) cell + vdot (e_alphaR e) nb).
  Proof.
    intros HE ND HB Lc Ln. destruct (Enhance_inv _ _ _ HE) as [kind [ms [modes0 [_ [_ [Em [Ai [Bi [EA [EB [e1 [e2 [e3 e4]]]]]]]]]]]]].
    assert (HSo : StronglySorted lt (e_modes e)). { rewrite Em. apply sort_sorted. apply (Permutation_NoDup (l := e_modes e)); [rewrite Em; apply sort_perm|exact ND]. }
    pose proof (IV _ _ (enh_shape p (e_modes e) 2)) as IA. rewrite EA in IA.
    set (n := (p + List.length (e_modes e) + 1)%nat) in *.
    assert (PV : forall j, (j < n)%nat -> at1 (row (basis_psi n) 0) j = LegP j (-1) /\ at1 (row (basis_psi n) 1) j = LegP j 1).
    { intros j Hj. unfold basis_psi, row. cbn [nth]. rewrite !at1_tab by exact Hj. rewrite LegP_atm1, LegP_at1. numR. split; [destruct (Nat.odd j); reflexivity|reflexivity]. }
    rewrite e3. apply (pair_value p (e_modes e) HSo HB 2 Ai (row (basis_psi n) 1) 1 cell nb (e_alphaR e) IA);
      [apply length_tab|intros j Hj; apply PV; exact Hj|exact Lc|exact Ln|exact e4].
  Qed.

  Definition poly012 (a0 a1 a2 a3 b0 b1 b2 b3 : R) : list R :=
    [(1) * a0; (1) * a1; (1) * a2; (1) * a3; (-269/616) * a0 + (-325/616) * a1 + (-277/385) * a2 + (-75/77) * a3 + (269/616) * b0 + (-213/616) * b1 + (67/385) * b2; (11/56) * a0 + (51/224) * a1 + (313/1120) * a2 + (2/7) * a3 + (-11/56) * b0 + (37/224) * b1 + (-103/1120) * b2; (-5/231) * a0 + (-181/7392) * a1 + (-1051/36960) * a2 + (-2/77) * a3 + (5/231) * b0 + (-139/7392) * b1 + (421/36960) * b2].
  Definition moved012 (a0 a1 a2 a3 b0 b1 b2 b3 : R) : list R :=
    [(1) * b0; (1) * b1; (1) * b2; (-5/3) * a0 + (-5/3) * a1 + (-23/15) * a2 + (-1) * a3 + (5/3) * b0 + (-5/3) * b1 + (23/15) * b2; (-731/616) * a0 + (-787/616) * a1 + (-508/385) * a2 + (-75/77) * a3 + (731/616) * b0 + (-675/616) * b1 + (298/385) * b2; (-47/168) * a0 + (-209/672) * a1 + (-1163/3360) * a2 + (-2/7) * a3 + (47/168) * b0 + (-167/672) * b1 + (533/3360) * b2; (-5/231) * a0 + (-181/7392) * a1 + (-1051/36960) * a2 + (-2/77) * a3 + (5/231) * b0 + (-139/7392) * b1 + (421/36960) * b2].
  Lemma moved012_ok a0 a1 a2 a3 b0 b1 b2 b3 x : legseries (poly012 a0 a1 a2 a3 b0 b1 b2 b3) (x + 2) = legseries (moved012 a0 a1 a2 a3 b0 b1 b2 b3) x.
  Proof. unfold poly012, moved012. legs. field. Qed.
  Lemma rec012 a0 a1 a2 a3 b0 b1 b2 b3 : reconstructs 3 [0; 1; 2]%nat 2 [a0; a1; a2; a3] [b0; b1; b2; b3] (poly012 a0 a1 a2 a3 b0 b1 b2 b3).
  Proof.
    split; [reflexivity|]. split.
    - intros m Hm. apply same_moment_coef. destruct m as [|[|[|[|m]]]]; [| | | |lia]; unfold poly012; cbn [nth]; ring.
    - intros m Hm v. rewrite moment_shift.
      assert (E : forall i, nth i (shift_legendre (poly012 a0 a1 a2 a3 b0 b1 b2 b3) 2) 0 = nth i (moved012 a0 a1 a2 a3 b0 b1 b2 b3) 0).
      { apply legseries_inj_nth. intro x. rewrite shift_legendre_ok. apply moved012_ok. }
      rewrite !moment_integral, E. replace (nth m (moved012 a0 a1 a2 a3 b0 b1 b2 b3) 0) with (nth m [b0; b1; b2; b3] 0); [reflexivity|].
      cbn [In] in Hm. decompose [or] Hm; try contradiction; subst m; unfold moved012; cbn [nth]; ring.
  Qed.
  Definition aL012 : list R := [31/42; 227/336; 893/1680; 2/7].
  Definition aR012 : list R := [11/42; -67/336; 157/1680; 0].
  Lemma weights012 mthd e : Enhance 3 mthd = Ok e -> e_modes e = [0; 1; 2]%nat -> forall j, (j <= 3)%nat ->
    at1 (e_alphaL e) j = nth j aL012 0 /\ at1 (e_alphaR e) j = nth j aR012 0.
  Proof.
    intros HE Em.
    assert (ND : NoDup (e_modes e)) by (rewrite Em; repeat constructor; cbn; lia).
    assert (HB : forall m, In m (e_modes e) -> (m <= 3)%nat) by (rewrite Em; cbn; lia).
    destruct (Enhance_lengths IV 3 mthd e HE ND HB) as [L1 [L2 _]].
    assert (V : forall a0 a1 a2 a3 b0 b1 b2 b3, vdot (e_alphaL e) [a0; a1; a2; a3] + vdot (e_alphaR e) [b0; b1; b2; b3] = (31/42) * a0 + (227/336) * a1 + (893/1680) * a2 + (2/7) * a3 + (11/42) * b0 + (-67/336) * b1 + (157/1680) * b2).
    { intros. pose proof (alpha_value 3 mthd e [a0; a1; a2; a3] [b0; b1; b2; b3] HE ND HB eq_refl eq_refl) as H. rewrite Em in H.
      rewrite (reconstructed_exact _ _ _ _ _ _ _ _ H (rec012 a0 a1 a2 a3 b0 b1 b2 b3)). unfold poly012. legs. field. }
    destruct (e_alphaL e) as [|x0 [|x1 [|x2 [|x3 [|]]]]]; try discriminate L1. destruct (e_alphaR e) as [|y0 [|y1 [|y2 [|y3 [|]]]]]; try discriminate L2.
    assert (V' : forall a0 a1 a2 a3 b0 b1 b2 b3, x0 * a0 + x1 * a1 + x2 * a2 + x3 * a3 + (y0 * b0 + y1 * b1 + y2 * b2 + y3 * b3) = (31/42) * a0 + (227/336) * a1 + (893/1680) * a2 + (2/7) * a3 + (11/42) * b0 + (-67/336) * b1 + (157/1680) * b2).
    { intros. rewrite <- (V a0 a1 a2 a3 b0 b1 b2 b3). unfold vdot. cbn. unfold n0. cbn. ring. }
    intros j Hj. unfold at1, aL012, aR012. destruct j as [|[|[|[|j]]]]; [| | | |lia]; cbn [nth];
      [pose proof (V' 1 0 0 0 0 0 0 0); pose proof (V' 0 0 0 0 1 0 0 0)|pose proof (V' 0 1 0 0 0 0 0 0); pose proof (V' 0 0 0 0 0 1 0 0)
      |pose proof (V' 0 0 1 0 0 0 0 0); pose proof (V' 0 0 0 0 0 0 1 0)|pose proof (V' 0 0 0 1 0 0 0 0); pose proof (V' 0 0 0 0 0 0 0 1)]; split; lra.
  Qed.

  Definition poly0123 (a0 a1 a2 a3 b0 b1 b2 b3 : R) : list R :=
    [(1) * a0; (1) * a1; (1) * a2; (1) * a3; (-147/128) * a0 + (-1745/1408) * a1 + (-1935/1408) * a2 + (-13809/9856) * a3 + (147/128) * b0 + (-1489/1408) * b1 + (1167/1408) * b2 + (-4209/9856) * b3; (1379/1664) * a0 + (1431/1664) * a1 + (1433/1664) * a2 + (7747/11648) * a3 + (-1379/1664) * b0 + (1327/1664) * b1 + (-1121/1664) * b2 + (4419/11648) * b3; (-25/128) * a0 + (-279/1408) * a1 + (-265/1408) * a2 + (-1283/9856) * a3 + (25/128) * b0 + (-271/1408) * b1 + (241/1408) * b2 + (-1027/9856) * b3; (25/1664) * a0 + (25/1664) * a1 + (23/1664) * a2 + (15/1664) * a3 + (-25/1664) * b0 + (25/1664) * b1 + (-23/1664) * b2 + (15/1664) * b3].
  Definition moved0123 (a0 a1 a2 a3 b0 b1 b2 b3 : R) : list R :=
    [(1) * b0; (1) * b1; (1) * b2; (1) * b3; (147/128) * a0 + (1489/1408) * a1 + (1167/1408) * a2 + (4209/9856) * a3 + (-147/128) * b0 + (1745/1408) * b1 + (-1935/1408) * b2 + (13809/9856) * b3; (1379/1664) * a0 + (1327/1664) * a1 + (1121/1664) * a2 + (4419/11648) * a3 + (-1379/1664) * b0 + (1431/1664) * b1 + (-1433/1664) * b2 + (7747/11648) * b3; (25/128) * a0 + (271/1408) * a1 + (241/1408) * a2 + (1027/9856) * a3 + (-25/128) * b0 + (279/1408) * b1 + (-265/1408) * b2 + (1283/9856) * b3; (25/1664) * a0 + (25/1664) * a1 + (23/1664) * a2 + (15/1664) * a3 + (-25/1664) * b0 + (25/1664) * b1 + (-23/1664) * b2 + (15/1664) * b3].
  Lemma moved0123_ok a0 a1 a2 a3 b0 b1 b2 b3 x : legseries (poly0123 a0 a1 a2 a3 b0 b1 b2 b3) (x + 2) = legseries (moved0123 a0 a1 a2 a3 b0 b1 b2 b3) x.
  Proof. unfold poly0123, moved0123. legs. field. Qed.
  Lemma rec0123 a0 a1 a2 a3 b0 b1 b2 b3 : reconstructs 3 [0; 1; 2; 3]%nat 2 [a0; a1; a2; a3] [b0; b1; b2; b3] (poly0123 a0 a1 a2 a3 b0 b1 b2 b3).
  Proof.
    split; [reflexivity|]. split.
    - intros m Hm. apply same_moment_coef. destruct m as [|[|[|[|m]]]]; [| | | |lia]; unfold poly0123; cbn [nth]; ring.
    - intros m Hm v. rewrite moment_shift.
      assert (E : forall i, nth i (shift_legendre (poly0123 a0 a1 a2 a3 b0 b1 b2 b3) 2) 0 = nth i (moved0123 a0 a1 a2 a3 b0 b1 b2 b3) 0).
      { apply legseries_inj_nth. intro x. rewrite shift_legendre_ok. apply moved0123_ok. }
      rewrite !moment_integral, E. replace (nth m (moved0123 a0 a1 a2 a3 b0 b1 b2 b3) 0) with (nth m [b0; b1; b2; b3] 0); [reflexivity|].
      cbn [In] in Hm. decompose [or] Hm; try contradiction; subst m; unfold moved0123; cbn [nth]; ring.
  Qed.
  Definition aL0123 : list R := [1/2; 7/16; 5/16; 1/7].
  Definition aR0123 : list R := [1/2; -7/16; 5/16; -1/7].
  Lemma weights0123 mthd e : Enhance 3 mthd = Ok e -> e_modes e = [0; 1; 2; 3]%nat -> forall j, (j <= 3)%nat ->
    at1 (e_alphaL e) j = nth j aL0123 0 /\ at1 (e_alphaR e) j = nth j aR0123 0.
  Proof.
    intros HE Em.
    assert (ND : NoDup (e_modes e)) by (rewrite Em; repeat constructor; cbn; lia).
    assert (HB : forall m, In m (e_modes e) -> (m <= 3)%nat) by (rewrite Em; cbn; lia).
    destruct (Enhance_lengths IV 3 mthd e HE ND HB) as [L1 [L2 _]].
    assert (V : forall a0 a1 a2 a3 b0 b1 b2 b3, vdot (e_alphaL e) [a0; a1; a2; a3] + vdot (e_alphaR e) [b0; b1; b2; b3] = (1/2) * a0 + (7/16) * a1 + (5/16) * a2 + (1/7) * a3 + (1/2) * b0 + (-7/16) * b1 + (5/16) * b2 + (-1/7) * b3).
    { intros. pose proof (alpha_value 3 mthd e [a0; a1; a2; a3] [b0; b1; b2; b3] HE ND HB eq_refl eq_refl) as H. rewrite Em in H.
      rewrite (reconstructed_exact _ _ _ _ _ _ _ _ H (rec0123 a0 a1 a2 a3 b0 b1 b2 b3)). unfold poly0123. legs. field. }
    destruct (e_alphaL e) as [|x0 [|x1 [|x2 [|x3 [|]]]]]; try discriminate L1. destruct (e_alphaR e) as [|y0 [|y1 [|y2 [|y3 [|]]]]]; try discriminate L2.
    assert (V' : forall a0 a1 a2 a3 b0 b1 b2 b3, x0 * a0 + x1 * a1 + x2 * a2 + x3 * a3 + (y0 * b0 + y1 * b1 + y2 * b2 + y3 * b3) = (1/2) * a0 + (7/16) * a1 + (5/16) * a2 + (1/7) * a3 + (1/2) * b0 + (-7/16) * b1 + (5/16) * b2 + (-1/7) * b3).
    { intros. rewrite <- (V a0 a1 a2 a3 b0 b1 b2 b3). unfold vdot. cbn. unfold n0. cbn. ring. }
    intros j Hj. unfold at1, aL0123, aR0123. destruct j as [|[|[|[|j]]]]; [| | | |lia]; cbn [nth];
      [pose proof (V' 1 0 0 0 0 0 0 0); pose proof (V' 0 0 0 0 1 0 0 0)|pose proof (V' 0 1 0 0 0 0 0 0); pose proof (V' 0 0 0 0 0 1 0 0)
      |pose proof (V' 0 0 1 0 0 0 0 0); pose proof (V' 0 0 0 0 0 0 1 0)|pose proof (V' 0 0 0 1 0 0 0 0); pose proof (V' 0 0 0 0 0 0 0 1)]; split; lra.
  Qed.
End Alpha.
