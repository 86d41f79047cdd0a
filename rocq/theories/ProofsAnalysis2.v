(** analysis/dg_stability.py: its matrix is the Fourier symbol of the advection scheme. *)
From Coq Require Import ZArith List Bool Arith String Lia Reals Lra Ring Sorted.
From Verif Require Import Num Py Lib RealLib LegNumpy Ext Basis Enhance Solution Solver RKCoeffs RK SpecDG SpecPoly SpecRK SpecEnh Analysis SpecAnalysis
  ProofsPoly ProofsLeg ProofsGauss ProofsDG ProofsBasis ProofsEnh ProofsAdv ProofsRK ProofsRKLin ProofsAnalysis.
Import ListNotations.
Open Scope R_scope.

(** ** matrix products *)
Lemma nsum_C (l : list C) : nsum l = Csum (List.length l) (fun i => nth i l (nofZ 0)).
Proof.
  induction l as [|x l IH]; [reflexivity|]. cbn [nsum List.length]. rewrite IH, Csum_S_l. reflexivity.
Qed.
Lemma Csum_app n m f : Csum (n + m) f = nadd (Csum n f) (Csum m (fun i => f (n + i)%nat)).
Proof. induction m as [|m IH]; [rewrite Nat.add_0_r; unfold Csum at 3; cbn [ksum]; ring|]. rewrite Nat.add_succ_r, !Csum_S, IH. ring. Qed.
Lemma vdot_C (x y : list C) n : List.length x = n -> List.length y = n -> vdot x y = Csum n (fun i => nmul (at1 x i) (at1 y i)).
Proof.
  intros Hx Hy. unfold vdot. rewrite nsum_C, length_map2, Hx, Hy, Nat.min_id.
  apply Csum_ext. intros i Hi. rewrite nth_map2 with (dx := n0) (dy := n0) by lia. reflexivity.
Qed.
Lemma cmatmul_tab r k c f g : (1 <= k)%nat -> cmatmul (tab2 r k f) (tab2 k c g) = tab2 r c (fun i j => Csum k (fun l => nmul (f i l) (g l j)) : C).
Proof.
  intro Hk. unfold cmatmul.
  assert (Nr : nrows (tab2 r k f) = r) by apply length_tab2.
  assert (Nc : ncols (tab2 k c g) = c) by (apply (shape_ncols k c); [apply shape_tab2|exact Hk]).
  rewrite Nr, Nc. apply (mat_ext r c); [apply shape_tab2|apply shape_tab2|]. intros i j Hi Hj. rewrite !at2_tab2 by assumption.
  rewrite row_tab2 by exact Hi. rewrite (vdot_C _ _ k); [|apply length_tab|rewrite length_col; apply length_tab2].
  apply Csum_ext. intros l Hl. rewrite at1_tab by exact Hl. rewrite at1_col by (rewrite length_tab2; exact Hl). rewrite at2_tab2 by assumption. reflexivity.
Qed.

Section Symbol.
  Context {X : Ext R}.
  Variable p : nat.
  (** the entries of the interior matrix *)
  Definition Fnm (n m : nat) : R := integrate_legendre_product (legder (leg_basis n)) (leg_basis m).
  Definition sg (n : nat) : R := LegP n (-1).
  (** FK from the weights of the upwind face value *)
  Definition symbol_row (t : C) (gam : nat -> C) (w : nat -> C) (n : nat) : C :=
    nmul (Cr ((2 * INR n + 1) / 2))
      (nsub (Csum (p + 1) (fun m => nmul (Cr (Fnm n m)) (w m)))
            (nmul (nsub (nofZ 1) (nmul (Cr (sg n)) (ndiv (nofZ 1) t))) (Csum (p + 1) (fun m => nmul (gam m) (w m))))).
  Lemma fourier_row t gam (g0 g1 : nat -> nat -> C) w n : (n <= p)%nat ->
    (forall i j, (i <= p)%nat -> (j <= p)%nat -> g0 i j = nmul (nmul (Cr (sg i)) (ndiv (nofZ 1) t)) (gam j)) ->
    (forall i j, (i <= p)%nat -> (j <= p)%nat -> g1 i j = gam j) ->
    Capply (p + 1) (fourier_matrix (cdiag (b_minv (Basis p))) (dg_interior_flux_matrix p) (tab2 (p + 1) (p + 1) g0, tab2 (p + 1) (p + 1) g1)) w n =
    symbol_row t gam w n.
  Proof.
    intros Hn H0 H1. unfold fourier_matrix, dg_interior_flux_matrix.
    assert (NR : nrows (tab2 (p + 1) (p + 1) (fun i j : nat => integrate_legendre_product (legder (leg_basis i)) (leg_basis j) : R)) = (p + 1)%nat) by apply length_tab2.
    assert (NC : ncols (tab2 (p + 1) (p + 1) (fun i j : nat => integrate_legendre_product (legder (leg_basis i)) (leg_basis j) : R)) = (p + 1)%nat)
      by (apply (shape_ncols (p + 1) (p + 1)); [apply shape_tab2|lia]).
    rewrite NR, NC. unfold cdiag. assert (L : List.length (b_minv (Basis p)) = (p + 1)%nat) by (rewrite Basis_eq; apply length_tab). rewrite L, cmatmul_tab by lia.
    unfold Capply. set (mu := (2 * INR n + 1) / 2).
    rewrite (Csum_ext _ _ (fun j => nmul (Cr mu) (nmul (nadd (nopp (nsub (gam j) (nmul (nmul (Cr (sg n)) (ndiv (nofZ 1) t)) (gam j)))) (Cr (Fnm n j))) (w j)))).
    2:{ intros j Hj. rewrite at2_tab2 by lia. rewrite (Csum_single _ n) by (first [lia | intros i Hi Hne; destruct (Nat.eqb_spec n i); [congruence|]; rewrite n0_C; ring]).
        rewrite Nat.eqb_refl, minv_entry, !at2_tab2, H0, H1 by lia. change (cofr ?x) with (Cr x). fold mu. fold (Fnm n j). ring. }
    rewrite Csum_scale. unfold symbol_row. fold mu. f_equal.
    rewrite <- Csum_scale. transitivity (nadd (Csum (p + 1) (fun m => nmul (Cr (Fnm n m)) (w m)))
      (Csum (p + 1) (fun m => nmul (nopp (nofZ 1)) (nmul (nsub (nofZ 1) (nmul (Cr (sg n)) (ndiv (nofZ 1) t))) (nmul (gam m) (w m)))))).
    - rewrite <- Csum_add. apply Csum_ext. intros; ring.
    - rewrite Csum_scale. ring.
  Qed.
  Lemma legval_1 i : legval n1 (leg_basis i) = 1. Proof. rewrite legval_ok, legseries_basis. apply LegP_at1. Qed.
  Lemma legval_m1 i : legval (nofZ (-1)) (leg_basis i) = sg i. Proof. rewrite legval_ok, legseries_basis. reflexivity. Qed.
  Lemma dg_symbol t w n : (n <= p)%nat -> Capply (p + 1) (dg_FK p t) w n = symbol_row t (fun _ => nofZ 1) w n.
  Proof.
    intro Hn. unfold dg_FK, dg_interface_flux_matrix, faces_G0, faces_G1. apply fourier_row; [exact Hn| |]; intros i j Hi Hj; change (@nmul R NumR) with Rmult.
    - rewrite legval_m1, legval_1. change (cofr ?x) with (Cr x). rewrite Rmult_1_r. rewrite n1_C. ring.
    - rewrite !legval_1. change (cofr ?x) with (Cr x). rewrite Rmult_1_r. reflexivity.
  Qed.
  (** enhanced *)
  Hypothesis IV : inv_ok.
  Lemma icb_symbol mthd en t M w n : Enhance p mthd = Ok en -> NoDup (e_modes en) -> (forall m, In m (e_modes en) -> (m <= p)%nat) ->
    icb_FK p (e_modes en) t = Ok M -> (n <= p)%nat ->
    Capply (p + 1) M w n = symbol_row t (fun j => nadd (Cr (at1 (e_alphaL en) j)) (nmul t (Cr (at1 (e_alphaR en) j)))) w n.
  Proof.
    intros HE ND HB HM Hn. destruct (Enhance_inv p mthd en HE) as [kind [ms [modes0 [_ [_ [Em [Ai [Bi [HA [HBi [_ [_ [EaL EaR]]]]]]]]]]]]].
    set (K := e_modes en) in *. set (k := List.length K) in *. set (q := (p + k + 1)%nat) in *.
    assert (HS : StronglySorted lt K). { rewrite Em. apply sort_sorted. rewrite Em in ND. apply (Permutation.Permutation_NoDup (sort_perm modes0)). exact ND. }
    unfold icb_FK, icb_interface_flux_matrix, enhancement_matrices in HM. change (linv (enhancement_A p K (nofZ 2))) with (linv (enhancement_A p K 2)) in HM.
    change (linv (enhancement_A p K (nofZ (-2)))) with (linv (enhancement_A p K (-2))) in HM. rewrite HA, HBi in HM. cbn [rbind] in HM. apply Ok_inj in HM. subst M.
    pose proof (IV q (enhancement_A p K 2) (enh_shape p K 2)) as HI. rewrite HA in HI. pose proof HI as [_ [SA _]].
    fold k. fold q.
    assert (EA : map (map cofr) Ai = tab2 q q (fun i j => Cr (at2 Ai i j))).
    { apply (mat_ext q q).
      - split; [rewrite map_length; exact (proj1 SA)|]. intros r Hr. apply in_map_iff in Hr. destruct Hr as [r' [<- Hr']]. rewrite map_length. apply (proj2 SA). exact Hr'.
      - apply shape_tab2.
      - intros i j Hi Hj. rewrite at2_tab2 by assumption. unfold at2, row, at1.
        rewrite (nth_indep _ [] (map cofr [])) by (rewrite map_length; eapply Nat.lt_le_trans; [exact Hi|apply Nat.eq_le_incl; symmetry; exact (proj1 SA)]).
        rewrite map_nth. assert (Lr : List.length (nth i Ai []) = q). { apply (proj2 SA). apply nth_In. eapply Nat.lt_le_trans; [exact Hi|apply Nat.eq_le_incl; symmetry; exact (proj1 SA)]. }
        rewrite (nth_indep _ n0 (cofr n0)) by (rewrite map_length, Lr; exact Hj). rewrite map_nth. reflexivity. }
    rewrite EA. unfold faces_G0, faces_G1, icb_BL, icb_R. fold k. fold q. assert (Hq : (1 <= q)%nat) by (unfold q; lia).
    rewrite !(cmatmul_tab (p + 1) q) by exact Hq.
    set (a := fun l => Rsum q (fun i => at2 Ai i l)).
    assert (Er : forall i, (i < q)%nat -> at1 (rowdot (row (basis_psi q) 1) Ai) i = a i).
    { intros i Hi. unfold rowdot. rewrite (shape_ncols q q Ai SA Hq), at1_rowcomb by (try exact (proj2 SA); exact Hi).
      assert (Lp : List.length (row (basis_psi q : mat R) 1) = q) by apply length_tab.
      rewrite (vdot_R _ _ q) by (first [exact Lp|rewrite length_col; exact (proj1 SA)]). unfold a. apply Rsum_ext. intros j Hj.
      rewrite at1_col by (eapply Nat.lt_le_trans; [exact Hj|apply Nat.eq_le_incl; symmetry; exact (proj1 SA)]).
      unfold basis_psi, row. cbn [nth]. rewrite at1_tab by exact Hj. numR. ring. }
    assert (Lr : List.length (rowdot (row (basis_psi q) 1) Ai) = q) by (unfold rowdot; rewrite (shape_ncols q q Ai SA Hq); apply length_rowcomb; exact (proj2 SA)).
    set (v := skipn (p + 1) (rowdot (row (basis_psi q) 1) Ai)) in *.
    assert (Ls : List.length v = k) by (unfold v; rewrite skipn_length, Lr; unfold q; lia).
    assert (HB' : forall m, In m K -> (0 <= m < 0 + (p + 1))%nat) by (intros m Hm; specialize (HB m Hm); lia).
    rewrite insert_missing_spread in EaR by (try exact Ls; assumption). apply Ok_inj in EaR.
    assert (core : forall (g : nat -> C) (c : C) j, (forall l, g l = c) -> (j <= p)%nat ->
      Csum q (fun l => nmul (Csum q (fun l1 => nmul (Csum q (fun l2 => nmul (g l2) (Cr (at2 Ai l2 l1)))) (if (l1 =? l)%nat then if (l1 <=? p)%nat then n1 else t else n0)))
        (if (l <=? p)%nat then if (l =? j)%nat then n1 else n0 else delta (nth (l - (p + 1)) K 0%nat) j)) =
      nmul c (nadd (Cr (at1 (e_alphaL en) j)) (nmul t (Cr (at1 (e_alphaR en) j))))).
    { intros g c j Hg Hj.
      rewrite (Csum_ext q _ (fun l => nmul c (nmul (nmul (Cr (a l)) (if (l <=? p)%nat then n1 else t)) (if (l <=? p)%nat then if (l =? j)%nat then n1 else n0 else delta (nth (l - (p + 1)) K 0%nat) j)))).
      2:{ intros l Hl. rewrite (Csum_single q l) by (first [exact Hl|intros i Hi Hne; destruct (Nat.eqb_spec i l); [congruence|rewrite n0_C; ring]]).
          rewrite Nat.eqb_refl. rewrite (Csum_ext q _ (fun l2 => nmul c (Cr (at2 Ai l2 l)))) by (intros; rewrite Hg; reflexivity). rewrite Csum_scale, Csum_Cr. unfold a. ring. }
      rewrite Csum_scale. f_equal. replace q with (p + 1 + k)%nat by (unfold q; lia). rewrite Csum_app. f_equal.
      - rewrite (Csum_single _ j) by (first [lia|intros i Hi Hne; destruct (Nat.leb_spec i p); [|lia]; destruct (Nat.eqb_spec i j); [congruence|rewrite n0_C; ring]]).
        destruct (Nat.leb_spec j p); [|lia]. rewrite Nat.eqb_refl, n1_C, EaL. unfold at1. rewrite nth_firstn' by lia. fold (at1 (rowdot (row (basis_psi q) 1) Ai) j). rewrite Er by (unfold q; lia). ring.
      - rewrite <- EaR. pose proof (spread_sum (fun i => if (i =? j)%nat then 1 else 0) (p + 1) K v 0 Ls HS HB') as SS. cbn [Nat.add] in SS.
        rewrite (Rsum_single _ j) in SS by (first [lia|intros i Hi Hne; destruct (Nat.eqb_spec i j); [congruence|ring]]). rewrite Nat.eqb_refl, Rmult_1_r in SS. rewrite SS, <- Csum_Cr. fold k.
        rewrite <- Csum_scale. apply Csum_ext. intros tau Ht. destruct (Nat.leb_spec (p + 1 + tau) p); [lia|]. replace (p + 1 + tau - (p + 1))%nat with tau by lia.
        unfold v, at1. rewrite nth_skipn'. fold (at1 (rowdot (row (basis_psi q) 1) Ai) (p + 1 + tau)). rewrite Er by (unfold q; lia).
        unfold delta. rewrite n0_C, n1_C. destruct (nth tau K 0%nat =? j)%nat; [rewrite Rmult_1_r|rewrite Rmult_0_r, Cr_0]; ring. }
    apply fourier_row; [exact Hn| |]; intros i j Hi Hj.
    - apply core; [|exact Hj]. intro l. change (@nmul R NumR) with Rmult. rewrite legval_m1, legval_1, Rmult_1_r. reflexivity.
    - etransitivity; [apply (core _ (nofZ 1)); [|exact Hj]|ring]. intro l. change (@nmul R NumR) with Rmult. rewrite !legval_1, Rmult_1_r. reflexivity.
  Qed.
End Symbol.
