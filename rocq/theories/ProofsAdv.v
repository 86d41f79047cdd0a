(** The advection scheme: exactness on polynomials (C15) and L2 stability (C16). *)
From Coq Require Import ZArith List Bool Arith String Reals Lra Lia.
From Verif Require Import Num Py Lib LegNumpy Ext Basis Sensor Enhance Limiting Solution Solver RealLib SpecDG SpecPoly
  ProofsPoly ProofsLeg ProofsGauss ProofsDG ProofsDG2 ProofsBasis ProofsWf ProofsCons.
Import ListNotations.
Open Scope list_scope.
Open Scope R_scope.

Section Adv.
  Context {X : Ext R}.
  Hypothesis G : gauss_ok.
  Variable gamma : R.
  Implicit Types s : solution R.

  Lemma made_Ns ne s : made ne s -> s_Ns s = (b_p (s_basis s) + 1)%nat.
  Proof. intros _. reflexivity. Qed.
  Lemma adv_NF s : s_euler s = false -> s_NF s = 1%nat.
  Proof. intro E. unfold s_NF. rewrite E. reflexivity. Qed.
  Lemma len_modes_p ne s e f : made ne s -> List.length (modes s e f) = (b_p (s_basis s) + 1)%nat.
  Proof. intro M. apply (length_modes ne s e f (md_wf _ _ M)). Qed.

  (** the volume term of a flux that is polynomial at the nodes *)
  Lemma volume_adv ne s U n e v : made ne s -> s_euler s = false -> List.length (U e 0%nat) = (b_p (s_basis s) + 1)%nat -> (n < s_Ns s)%nat ->
    nint (fun x => dLegP n x * legseries (U e 0%nat) x) (-1) 1 v -> volume_term gamma s U n e 0 = v.
  Proof.
    intros M E L Hn Hv. unfold volume_term. set (p := b_p (s_basis s)) in *.
    rewrite <- (dphi_exact G p n (legseries (U e 0%nat)) v); [|unfold s_Ns, b_Ns in Hn; fold p in Hn; lia|apply legseries_poly'; lia|exact Hv].
    rewrite (md_basis _ _ M). fold p. f_equal.
    apply (list_ext 0); [rewrite length_tab, map_length; reflexivity|].
    rewrite length_tab. intros g Hg. unfold b_NG in Hg. rewrite nth_tab by exact Hg.
    unfold phys_flux. rewrite E. unfold node_state. rewrite (adv_NF s E). rewrite at1_tab by lia.
    rewrite (md_basis _ _ M). fold p. rewrite phi_row by assumption.
    rewrite nth_indep with (d' := legseries (U e 0%nat) 0) by (rewrite map_length; exact Hg).
    rewrite (map_nth (legseries (U e 0%nat))). reflexivity.
  Qed.
  Lemma upwind_flux ne s U e q : made ne s -> s_euler s = false -> s_enh s = None -> List.length (U e 0%nat) = (b_p (s_basis s) + 1)%nat ->
    iface_flux gamma s U e = Ok q -> at1 q 0 = legseries (U e 0%nat) 1.
  Proof.
    intros M E En L H. unfold iface_flux, num_flux in H. pose proof (wf_kind _ _ (md_wf _ _ M)) as K.
    rewrite (proj2 K E) in H. apply Ok_inj in H. subst q. rewrite (adv_NF s E), at1_tab by lia. unfold face_minus. rewrite En.
    rewrite (md_basis _ _ M). apply psi_right. exact L.
  Qed.
  Lemma odd_even_sign n : (if Nat.even n then 1 else -1) = LegP n (-1).
  Proof. rewrite LegP_atm1, <- Nat.negb_even. destruct (Nat.even n); reflexivity. Qed.
  Lemma adv_entry ne s d s1 F n e v : made ne s -> wf_dg ne s d -> s_euler s = false -> s_enh s = None ->
    residual gamma d s = Ok (s1, F) -> (1 <= e <= ne)%nat -> (n < s_Ns s)%nat ->
    nint (fun x => dLegP n x * legseries (modes s1 e 0) x) (-1) 1 v ->
    at1 (modes (with_u s1 F) e 0) n =
      (v - (legseries (modes s1 e 0) 1 - LegP n (-1) * legseries (modes s1 (e - 1) 0) 1)) * ((2 * INR n + 1) / s_dx s).
  Proof.
    intros M D E En H He Hn Hv. pose proof (md_wf _ _ M) as W.
    pose proof (similar_residual gamma d s s1 F H) as S1.
    assert (W1 : wf ne s1). { destruct (wf_residual gamma ne s d s1 F W D H) as [? _]. assumption. }
    pose proof (made_similar _ _ _ M S1 W1) as M1.
    pose proof (similar_NF _ _ S1) as ENF. pose proof (similar_Ns _ _ S1) as ENs.
    assert (E1 : s_euler s1 = false) by (destruct S1 as [t [k [sn [u [-> _]]]]]; exact E).
    assert (En1 : s_enh s1 = None) by (destruct S1 as [t [k [sn [u [-> _]]]]]; exact En).
    assert (Ed1 : s_dx s1 = s_dx s) by (destruct S1 as [t [k [sn [u [-> _]]]]]; reflexivity).
    apply (residual_char gamma ne s d s1 F W D) in H. destruct H as [Hb [q [Hq ->]]].
    unfold modes at 1. cbn [s_u with_u]. change (s_NF (with_u s1 (residual_mat gamma ne s1 q))) with (s_NF s1).
    rewrite at1_col by (destruct (shape_residual_mat gamma ne s1 q) as [Lr _]; rewrite Lr, ENs; exact Hn).
    rewrite (residual_interior gamma ne s1) by (first [exact W1 | exact He | rewrite ENs; exact Hn | rewrite ENF, (adv_NF s E); lia]).
    unfold residual_of.
    rewrite (volume_adv ne s1 (modes s1) n e v M1 E1 (len_modes_p ne s1 e 0 M1)) by (first [exact Hv | rewrite ENs; exact Hn]).
    rewrite (upwind_flux ne s1 (modes s1) (e - 1) (q (e - 1)%nat) M1 E1 En1 (len_modes_p ne s1 _ 0 M1)) by (apply Hq; lia).
    rewrite (upwind_flux ne s1 (modes s1) e (q e) M1 E1 En1 (len_modes_p ne s1 _ 0 M1)) by (apply Hq; lia).
    rewrite (md_minv _ _ M1) by (rewrite ENs; exact Hn). rewrite Ed1, <- odd_even_sign. unfold face_term.
    rewrite plus_INR, INR_2k. cbn [INR]. numR. destruct (Nat.even n); f_equal; f_equal; ring.
  Qed.

  (** C15 *)
  Theorem advection_exact ne s d s1 F e (g g' : R -> R) c : made ne s -> wf_dg ne s d -> s_euler s = false -> s_enh s = None ->
    residual gamma d s = Ok (s1, F) -> (1 <= e <= ne)%nat ->
    is_poly (b_p (s_basis s)) g -> (forall x, derivable_pt_lim g x (g' x)) ->
    (forall xi, legseries (modes s1 e 0) xi = g (s_dx s / 2 * xi + c)) ->
    (forall xi, legseries (modes s1 (e - 1) 0) xi = g (s_dx s / 2 * xi + (c - s_dx s))) ->
    forall xi, legseries (modes (with_u s1 F) e 0) xi = - g' (s_dx s / 2 * xi + c).
  Proof.
    intros M D E En H He Hg Dg H0 H1.
    set (p := b_p (s_basis s)) in *. set (h := s_dx s / 2) in *. pose proof (md_dx _ _ M) as Hdx.
    assert (Hh : h <> 0) by (unfold h; lra).
    assert (Hg' : is_poly p g').
    { destruct (is_poly_deriv p g Hg) as [f' [Hf Df]]. apply (is_poly_le (p - 1)); [lia|]. apply (is_poly_ext _ f'); [|exact Hf].
      intro x. apply (uniqueness_limite g x); [apply Df|apply Dg]. }
    set (G' := fun xi => - g' (h * xi + c)).
    assert (HG : is_poly p G').
    { apply (is_poly_ext _ (fun xi => (-1) * g' (h * xi + c))); [intro; unfold G'; ring|]. apply is_poly_scal. apply (is_poly_affine p g'). exact Hg'. }
    destruct (poly_legseries p G' HG) as [cc [Lcc Ecc]].
    intro xi. fold (G' xi). rewrite Ecc.
    assert (Eq : modes (with_u s1 F) e 0 = cc); [|rewrite Eq; reflexivity].
    pose proof (md_wf _ _ M) as W. pose proof (similar_residual gamma d s s1 F H) as S1.
    assert (LF : List.length (modes (with_u s1 F) e 0) = S p).
    { unfold modes. rewrite length_col. cbn [s_u with_u]. destruct (wf_residual gamma ne s d s1 F W D H) as [_ [LF _]].
      rewrite LF. unfold s_Ns, b_Ns, p. lia. }
    apply (list_ext 0); [lia|]. rewrite LF. intros n Hn.
    assert (Hn' : (n < s_Ns s)%nat) by (unfold s_Ns, b_Ns; fold p; lia).
    (* integral of P_n g' *)
    destruct (is_poly_nint (n + p) (fun x => LegP n x * G' x) (-1) 1) as [w Hw]; [apply is_poly_mult; [apply LegP_poly|exact HG]|].
    pose proof (nint_series_P cc n) as Hc.
    assert (Ew : w = nth n cc 0 * (2 / (2 * INR n + 1))).
    { apply (nint_unique (fun x => legseries cc x * LegP n x) (-1) 1); [|exact Hc]. apply (nint_ext (fun x => LegP n x * G' x)); [|exact Hw]. intro x. rewrite Ecc. ring. }
    (* integration by parts *)
    set (u := fun x => g (h * x + c)).
    assert (Hv : nint (fun x => dLegP n x * legseries (modes s1 e 0) x) (-1) 1 (u 1 - LegP n (-1) * u (-1) + h * w)).
    { assert (Q : nint (fun x => dLegP n x * u x + LegP n x * (h * g' (h * x + c))) (-1) 1 (LegP n 1 * u 1 - LegP n (-1) * u (-1))).
      { apply (nint_deriv (fun x => LegP n x * u x)). intro x. apply (dlim_mult (LegP n) u); [apply LegP_deriv|]. apply dlim_affine. apply Dg. }
      pose proof (nint_plus _ _ _ _ _ _ Q (nint_scal h _ _ _ _ Hw)) as Q2. rewrite LegP_at1 in Q2.
      eapply nint_val; [|eapply nint_ext; [|exact Q2]]; [ring|]. intro x. cbn beta. rewrite H0. unfold G', u. ring. }
    change (nth n (modes (with_u s1 F) e 0) 0) with (at1 (modes (with_u s1 F) e 0) n).
    rewrite (adv_entry ne s d s1 F n e _ M D E En H He Hn' Hv).
    rewrite H0, H1. unfold u. replace (h * 1 + (c - s_dx s)) with (h * -1 + c) by (unfold h; field).
    rewrite Ew. pose proof (pos_INR n). unfold h. field. split; lra.
  Qed.

  (** C16: dx/2 * integral of u * residual over each cell *)
  Lemma nint_product_series a b n : List.length a = n -> List.length b = n ->
    nint (fun x => legseries a x * legseries b x) (-1) 1 (Rsum n (fun i => nth i a 0 * nth i b 0 * (2 / (2 * INR i + 1)))).
  Proof.
    intros La Lb.
    apply (nint_ext (fun x => Rsum n (fun i => nth i b 0 * (legseries a x * LegP i x)))).
    { intro x. replace (legseries b x) with (Rsum n (fun i => nth i b 0 * LegP i x)) by (unfold legseries; rewrite Lb; reflexivity). rewrite <- Rsum_scale. apply Rsum_ext. intros. ring. }
    eapply nint_val; [|apply (nint_Rsum n (fun i x => nth i b 0 * (legseries a x * LegP i x)) (fun i => nth i b 0 * (nth i a 0 * (2 / (2 * INR i + 1)))))].
    - apply Rsum_ext. intros. ring.
    - intros i _. apply nint_scal. apply nint_series_P.
  Qed.
  Lemma cell_energy ne s d s1 F e v : made ne s -> wf_dg ne s d -> s_euler s = false -> s_enh s = None ->
    residual gamma d s = Ok (s1, F) -> (1 <= e <= ne)%nat ->
    nint (fun x => s_dx s / 2 * (legseries (modes s1 e 0) x * legseries (modes (with_u s1 F) e 0) x)) (-1) 1 v ->
    v = - (legseries (modes s1 e 0) 1 * legseries (modes s1 e 0) 1) / 2 - (legseries (modes s1 e 0) (-1) * legseries (modes s1 e 0) (-1)) / 2
        + legseries (modes s1 e 0) (-1) * legseries (modes s1 (e - 1) 0) 1.
  Proof.
    intros M D E En H He Hv. set (p := b_p (s_basis s)). pose proof (md_dx _ _ M) as Hdx.
    pose proof (md_wf _ _ M) as W. pose proof (similar_residual gamma d s s1 F H) as S1.
    assert (W1 : wf ne s1). { destruct (wf_residual gamma ne s d s1 F W D H) as [? _]. assumption. }
    pose proof (made_similar _ _ _ M S1 W1) as M1.
    assert (Ep : b_p (s_basis s1) = p) by (destruct S1 as [t [k [sn [u0 [-> _]]]]]; reflexivity).
    assert (LF : List.length (modes (with_u s1 F) e 0) = (p + 1)%nat).
    { unfold modes. rewrite length_col. cbn [s_u with_u]. destruct (wf_residual gamma ne s d s1 F W D H) as [_ [LF _]].
      rewrite LF. reflexivity. }
    pose proof (len_modes_p ne s1 e 0 M1) as Lu. rewrite Ep in Lu. set (u := modes s1 e 0) in *. set (r := modes (with_u s1 F) e 0) in *.
    pose proof (nint_scal (s_dx s / 2) _ _ _ _ (nint_product_series u r (p + 1) Lu LF)) as Q.
    rewrite (nint_unique _ _ _ _ _ Hv Q). clear Q Hv.
    (* volume integrals of each mode *)
    destruct (finite_choice 0 (p + 1) (fun n v => nint (fun x => dLegP n x * legseries u x) (-1) 1 v)) as [V HV].
    { intros n _. apply (is_poly_nint (n - 1 + p)). apply is_poly_mult; [apply dLegP_poly|]. apply legseries_poly'. lia. }
    rewrite <- Rsum_scale.
    rewrite (Rsum_ext (p + 1) _ (fun n => nth n u 0 * V n - nth n u 0 * legseries u 1 + legseries (modes s1 (e - 1) 0) 1 * (nth n u 0 * LegP n (-1)))).
    2:{ intros n Hn. change (nth n r 0) with (at1 r n). unfold r.
        rewrite (adv_entry ne s d s1 F n e (V n) M D E En H He Hn (HV n Hn)). fold u.
        pose proof (pos_INR n). field. split; lra. }
    rewrite Rsum_plus, Rsum_minus, Rsum_scale.
    assert (EV : Rsum (p + 1) (fun n => nth n u 0 * V n) = (legseries u 1 * legseries u 1 - legseries u (-1) * legseries u (-1)) / 2).
    { assert (Q1 : nint (fun x => dlegseries u x * legseries u x) (-1) 1 (Rsum (p + 1) (fun n => nth n u 0 * V n))).
      { apply (nint_ext (fun x => Rsum (p + 1) (fun n => nth n u 0 * (dLegP n x * legseries u x)))).
        - intro x. unfold dlegseries. rewrite Lu, <- Rsum_scale_r. apply Rsum_ext. intros. ring.
        - apply (nint_Rsum (p + 1) (fun n x => nth n u 0 * (dLegP n x * legseries u x))). intros n Hn. apply nint_scal. apply HV. exact Hn. }
      assert (Q2 : nint (fun x => dlegseries u x * legseries u x) (-1) 1 ((legseries u 1 * legseries u 1) / 2 - (legseries u (-1) * legseries u (-1)) / 2)).
      { apply (nint_deriv (fun x => legseries u x * legseries u x / 2)). intro x.
        apply (dlim_ext (fun y => / 2 * (legseries u y * legseries u y))); [intro; field|].
        apply (dlim_eq _ _ (/ 2 * (dlegseries u x * legseries u x + legseries u x * dlegseries u x))); [field|].
        apply (dlim_scal _ (fun y => legseries u y * legseries u y)). apply (dlim_mult (legseries u)); apply legseries_deriv. }
      rewrite (nint_unique _ _ _ _ _ Q1 Q2). field. }
    rewrite EV. rewrite Rsum_scale_r.
    assert (U1 : Rsum (p + 1) (fun n => nth n u 0) = legseries u 1).
    { unfold legseries. rewrite Lu. apply Rsum_ext. intros. rewrite LegP_at1. ring. }
    assert (Um : Rsum (p + 1) (fun n => nth n u 0 * LegP n (-1)) = legseries u (-1)).
    { unfold legseries. rewrite Lu. reflexivity. }
    rewrite U1, Um. field.
  Qed.
  Definition jump s e : R := legseries (modes s (e + 1) 0) (-1) - legseries (modes s e 0) 1.
  Theorem advection_energy ne s d s1 F (v : nat -> R) : made ne s -> wf_dg ne s d -> s_euler s = false -> s_enh s = None ->
    s_bcl s = pylit "periodic" -> s_bcr s = pylit "periodic" ->
    residual gamma d s = Ok (s1, F) ->
    (forall e, (1 <= e <= ne)%nat -> integral (fun x => s_dx s / 2 * (legseries (modes s1 e 0) x * legseries (modes (with_u s1 F) e 0) x)) (-1) 1 (v e)) ->
    Rsum ne (fun i => v (i + 1)%nat) = - / 2 * Rsum ne (fun i => jump s1 i * jump s1 i).
  Proof.
    intros M D E En Bl Br H Hv.
    pose proof (md_wf _ _ M) as W. pose proof (wf_ne _ _ W) as Hne.
    set (a := fun e => legseries (modes s1 e 0) 1). set (b := fun e => legseries (modes s1 e 0) (-1)).
    assert (Ev : forall i, (i < ne)%nat -> v (i + 1)%nat = - (a (i + 1)%nat * a (i + 1)%nat) / 2 - b (i + 1)%nat * b (i + 1)%nat / 2 + b (i + 1)%nat * a i).
    { intros i Hi. replace (a i) with (a (i + 1 - 1)%nat) by (f_equal; lia). apply (cell_energy ne s d s1 F (i + 1) _ M D E En H ltac:(lia)).
      apply (poly_integral ((List.length (modes s1 (i + 1) 0) - 1) + (List.length (modes (with_u s1 F) (i + 1) 0) - 1))); [|lra|apply Hv; lia].
      apply is_poly_scal. apply is_poly_mult; apply legseries_poly. }
    rewrite (Rsum_ext ne _ (fun i => - / 2 * (jump s1 i * jump s1 i) - (((fun j => a j * a j / 2) (S i)) - (fun j => a j * a j / 2) i))).
    2:{ intros i Hi. rewrite Ev by exact Hi. unfold jump. fold (a i). fold (b (i + 1)%nat). cbn beta. replace (S i) with (i + 1)%nat by lia. field. }
    rewrite Rsum_minus, Rsum_scale. rewrite (Rsum_telescope ne (fun j => a j * a j / 2)). cbn beta.
    replace (a 0%nat) with (a ne); [ring|]. unfold a.
    apply (residual_char gamma ne s d s1 F W D) in H. destruct H as [Hb _].
    rewrite (apply_bc_eq ne s W) in Hb. apply Ok_inj in Hb. subst s1.
    rewrite !(modes_bc ne s) by (first [exact W | lia | rewrite (adv_NF s E); lia]). rewrite Bl, Br.
    unfold src_cell. cbn [Nat.eqb]. destruct (Nat.eqb_spec ne 0); [lia|]. destruct (Nat.eqb_spec ne (ne + 1)); [lia|]. reflexivity.
  Qed.
End Adv.
