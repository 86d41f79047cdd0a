(** Fourier modes of the advection scheme: symbol, spectrum and amplification. *)
From Coq Require Import ZArith List Bool Arith String Lia Reals Lra Ring.
From Verif Require Import Num Py Lib RealLib LegNumpy Ext Basis Enhance Solution Solver RKCoeffs RK SpecDG SpecTime SpecPoly SpecRK SpecEnh SpecUniform Analysis SpecAnalysis
  ProofsPoly ProofsLeg ProofsGauss ProofsDG ProofsBasis ProofsCons ProofsWf ProofsEnh ProofsAdv ProofsRK ProofsRKLin ProofsAnalysis ProofsAnalysis2.
Import ListNotations.
Open Scope R_scope.

Definition Cnz (t : C) : Prop := fst t * fst t + snd t * snd t <> 0.
Lemma Cinv_l (t : C) : Cnz t -> nmul (ndiv (nofZ 1) t) t = nofZ 1.
Proof. intro H. unfold Cnz in H. destruct t as [a b]. cbn [fst snd] in H. apply C_eq; cbn; unfold n0; cbn; field; lra. Qed.
Lemma Csum_pair n (f g : nat -> R) : Csum n (fun i => (f i, g i)) = (Rsum n f, Rsum n g).
Proof. induction n as [|n IH]; [reflexivity|]. rewrite Csum_S, IH. reflexivity. Qed.
Lemma Cpair_scale a x y : ((a * x, a * y) : C) = nmul (Cr a) (x, y).
Proof. cplx; ring. Qed.
Lemma Csum_Cr_pair n (a f g : nat -> R) : ((Rsum n (fun i => a i * f i), Rsum n (fun i => a i * g i)) : C) = Csum n (fun i => nmul (Cr (a i)) (f i, g i)).
Proof. rewrite <- Csum_pair. apply Csum_ext. intros. apply Cpair_scale. Qed.

Section Op.
  Context {X : Ext R}.
  Hypothesis G : gauss_ok.
  Hypothesis IV : inv_ok.
  Variable ne : nat.
  Variable s : solution R.
  Hypothesis M : made ne s.
  Hypothesis Ha : s_euler s = false.
  Let p := b_p (s_basis s).
  Let src e := src_cell (s_bcl s) (s_bcr s) ne e.

  Lemma volume_matrix n m : (n <= p)%nat -> (m <= p)%nat ->
    Rsum (b_NG (s_basis s)) (fun g => at2 (b_dphi_w (s_basis s)) n g * at2 (b_phi (s_basis s)) g m) = Fnm n m.
  Proof.
    intros Hn Hm. rewrite (md_basis _ _ M). fold p.
    rewrite <- (dphi_exact G p n (LegP m) (Fnm n m)); [|exact Hn|apply (is_poly_le m); [lia|apply LegP_poly]|].
    - rewrite (vdot_R _ _ (b_NG (Basis p))).
      + apply Rsum_ext. intros g Hg. unfold b_NG in Hg. rewrite phi_entry by assumption. unfold at2. f_equal.
        unfold at1. rewrite (nth_indep (map (LegP m) (b_x (Basis p))) n0 (LegP m n0)) by (rewrite map_length; exact Hg). rewrite (map_nth (LegP m)). reflexivity.
      + apply (shape_row (s_Ns s)); [|unfold s_Ns, b_Ns; fold p; lia]. pose proof (wf_dphi _ _ (md_wf _ _ M)) as W. rewrite (md_basis _ _ M) in W. fold p in W. exact W.
      + rewrite map_length. reflexivity.
    - apply (nint_ext (fun x => legseries (legder (leg_basis n)) x * legseries (leg_basis m) x)); [|apply product_nint].
      intro x. rewrite legseries_basis. f_equal. apply (uniqueness_limite (LegP n) x); [|apply LegP_deriv].
      apply (dlim_ext (legseries (leg_basis n))); [intro; apply legseries_basis|]. rewrite legder_ok. apply legseries_deriv.
  Qed.
  Definition gam (t : C) (j : nat) : C :=
    match s_enh s with None => nofZ 1 | Some en => nadd (Cr (at1 (e_alphaL en) j)) (nmul t (Cr (at1 (e_alphaR en) j))) end.
  Lemma symbol_gam t Mx w n : enh_sound s -> symbol s t = Ok Mx -> (n <= p)%nat -> Capply (p + 1) Mx w n = symbol_row p t (gam t) w n.
  Proof.
    unfold enh_sound, symbol, gam. intros He HM Hn. destruct (s_enh s) as [en|].
    - destruct He as [mthd [HE [ND HB]]]. apply (icb_symbol p IV mthd en t Mx w n); assumption.
    - apply Ok_inj in HM. subst Mx. apply dg_symbol. exact Hn.
  Qed.
  (** the operator on a travelling wave *)
  Lemma adv_wave x y t e n : Cnz t -> (1 <= e <= ne)%nat -> (n <= p)%nat ->
    (forall m, (m <= p)%nat -> nmul (x m (src (e - 1)%nat), y m (src (e - 1)%nat)) t = (x m e, y m e)) ->
    (s_enh s <> None -> forall m, (m <= p)%nat -> (x m (src (e + 1)%nat), y m (src (e + 1)%nat)) = nmul t (x m e, y m e)) ->
    (adv_op ne s x n e, adv_op ne s y n e) = nmul (Cr (2 / s_dx s)) (symbol_row p t (gam t) (fun m => (x m e, y m e)) n).
  Proof.
    intros Ht He Hn HL HR. pose proof (md_dx _ _ M) as Hdx.
    assert (NS : s_Ns s = (p + 1)%nat) by reflexivity.
    assert (BC : forall j, bc_column ne s j = src j).
    { intro j. unfold bc_column. rewrite (adv_NF s Ha), Nat.div_1_r, Nat.mod_1_r. unfold src. lia. }
    assert (SE : src e = e) by (unfold src, src_cell; destruct (Nat.eqb_spec e 0); [lia|]; destruct (Nat.eqb_spec e (ne + 1)); [lia|]; reflexivity).
    set (w := fun m => (x m e, y m e) : C).
    assert (VOL : forall z : nat -> nat -> R, Rsum (b_NG (s_basis s)) (fun g => at2 (b_dphi_w (s_basis s)) n g * Rsum (s_Ns s) (fun m => at2 (b_phi (s_basis s)) g m * z m (bc_column ne s e))) =
      Rsum (p + 1) (fun m => Fnm n m * z m e)).
    { intro z. rewrite BC, SE, NS. rewrite (Rsum_ext _ _ (fun g => Rsum (p + 1) (fun m => at2 (b_dphi_w (s_basis s)) n g * at2 (b_phi (s_basis s)) g m * z m e)))
        by (intros; rewrite <- Rsum_scale; apply Rsum_ext; intros; ring).
      rewrite Rsum_swap. apply Rsum_ext. intros m Hm. rewrite <- (volume_matrix n m) by lia. rewrite Rmult_comm, <- Rsum_scale. apply Rsum_ext. intros; ring. }
    assert (FR : (face_up ne s x e, face_up ne s y e) = Csum (p + 1) (fun m => nmul (gam t m) (w m))).
    { unfold face_up, gam. rewrite (adv_NF s Ha), !BC, SE, NS. destruct (s_enh s) as [en|].
      - change ((?a + ?b, ?c + ?d) : C) with (nadd ((a, c) : C) ((b, d) : C)). rewrite !Csum_Cr_pair, <- Csum_add. apply Csum_ext. intros m Hm. rewrite HR by (congruence || lia). unfold w. ring.
      - rewrite Csum_Cr_pair. apply Csum_ext. intros m Hm. rewrite (md_basis _ _ M). fold p. rewrite (proj2 (psi_entry p m ltac:(lia))), LegP_at1, Cr_1. reflexivity. }
    assert (FL : (face_up ne s x (e - 1), face_up ne s y (e - 1)) = nmul (ndiv (nofZ 1) t) (Csum (p + 1) (fun m => nmul (gam t m) (w m)))).
    { assert (HL' : forall m, (m <= p)%nat -> (x m (src (e - 1)%nat), y m (src (e - 1)%nat)) = nmul (ndiv (nofZ 1) t) (w m)).
      { intros m Hm. unfold w. rewrite <- HL by exact Hm. transitivity (nmul (nmul (ndiv (nofZ 1) t) t) (x m (src (e - 1)%nat), y m (src (e - 1)%nat))); [rewrite Cinv_l by exact Ht|]; ring. }
      unfold face_up, gam. rewrite (adv_NF s Ha), !BC, NS. rewrite <- Csum_scale. destruct (s_enh s) as [en|].
      - replace (e - 1 + 1)%nat with e by lia. rewrite SE.
        change ((?a + ?b, ?c + ?d) : C) with (nadd ((a, c) : C) ((b, d) : C)). rewrite !Csum_Cr_pair, <- Csum_add. apply Csum_ext. intros m Hm. rewrite HL' by lia. fold (w m).
        transitivity (nadd (nmul (Cr (at1 (e_alphaL en) m)) (nmul (ndiv (nofZ 1) t) (w m))) (nmul (Cr (at1 (e_alphaR en) m)) (nmul (nmul (ndiv (nofZ 1) t) t) (w m)))); [rewrite Cinv_l by exact Ht|]; ring.
      - rewrite Csum_Cr_pair. apply Csum_ext. intros m Hm. rewrite (md_basis _ _ M). fold p. rewrite (proj2 (psi_entry p m ltac:(lia))), LegP_at1, Cr_1, HL' by lia. ring. }
    assert (EV : forall z, adv_op ne s z n e = (2 * INR n + 1) / s_dx s * (Rsum (p + 1) (fun m => Fnm n m * z m e) - (face_up ne s z e - sg n * face_up ne s z (e - 1)))).
    { intro z. unfold adv_op. cbv zeta. rewrite VOL, (adv_NF s Ha), Nat.div_1_r.
      destruct (Nat.leb_spec 1 e); [|lia]. destruct (Nat.leb_spec e ne); [|lia]. cbn [andb].
      rewrite (md_minv _ _ M) by (rewrite NS; lia). rewrite plus_INR, INR_2k. cbn [INR]. unfold sg. rewrite <- odd_even_sign. destruct (Nat.even n); ring. }
    rewrite !EV, Cpair_scale. unfold symbol_row.
    transitivity (nmul (Cr ((2 * INR n + 1) / s_dx s)) (nsub (Csum (p + 1) (fun m => nmul (Cr (Fnm n m)) (w m)))
      (nsub (face_up ne s x e, face_up ne s y e) (nmul (Cr (sg n)) (face_up ne s x (e - 1), face_up ne s y (e - 1)))))).
    - f_equal. unfold w. rewrite <- Csum_Cr_pair. cplx; ring.
    - rewrite FR, FL. replace ((2 * INR n + 1) / s_dx s) with (2 / s_dx s * ((2 * INR n + 1) / 2)) by (field; lra). rewrite Cr_mul. unfold w. ring.
  Qed.
End Op.

(** ** the residual *)
Lemma adv_op_similar ne (s s' : solution R) x : similar s s' -> adv_op ne s' x = adv_op ne s x.
Proof. intros [t [k [sn [u [-> _]]]]]. reflexivity. Qed.
Lemma with_u_self (s : solution R) : with_u s (s_u s) = s. Proof. destruct s; reflexivity. Qed.
Lemma similar_fields (s s' : solution R) : similar s s' ->
  s_basis s' = s_basis s /\ s_enh s' = s_enh s /\ s_euler s' = s_euler s /\ s_dx s' = s_dx s /\ s_bcl s' = s_bcl s /\ s_bcr s' = s_bcr s.
Proof. intros [t [k [sn [u [-> _]]]]]. repeat split. Qed.
Lemma residual_op gamma ne (s : solution R) d s1 F : wf ne s -> wf_dg ne s d -> s_euler s = false -> residual gamma d s = Ok (s1, F) ->
  (forall e n, (1 <= e <= ne)%nat -> (n < s_Ns s)%nat -> at1 (modes (with_u s1 F) e 0) n = adv_op ne s (at2 (s_u s)) n e) /\
  forall e n, (e < ne + 2)%nat -> (n < s_Ns s)%nat -> at1 (modes s1 e 0) n = at2 (s_u s) n (src_cell (s_bcl s) (s_bcr s) ne e).
Proof.
  intros W D Ha H. pose proof (adv_NF s Ha) as NF.
  pose proof (similar_residual gamma d s s1 F H) as S1.
  destruct (wf_residual gamma ne s d s1 F W D H) as [W1 SF]. split.
  - intros e n He Hn. unfold modes. cbn [s_u with_u]. change (s_NF (with_u s1 F)) with (s_NF s1). rewrite (similar_NF _ _ S1), NF, Nat.mul_1_r, Nat.add_0_r.
    rewrite at1_col by (eapply Nat.lt_le_trans; [exact Hn|apply Nat.eq_le_incl; symmetry; exact (proj1 SF)]).
    apply (adv_rhs gamma ne s d W D Ha (s_u s) F); [exact (wf_u _ _ W)| |exact Hn|rewrite NF; lia].
    exists s1. rewrite with_u_self. exact H.
  - intros e n He Hn. apply (residual_char gamma ne s d s1 F W D) in H. destruct H as [Hb _].
    destruct (apply_bc_modes ne s W) as [s2 [E [_ [_ Hm]]]]. rewrite Hb in E. apply Ok_inj in E. subst s2. rewrite Hm by (rewrite ?NF; lia).
    rewrite (modes_at ne s) by (rewrite ?NF; try assumption; try lia; apply (src_cell_range ne s W); exact He). rewrite NF. f_equal. lia.
Qed.

Section Waves.
  Context {X : Ext R}.
  Hypothesis G : gauss_ok.
  Hypothesis IV : inv_ok.
  Variable gamma : R.
  Theorem symbol_residual ne (sr si : solution R) d s1r Fr s1i Fi e t Mx n :
    made ne sr -> wf ne si -> similar sr si -> wf_dg ne sr d -> s_euler sr = false -> enh_sound sr -> symbol sr t = Ok Mx ->
    residual gamma d sr = Ok (s1r, Fr) -> residual gamma d si = Ok (s1i, Fi) ->
    t <> nofZ 0 -> (1 <= e <= ne)%nat -> (n < s_Ns sr)%nat ->
    (forall m, (m < s_Ns sr)%nat -> nmul (cmode s1r s1i (e - 1) m) t = cmode s1r s1i e m) ->
    (s_enh sr <> None -> forall m, (m < s_Ns sr)%nat -> cmode s1r s1i (e + 1) m = nmul t (cmode s1r s1i e m)) ->
    cmode (with_u s1r Fr) (with_u s1i Fi) e n = nmul (Cr (2 / s_dx sr)) (Capply (s_Ns sr) Mx (cmode s1r s1i e) n).
  Proof.
    intros M W Sim D Ha He HM Hr Hi Ht Hee Hn HL HR. pose proof (md_wf _ _ M) as Wr.
    destruct (similar_fields _ _ Sim) as [Eb [Een [Eeu [Edx [Ebl Ebr]]]]].
    assert (Ens : s_Ns si = s_Ns sr) by (unfold s_Ns; rewrite Eb; reflexivity).
    assert (Di : wf_dg ne si d). { unfold wf_dg in *. destruct Sim as [? [? [? [? [-> _]]]]]. exact D. }
    destruct (residual_op gamma ne sr d s1r Fr Wr D Ha Hr) as [Or Br].
    destruct (residual_op gamma ne si d s1i Fi W Di (eq_trans Eeu Ha) Hi) as [Oi Bi].
    assert (Tz : Cnz t). { unfold Cnz. intro Z. apply Ht. destruct t as [a b]. cbn [fst snd] in Z. assert (a = 0 /\ b = 0) as [-> ->]; [|reflexivity]. nra. }
    assert (Ns : s_Ns sr = (b_p (s_basis sr) + 1)%nat) by reflexivity.
    assert (CM : forall e' m, (e' < ne + 2)%nat -> (m < s_Ns sr)%nat -> cmode s1r s1i e' m =
       (at2 (s_u sr) m (src_cell (s_bcl sr) (s_bcr sr) ne e'), at2 (s_u si) m (src_cell (s_bcl sr) (s_bcr sr) ne e'))).
    { intros e' m He' Hm. unfold cmode. rewrite Br by assumption. rewrite Bi by (rewrite ?Ens; assumption). rewrite Ebl, Ebr. reflexivity. }
    assert (SE : src_cell (s_bcl sr) (s_bcr sr) ne e = e) by (unfold src_cell; destruct (Nat.eqb_spec e 0); [lia|]; destruct (Nat.eqb_spec e (ne + 1)); [lia|]; reflexivity).
    assert (CE : forall m, (m < s_Ns sr)%nat -> cmode s1r s1i e m = (at2 (s_u sr) m e, at2 (s_u si) m e)) by (intros m Hm; rewrite CM by (try exact Hm; lia); rewrite SE; reflexivity).
    unfold cmode at 1. rewrite Or by assumption. rewrite Oi by (rewrite ?Ens; assumption). rewrite (adv_op_similar ne sr si _ Sim).
    rewrite (adv_wave G ne sr M Ha (at2 (s_u sr)) (at2 (s_u si)) t e n Tz Hee); [|lia| |].
    - f_equal. rewrite Ns. rewrite (symbol_gam IV sr t Mx _ n He HM) by lia.
      unfold symbol_row. f_equal. f_equal; [|f_equal]; apply Csum_ext; intros m Hm; rewrite CE by (rewrite Ns; exact Hm); reflexivity.
    - intros m Hm. rewrite <- CM by (rewrite ?Ns; lia). rewrite HL by (rewrite Ns; lia). apply CE. rewrite Ns; lia.
    - intros Hen m Hm. rewrite <- CM by (rewrite ?Ns; lia). rewrite HR by (try exact Hen; rewrite Ns; lia). f_equal. apply CE. rewrite Ns; lia.
  Qed.
  Lemma Cpow_nz t k : Cpow t (S k) = nofZ 1 -> t <> nofZ 0.
  Proof.
    intros H E. subst t. cbn [Cpow] in H. assert (Z : (nofZ 0 : C) = nofZ 1) by (rewrite <- H; ring).
    apply (f_equal fst) in Z. cbn in Z. lra.
  Qed.
  Lemma src_periodic (bl br : pystr) ne e : is_literal bl "periodic" = true -> is_literal br "periodic" = true -> (1 <= ne)%nat -> (e < ne + 2)%nat ->
    (1 <= src_cell bl br ne e <= ne)%nat /\ (src_cell bl br ne e = e \/ (e = 0 /\ src_cell bl br ne e = ne) \/ (e = ne + 1 /\ src_cell bl br ne e = 1))%nat.
  Proof.
    intros Hl Hr Hne He. unfold src_cell. rewrite Hl, Hr. destruct (Nat.eqb_spec e 0); [lia|]. destruct (Nat.eqb_spec e (ne + 1)); lia.
  Qed.
  (** powers of t, cell by cell, around the domain *)
  Lemma Cpow_src bl br ne t e : is_literal bl "periodic" = true -> is_literal br "periodic" = true -> (1 <= ne)%nat -> (e < ne + 2)%nat -> Cpow t ne = nofZ 1 ->
    Cpow t (src_cell bl br ne e) = Cpow t e.
  Proof.
    intros Hl Hr Hne He Ht. destruct (src_periodic bl br ne e Hl Hr Hne He) as [_ [->|[[-> ->]|[-> ->]]]]; [reflexivity|exact Ht|].
    rewrite Cpow_add, Ht. cbn [Cpow]. ring.
  Qed.
  Theorem wave_residual ne (sr si : solution R) d s1r Fr s1i Fi t w Mx :
    made ne sr -> wf ne si -> similar sr si -> wf_dg ne sr d -> s_euler sr = false -> enh_sound sr ->
    is_literal (s_bcl sr) "periodic" = true -> is_literal (s_bcr sr) "periodic" = true -> Cpow t ne = nofZ 1 -> wave ne sr si t w -> symbol sr t = Ok Mx ->
    residual gamma d sr = Ok (s1r, Fr) -> residual gamma d si = Ok (s1i, Fi) ->
    wave ne (with_u s1r Fr) (with_u s1i Fi) t (fun n => nmul (Cr (2 / s_dx sr)) (Capply (s_Ns sr) Mx w n)).
  Proof.
    intros M W Sim D Ha He Hl Hr Ht Hw HM Rr Ri e n Hee Hn. pose proof (md_wf _ _ M) as Wr. pose proof (wf_ne _ _ Wr) as Hne.
    change (s_Ns (with_u s1r Fr)) with (s_Ns s1r) in Hn. rewrite (similar_Ns _ _ (similar_residual gamma d sr s1r Fr Rr)) in Hn.
    destruct (similar_fields _ _ Sim) as [Eb [Een [Eeu [Edx [Ebl Ebr]]]]].
    assert (Ens : s_Ns si = s_Ns sr) by (unfold s_Ns; rewrite Eb; reflexivity).
    assert (Di : wf_dg ne si d). { unfold wf_dg in *. destruct Sim as [? [? [? [? [-> _]]]]]. exact D. }
    destruct (residual_op gamma ne sr d s1r Fr Wr D Ha Rr) as [_ Br].
    destruct (residual_op gamma ne si d s1i Fi W Di (eq_trans Eeu Ha) Ri) as [_ Bi].
    pose proof (adv_NF sr Ha) as NF. assert (NFi : s_NF si = 1%nat) by (apply adv_NF; rewrite Eeu; exact Ha).
    assert (CM : forall e' m, (e' < ne + 2)%nat -> (m < s_Ns sr)%nat -> cmode s1r s1i e' m = nmul (Cpow t e') (w m)).
    { intros e' m He' Hm. unfold cmode. rewrite Br by assumption. rewrite Bi by (rewrite ?Ens; assumption). rewrite Ebl, Ebr.
      destruct (src_periodic _ _ ne e' Hl Hr Hne He') as [Hs _]. rewrite <- (Cpow_src _ _ ne t e' Hl Hr Hne He' Ht).
      rewrite <- (Hw _ m Hs Hm). unfold cmode. rewrite (modes_at ne sr), (modes_at ne si) by (rewrite ?NF, ?NFi, ?Ens; try assumption; lia).
      rewrite NF, NFi, Nat.mul_1_r, Nat.add_0_r. reflexivity. }
    assert (Tz : t <> nofZ 0) by (destruct ne as [|k]; [lia|]; apply (Cpow_nz t k Ht)).
    rewrite (symbol_residual ne sr si d s1r Fr s1i Fi e t Mx n M W Sim D Ha He HM Rr Ri Tz Hee Hn).
    - unfold Capply. rewrite (Csum_ext _ _ (fun j => nmul (Cpow t e) (nmul (at2 Mx n j) (w j)))) by (intros m Hm; rewrite CM by (try exact Hm; lia); ring).
      rewrite Csum_scale. ring.
    - intros m Hm. rewrite !CM by (try exact Hm; lia). destruct e as [|e]; [lia|]. replace (S e - 1)%nat with e by lia. cbn [Cpow]. ring.
    - intros _ m Hm. rewrite !CM by (try exact Hm; lia). replace (e + 1)%nat with (S e) by lia. cbn [Cpow]. ring.
  Qed.

  (** ** a time step *)
  Lemma power_wave ne (sr : solution R) x y t w l Mx : made ne sr -> s_euler sr = false -> enh_sound sr ->
    is_literal (s_bcl sr) "periodic" = true -> is_literal (s_bcr sr) "periodic" = true -> Cpow t ne = nofZ 1 -> symbol sr t = Ok Mx ->
    (forall i, (i < s_Ns sr)%nat -> Capply (s_Ns sr) Mx w i = nmul l (w i)) ->
    (forall e m, (1 <= e <= ne)%nat -> (m < s_Ns sr)%nat -> (x m e, y m e) = nmul (Cpow t e) (w m)) ->
    forall k e m, (1 <= e <= ne)%nat -> (m < s_Ns sr)%nat ->
      (power (adv_op ne sr) k x m e, power (adv_op ne sr) k y m e) = nmul (Cpow (nmul (Cr (2 / s_dx sr)) l) k) (nmul (Cpow t e) (w m)).
  Proof.
    intros M Ha He Hl Hr Ht HM Hw Hx. pose proof (md_wf _ _ M) as Wr. pose proof (wf_ne _ _ Wr) as Hne.
    assert (Tz : t <> nofZ 0) by (destruct ne as [|k]; [lia|]; apply (Cpow_nz t k Ht)).
    assert (Tz' : Cnz t). { unfold Cnz. intro Z. apply Tz. destruct t as [a b]. cbn [fst snd] in Z. assert (a = 0 /\ b = 0) as [-> ->]; [|reflexivity]. nra. }
    assert (Ns : s_Ns sr = (b_p (s_basis sr) + 1)%nat) by reflexivity.
    induction k as [|k IH]; intros e m Hee Hm.
    - cbn [power Cpow]. rewrite Hx by assumption. ring.
    - cbn [power]. set (mu := nmul (Cr (2 / s_dx sr)) l) in *.
      assert (IH' : forall e' j, (e' < ne + 2)%nat -> (j <= b_p (s_basis sr))%nat ->
        (power (adv_op ne sr) k x j (src_cell (s_bcl sr) (s_bcr sr) ne e'), power (adv_op ne sr) k y j (src_cell (s_bcl sr) (s_bcr sr) ne e')) = nmul (Cpow mu k) (nmul (Cpow t e') (w j))).
      { intros e' j He' Hj. destruct (src_periodic _ _ ne e' Hl Hr Hne He') as [Hs _]. rewrite IH by (rewrite ?Ns; try exact Hs; lia).
        rewrite (Cpow_src _ _ ne t e' Hl Hr Hne He' Ht). reflexivity. }
      rewrite (adv_wave G ne sr M Ha (power (adv_op ne sr) k x) (power (adv_op ne sr) k y) t e m Tz' Hee); [|lia| |].
      + rewrite <- (symbol_gam IV sr t Mx _ m He HM) by lia. rewrite <- Ns. unfold Capply in *.
        rewrite (Csum_ext _ _ (fun j => nmul (nmul (Cpow mu k) (Cpow t e)) (nmul (at2 Mx m j) (w j)))) by (intros j Hj; rewrite IH by assumption; ring).
        rewrite Csum_scale, Hw by exact Hm. cbn [Cpow]. unfold mu. ring.
      + intros j Hj. rewrite IH' by lia. rewrite IH by (rewrite ?Ns; lia). destruct e as [|e]; [lia|]. replace (S e - 1)%nat with e by lia. cbn [Cpow]. ring.
      + intros _ j Hj. rewrite IH' by lia. rewrite IH by (rewrite ?Ns; lia). replace (e + 1)%nat with (S e) by lia. cbn [Cpow]. ring.
  Qed.
  Theorem amplification ne (sol0 : solution R) d rk cfl tf nout k tout touts sr scr evsr s'r sc'r dt o dn soli ki touti toutsi si sci evsi s'i sc'i oi dni t w l Mx det :
    made ne sol0 -> wf ne soli -> similar sol0 soli -> wf_dg ne sol0 d -> s_euler sol0 = false -> enh_sound sol0 ->
    is_literal (s_bcl sol0) "periodic" = true -> is_literal (s_bcr sol0) "periodic" = true -> Cpow t ne = nofZ 1 -> symbol sol0 t = Ok Mx ->
    (forall i, (i < s_Ns sol0)%nat -> Capply (s_Ns sol0) Mx w i = nmul l (w i)) -> det_ok det ->
    visits gamma rk d None cfl tf nout sol0 k tout touts sr scr evsr ->
    time_step gamma (rk_inner gamma rk d None) None cfl tf tout sr scr = Ok (s'r, sc'r, (dt, o, dn)) ->
    visits gamma rk d None cfl tf nout soli ki touti toutsi si sci evsi ->
    time_step gamma (rk_inner gamma rk d None) None cfl tf touti si sci = Ok (s'i, sc'i, (dt, oi, dni)) ->
    wave ne sr si t w ->
    wave ne s'r s'i t (fun n =>
      nmul (det (stability_matrix (fst (get_formatted_rk_coeffs rk)) (snd (get_formatted_rk_coeffs rk)) (nmul (Cr (2 * dt / s_dx sol0)) l))) (w n)).
  Proof.
    intros M W Sim D Ha He Hl Hr Ht HM Hw HD Vr Tr Vi Ti Hwave.
    destruct (similar_fields _ _ Sim) as [Eb [Een [Eeu [Edx [Ebl Ebr]]]]].
    assert (Ens : s_Ns soli = s_Ns sol0) by (unfold s_Ns; rewrite Eb; reflexivity).
    assert (Di : wf_dg ne soli d). { unfold wf_dg in *. destruct Sim as [? [? [? [? [-> _]]]]]. exact D. }
    destruct (Wf_visits gamma ne sol0 d None (md_wf _ _ M) D _ _ _ _ _ _ _ _ _ _ Vr) as [[Wr Sr] [Wsr [Kr _]]].
    destruct (Wf_visits gamma ne soli d None W Di _ _ _ _ _ _ _ _ _ _ Vi) as [[Wi Si] [Wsi [Ki _]]].
    destruct (Wf_time_step gamma ne sol0 d None D _ _ _ _ _ _ _ _ _ (conj Wr Sr) Wsr Kr Tr) as [[Wr' Sr'] _].
    destruct (Wf_time_step gamma ne soli d None Di _ _ _ _ _ _ _ _ _ (conj Wi Si) Wsi Ki Ti) as [[Wi' Si'] _].
    pose proof (adv_NF sol0 Ha) as NF. assert (NFi : s_NF soli = 1%nat) by (apply adv_NF; rewrite Eeu; exact Ha).
    assert (ar : forall (s0 s : solution R) e n, wf ne s -> similar s0 s -> s_NF s0 = 1%nat -> (e < ne + 2)%nat -> (n < s_Ns s0)%nat -> at1 (modes s e 0) n = at2 (s_u s) n e).
    { intros s0 s e n Ws Ss N0 He' Hn'. rewrite (modes_at ne s); rewrite ?(similar_NF _ _ Ss), ?(similar_Ns _ _ Ss), ?N0; try assumption; [f_equal|]; lia. }
    intros e n Hee Hn. rewrite (similar_Ns _ _ Sr') in Hn. unfold cmode. rewrite (ar sol0 s'r), (ar soli s'i) by (rewrite ?Ens; try assumption; lia).
    pose proof (adv_step gamma ne sol0 d rk cfl tf nout _ _ _ _ _ _ _ _ _ _ _ (md_wf _ _ M) D Ha Vr Tr e 0%nat n ltac:(lia) ltac:(lia) Hn) as Ar.
    pose proof (adv_step gamma ne soli d rk cfl tf nout _ _ _ _ _ _ _ _ _ _ _ W Di (eq_trans Eeu Ha) Vi Ti e 0%nat n ltac:(lia) ltac:(lia) ltac:(rewrite Ens; exact Hn)) as Ai.
    assert (SE : forall bl br, src_cell bl br ne e = e) by (intros; unfold src_cell; destruct (Nat.eqb_spec e 0); [lia|]; destruct (Nat.eqb_spec e (ne + 1)); [lia|]; reflexivity).
    rewrite SE, NF, Nat.mul_1_r, Nat.add_0_r in Ar. rewrite SE, NFi, Nat.mul_1_r, Nat.add_0_r in Ai. rewrite Ar, Ai. clear Ar Ai.
    rewrite rk_determinant by exact HD. rewrite Csum_Cr_pair.
    pose proof (power_wave ne sol0 (at2 (s_u sr)) (at2 (s_u si)) t w l Mx M Ha He Hl Hr Ht HM Hw) as PW.
    assert (Hx : forall e m, (1 <= e <= ne)%nat -> (m < s_Ns sol0)%nat -> (at2 (s_u sr) m e, at2 (s_u si) m e) = nmul (Cpow t e) (w m)).
    { intros e' m He' Hm. rewrite <- (Hwave e' m He') by (rewrite (similar_Ns _ _ Sr); exact Hm). unfold cmode. rewrite (ar sol0 sr), (ar soli si) by (rewrite ?Ens; try assumption; lia). reflexivity. }
    specialize (PW Hx).
    transitivity (Csum (S (stages (rk_choice rk))) (fun k => nmul (nmul (Cpow t e) (w n)) (nmul (Cr (growth (rk_choice rk) k)) (Cpow (nmul (Cr (2 * dt / s_dx sol0)) l) k)))).
    - apply Csum_ext. intros k0 _. assert (EA : forall x, power (adv_op ne soli) k0 x = power (adv_op ne sol0) k0 x).
      { intro x. induction k0 as [|k0 IH]; [reflexivity|]. cbn [power]. rewrite IH. apply adv_op_similar. exact Sim. }
      rewrite EA, PW by assumption. replace (2 * dt / s_dx sol0) with (dt * (2 / s_dx sol0)) by (unfold Rdiv; ring).
      rewrite !Cr_mul, !Cpow_mul, <- Cpow_Cr. ring.
    - rewrite Csum_scale. ring.
  Qed.
End Waves.
