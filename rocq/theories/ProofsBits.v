(** C81: data that are the same in every cell.  They stay so in every arithmetic; in binary64 the averages do not move. *)
From Coq Require Import ZArith List Bool Arith String Lia Floats.SpecFloat.
From Verif Require Import Num Py PyStr Lib LegNumpy Ext Basis Constants Sensor Enhance Limiting AdvectionPhysics EulerPhysics IC
  Solution Solver RKCoeffs RK SpecTime ProofsTime SpecDG ProofsDG ProofsDG2 ProofsWf ProofsCons ProofsRel ProofsShift ProofsSol.
Import ListNotations.
Open Scope list_scope.
Open Scope nat_scope.

Section Alike.
  Context {A : Type} {N : Num A} {L : Libm A} {X : Ext A}.
  Variable gamma : A.
  Implicit Types s : solution A.
  (** [zn]: nothing to add; [val f]: values of the average of field f *)
  Variables (zn : A -> Prop) (val : nat -> A -> Prop).
  Hypothesis zn_0 : zn n0.
  Hypothesis zn_add : forall x y, zn x -> zn y -> zn (nadd x y).
  Hypothesis zn_sub : forall x y, zn x -> zn y -> zn (nsub x y).
  Hypothesis zn_mul_l : forall x y, zn x -> zn (nmul x y).
  Hypothesis zn_mul_r : forall x y, zn y -> zn (nmul x y).
  Hypothesis zn_self : forall x, zn (nsub x x).
  Hypothesis val_add : forall f x z, val f x -> zn z -> val f (nadd x z).

  Lemma zn_nsum (l : list A) : (forall x, In x l -> zn x) -> zn (nsum l).
  Proof.
    induction l as [|y l IH]; intro H; [exact zn_0|]. cbn [nsum]. apply zn_add; [apply H; left; reflexivity|]. apply IH. intros; apply H; right; assumption.
  Qed.
  Lemma zn_vdot (x y : vec A) : (forall v, In v x -> zn v) -> zn (vdot x y).
  Proof.
    intro H. unfold vdot. apply zn_nsum. revert y. induction x as [|a x IH]; intros [|b y] v Hv; cbn [map2 In] in Hv; try contradiction.
    destruct Hv as [<-|Hv]; [apply zn_mul_l, H; left; reflexivity|]. apply (IH (fun v Hv => H v (or_intror Hv)) y v Hv).
  Qed.
  (** the derivative of the constant is nothing at every node *)
  Lemma zn_dphi p v : In v (row (b_dphi_w (Basis p)) 0) -> zn v.
  Proof.
    unfold Basis. destruct (leggauss (p + 1)) as [x w]. cbn [b_dphi_w]. unfold basis_dphi_w, row. rewrite nth_tab by lia. intro H.
    apply In_nth with (d := n0) in H. destruct H as [g [Hg <-]]. rewrite length_tab in Hg. rewrite nth_tab by exact Hg.
    apply zn_mul_l. unfold leg_basis, legval, clenshaw. cbn. apply zn_mul_r, zn_0.
  Qed.

  Section Run.
    Variables (ne p : nat) (sol0 : solution A) (d : dg).
    Hypothesis W0 : wf ne sol0.
    Hypothesis D0 : wf_dg ne sol0 d.
    Hypothesis Hb : s_basis sol0 = Basis p.
    Hypothesis Bl : In (s_bcl sol0) [pylit "periodic"; pylit "zerograd"].
    Hypothesis Br : In (s_bcr sol0) [pylit "periodic"; pylit "zerograd"].
    Let Hne := wf_ne _ _ W0.
    Definition Alike s : Prop := Wf ne sol0 s /\ (forall e f, 1 <= e <= ne -> f < s_NF sol0 -> modes s e f = modes s 1 f) /\
      (forall f, f < s_NF sol0 -> val f (at1 (modes s 1 f) 0)).
    Definition AlikeK (K : mat A) : Prop := WfK ne sol0 K /\
      (forall n e f, n < s_Ns sol0 -> 1 <= e <= ne -> f < s_NF sol0 -> at2 K n (e * s_NF sol0 + f) = at2 K n (1 * s_NF sol0 + f)) /\
      (forall f, f < s_NF sol0 -> zn (at2 K 0 (1 * s_NF sol0 + f))).
    Lemma src_interior e : e < ne + 2 -> 1 <= src_cell (s_bcl sol0) (s_bcr sol0) ne e <= ne.
    Proof.
      intro He. unfold src_cell. destruct (Nat.eqb_spec e 0).
      - cbn [In] in Bl. destruct Bl as [<-|[<-|[]]]; cbn; lia.
      - destruct (Nat.eqb_spec e (ne + 1)); [|lia]. cbn [In] in Br. destruct Br as [<-|[<-|[]]]; cbn; lia.
    Qed.
    Lemma Wf_frame s : Wf ne sol0 s -> s_bcl s = s_bcl sol0 /\ s_bcr s = s_bcr sol0 /\ s_basis s = s_basis sol0 /\ s_minv s = s_minv sol0.
    Proof. intros [_ [t [n [sn [u [-> _]]]]]]. repeat split; reflexivity. Qed.
    Lemma alike_bc s : Alike s -> let s1 := with_u s (bc_u ne s) in
      Alike s1 /\ (forall e f, e < ne + 2 -> f < s_NF sol0 -> modes s1 e f = modes s 1 f).
    Proof.
      intros [H1 [H2 H3]] s1. pose proof (proj1 H1) as W. destruct (Wf_frame s H1) as [B1 [B2 _]]. pose proof (similar_NF _ _ (proj2 H1)) as EF.
      assert (M : forall e f, e < ne + 2 -> f < s_NF sol0 -> modes s1 e f = modes s 1 f).
      { intros e f He Hf. unfold s1. rewrite (modes_bc ne s) by (try assumption; rewrite EF; exact Hf). rewrite B1, B2. apply H2; [apply src_interior; exact He|exact Hf]. }
      split; [|exact M]. split; [apply (Wf_bc ne sol0 s); [exact H1|apply apply_bc_eq; exact W]|]. split.
      - intros e f He Hf. rewrite !M by (try exact Hf; lia). reflexivity.
      - intros f Hf. rewrite M by (try exact Hf; lia). apply H3. exact Hf.
    Qed.
    Lemma alike_residual s s1 F : Alike s -> residual gamma d s = Ok (s1, F) -> Alike s1 /\ AlikeK F.
    Proof.
      intros H E. pose proof H as [H1 _]. pose proof (proj1 H1) as W. pose proof (Wf_dg ne sol0 d D0 _ H1) as D1.
      pose proof E as E0. apply (residual_iff gamma ne s d s1 F W D1) in E. destruct E as [-> [q [Hq ->]]].
      destruct (alike_bc s H) as [H' M]. cbn zeta in H', M, Hq |- *. set (s1 := with_u s (bc_u ne s)) in *.
      pose proof H' as [K1 _]. pose proof (proj1 K1) as W1. pose proof (similar_NF _ _ (proj2 K1)) as EF. pose proof (similar_Ns _ _ (proj2 K1)) as EN.
      split; [exact H'|].
      assert (Q : forall e, e <= ne -> q e = q 0).
      { intros e He. apply Ok_inj. rewrite <- !Hq by lia. apply iface_local2; [apply similar_refl|]. rewrite EF. intros f Hf.
        rewrite !M by (try exact Hf; lia). split; reflexivity. }
      assert (V : forall n e f, 1 <= e <= ne -> volume_term gamma s1 (modes s1) n e f = volume_term gamma s1 (modes s1) n 1 f).
      { intros n e f He. apply volume_local2; [apply similar_refl|]. rewrite EF. intros f' Hf'. rewrite !M by (try exact Hf'; lia). reflexivity. }
      split; [|split].
      - destruct H1 as [_ S]. destruct (wf_residual gamma _ _ _ _ _ W D1 E0) as [_ R3]. unfold WfK. rewrite <- (similar_Ns _ _ S), <- (similar_NF _ _ S). exact R3.
      - intros n e f Hn He Hf. rewrite <- EF. rewrite !(residual_interior gamma ne s1 q n _ f W1) by (try (rewrite EN; exact Hn); try (rewrite EF; exact Hf); lia).
        unfold residual_of. rewrite (V n e f He), (Q e), (Q (e - 1)), (Q 1), (Q (1 - 1)) by lia. reflexivity.
      - intros f Hf. rewrite <- EF. pose proof (Ns_pos sol0) as NP. rewrite (residual_interior gamma ne s1 q 0 1 f W1) by (try (rewrite EN; exact NP); try (rewrite EF; exact Hf); lia).
        unfold residual_of. rewrite (Q 1), (Q (1 - 1)) by lia. apply zn_mul_l. apply zn_sub.
        + unfold volume_term. apply zn_vdot. destruct (Wf_frame s1 K1) as [_ [_ [-> _]]]. rewrite Hb. apply zn_dphi.
        + cbn [face_term Nat.even]. apply zn_self.
    Qed.
    Lemma alike_copy s t : Alike s -> Alike t -> Alike (copy_data_only s t).
    Proof.
      intros [H1 [H2 H3]] [G1 [G2 G3]]. assert (W : Wf ne sol0 (copy_data_only s t)) by (apply Wf_copy; assumption).
      assert (M : forall e f, e < ne + 2 -> f < s_NF sol0 -> modes (copy_data_only s t) e f = modes t e f).
      { intros e f He Hf. apply (modes_ext ne sol0); try assumption. intros; reflexivity. }
      split; [exact W|]. split; intros; rewrite !M by (try assumption; lia); [apply G2|apply G3]; assumption.
    Qed.
    Lemma alike_axpy s a K : Alike s -> AlikeK K -> Alike (smart_axpy s a K).
    Proof.
      intros [H1 [H2 H3]] [G1 [G2 G3]]. assert (W : Wf ne sol0 (smart_axpy s a K)) by (apply Wf_axpy; assumption).
      split; [exact W|]. split.
      - intros e f He Hf. apply (modes_ext ne sol0); try assumption; try lia. intros n Hn. cbn [s_u smart_axpy with_u].
        apply (at2_axpy_rel ne sol0); try assumption; try (apply (Wf_u' ne sol0); assumption); try (apply cell_index; [exact Hf|lia]).
        + rewrite <- !(modes_at' ne sol0) by (try assumption; lia). rewrite (H2 e) by assumption. reflexivity.
        + apply G2; assumption.
      - intros f Hf. pose proof (Ns_pos sol0) as NP. rewrite (modes_at' ne sol0) by (try assumption; lia). cbn [s_u smart_axpy with_u].
        specialize (H3 f Hf). rewrite (modes_at' ne sol0) in H3 by (try assumption; lia). unfold axpy_mat. destruct (nltb _ _); [|exact H3].
        pose proof (Wf_u' ne sol0 s H1) as U. assert (J : 1 * s_NF sol0 + f < (ne + 2) * s_NF sol0) by (apply cell_index; [exact Hf|lia]).
        rewrite (at2_madd _ _ (s_u s) (mscale a K) 0 _ U (shape_mscale _ _ a K G1) NP J). apply val_add; [exact H3|].
        rewrite (at2_mscale _ _ a K 0 _ G1 NP J). apply zn_mul_r. apply G3. exact Hf.
    Qed.
    Lemma alike_clock s t n : Alike s -> Alike (with_n (with_t s t) n).
    Proof. intros [H1 H2]. split; [apply Wf_n, Wf_t; exact H1|exact H2]. Qed.
    Lemma alike_t s t : Alike s -> Alike (with_t s t).
    Proof. intros [H1 H2]. split; [apply Wf_t; exact H1|exact H2]. Qed.
    Lemma alike_scaled dt s s1 F : True -> Alike s -> residual gamma d s = Ok (s1, F) -> Alike s1 /\ AlikeK (mscale dt F).
    Proof.
      intros _ H E. destruct (alike_residual s s1 F H E) as [R1 [R2 [R3 R4]]]. split; [exact R1|]. split; [apply shape_mscale; exact R2|].
      pose proof (Ns_pos sol0) as NP. split.
      - intros n e f Hn He Hf. rewrite !(at2_mscale _ _ dt F n _ R2 Hn) by (apply cell_index; [exact Hf|lia]). rewrite (R3 n e f) by assumption. reflexivity.
      - intros f Hf. rewrite (at2_mscale _ _ dt F 0 _ R2 NP) by (apply cell_index; [exact Hf|lia]). apply zn_mul_r, R4. exact Hf.
    Qed.
    Lemma alike_0 : AlikeK (zeros2 (nrows (s_u sol0)) (ncols (s_u sol0))).
    Proof.
      assert (Z0 : forall r c i jj, at2 (zeros2 r c : mat A) i jj = n0).
      { intros r c i jj. unfold zeros2, at2, row, tab2. destruct (Nat.lt_ge_cases i r).
        - rewrite nth_tab by assumption. destruct (Nat.lt_ge_cases jj c); [rewrite at1_tab by assumption; reflexivity|].
          unfold at1. apply nth_overflow. rewrite length_tab. assumption.
        - rewrite nth_overflow by (rewrite length_tab; assumption). unfold at1. destruct jj; reflexivity. }
      split; [apply WfK_0; exact W0|]. split; intros; rewrite !Z0; [reflexivity|exact zn_0].
    Qed.
    Lemma alike_run rk cfl tf nout fuel evs out : Alike sol0 -> integrate gamma rk d None cfl tf nout fuel sol0 = (evs, out) ->
      Forall (fun ev => Alike (ev_sol ev)) evs /\ (forall s, out = Finished s -> Alike s).
    Proof.
      intros H0. apply (integrate_inv gamma Alike Alike AlikeK (fun _ => True) d None).
      - exact alike_copy. - exact alike_copy. - exact alike_axpy. - exact alike_axpy. - exact alike_t.
      - intros s s' H E. apply Ok_inj in E. subst. exact H.
      - exact alike_scaled. - intros. apply alike_clock. assumption.
      - intros s s' H E. destruct (alike_bc s H) as [H' _]. rewrite (apply_bc_eq _ _ (proj1 (proj1 H))) in E. apply Ok_inj in E. subst. exact H'.
      - intros s s' H E. apply Ok_inj in E. subst. exact H.
      - auto. - exact H0. - exact H0. - exact alike_0.
    Qed.
  End Run.
End Alike.

(** a shock tube whose two states are the same starts alike in every cell *)
Section Still.
  Context {A : Type} {N : Num A} {L : Libm A} {X : Ext A}.
  Lemma mapM_const {B C} (g : B -> res C) (v : C) l : (forall x r, g x = Ok r -> r = v) -> forall r, mapM g l = Ok r -> r = repeat v (List.length l).
  Proof.
    intro H. induction l as [|x l IH]; intros r E; cbn [mapM] in E; [apply Ok_inj in E; subst; reflexivity|].
    inv_bind E. inv_bind E. apply Ok_inj in E. subst r. cbn [List.length repeat]. f_equal; [apply (H _ _ Hx)|apply IH; assumption].
  Qed.
  Lemma still_f xd rho u p gamma x (r : list A) : f_scktube xd rho u p rho u p gamma x = Ok r ->
    r = [rho; nmul rho u; nadd (nmul (ndiv n1 (nsub gamma n1)) p) (nmul (nmul (nmul nhalf rho) u) u)].
  Proof. unfold f_scktube. destruct (nltb x xd); [|destruct (nleb xd x); [|discriminate]]; cbn [rbind]; intro E; apply Ok_inj in E; subst; reflexivity. Qed.
  Lemma still_projection (b : basis A) l r l' r' xd rho u p gamma c v v' :
    projection b l r (f_scktube xd rho u p rho u p gamma) c = Ok v -> projection b l' r' (f_scktube xd rho u p rho u p gamma) c = Ok v' -> v = v'.
  Proof.
    unfold projection. intros E E'. inv_bind E. inv_bind E'. apply Ok_inj in E, E'. subst v v'.
    set (y := nth c [rho; nmul rho u; nadd (nmul (ndiv n1 (nsub gamma n1)) p) (nmul (nmul (nmul nhalf rho) u) u)] n0).
    apply (mapM_const _ y) in Hx, Hx0.
    - subst. unfold shifted_xgauss. rewrite !map_length. reflexivity.
    - intros z w Hz. inv_bind Hz. apply still_f in Hx1. subst. destruct (nth_error _ c) eqn:En; [|discriminate]. apply Ok_inj in Hz. subst. symmetry. apply nth_error_nth. exact En.
    - intros z w Hz. inv_bind Hz. apply still_f in Hx1. subst. destruct (nth_error _ c) eqn:En; [|discriminate]. apply Ok_inj in Hz. subst. symmetry. apply nth_error_nth. exact En.
  Qed.
  Lemma still_start icline system order riem enh th (s : solution A) g params :
    split_ws icline = "scktube"%string :: params -> (forall i, In i [2; 3; 4] -> float_param (A := A) params (i + 3) = float_param params i) ->
    ic_succeeds (A := A) icline system order riem -> Solution icline system order riem enh th = Ok (s, g) -> (1 <= s_NE s)%Z ->
    (forall e f, 1 <= e <= Z.to_nat (s_NE s) -> f < s_NF s -> modes s e f = modes s 1 f) /\ s_bcl s = pylit "zerograd" /\ s_bcr s = pylit "zerograd".
  Proof.
    intros Hs Hp Hic H HNE. apply Solution_Ok in H; [|exact Hic]. destruct H as [nm [ps [s1 [en [K1 [K2 [_ K4]]]]]]].
    rewrite Hs in K1. injection K1 as <- <-. apply run_ic_Ok in K2. destruct K2 as [ic [NE [u [p0 [L1 [_ [_ [L4 [L5 [L6 L7]]]]]]]]]].
    cbn [s_icname s_params blank_solution] in L1. unfold ic_state in L4. subst s1.
    assert (Ic : exists xd rho v p, ic_f ic = f_scktube xd rho v p rho v p gamma_default /\ ic_bc ic = "zerograd"%string).
    { unfold ic_lookup in L1. cbn [String.eqb Ascii.eqb Bool.eqb] in L1. destruct (negb _); [discriminate|].
      pose proof (Hp 2 ltac:(cbn; auto)) as E2. pose proof (Hp 3 ltac:(cbn; auto)) as E3. pose proof (Hp 4 ltac:(cbn; auto)) as E4. cbn [Nat.add] in E2, E3, E4.
      rewrite E2, E3, E4 in L1. repeat inv_bind L1. rewrite Hx0 in Hx3. rewrite Hx1 in Hx4. rewrite Hx2 in Hx5. apply Ok_inj in Hx3, Hx4, Hx5. subst. apply Ok_inj in L1. subst ic.
      do 4 eexists. split; reflexivity. }
    destruct Ic as [xd [rho [v [p [Ef Eb]]]]].
    assert (EN : s_NE s = Z.of_nat NE) by (subst s; reflexivity). rewrite EN in *. rewrite Nat2Z.id.
    split; [|subst s; cbn; rewrite Eb; split; reflexivity].
    set (s0 := blank_solution "scktube" params (String.eqb system "euler") (riemann_choice (String.eqb system "euler") riem) order) in *.
    assert (ENF : s_NF s = s_NF s0) by (subst s; reflexivity).
    assert (M : forall e f, 1 <= e <= NE -> f < s_NF s -> exists w, projection (s_basis s0) (at1 (linspace (ic_A ic) (ic_B ic) (NE + 1)) (e - 1)) (at1 (linspace (ic_A ic) (ic_B ic) (NE + 1)) (e - 1 + 1)) (ic_f ic) f = Ok w /\ modes s e f = tab (s_Ns s0) (fun n => at1 w n)).
    { intros e f He Hf. destruct (L7 (e - 1) f ltac:(lia) ltac:(rewrite <- ENF; exact Hf)) as [w [P1 P2]]. exists w. split; [exact P1|].
      unfold modes. replace (s_u s) with (add_ghosts (s_NF s0) u) by (subst s; reflexivity). rewrite ENF.
      rewrite (col_add_ghosts (s_Ns s0) (s_NF s0) NE) by (try exact L6; try lia; rewrite <- ENF; exact Hf). exact P2. }
    intros e f He Hf. destruct (M e f He Hf) as [w [W1 ->]]. destruct (M 1 f ltac:(lia) Hf) as [w' [W2 ->]]. rewrite Ef in W1, W2.
    rewrite (still_projection _ _ _ _ _ _ _ _ _ _ _ _ _ W1 W2). reflexivity.
  Qed.
End Still.

(** binary64 *)
Section Bits.
  Context {L : Libm spec_float} {X : Ext spec_float}.
  Definition nought (x : spec_float) : Prop := x = S754_nan \/ exists b, x = S754_zero b.
  Definition same_or_nan (a x : spec_float) : Prop := x = S754_nan \/ SFeqb x a = true.
  Lemma SFeqb_self x : same_or_nan x x.
  Proof.
    destruct x as [b|b| |b m e]; [right; reflexivity|right; destruct b; reflexivity|left; reflexivity|right].
    unfold SFeqb, SFcompare. rewrite Z.compare_refl, Pos.compare_cont_refl. destruct b; reflexivity.
  Qed.
  Lemma nought_0 : nought (n0 (A := spec_float)). Proof. right. eexists. reflexivity. Qed.
  Lemma nought_add x y : nought x -> nought y -> nought (nadd (A := spec_float) x y).
  Proof. intros [->|[b ->]] [->|[b' ->]]; try (left; reflexivity). right. destruct b, b'; eexists; reflexivity. Qed.
  Lemma nought_sub x y : nought x -> nought y -> nought (nsub (A := spec_float) x y).
  Proof. intros [->|[b ->]] [->|[b' ->]]; try (left; reflexivity). right. destruct b, b'; eexists; reflexivity. Qed.
  Lemma nought_mul_l x y : nought x -> nought (nmul (A := spec_float) x y).
  Proof. intros [->|[b ->]]; destruct y; try (left; reflexivity); right; eexists; reflexivity. Qed.
  Lemma nought_mul_r x y : nought y -> nought (nmul (A := spec_float) x y).
  Proof. intros [->|[b ->]]; destruct x; try (left; reflexivity); right; eexists; reflexivity. Qed.
  Lemma nought_self x : nought (nsub (A := spec_float) x x).
  Proof.
    destruct x as [b|b| |b m e]; [right; destruct b; eexists; reflexivity|left; destruct b; reflexivity|left; reflexivity|right].
    exists false. change (nsub (A := spec_float) (S754_finite b m e) (S754_finite b m e)) with (SFsub prec64 emax64 (S754_finite b m e) (S754_finite b m e)).
    unfold SFsub. rewrite Z.sub_diag. reflexivity.
  Qed.
  Lemma same_add a x z : same_or_nan a x -> nought z -> same_or_nan a (nadd (A := spec_float) x z).
  Proof.
    intros [->|H] [->|[b ->]]; try (left; destruct x; reflexivity); try (left; reflexivity). right. destruct x as [b'|b'| |b' m e]; try exact H.
    destruct b', b; exact H.
  Qed.
End Bits.
