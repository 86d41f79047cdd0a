(** Unlimited advection in lockstep, in any arithmetic: a relation between numbers that survives sums, differences and multiplication
    by a common number survives whole runs. *)
From Coq Require Import ZArith List Bool Arith String Lia.
From Verif Require Import Num Py PyStr Lib LegNumpy Ext Basis Sensor Enhance Limiting AdvectionPhysics EulerPhysics
  Solution Solver RKCoeffs RK SpecTime SpecTrace SpecClip ProofsTime SpecDG ProofsDG ProofsDG2 ProofsWf ProofsCons ProofsRel ProofsRelTrace ProofsShift ProofsSol.
Import ListNotations.
Open Scope list_scope.
Open Scope nat_scope.

Section Linear.
  Context {A : Type} {N : Num A} {L : Libm A}.
  Variable gamma : A.
  Implicit Types s : solution A.
  Variable rho : A -> A -> Prop.
  Hypothesis rho_0 : rho n0 n0.
  Hypothesis rho_add : forall x x' y y', rho x x' -> rho y y' -> rho (nadd x y) (nadd x' y').
  Hypothesis rho_sub : forall x x' y y', rho x x' -> rho y y' -> rho (nsub x y) (nsub x' y').
  Hypothesis rho_mul_l : forall c x x', rho x x' -> rho (nmul c x) (nmul c x').
  Hypothesis rho_mul_r : forall c x x', rho x x' -> rho (nmul x c) (nmul x' c).

  Lemma rho_vdot (c : vec A) : forall (x x' : vec A), Forall2 rho x x' -> rho (vdot c x) (vdot c x').
  Proof.
    unfold vdot. induction c as [|a c IH]; intros x x' H; [exact rho_0|]. destruct H as [|b b' x x' H1 H2]; [exact rho_0|].
    cbn [map2 nsum]. apply rho_add; [apply rho_mul_l; exact H1|apply IH; exact H2].
  Qed.
  Lemma Forall2_at (x x' : vec A) : List.length x = List.length x' -> (forall n, n < List.length x -> rho (at1 x n) (at1 x' n)) -> Forall2 rho x x'.
  Proof.
    revert x'. induction x as [|a x IH]; intros [|a' x'] El H; try discriminate; constructor.
    - exact (H 0 (Nat.lt_0_succ _)).
    - apply IH; [injection El as El; exact El|]. intros n Hn. exact (H (S n) (proj1 (Nat.succ_lt_mono _ _) Hn)).
  Qed.
  Lemma at1_rho (x x' : vec A) n : Forall2 rho x x' -> rho (at1 x n) (at1 x' n).
  Proof. intro H. revert n. induction H as [|a a' x x' H1 H2 IH]; intros [|n]; [exact rho_0|exact rho_0|exact H1|exact (IH n)]. Qed.

  Section Run.
    Variables (ne : nat) (sol0 : solution A) (d : dg).
    Hypothesis W0 : wf ne sol0.
    Hypothesis D0 : wf_dg ne sol0 d.
    Hypothesis Eu : s_euler sol0 = false.
    Definition alongU (u u' : mat A) : Prop := forall n e f, n < s_Ns sol0 -> e < ne + 2 -> f < s_NF sol0 -> rho (at2 u n (e * s_NF sol0 + f)) (at2 u' n (e * s_NF sol0 + f)).
    Definition Along s s' : Prop := Wf ne sol0 s /\ Wf ne sol0 s' /\ s_t s = s_t s' /\ s_n s = s_n s' /\ alongU (s_u s) (s_u s').
    Definition AlongK (K K' : mat A) : Prop := WfK ne sol0 K /\ WfK ne sol0 K' /\ alongU K K'.
    Lemma frame s : Wf ne sol0 s -> s_bcl s = s_bcl sol0 /\ s_bcr s = s_bcr sol0 /\ s_basis s = s_basis sol0 /\ s_minv s = s_minv sol0 /\ s_enh s = s_enh sol0 /\ s_euler s = false /\ s_dx s = s_dx sol0.
    Proof. intros [_ [t [n [sn [u [-> _]]]]]]. repeat split; try reflexivity. exact Eu. Qed.
    Lemma along_modes s s' e f : Along s s' -> e < ne + 2 -> f < s_NF sol0 -> Forall2 rho (modes s e f) (modes s' e f).
    Proof.
      intros [H1 [H2 [_ [_ H]]]] He Hf. apply Forall2_at; [rewrite !(length_modes' ne sol0) by assumption; reflexivity|].
      intros n Hn. rewrite (length_modes' ne sol0) in Hn by assumption. rewrite !(modes_at' ne sol0) by assumption. apply H; assumption.
    Qed.
    Lemma modes_along s s' : Wf ne sol0 s -> Wf ne sol0 s' -> s_t s = s_t s' -> s_n s = s_n s' ->
      (forall e f, e < ne + 2 -> f < s_NF sol0 -> Forall2 rho (modes s e f) (modes s' e f)) -> Along s s'.
    Proof.
      intros H1 H2 H3 H4 H. split; [exact H1|]. split; [exact H2|]. split; [exact H3|]. split; [exact H4|]. intros n e f Hn He Hf.
      rewrite <- !(modes_at' ne sol0) by assumption. apply at1_rho. apply H; assumption.
    Qed.
    Lemma src_lt bl br e : e < ne + 2 -> src_cell bl br ne e < ne + 2.
    Proof. intro He. pose proof (wf_ne _ _ W0). unfold src_cell. repeat (match goal with |- context [if ?b then _ else _] => destruct b end); lia. Qed.
    Lemma along_bc s s' : Along s s' -> Along (with_u s (bc_u ne s)) (with_u s' (bc_u ne s')).
    Proof.
      intro H. pose proof H as [H1 [H2 [H3 [H4 _]]]]. destruct (frame s H1) as [B1 [B2 _]]. destruct (frame s' H2) as [B3 [B4 _]].
      apply modes_along; [apply (Wf_bc ne sol0 s); [exact H1|apply apply_bc_eq; apply H1]|apply (Wf_bc ne sol0 s'); [exact H2|apply apply_bc_eq; apply H2]|exact H3|exact H4|].
      intros e f He Hf. rewrite (modes_bc ne s) by (try apply H1; try exact He; rewrite (similar_NF _ _ (proj2 H1)); exact Hf).
      rewrite (modes_bc ne s') by (try apply H2; try exact He; rewrite (similar_NF _ _ (proj2 H2)); exact Hf). rewrite B1, B2, B3, B4. apply along_modes; [exact H|apply src_lt; exact He|exact Hf].
    Qed.
    Lemma rho_tab n (g g' : nat -> A) : (forall i, i < n -> rho (g i) (g' i)) -> Forall2 rho (tab n g) (tab n g').
    Proof. intro H. apply Forall2_at; [rewrite !length_tab; reflexivity|]. intros i Hi. rewrite length_tab in Hi. rewrite !at1_tab by exact Hi. apply H. exact Hi. Qed.
    Lemma along_residual s s' : Along s s' -> exists s1 F s1' F', residual gamma d s = Ok (s1, F) /\ residual gamma d s' = Ok (s1', F') /\ Along s1 s1' /\ AlongK F F'.
    Proof.
      intro H0. pose proof (along_bc s s' H0) as H. pose proof H0 as [V [V' _]]. pose proof H as [H1 [H2 _]]. set (s1 := with_u s (bc_u ne s)) in *. set (s1' := with_u s' (bc_u ne s')) in *.
      destruct (frame s1 H1) as [_ [_ [B3 [B4 [B5 [B6 _]]]]]]. destruct (frame s1' H2) as [_ [_ [C3 [C4 [C5 [C6 _]]]]]].
      pose proof (similar_NF _ _ (proj2 H1)) as EF. pose proof (similar_NF _ _ (proj2 H2)) as EF'. pose proof (similar_Ns _ _ (proj2 H1)) as EN. pose proof (similar_Ns _ _ (proj2 H2)) as EN'.
      set (q := fun e => tab (s_NF sol0) (face_minus s1 (modes s1) e)). set (q' := fun e => tab (s_NF sol0) (face_minus s1' (modes s1') e)).
      assert (Q : residual gamma d s = Ok (s1, residual_mat gamma ne s1 q)).
      { apply (residual_iff gamma ne s d s1 _ (proj1 V) (Wf_dg ne sol0 d D0 _ V)). split; [reflexivity|]. exists q. split; [|reflexivity]. intros e He. change (iface_flux gamma s1 (modes s1) e = Ok (q e)).
        unfold iface_flux, num_flux. replace (s_riemann s1) with RUpwind by (symmetry; apply (wf_kind _ _ (proj1 H1)); exact B6). unfold q. rewrite EF. reflexivity. }
      assert (Q' : residual gamma d s' = Ok (s1', residual_mat gamma ne s1' q')).
      { apply (residual_iff gamma ne s' d s1' _ (proj1 V') (Wf_dg ne sol0 d D0 _ V')). split; [reflexivity|]. exists q'. split; [|reflexivity]. intros e He. change (iface_flux gamma s1' (modes s1') e = Ok (q' e)).
        unfold iface_flux, num_flux. replace (s_riemann s1') with RUpwind by (symmetry; apply (wf_kind _ _ (proj1 H2)); exact C6). unfold q'. rewrite EF'. reflexivity. }
      exists s1, (residual_mat gamma ne s1 q), s1', (residual_mat gamma ne s1' q'). split; [exact Q|]. split; [exact Q'|]. split; [exact H|].
      assert (Fq : forall e f, e <= ne -> f < s_NF sol0 -> rho (at1 (q e) f) (at1 (q' e) f)).
      { intros e f He Hf. unfold q, q'. rewrite !at1_tab by exact Hf. unfold face_minus. rewrite B5, C5, B3, C3. destruct (s_enh sol0).
        - apply rho_add; apply rho_vdot; apply along_modes; try assumption; lia.
        - apply rho_vdot, along_modes; try assumption; lia. }
      assert (Vt : forall n e f, e < ne + 2 -> f < s_NF sol0 -> rho (volume_term gamma s1 (modes s1) n e f) (volume_term gamma s1' (modes s1') n e f)).
      { intros n e f He Hf. unfold volume_term. rewrite B3, C3. apply rho_vdot, rho_tab. intros g Hg. unfold phys_flux. rewrite B6, C6. unfold node_state. rewrite EF, EF', !at1_tab by exact Hf.
        rewrite B3, C3. apply rho_vdot, along_modes; assumption. }
      split; [unfold WfK, residual_mat; rewrite EN, EF; apply shape_tab2|]. split; [unfold WfK, residual_mat; rewrite EN', EF'; apply shape_tab2|].
      intros n e f Hn He Hf. unfold residual_mat. rewrite EN, EN', EF, EF', !at2_tab2 by (try exact Hn; apply cell_index; assumption).
      cbv zeta. rewrite !(proj1 (divmod_idx (s_NF sol0) e f Hf)), !(proj2 (divmod_idx (s_NF sol0) e f Hf)). rewrite B4, C4 || idtac.
      destruct ((1 <=? e) && (e <=? ne)) eqn:Eb.
      - apply andb_prop in Eb. destruct Eb as [E1 E2]. apply Nat.leb_le in E1, E2. unfold residual_of. rewrite B4, C4. apply rho_mul_r, rho_sub; [apply Vt; assumption|].
        unfold face_term. destruct (Nat.even n); [apply rho_sub|apply rho_add]; apply Fq; try assumption; lia.
      - rewrite ?B4, ?C4. apply rho_mul_r, Vt; assumption.
    Qed.
    Lemma along_scale dt K K' : AlongK K K' -> AlongK (mscale dt K) (mscale dt K').
    Proof.
      intros [H1 [H2 H3]]. split; [apply shape_mscale; exact H1|]. split; [apply shape_mscale; exact H2|]. intros n e f Hn He Hf.
      rewrite (at2_mscale _ _ dt K n _ H1 Hn), (at2_mscale _ _ dt K' n _ H2 Hn) by (apply cell_index; assumption). apply rho_mul_l, H3; assumption.
    Qed.
    Lemma along_axpy s s' a K K' : Along s s' -> AlongK K K' -> Along (smart_axpy s a K) (smart_axpy s' a K').
    Proof.
      intros [H1 [H2 [H3 [H4 H5]]]] [G1 [G2 G3]]. split; [apply Wf_axpy; assumption|]. split; [apply Wf_axpy; assumption|]. split; [exact H3|]. split; [exact H4|].
      intros n e f Hn He Hf. cbn [s_u smart_axpy with_u]. unfold axpy_mat. destruct (nltb _ _); [|apply H5; assumption].
      pose proof (Wf_u' ne sol0 s H1) as U. pose proof (Wf_u' ne sol0 s' H2) as U'. assert (J : e * s_NF sol0 + f < (ne + 2) * s_NF sol0) by (apply cell_index; assumption).
      rewrite (at2_madd _ _ (s_u s) (mscale a K) n _ U (shape_mscale _ _ a K G1) Hn J), (at2_madd _ _ (s_u s') (mscale a K') n _ U' (shape_mscale _ _ a K' G2) Hn J).
      apply rho_add; [apply H5; assumption|]. rewrite (at2_mscale _ _ a K n _ G1 Hn J), (at2_mscale _ _ a K' n _ G2 Hn J). apply rho_mul_l, G3; assumption.
    Qed.
    Lemma along_0 s s' : Along s s' -> AlongK (zeros2 (nrows (s_u s)) (ncols (s_u s))) (zeros2 (nrows (s_u s')) (ncols (s_u s'))).
    Proof.
      assert (Z0 : forall r c i jj, at2 (zeros2 r c : mat A) i jj = n0).
      { intros r c i jj. unfold zeros2, at2, row, tab2. destruct (Nat.lt_ge_cases i r).
        - rewrite nth_tab by assumption. destruct (Nat.lt_ge_cases jj c); [rewrite at1_tab by assumption; reflexivity|].
          unfold at1. apply nth_overflow. rewrite length_tab. assumption.
        - rewrite nth_overflow by (rewrite length_tab; assumption). unfold at1. destruct jj; reflexivity. }
      assert (K0 : forall t, Wf ne sol0 t -> WfK ne sol0 (zeros2 (nrows (s_u t)) (ncols (s_u t)))).
      { intros t [W S]. pose proof (WfK_0 ne t W) as K. unfold WfK in *. rewrite (similar_Ns _ _ S), (similar_NF _ _ S) in K. exact K. }
      intros [H1 [H2 _]]. split; [apply K0; exact H1|]. split; [apply K0; exact H2|]. intros n e f _ _ _. rewrite !Z0. exact rho_0.
    Qed.
    Lemma along_run rk cfl tf nout fuel sol' : Along sol0 sol' ->
      let r := integrate gamma rk d None cfl tf nout fuel sol0 in
      let r' := integrate gamma rk d None cfl tf nout fuel sol' in
      Forall2 (Rev Along) (fst r) (fst r') /\ outx eq Along (snd r) (snd r').
    Proof.
      intro H. apply (integrate_relG gamma eq (@eq_refl exn) Along Along AlongK (fun _ => True) (fun _ => True) d None); auto.
      - intros s s' t t' [H1 [H2 [H3 [H4 _]]]] [G1 [G2 [_ [_ G5]]]]. split; [apply Wf_copy; assumption|]. split; [apply Wf_copy; assumption|]. split; [exact H3|]. split; [exact H4|exact G5].
      - exact along_axpy.
      - intros s s' t [H1 [H2 [_ [H4 H5]]]]. split; [apply Wf_t; exact H1|]. split; [apply Wf_t; exact H2|]. split; [reflexivity|]. split; assumption.
      - intros s s' [_ [_ [H3 [H4 _]]]]. split; assumption.
      - intros s s' _ Hs. constructor. exact Hs.
      - intros dt s s' _ Hs. destruct (along_residual s s' Hs) as [s1 [F [s1' [F' [-> [-> [R1 R2]]]]]]]. constructor. split; [exact R1|apply along_scale; exact R2].
      - intros s s' n [H1 [H2 [H3 [_ H5]]]]. split; [apply Wf_n; exact H1|]. split; [apply Wf_n; exact H2|]. split; [exact H3|]. split; [reflexivity|exact H5].
      - intros s s' Hs. pose proof Hs as [H1 [H2 _]]. rewrite (apply_bc_eq ne s (proj1 H1)), (apply_bc_eq ne s' (proj1 H2)). constructor. apply along_bc. exact Hs.
      - intros s s' _ Hs. constructor. exact Hs.
      - intros s s' tout cfl' tf' [H1 [H2 [H3 _]]]. destruct (frame s H1) as [_ [_ [B3 [_ [_ [B6 B7]]]]]]. destruct (frame s' H2) as [_ [_ [C3 [_ [_ [C6 C7]]]]]].
        unfold get_next_time_step, cfl_time_step, max_wave_speed. rewrite B6, C6, B3, C3, B7, C7, <- H3. cbn [rbind adv_max_wave_speed].
        destruct (sanity_check_dt _); constructor; reflexivity.
      - intros s s' k dt [H1 [H2 _]]. rewrite (printer_total ne k dt s (proj1 H1)), (printer_total ne k dt s' (proj1 H2)). eauto.
      - apply along_0. exact H.
    Qed.
  End Run.
End Linear.
Lemma any_run {A : Type} {N : Num A} {L : Libm A} (gamma : A) (rho : A -> A -> Prop) :
  rho n0 n0 -> (forall x x' y y', rho x x' -> rho y y' -> rho (nadd x y) (nadd x' y')) -> (forall x x' y y', rho x x' -> rho y y' -> rho (nsub x y) (nsub x' y')) ->
  (forall c x x', rho x x' -> rho (nmul c x) (nmul c x')) -> (forall c x x', rho x x' -> rho (nmul x c) (nmul x' c)) ->
  forall ne (s s' : solution A) d, wf ne s -> wf ne s' -> similar s s' -> s_t s = s_t s' -> s_n s = s_n s' -> s_euler s = false -> wf_dg ne s d ->
  (forall e f n, e < ne + 2 -> f < s_NF s -> n < s_Ns s -> rho (at1 (modes s e f) n) (at1 (modes s' e f) n)) ->
  forall rk cfl tf nout fuel s1, snd (integrate gamma rk d None cfl tf nout fuel s) = Finished s1 ->
  exists s1', snd (integrate gamma rk d None cfl tf nout fuel s') = Finished s1' /\
    forall e f n, e < ne + 2 -> f < s_NF s -> n < s_Ns s -> rho (at1 (modes s1 e f) n) (at1 (modes s1' e f) n).
Proof.
  intros R0 Ra Rs Rl Rr ne s s' d W W' S Et En Eu D M rk cfl tf nout fuel s1 E.
  assert (H : Along rho ne s s s').
  { assert (H' : Wf ne s s') by (split; assumption). split; [apply Wf_0; exact W|]. split; [exact H'|]. split; [exact Et|]. split; [exact En|].
    intros n e f Hn He Hf. specialize (M e f n He Hf Hn). rewrite !(modes_at' ne s) in M by (try assumption; apply Wf_0; exact W). exact M. }
  destruct (along_run gamma rho R0 Ra Rs Rl Rr ne s d W D Eu rk cfl tf nout fuel s' H) as [_ O]. rewrite E in O. inversion O as [x y Y E1 E2| |]. subst x. exists y. split; [reflexivity|].
  intros e f n He Hf Hn. destruct Y as [V [V' [_ [_ K]]]]. rewrite !(modes_at' ne s) by assumption. apply K; assumption.
Qed.
