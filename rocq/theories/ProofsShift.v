(** C18: periodic problems have no preferred origin. *)
From Coq Require Import ZArith List Bool Arith String Lia Reals Lra.
From Verif Require Import Num Py Lib LegNumpy Ext Basis Sensor Enhance Limiting AdvectionPhysics EulerPhysics
  Solution Solver RKCoeffs RK SpecTime ProofsTime SpecDG ProofsDG ProofsDG2 ProofsWf ProofsCons ProofsRel.
Import ListNotations.
Open Scope list_scope.
Open Scope nat_scope.

Section ShiftArith.
  Variable ne : nat.
  Hypothesis Hne : 1 <= ne.
  Let P := src_cell (pylit "periodic") (pylit "periodic") ne.
  Lemma P_0 : P 0 = ne. Proof. reflexivity. Qed.
  Lemma P_end : P (ne + 1) = 1.
  Proof. unfold P, src_cell. destruct (Nat.eqb_spec (ne + 1) 0); [lia|]. rewrite Nat.eqb_refl. reflexivity. Qed.
  Lemma P_int e : 1 <= e <= ne -> P e = e. Proof. apply src_cell_interior. Qed.
  Lemma P_range e : e < ne + 2 -> 1 <= P e <= ne.
  Proof.
    intro. destruct (Nat.eq_dec e 0) as [->|]; [rewrite P_0; lia|]. destruct (Nat.eq_dec e (ne + 1)) as [->|]; [rewrite P_end; lia|].
    rewrite P_int; lia.
  Qed.
  Lemma P_succ e : e <= ne -> P (e + 1) = P e mod ne + 1.
  Proof.
    intro He. destruct (Nat.eq_dec e ne) as [->|Hn].
    - rewrite P_end, P_int by lia. rewrite Nat.mod_same; lia.
    - rewrite P_int by lia. destruct (Nat.eq_dec e 0) as [->|]; [rewrite P_0, Nat.mod_same; lia|].
      rewrite P_int by lia. rewrite Nat.mod_small; lia.
  Qed.
  Lemma shift_range k e : 1 <= shift_cell ne k e <= ne.
  Proof. unfold shift_cell. pose proof (Nat.mod_upper_bound (e - 1 + k) ne). lia. Qed.
  Lemma shift_succ k c : 1 <= c <= ne -> shift_cell ne k (c mod ne + 1) = shift_cell ne k c mod ne + 1.
  Proof.
    intro Hc. unfold shift_cell. f_equal. replace (c mod ne + 1 - 1) with (c mod ne) by lia.
    rewrite Nat.add_mod_idemp_l by lia. rewrite Nat.add_mod_idemp_l by lia. f_equal. lia.
  Qed.
  Lemma shift_P k e : e <= ne -> P (shift_cell ne k (P e) + 1) = shift_cell ne k (P (e + 1)).
  Proof.
    intro He. pose proof (P_range e ltac:(lia)) as R. rewrite (P_succ e) by exact He. rewrite shift_succ by exact R.
    rewrite P_succ by apply shift_range. rewrite P_int by apply shift_range. reflexivity.
  Qed.
  Definition unshift (k : nat) : nat := ne - k mod ne.
  Lemma shift_unshift k e : 1 <= e <= ne -> shift_cell ne k (shift_cell ne (unshift k) e) = e.
  Proof.
    intro He. unfold shift_cell, unshift.
    replace ((e - 1 + (ne - k mod ne)) mod ne + 1 - 1) with ((e - 1 + (ne - k mod ne)) mod ne) by lia.
    rewrite Nat.add_mod_idemp_l by lia. pose proof (Nat.mod_upper_bound k ne). pose proof (Nat.div_mod k ne ltac:(lia)).
    replace (e - 1 + (ne - k mod ne) + k) with (e - 1 + (1 + k / ne) * ne) by nia.
    rewrite Nat.mod_add by lia. rewrite Nat.mod_small by lia. lia.
  Qed.
  Lemma shift_succ' k e : 1 <= e <= ne -> shift_cell ne k e - 1 = (e - 1 + k) mod ne.
  Proof. intros. unfold shift_cell. lia. Qed.
End ShiftArith.

Section Shift.
  Context {A : Type} {N : Num A} {L : Libm A}.
  Variable gamma : A.
  Implicit Types s : solution A.

  Lemma volume_local2 s s' U U' n e e' f : similar s s' -> (forall f, f < s_NF s -> U e f = U' e' f) ->
    volume_term gamma s U n e f = volume_term gamma s' U' n e' f.
  Proof.
    intros S H. transitivity (volume_term gamma s (fun _ => U' e') n e f).
    - apply (volume_local gamma s s U _ n e f (similar_refl s)). exact H.
    - transitivity (volume_term gamma s' (fun _ => U' e') n e f).
      + apply (volume_local gamma s s' _ _ n e f S). reflexivity.
      + reflexivity.
  Qed.
  Lemma iface_local2 s s' U U' e e' : similar s s' ->
    (forall f, f < s_NF s -> U e f = U' e' f /\ U (e + 1) f = U' (e' + 1) f) ->
    iface_flux gamma s U e = iface_flux gamma s' U' e'.
  Proof.
    intros S H. rewrite <- (iface_local gamma s s' U' U' e' S) by (intros; split; reflexivity).
    unfold iface_flux. f_equal; apply tab_ext; intros f Hf; destruct (H f Hf) as [H1 H2]; [unfold face_minus|unfold face_plus]; rewrite H1, H2; reflexivity.
  Qed.

  Section Run.
    Variables (ne k : nat) (sol0 : solution A) (d : dg).
    Hypothesis W0 : wf ne sol0.
    Hypothesis D0 : wf_dg ne sol0 d.
    Hypothesis Bl : s_bcl sol0 = pylit "periodic".
    Hypothesis Br : s_bcr sol0 = pylit "periodic".
    Let Hne := wf_ne _ _ W0.
    Definition shifted j s s' : Prop := forall e f, 1 <= e <= ne -> f < s_NF sol0 -> modes s' e f = modes s (shift_cell ne j e) f.
    Definition SRw j s s' : Prop := Wf ne sol0 s /\ Wf ne sol0 s' /\ s_t s = s_t s' /\ s_n s = s_n s' /\ shifted j s s'.
    Definition SRK j (K K' : mat A) : Prop := WfK ne sol0 K /\ WfK ne sol0 K' /\
      forall n e f, n < s_Ns sol0 -> 1 <= e <= ne -> f < s_NF sol0 ->
        at2 K' n (e * s_NF sol0 + f) = at2 K n (shift_cell ne j e * s_NF sol0 + f).

    Lemma Wf_bcs s : Wf ne sol0 s -> s_bcl s = pylit "periodic" /\ s_bcr s = pylit "periodic".
    Proof. intros [_ [t [n [sn [u [-> _]]]]]]. split; assumption. Qed.
    Lemma Wf_similar s s' : Wf ne sol0 s -> Wf ne sol0 s' -> similar s s'.
    Proof.
      intros [_ [t [n [sn [u [-> H]]]]]] [_ [t' [n' [sn' [u' [-> H']]]]]]. exists t', n', sn', u'. split; [reflexivity|].
      cbn. destruct (s_sens sol0), sn, sn'; try contradiction; try exact I. congruence.
    Qed.
    Lemma unshift_rel j s s' : SRw j s s' -> SRw (unshift ne j) s' s.
    Proof.
      intros [H1 [H2 [H3 [H4 H5]]]]. split; [exact H2|]. split; [exact H1|]. split; [auto|]. split; [auto|]. intros e f He Hf.
      rewrite H5 by (try exact Hf; apply shift_range; exact Hne). rewrite shift_unshift by (try exact He; exact Hne). reflexivity.
    Qed.

    Lemma shift_residual_Ok j s s' s1 F : SRw j s s' -> residual gamma d s = Ok (s1, F) ->
      exists s1' F', residual gamma d s' = Ok (s1', F') /\ SRw j s1 s1' /\
        forall n e f, n < s_Ns sol0 -> 1 <= e <= ne -> f < s_NF sol0 ->
          at2 F' n (e * s_NF sol0 + f) = at2 F n (shift_cell ne j e * s_NF sol0 + f).
    Proof.
      intros [H1 [H2 [H3 [H4 H5]]]] H. pose proof (proj1 H1) as W. pose proof (proj1 H2) as W'.
      pose proof (Wf_dg ne sol0 d D0 _ H1) as D1. pose proof (Wf_dg ne sol0 d D0 _ H2) as D2.
      apply (residual_iff gamma ne s d s1 F W D1) in H. destruct H as [-> [q [Hq ->]]].
      set (s1 := with_u s (bc_u ne s)) in *. set (s1' := with_u s' (bc_u ne s')).
      pose proof (similar_NF _ _ (proj2 H1)) as EF. pose proof (similar_NF _ _ (proj2 H2)) as EF'.
      pose proof (similar_Ns _ _ (proj2 H1)) as EN. pose proof (similar_Ns _ _ (proj2 H2)) as EN'.
      destruct (Wf_bcs _ H1) as [B1 B2]. destruct (Wf_bcs _ H2) as [B3 B4].
      pose (P := src_cell (pylit "periodic") (pylit "periodic") ne).
      assert (M1 : forall e f, e < ne + 2 -> f < s_NF sol0 -> modes s1 e f = modes s (P e) f).
      { intros e f He Hf. unfold s1. rewrite (modes_bc ne s) by (try assumption; vlia). rewrite B1, B2. reflexivity. }
      assert (M2 : forall e f, e < ne + 2 -> f < s_NF sol0 -> modes s1' e f = modes s' (P e) f).
      { intros e f He Hf. unfold s1'. rewrite (modes_bc ne s') by (try assumption; vlia). rewrite B3, B4. reflexivity. }
      assert (Sh : forall e, 1 <= shift_cell ne j e <= ne) by (intro; apply shift_range; exact Hne).
      assert (Pr : forall e, e < ne + 2 -> 1 <= P e <= ne) by (intros; apply P_range; assumption).
      assert (M : forall e f, e < ne + 2 -> f < s_NF sol0 -> modes s1' e f = modes s1 (shift_cell ne j (P e)) f).
      { intros e f He Hf. rewrite M2 by assumption. rewrite H5 by (try exact Hf; apply Pr; exact He).
        rewrite M1 by (try exact Hf; specialize (Sh (P e)); lia). f_equal. symmetry. apply P_int. apply Sh. }
      assert (Sm : similar s1' s1).
      { apply Wf_similar; [apply (Wf_bc ne sol0 s')|apply (Wf_bc ne sol0 s)]; try assumption; apply apply_bc_eq; assumption. }
      assert (Hq' : forall e, e <= ne -> iface_flux gamma s1' (modes s1') e = Ok (q (shift_cell ne j (P e)))).
      { intros e He. rewrite <- Hq by apply Sh. apply iface_local2; [exact Sm|]. change (s_NF s1') with (s_NF s'). rewrite EF'.
        intros f Hf. split; [apply M; [lia|exact Hf]|].
        rewrite M by (try exact Hf; lia). rewrite M1 by (try exact Hf; specialize (Sh (P (e + 1))); lia).
        rewrite M1 by (try exact Hf; specialize (Sh (P e)); lia). unfold P.
        rewrite shift_P by (try exact He; exact Hne). f_equal. apply P_int. apply Sh. }
      exists s1', (residual_mat gamma ne s1' (fun e => q (shift_cell ne j (P e)))). split.
      { apply (residual_iff gamma ne s' d). exact W'. exact D2. split; [reflexivity|].
        exists (fun e => q (shift_cell ne j (P e))). split; [exact Hq'|reflexivity]. }
      split.
      { split; [apply (Wf_bc ne sol0 s); [exact H1|apply apply_bc_eq; exact W]|].
        split; [apply (Wf_bc ne sol0 s'); [exact H2|apply apply_bc_eq; exact W']|]. split; [exact H3|]. split; [exact H4|].
        intros e f He Hf. rewrite M by (try exact Hf; lia). f_equal. f_equal. apply P_int. exact He. }
      intros n e f Hn He Hf.
      pose proof (wf_apply_bc ne s W) as W1. fold s1 in W1. pose proof (wf_apply_bc ne s' W') as W1'. fold s1' in W1'.
      replace (s_NF sol0) with (s_NF s1') at 1 by exact EF'. replace (s_NF sol0) with (s_NF s1) by exact EF.
      assert (F1 : f < s_NF s1) by (change (s_NF s1) with (s_NF s); rewrite EF; exact Hf).
      assert (F2 : f < s_NF s1') by (change (s_NF s1') with (s_NF s'); rewrite EF'; exact Hf).
      assert (N1 : n < s_Ns s1) by (change (s_Ns s1) with (s_Ns s); rewrite EN; exact Hn).
      assert (N2 : n < s_Ns s1') by (change (s_Ns s1') with (s_Ns s'); rewrite EN'; exact Hn).
      rewrite (residual_interior gamma ne s1' _ n e f W1' N2 He F2).
      rewrite (residual_interior gamma ne s1 q n _ f W1 N1 (Sh e) F1).
      assert (Ev : volume_term gamma s1' (modes s1') n e f = volume_term gamma s1 (modes s1) n (shift_cell ne j e) f).
      { apply volume_local2; [exact Sm|]. change (s_NF s1') with (s_NF s'). rewrite EF'. intros f' Hf'. rewrite M by (try exact Hf'; lia).
        do 2 f_equal. apply P_int. exact He. }
      (* the two interface fluxes *)
      assert (Q1 : q (shift_cell ne j (P e)) = q (shift_cell ne j e)) by (do 2 f_equal; apply P_int; exact He).
      assert (Q0 : q (shift_cell ne j (P (e - 1))) = q (shift_cell ne j e - 1)).
      { destruct (Nat.eq_dec (shift_cell ne j e) 1) as [E|E].
        - (* the left neighbour is the right end *)
          assert (E2 : shift_cell ne j (P (e - 1)) = ne).
          { assert (Q : P (shift_cell ne j (P (e - 1)) + 1) = shift_cell ne j (P (e - 1 + 1))) by (apply shift_P; [exact Hne|lia]). replace (e - 1 + 1) with e in Q by lia.
            replace (P e) with e in Q by (symmetry; apply P_int; exact He). rewrite E in Q.
            destruct (Nat.eq_dec (shift_cell ne j (P (e - 1))) ne) as [|E3]; [assumption|].
            specialize (Sh (P (e - 1))).
            assert (Q' : P (shift_cell ne j (P (e - 1)) + 1) = shift_cell ne j (P (e - 1)) + 1) by (apply P_int; lia). lia. }
          rewrite E2, E. apply Ok_inj. rewrite <- Hq, <- Hq by lia. replace (1 - 1) with 0 by lia. apply iface_local2; [apply similar_refl|].
          intros f' Hf'. change (s_NF s1) with (s_NF s) in Hf'. rewrite EF in Hf'. rewrite !M1 by (try exact Hf'; lia).
          split; f_equal; unfold P; rewrite ?P_0, ?P_end, ?P_int by lia; reflexivity.
        - assert (E2 : shift_cell ne j (P (e - 1)) = shift_cell ne j e - 1).
          { assert (Q : P (shift_cell ne j (P (e - 1)) + 1) = shift_cell ne j (P (e - 1 + 1))) by (apply shift_P; [exact Hne|lia]). replace (e - 1 + 1) with e in Q by lia.
            replace (P e) with e in Q by (symmetry; apply P_int; exact He).
            pose proof (Sh (P (e - 1))) as S1. destruct (Nat.eq_dec (shift_cell ne j (P (e - 1))) ne) as [E3|E3].
            - rewrite E3 in Q. assert (Q' : P (ne + 1) = 1) by (apply P_end; exact Hne). lia.
            - assert (Q' : P (shift_cell ne j (P (e - 1)) + 1) = shift_cell ne j (P (e - 1)) + 1) by (apply P_int; lia). lia. }
          rewrite E2. reflexivity. }
      unfold residual_of. rewrite Ev. cbv beta. rewrite Q0, Q1.
      do 2 f_equal. destruct Sm as [t [kk [sn [u [Es _]]]]]. change (s_minv s1) with (s_minv s). change (s_minv s1') with (s_minv s').
      assert (X1 : s_minv s1 = s_minv s1') by (rewrite Es; reflexivity). symmetry. exact X1.
    Qed.

    Lemma at2_axpy_rel (u u' : mat A) a K K' j1 j2 n : WfK ne sol0 u -> WfK ne sol0 u' -> WfK ne sol0 K -> WfK ne sol0 K' ->
      n < s_Ns sol0 -> j1 < (ne + 2) * s_NF sol0 -> j2 < (ne + 2) * s_NF sol0 ->
      at2 u n j1 = at2 u' n j2 -> at2 K n j1 = at2 K' n j2 -> at2 (axpy_mat u a K) n j1 = at2 (axpy_mat u' a K') n j2.
    Proof.
      intros Hu Hu' HK HK' Hn H1 H2 E1 E2. unfold axpy_mat. destruct (nltb _ _); [|exact E1].
      etransitivity; [refine (at2_madd _ _ u (mscale a K) n j1 Hu (shape_mscale _ _ a K HK) Hn H1)|].
      symmetry. etransitivity; [refine (at2_madd _ _ u' (mscale a K') n j2 Hu' (shape_mscale _ _ a K' HK') Hn H2)|]. symmetry.
      f_equal; [exact E1|].
      etransitivity; [refine (at2_mscale _ _ a K n j1 HK Hn H1)|]. symmetry.
      etransitivity; [refine (at2_mscale _ _ a K' n j2 HK' Hn H2)|]. rewrite E2. reflexivity.
    Qed.
    Lemma Wf_u' s : Wf ne sol0 s -> WfK ne sol0 (s_u s).
    Proof. intros [W S]. unfold WfK. rewrite <- (similar_Ns _ _ S), <- (similar_NF _ _ S). apply (wf_u _ _ W). Qed.
    Lemma modes_at' s e f n : Wf ne sol0 s -> e < ne + 2 -> f < s_NF sol0 -> n < s_Ns sol0 ->
      at1 (modes s e f) n = at2 (s_u s) n (e * s_NF sol0 + f).
    Proof.
      intros [W S] He Hf Hn. rewrite <- (similar_NF _ _ S) in Hf |- *. rewrite <- (similar_Ns _ _ S) in Hn. apply (modes_at ne s); assumption.
    Qed.
    Lemma length_modes' s e f : Wf ne sol0 s -> List.length (modes s e f) = s_Ns sol0.
    Proof. intros [W S]. rewrite (length_modes ne s e f W). apply similar_Ns. exact S. Qed.
    Lemma modes_ext s s' e e' f : Wf ne sol0 s -> Wf ne sol0 s' -> e < ne + 2 -> e' < ne + 2 -> f < s_NF sol0 ->
      (forall n, n < s_Ns sol0 -> at2 (s_u s) n (e * s_NF sol0 + f) = at2 (s_u s') n (e' * s_NF sol0 + f)) -> modes s e f = modes s' e' f.
    Proof.
      intros H1 H2 He He' Hf H. apply (vec_ext (s_Ns sol0)); [apply length_modes'; exact H1|apply length_modes'; exact H2|].
      intros n Hn. rewrite !modes_at' by assumption. apply H. exact Hn.
    Qed.
    Lemma sh_lt j e : shift_cell ne j e < ne + 2. Proof. pose proof (shift_range ne Hne j e). lia. Qed.

    Lemma SR_copy j s s' t t' : SRw j s s' -> SRw j t t' -> SRw j (copy_data_only s t) (copy_data_only s' t').
    Proof.
      intros [H1 [H2 [H3 [H4 H5]]]] [G1 [G2 [G3 [G4 G5]]]]. split; [apply Wf_copy; assumption|]. split; [apply Wf_copy; assumption|].
      split; [exact H3|]. split; [exact H4|]. intros e f He Hf. specialize (G5 e f He Hf).
      transitivity (modes t' e f).
      - apply modes_ext; try assumption; try lia. apply Wf_copy; assumption. intros; reflexivity.
      - rewrite G5. apply modes_ext; try assumption; try apply sh_lt. apply Wf_copy; assumption. intros; reflexivity.
    Qed.
    Lemma SR_axpy j s s' a K K' : SRw j s s' -> SRK j K K' -> SRw j (smart_axpy s a K) (smart_axpy s' a K').
    Proof.
      intros [H1 [H2 [H3 [H4 H5]]]] [G1 [G2 G3]]. split; [apply Wf_axpy; assumption|]. split; [apply Wf_axpy; assumption|].
      split; [exact H3|]. split; [exact H4|]. intros e f He Hf.
      apply modes_ext; try (apply Wf_axpy; assumption); try apply sh_lt; try lia; try exact Hf.
      intros n Hn. cbn [s_u smart_axpy with_u]. apply at2_axpy_rel; try assumption; try (apply Wf_u'; assumption);
        try (apply cell_index; [exact Hf|first [lia|apply sh_lt]]).
      - rewrite <- !modes_at' by (try assumption; try apply sh_lt; lia). rewrite H5 by assumption. reflexivity.
      - apply G3; assumption.
    Qed.
    Lemma SR_t j s s' t : SRw j s s' -> SRw j (with_t s t) (with_t s' t).
    Proof. intros [H1 [H2 [H3 [H4 H5]]]]. split; [apply Wf_t; exact H1|]. split; [apply Wf_t; exact H2|]. split; [reflexivity|]. split; assumption. Qed.
    Lemma SR_n j s s' n : SRw j s s' -> SRw j (with_n s n) (with_n s' n).
    Proof. intros [H1 [H2 [H3 [H4 H5]]]]. split; [apply Wf_n; exact H1|]. split; [apply Wf_n; exact H2|]. split; [exact H3|]. split; [reflexivity|assumption]. Qed.
    Lemma SR_time j s s' : SRw j s s' -> s_t s = s_t s' /\ s_n s = s_n s'.
    Proof. intros [H1 [H2 [H3 [H4 H5]]]]. auto. Qed.
    Lemma SR_res j dt s s' : SRw j s s' ->
      res_rel (fun p p' => SRw j (fst p) (fst p') /\ SRK j (mscale dt (snd p)) (mscale dt (snd p'))) (residual gamma d s) (residual gamma d s').
    Proof.
      intro H. pose proof (proj1 H) as H1. pose proof (proj1 (proj2 H)) as H2.
      destruct (residual gamma d s) as [[s1 F]|e] eqn:E.
      - destruct (shift_residual_Ok j s s' s1 F H E) as [s1' [F' [E' [HR HF]]]]. rewrite E'. constructor. split; [exact HR|].
        destruct (Wf_res gamma ne sol0 d D0 dt s s1 F I H1 E) as [_ K1]. destruct (Wf_res gamma ne sol0 d D0 dt s' s1' F' I H2 E') as [_ K2].
        split; [exact K1|]. split; [exact K2|]. intros n e f Hn He Hf. cbn [snd].
        assert (KF : WfK ne sol0 F).
        { destruct H1 as [W S]. destruct (wf_residual gamma _ _ _ _ _ W (Wf_dg ne sol0 d D0 s (conj W S)) E) as [_ R3].
          unfold WfK. rewrite <- (similar_Ns _ _ S), <- (similar_NF _ _ S). exact R3. }
        assert (KF' : WfK ne sol0 F').
        { destruct H2 as [W S]. destruct (wf_residual gamma _ _ _ _ _ W (Wf_dg ne sol0 d D0 s' (conj W S)) E') as [_ R3].
          unfold WfK. rewrite <- (similar_Ns _ _ S), <- (similar_NF _ _ S). exact R3. }
        etransitivity; [refine (at2_mscale _ _ dt F' n _ KF' Hn _); apply cell_index; [exact Hf|lia]|]. symmetry.
        etransitivity; [refine (at2_mscale _ _ dt F n _ KF Hn _); apply cell_index; [exact Hf|apply sh_lt]|].
        f_equal. symmetry. apply HF; assumption.
      - destruct (residual gamma d s') as [[s1' F']|e'] eqn:E'; [|constructor].
        destruct (shift_residual_Ok (unshift ne j) s' s s1' F' (unshift_rel _ _ _ H) E') as [s1 [F [E1 _]]]. congruence.
    Qed.
    Definition SRs j s s' : Prop := SRw j s s' /\ apply_bc s = Ok s /\ apply_bc s' = Ok s'.
    Lemma SR_bc j s s' : SRw j s s' -> res_rel (SRs j) (apply_bc s) (apply_bc s').
    Proof.
      intros H. pose proof (proj1 H) as H1. pose proof (proj1 (proj2 H)) as H2. destruct H1 as [W S], H2 as [W' S'].
      pose proof (apply_bc_eq _ _ W) as E. pose proof (apply_bc_eq _ _ W') as E'. rewrite E, E'. constructor.
      split; [|split; [exact (apply_bc_idem ne s _ W E)|exact (apply_bc_idem ne s' _ W' E')]].
      destruct H as [_ [_ [H3 [H4 H5]]]]. split; [eapply Wf_bc; [|exact E]; split; assumption|].
      split; [eapply Wf_bc; [|exact E']; split; assumption|]. split; [exact H3|]. split; [exact H4|].
      intros e f He Hf. rewrite (modes_bc ne s'), (modes_bc ne s); try assumption; try apply sh_lt; try lia.
      - rewrite !src_cell_interior by (first [assumption | apply shift_range; exact Hne]). apply H5; assumption.
      - rewrite (similar_NF _ _ S). exact Hf.
      - rewrite (similar_NF _ _ S'). exact Hf.
    Qed.
    Lemma SRK_0 j sol : Wf ne sol0 sol -> SRK j (zeros2 (nrows (s_u sol0)) (ncols (s_u sol0))) (zeros2 (nrows (s_u sol)) (ncols (s_u sol))).
    Proof.
      intros [W S]. assert (K : WfK ne sol0 (zeros2 (nrows (s_u sol)) (ncols (s_u sol)))).
      { pose proof (WfK_0 ne sol W) as K. unfold WfK in *. rewrite (similar_Ns _ _ S), (similar_NF _ _ S) in K. exact K. }
      split; [apply WfK_0; exact W0|]. split; [exact K|]. intros n e f Hn He Hf.
      assert (Z0 : forall r c i jj, at2 (zeros2 r c : mat A) i jj = n0).
      { intros r c i jj. unfold zeros2, at2, row, tab2. destruct (Nat.lt_ge_cases i r).
        - rewrite nth_tab by assumption. destruct (Nat.lt_ge_cases jj c); [rewrite at1_tab by assumption; reflexivity|].
          unfold at1. apply nth_overflow. rewrite length_tab. assumption.
        - rewrite nth_overflow by (rewrite length_tab; assumption). unfold at1. destruct jj; reflexivity. }
      rewrite !Z0. reflexivity.
    Qed.

    (** every RK step, whatever the (equal) time step *)
    Lemma shift_inner rk dt s s' : SRw k s s' ->
      res_rel (fun p p' => SRw k (fst p) (fst p'))
        (rk_inner gamma rk d None dt s {| sc_us := s; sc_uk := s; sc_K := rk_K0 rk s |})
        (rk_inner gamma rk d None dt s' {| sc_us := s'; sc_uk := s'; sc_K := rk_K0 rk s' |}).
    Proof.
      intro H. pose proof (inner_rel gamma (SRw k) (SRK k) d None (SR_copy k) (SR_axpy k) (SR_t k) (SR_time k)) as I.
      assert (HI : res_rel (Rout (SRw k) (SRK k))
        (rk_inner gamma rk d None dt s {| sc_us := s; sc_uk := s; sc_K := rk_K0 rk s |})
        (rk_inner gamma rk d None dt s' {| sc_us := s'; sc_uk := s'; sc_K := rk_K0 rk s' |})).
      { apply I.
        - intros t t' Ht. constructor. exact Ht.
        - exact (SR_res k).
        - exact H.
        - split; [exact H|]. split; [exact H|]. cbn [sc_K]. unfold rk_K0.
          assert (K0 : SRK k (zeros2 (nrows (s_u s)) (ncols (s_u s))) (zeros2 (nrows (s_u s')) (ncols (s_u s')))).
          { destruct (SRK_0 k s (proj1 H)) as [_ [A1 _]]. destruct (SRK_0 k s' (proj1 (proj2 H))) as [_ [A2 A3]].
            split; [exact A1|]. split; [exact A2|].
            destruct H as [[Wa Sa] [[Wb Sb] _]]. intros. 
            pose proof (wf_u _ _ Wa) as Ua. pose proof (wf_u _ _ Wb) as Ub.
            rewrite (shape_ncols _ _ _ Ua (Ns_pos _)), (shape_ncols _ _ _ Ub (Ns_pos _)).
            replace (nrows (s_u s)) with (s_Ns sol0); [|symmetry; unfold nrows; etransitivity; [apply Ua|apply similar_Ns; exact Sa]].
            replace (nrows (s_u s')) with (s_Ns sol0); [|symmetry; unfold nrows; etransitivity; [apply Ub|apply similar_Ns; exact Sb]].
            unfold zeros2. rewrite (similar_NF _ _ Sa), (similar_NF _ _ Sb).
            rewrite !at2_tab2; try assumption; try reflexivity; apply cell_index; try assumption; try lia; apply sh_lt. }
          destruct (String.eqb rk "low_storage_rk4"); [constructor; [exact K0|constructor]|].
          induction (tb_coeffs (rk_choice rk)); constructor; assumption.
        - apply K0_nonempty. }
      destruct HI as [x y Hxy|]; constructor. apply Hxy.
    Qed.

    (** whole runs: if the wave-speed estimate does not see the shift *)
    Hypothesis Hspeed : forall s s', SRs k s s' -> res_rel eq (max_wave_speed gamma s) (max_wave_speed gamma s').
    Lemma shift_run rk cfl tf nout fuel sol : SRs k sol0 sol ->
      let r := integrate gamma rk d None cfl tf nout fuel sol0 in
      let r' := integrate gamma rk d None cfl tf nout fuel sol in
      Forall2 (Rev (SRs k)) (fst r) (fst r') /\ out_rel (SRs k) (snd r) (snd r').
    Proof.
      intro H. apply (integrate_rel gamma (SRs k) (SRw k) (SRK k) d None).
      - intros s s' Hs. apply Hs. - exact (SR_copy k). - exact (SR_axpy k). - exact (SR_t k). - exact (SR_time k).
      - intros s s' Hs. constructor. exact Hs.
      - exact (SR_res k). - exact (SR_n k). - exact (SR_bc k).
      - intros s s' Hs. constructor. exact Hs.
      - intros s s' tout cfl' tf' Hs. unfold get_next_time_step, cfl_time_step.
        destruct (Hspeed s s' Hs) as [x y <-|]; [|constructor]. cbn [rbind].
        destruct Hs as [[H1 [H2 [H3 _]]] _].
        assert (E : s_dx s = s_dx s' /\ s_basis s = s_basis s').
        { destruct H1 as [_ [t1 [n1 [sn1 [u1 [-> _]]]]]], H2 as [_ [t2 [n2 [sn2 [u2 [-> _]]]]]]. split; reflexivity. }
        destruct E as [E1 E2]. rewrite <- E1, <- E2, <- H3. destruct (sanity_check_dt _); constructor. reflexivity.
      - intros s s' k0 dt [[H1 [H2 _]] _]. rewrite (printer_total ne k0 dt s (proj1 H1)), (printer_total ne k0 dt s' (proj1 H2)). constructor. exact I.
      - exact H.
      - apply SRK_0. apply H.
    Qed.
  End Run.
End Shift.

(** the same in the vocabulary of SpecDG *)
Section ShiftOf.
  Context {A : Type} {N : Num A} {L : Libm A}.
  Variable gamma : A.
  Implicit Types s : solution A.
  Lemma shift_of_SRw ne k s s' : shift_of ne k s s' -> SRw ne s k s s'.
  Proof.
    intros [H1 [H2 [H3 [H4 [H5 H6]]]]]. split; [apply Wf_0; exact H1|]. split; [split; assumption|]. split; [exact H4|]. split; [exact H5|exact H6].
  Qed.
  Lemma SRw_shift_of ne sol0 k s s' : SRw ne sol0 k s s' -> shift_of ne k s s'.
  Proof.
    intros [H1 [H2 [H3 [H4 H5]]]]. split; [apply H1|]. split; [apply H2|]. split; [eapply Wf_similar; eassumption|].
    split; [exact H3|]. split; [exact H4|]. intros e f He Hf. apply H5; [exact He|]. rewrite <- (similar_NF _ _ (proj2 H1)). exact Hf.
  Qed.
  Lemma shift_of_residual ne k s s' d s1 F : shift_of ne k s s' -> wf_dg ne s d ->
    s_bcl s = pylit "periodic" -> s_bcr s = pylit "periodic" -> residual gamma d s = Ok (s1, F) ->
    exists s1' F', residual gamma d s' = Ok (s1', F') /\ shift_of ne k s1 s1' /\
      forall n e f, n < s_Ns s -> 1 <= e <= ne -> f < s_NF s ->
        at2 F' n (e * s_NF s + f) = at2 F n (shift_cell ne k e * s_NF s + f).
  Proof.
    intros H D Bl Br E. destruct (shift_residual_Ok gamma ne s d (proj1 H) D Bl Br k s s' s1 F (shift_of_SRw _ _ _ _ H) E) as [s1' [F' [E1 [E2 E3]]]].
    exists s1', F'. split; [exact E1|]. split; [eapply SRw_shift_of; exact E2|exact E3].
  Qed.
  Lemma shift_of_step ne k s s' d rk dt : shift_of ne k s s' -> wf_dg ne s d ->
    s_bcl s = pylit "periodic" -> s_bcr s = pylit "periodic" ->
    res_rel (fun p p' => shift_of ne k (fst p) (fst p'))
      (rk_inner gamma rk d None dt s {| sc_us := s; sc_uk := s; sc_K := rk_K0 rk s |})
      (rk_inner gamma rk d None dt s' {| sc_us := s'; sc_uk := s'; sc_K := rk_K0 rk s' |}).
  Proof.
    intros H D Bl Br. destruct (shift_inner gamma ne k s d (proj1 H) D Bl Br rk dt s s' (shift_of_SRw _ _ _ _ H)) as [x y Hxy|]; constructor.
    eapply SRw_shift_of. exact Hxy.
  Qed.
  Lemma Forall2_impl' {P Q} (R1 R2 : P -> Q -> Prop) l l' : (forall x y, R1 x y -> R2 x y) -> Forall2 R1 l l' -> Forall2 R2 l l'.
  Proof. intros H F. induction F; constructor; auto. Qed.
  Lemma out_rel_impl {B} (R1 R2 : solution A -> solution B -> Prop) o o' : (forall x y, R1 x y -> R2 x y) -> out_rel R1 o o' -> out_rel R2 o o'.
  Proof. intros H F. destruct F; constructor; auto. Qed.
End ShiftOf.

(** the estimate in exact arithmetic: a maximum over the cells *)
Section SpeedR.
  Open Scope R_scope.
  Lemma fold_max_spec (l : list R) x : (forall y, In y (x :: l) -> y <= fold_left npmaximum l x) /\ In (fold_left npmaximum l x) (x :: l).
  Proof.
    revert x. induction l as [|a l IH]; intro x.
    - split; [intros y [->|[]]; cbn; lra|left; reflexivity].
    - cbn [fold_left]. set (z := npmaximum x a). destruct (IH z) as [I1 I2].
      assert (Hz : x <= z /\ a <= z /\ (z = x \/ z = a)).
      { unfold z, npmaximum. numR. Rcase x a; repeat split; try lra; auto. }
      split.
      + intros y [->|[->|Hy]].
        * apply Rle_trans with z; [apply Hz|apply I1; left; reflexivity].
        * apply Rle_trans with z; [apply Hz|apply I1; left; reflexivity].
        * apply I1. right. exact Hy.
      + destruct I2 as [I2|I2]; [|right; right; exact I2]. rewrite <- I2. destruct Hz as [_ [_ [->| ->]]]; [left|right; left]; reflexivity.
  Qed.
  Lemma npmax_same (l l' : list R) : (forall y, In y l <-> In y l') -> npmax l = npmax l'.
  Proof.
    intro H. destruct l as [|x l], l' as [|x' l']; cbn [npmax].
    - reflexivity.
    - exfalso. apply (H x'). left. reflexivity.
    - exfalso. apply (H x). left. reflexivity.
    - f_equal. destruct (fold_max_spec l x) as [A1 A2]. destruct (fold_max_spec l' x') as [B1 B2].
      apply Rle_antisym; [apply B1, H; exact A2|apply A1, H; exact B2].
  Qed.
  Variable gamma : R.
  (** the wave-speed estimate reads the averages of all cells *)
  Lemma euler_speed_cells ne (s : solution R) : wf ne s -> s_euler s = true ->
    max_wave_speed gamma s = match npmax (tab (ne + 2) (fun e => wave_speed gamma (at1 (modes s e 0) 0, at1 (modes s e 1) 0, at1 (modes s e 2) 0)))
                             with Some m => Ok m | None => Raise ValueError end.
  Proof.
    intros W Eu. unfold max_wave_speed. rewrite Eu. unfold euler_max_wave_speed.
    assert (NF3 : s_NF s = 3%nat) by (unfold s_NF; rewrite Eu; reflexivity).
    pose proof (wf_u _ _ W) as U. assert (Ln : List.length (row (s_u s) 0) = ((ne + 2) * 3)%nat).
    { rewrite <- NF3. apply (shape_row _ _ _ _ U). apply Ns_pos. }
    rewrite (cell3_split (ne + 2) (row (s_u s) 0) Ln). rewrite map_tab.
    rewrite (tab_ext (ne + 2) (fun i => wave_speed gamma (triple (cellv 3 (row (s_u s) 0) i)))
      (fun e => wave_speed gamma (at1 (modes s e 0) 0, at1 (modes s e 1) 0, at1 (modes s e 2) 0))); [reflexivity|].
    intros e He. f_equal. unfold triple, cellv. 
    assert (M : forall f, (f < 3)%nat -> at1 (modes s e f) 0 = at2 (s_u s) 0 (e * 3 + f)).
    { intros f Hf. rewrite <- NF3. apply (modes_at ne s); try assumption; try apply Ns_pos. rewrite NF3. exact Hf. }
    rewrite !M by lia. unfold at2. rewrite !at1_tab by lia. reflexivity.
  Qed.
  Lemma shift_speed ne k sol0 s s' : wf ne sol0 -> s_bcl sol0 = pylit "periodic" -> s_bcr sol0 = pylit "periodic" ->
    SRs ne sol0 k s s' -> res_rel eq (max_wave_speed gamma s) (max_wave_speed gamma s').
  Proof.
    intros W0 Bl Br [[H1 [H2 [H3 [H4 H5]]]] [C1 C2]]. pose proof (proj1 H1) as W. pose proof (proj1 H2) as W'.
    pose proof (wf_ne _ _ W0) as Hne.
    destruct (Wf_bcs ne sol0 Bl Br s H1) as [B1 B2]. destruct (Wf_bcs ne sol0 Bl Br s' H2) as [B3 B4].
    assert (Ee : s_euler s = s_euler sol0) by (destruct H1 as [_ [t [n [sn [u [-> _]]]]]]; reflexivity).
    assert (Ee' : s_euler s' = s_euler sol0) by (destruct H2 as [_ [t [n [sn [u [-> _]]]]]]; reflexivity).
    destruct (s_euler sol0) eqn:Eu.
    - rewrite (euler_speed_cells ne s W Ee), (euler_speed_cells ne s' W' Ee').
      assert (NF3 : s_NF sol0 = 3%nat) by (unfold s_NF; rewrite Eu; reflexivity).
      pose (P := src_cell (pylit "periodic") (pylit "periodic") ne).
      assert (M1 : forall e f, (e < ne + 2)%nat -> (f < 3)%nat -> modes s e f = modes s (P e) f).
      { intros e f He Hf. assert (X1 : modes s e f = modes (with_u s (bc_u ne s)) e f).
        { rewrite (apply_bc_eq _ _ W) in C1. apply Ok_inj in C1. rewrite C1. reflexivity. }
        rewrite X1. rewrite (modes_bc ne s) by (try assumption; rewrite (similar_NF _ _ (proj2 H1)), NF3; exact Hf). rewrite B1, B2. reflexivity. }
      assert (M2 : forall e f, (e < ne + 2)%nat -> (f < 3)%nat -> modes s' e f = modes s (shift_cell ne k (P e)) f).
      { intros e f He Hf. assert (X1 : modes s' e f = modes (with_u s' (bc_u ne s')) e f).
        { rewrite (apply_bc_eq _ _ W') in C2. apply Ok_inj in C2. rewrite C2. reflexivity. }
        rewrite X1. rewrite (modes_bc ne s') by (try assumption; rewrite (similar_NF _ _ (proj2 H2)), NF3; exact Hf). rewrite B3, B4.
        apply H5; [apply P_range; assumption|rewrite NF3; exact Hf]. }
      rewrite (npmax_same (tab (ne + 2) (fun e => wave_speed gamma (at1 (modes s' e 0) 0, at1 (modes s' e 1) 0, at1 (modes s' e 2) 0)))
                          (tab (ne + 2) (fun e => wave_speed gamma (at1 (modes s e 0) 0, at1 (modes s e 1) 0, at1 (modes s e 2) 0)))).
      + destruct (npmax _); constructor. reflexivity.
      + intro y. unfold tab. rewrite !in_map_iff. split; intros [e [<- He]]; apply in_seq in He.
        * exists (shift_cell ne k (P e)). split.
          -- rewrite !(M2 e) by lia. reflexivity.
          -- apply in_seq. pose proof (shift_range ne Hne k (P e)). lia.
        * exists (shift_cell ne (unshift ne k) (P e)). pose proof (shift_range ne Hne (unshift ne k) (P e)) as Rg. split.
          -- rewrite !(M2 (shift_cell ne (unshift ne k) (P e))) by lia.
             replace (P (shift_cell ne (unshift ne k) (P e))) with (shift_cell ne (unshift ne k) (P e)) by (symmetry; apply P_int; exact Rg).
             rewrite (shift_unshift ne Hne k (P e) (P_range ne Hne e ltac:(lia))).
             rewrite !(M1 e) by lia. reflexivity.
          -- apply in_seq. lia.
    - unfold max_wave_speed. rewrite Ee, Ee'. constructor. reflexivity.
  Qed.
End SpeedR.

Lemma shift_of_run (gamma : R) ne k (s s' : solution R) d rk cfl tf nout fuel : shift_of ne k s s' -> wf_dg ne s d ->
  s_bcl s = pylit "periodic" -> s_bcr s = pylit "periodic" -> apply_bc s = Ok s -> apply_bc s' = Ok s' ->
  let r := integrate gamma rk d None cfl tf nout fuel s in
  let r' := integrate gamma rk d None cfl tf nout fuel s' in
  Forall2 (fun ev ev' => ev_nout ev = ev_nout ev' /\ ev_dt ev = ev_dt ev' /\ shift_of ne k (ev_sol ev) (ev_sol ev')) (fst r) (fst r')
  /\ out_rel (shift_of ne k) (snd r) (snd r').
Proof.
  intros H D Bl Br C C'.
  destruct (shift_run gamma ne k s d (proj1 H) D Bl Br (fun t t' => shift_speed gamma ne k s t t' (proj1 H) Bl Br) rk cfl tf nout fuel s'
    (conj (shift_of_SRw _ _ _ _ H) (conj C C'))) as [E1 E2]. cbn zeta. split.
  - eapply Forall2_impl'; [|exact E1]. intros ev ev' [X1 [X2 [X3 _]]]. split; [exact X1|]. split; [exact X2|]. eapply SRw_shift_of. exact X3.
  - eapply out_rel_impl; [|exact E2]. intros x y [X3 _]. eapply SRw_shift_of. exact X3.
Qed.
