(** When a right-hand side fails, it is with the exception of the first interface whose flux fails. *)
From Coq Require Import ZArith List Bool Arith Lia.
From Verif Require Import Num Py Lib Ext Basis Enhance Limiting EulerPhysics Solution Solver SpecDG ProofsDG ProofsDG2.
Import ListNotations.
Open Scope list_scope.
Open Scope nat_scope.

Section Raise.
  Context {A : Type} {N : Num A} {L : Libm A}.
  Variable gamma : A.
  Lemma mapM_tab_seq {Y Z' W : Type} (h : Y -> res Z') (psi : Z' -> W) (k : nat -> res W) : forall n i (g : nat -> Y) x,
    (forall e, e < n -> k (i + e) = rbind (h (g e)) (fun z => Ok (psi z))) -> mapM h (tab n g) = Raise x -> mapM k (seq i n) = Raise x.
  Proof.
    induction n as [|n IH]; intros i g x H Hm; [discriminate|]. rewrite tab_S in Hm. cbn [mapM seq] in *. pose proof (H 0 ltac:(lia)) as H0. rewrite Nat.add_0_r in H0. rewrite H0.
    destruct (h (g 0)) as [y|y]; cbn [rbind] in *; [|congruence]. destruct (mapM h (tab n (fun j => g (S j)))) as [z|z] eqn:E; [discriminate|]. cbn [rbind] in Hm.
    rewrite (IH (S i) (fun j => g (S j)) z); [cbn [rbind]; congruence| |exact E]. intros e He. replace (S i + e) with (i + S e) by lia. apply H. lia.
  Qed.
  Lemma residual_raise ne s d x : wf ne s -> wf_dg ne s d -> let s' := with_u s (bc_u ne s) in
    residual gamma d s = Raise x -> mapM (iface_flux gamma s' (modes s')) (seq 0 (ne + 1)) = Raise x.
  Proof.
    intros W D s' HR. pose proof (wf_apply_bc _ _ W) as W'. fold s' in W'.
    assert (NotOk : forall q, (forall e, e <= ne -> iface_flux gamma s' (modes s') e = Ok (q e)) -> False).
    { intros q Hq. assert (E : residual gamma d s = Ok (s', residual_mat gamma ne s' q)) by (apply (residual_iff gamma ne s d); [exact W|exact D|split; [reflexivity|exists q; split; [exact Hq|reflexivity]]]). congruence. }
    pose proof (NF_pos s') as HNF. pose proof (wf_ne _ _ W) as Hne.
    unfold residual in HR. rewrite (apply_bc_eq _ _ W) in HR. fold s' in HR. cbn [rbind] in HR.
    destruct (evaluate_faces_Ok _ _ W') as [uf [Euf [L0 [L1 Huf]]]]. rewrite Euf in HR. cbn [rbind] in HR.
    set (ul := slice_to (row uf 1) (- Z.of_nat (s_NF s'))) in *. set (ur := slice_from (row uf 0) (Z.of_nat (s_NF s'))) in *.
    assert (Lul : List.length ul = (ne + 1) * s_NF s').
    { unfold ul. rewrite slice_to_neg, firstn_length by lia. lia. }
    assert (Lur : List.length ur = (ne + 1) * s_NF s').
    { unfold ur. rewrite slice_from_nat, skipn_length. lia. }
    assert (Cul : forall e, e <= ne -> cellv (s_NF s') ul e = tab (s_NF s') (face_minus s' (modes s') e)).
    { intros e He. apply tab_ext. intros f Hf. rewrite <- (proj1 (Huf e f He Hf)). unfold ul.
      rewrite slice_to_neg by lia. unfold at1. apply nth_firstn'. nia. }
    assert (Cur : forall e, e <= ne -> cellv (s_NF s') ur e = tab (s_NF s') (face_plus s' (modes s') e)).
    { intros e He. apply tab_ext. intros f Hf. rewrite <- (proj2 (Huf e f He Hf)). unfold ur.
      rewrite slice_from_nat. unfold at1. rewrite nth_skipn'. f_equal. nia. }
    pose proof (fun q => riemann_char gamma s' (ne + 1) ul ur q (wf_kind _ _ W') Lul Lur) as RC.
    destruct (riemann gamma s' ul ur) as [q|y] eqn:Eq.
    - exfalso. destruct (proj1 (RC q) eq_refl) as [_ Hq]. apply (NotOk (cellv (s_NF s') q)). intros e He. unfold iface_flux. rewrite <- (Cul e He), <- (Cur e He). apply Hq. lia.
    - cbn [rbind] in HR. injection HR as ->. unfold riemann in Eq. destruct (s_riemann s') eqn:Er; [discriminate|discriminate| |discriminate].
      assert (HN : s_NF s' = 3). { unfold s_NF. destruct (s_euler s') eqn:Es; [reflexivity|]. pose proof (proj2 (wf_kind _ _ W') Es). congruence. }
      rewrite HN in *. unfold riemann_godunov in Eq. rewrite (cell3_split (ne + 1) ul), (cell3_split (ne + 1) ur), length_combine_tab in Eq by assumption.
      match type of Eq with rbind ?a _ = _ => destruct a as [z|z] eqn:Em; [discriminate|] end. cbn [rbind] in Eq. injection Eq as ->.
      refine (mapM_tab_seq _ (fun c => let '(a, b, e) := c in [a; b; e]) _ _ 0 _ x _ Em). intros e He. cbn [Nat.add fst snd].
      unfold iface_flux. rewrite HN, <- (Cul e), <- (Cur e) by lia. unfold num_flux. rewrite Er. unfold triple. destruct (godunov1 _ _ _) as [[[a b] c]|]; reflexivity.
  Qed.
  (** the exception is that of the first failing interface *)
  Lemma residual_first ne s d : wf ne s -> wf_dg ne s d -> let s' := with_u s (bc_u ne s) in
    residual gamma d s = match mapM (iface_flux gamma s' (modes s')) (seq 0 (ne + 1)) with
                         | Ok qs => Ok (s', residual_mat gamma ne s' (fun e => nth e qs []))
                         | Raise x => Raise x
                         end.
  Proof.
    intros W D s'. destruct (mapM _ _) as [qs|x] eqn:E.
    - apply (residual_iff gamma ne s d); [exact W|exact D|]. split; [reflexivity|]. exists (fun e => nth e qs []). split; [|reflexivity]. intros e He.
      pose proof (mapM_Ok_nth _ _ _ e 0 [] E) as X. rewrite seq_length, seq_nth in X by lia. apply X. lia.
    - destruct (residual gamma d s) as [[s1 F]|y] eqn:R.
      + exfalso. apply (residual_iff gamma ne s d s1 F W D) in R. destruct R as [_ [q [Hq _]]]. destruct (mapM_Raise_In _ _ _ E) as [e [He Hx]]. apply in_seq in He. fold s' in Hq. rewrite Hq in Hx by lia. discriminate.
      + pose proof (residual_raise ne s d y W D R) as E'. fold s' in E'. congruence.
  Qed.
End Raise.
