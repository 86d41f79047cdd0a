(** analysis/rk_stability.py: the determinant is the amplification factor of a Runge-Kutta step. *)
From Coq Require Import ZArith List Bool Arith String Lia Reals Lra Ring Ring_theory.
From Verif Require Import Num Py Lib RealLib LegNumpy Ext Basis Enhance Solution Solver RKCoeffs RK SpecDG SpecRK Analysis SpecAnalysis ProofsDet ProofsRK ProofsRKLin ProofsRKTables.
Import ListNotations.
Open Scope R_scope.

(** ** the complex numbers *)
Lemma C_eq (x y : C) : fst x = fst y -> snd x = snd y -> x = y.
Proof. destruct x, y; simpl; congruence. Qed.
Ltac cplx := apply C_eq; cbn [fst snd nadd nsub nmul nopp nofZ NumC NumR n0 n1 Cr cofr]; unfold n0, n1; cbn [nofZ NumR fst snd NumC].
Lemma Cth : ring_theory (nofZ 0 : C) (nofZ 1) nadd nmul nsub nopp eq.
Proof. constructor; intros; cplx; ring. Qed.
Add Ring Cr : Cth.
Lemma n0_C : (n0 : C) = nofZ 0. Proof. reflexivity. Qed.
Lemma n1_C : (n1 : C) = nofZ 1. Proof. reflexivity. Qed.
Lemma Cr_add a b : Cr (a + b) = nadd (Cr a) (Cr b). Proof. cplx; ring. Qed.
Lemma Cr_mul a b : Cr (a * b) = nmul (Cr a) (Cr b). Proof. cplx; ring. Qed.
Lemma Cr_opp a : Cr (- a) = nopp (Cr a). Proof. cplx; ring. Qed.
Lemma Cr_sub a b : Cr (a - b) = nsub (Cr a) (Cr b). Proof. cplx; ring. Qed.
Lemma Cr_0 : Cr 0 = nofZ 0. Proof. reflexivity. Qed.
Lemma Cr_1 : Cr 1 = nofZ 1. Proof. reflexivity. Qed.
Lemma Csum_S n f : Csum (S n) f = nadd (Csum n f) (f n). Proof. reflexivity. Qed.
Lemma Csum_Cr n (f : nat -> R) : Csum n (fun i => Cr (f i)) = Cr (Rsum n f).
Proof. induction n as [|n IH]; [reflexivity|]. rewrite Csum_S, IH. cbn [Rsum]. rewrite Cr_add. reflexivity. Qed.
Lemma Csum_ext n f g : (forall i, (i < n)%nat -> f i = g i) -> Csum n f = Csum n g.
Proof. apply (ksum_ext C (nofZ 0) nadd). Qed.
Lemma Csum_add n f g : Csum n (fun i => nadd (f i) (g i)) = nadd (Csum n f) (Csum n g).
Proof. apply (ksum_add C (nofZ 0) (nofZ 1) nadd nmul nsub nopp Cth). Qed.
Lemma Csum_scale n a f : Csum n (fun i => nmul a (f i)) = nmul a (Csum n f).
Proof. apply (ksum_scale C (nofZ 0) (nofZ 1) nadd nmul nsub nopp Cth). Qed.
Lemma Csum_swap n m f : Csum n (fun i => Csum m (fun j => f i j)) = Csum m (fun j => Csum n (fun i => f i j)).
Proof. apply (ksum_swap C (nofZ 0) (nofZ 1) nadd nmul nsub nopp Cth). Qed.
Lemma Csum_0 n f : (forall i, (i < n)%nat -> f i = nofZ 0) -> Csum n f = nofZ 0.
Proof. apply (ksum_0 C (nofZ 0) (nofZ 1) nadd nmul nsub nopp Cth). Qed.
Lemma Csum_single n k f : (k < n)%nat -> (forall i, (i < n)%nat -> i <> k -> f i = nofZ 0) -> Csum n f = f k.
Proof. apply (ksum_single C (nofZ 0) (nofZ 1) nadd nmul nsub nopp Cth). Qed.
Lemma Csum_tail n m f : (n <= m)%nat -> (forall i, (n <= i < m)%nat -> f i = nofZ 0) -> Csum m f = Csum n f.
Proof.
  induction m as [|m IH]; intros Hm H; [replace n with O by lia; reflexivity|]. destruct (Nat.eq_dec n (S m)) as [->|Hne]; [reflexivity|].
  rewrite Csum_S, IH by (try lia; intros; apply H; lia). rewrite H by lia. ring.
Qed.
Lemma Csum_S_l n f : Csum (S n) f = nadd (f O) (Csum n (fun i => f (S i))).
Proof. apply (ksum_S_l C (nofZ 0) (nofZ 1) nadd nmul nsub nopp Cth). Qed.
Lemma Cpow_Cr x k : Cpow (Cr x) k = Cr (x ^ k).
Proof. induction k as [|k IH]; [reflexivity|]. cbn [Cpow pow]. rewrite IH, Cr_mul. reflexivity. Qed.
Lemma Cpow_mul x y k : Cpow (nmul x y) k = nmul (Cpow x k) (Cpow y k).
Proof. induction k as [|k IH]; cbn [Cpow]; [ring|]. rewrite IH. ring. Qed.
Lemma Cpow_add x a b : Cpow x (a + b) = nmul (Cpow x a) (Cpow x b).
Proof. induction a as [|a IH]; cbn [Cpow Nat.add]; [ring|]. rewrite IH. ring. Qed.

(** ** the stability function *)
Section RK.
  Variable tb : rk_table.
  Let s := stages tb.
  (** stage values of the test equation with dt * lambda = z *)
  Definition stage_value (z : C) (i : nat) : C := Csum s (fun k => nmul (Cr (stage_sum tb k i)) (Cpow z k)).
  Lemma stage_value_rec z i : (i < s)%nat -> stage_value z i = nadd (nofZ 1) (nmul z (Csum i (fun j => nmul (Cr (coef tb i j)) (stage_value z j)))).
  Proof.
    intro Hi. unfold stage_value.
    rewrite (Csum_ext i _ (fun j => Csum s (fun k => nmul (Cr (coef tb i j * stage_sum tb k j)) (Cpow z k)))).
    2:{ intros j Hj. rewrite <- Csum_scale. apply Csum_ext. intros k Hk. rewrite Cr_mul. ring. }
    rewrite Csum_swap. rewrite (Csum_ext s (fun k => Csum i _) (fun k => nmul (Cr (stage_sum tb (S k) i)) (Cpow z k))).
    2:{ intros k Hk. cbn [stage_sum]. rewrite <- Csum_Cr. transitivity (nmul (Cpow z k) (Csum i (fun j => Cr (coef tb i j * stage_sum tb k j)))); [|ring].
        rewrite <- Csum_scale. apply Csum_ext. intros; ring. }
    rewrite <- Csum_scale. destruct s as [|m] eqn:Es; [lia|].
    rewrite Csum_S_l. rewrite Csum_S. rewrite (stage_sum_0 tb (S m) i Hi), Cr_0.
    cbn [stage_sum Cpow]. rewrite Cr_1. rewrite (Csum_ext m (fun k => nmul z (nmul (Cr (stage_sum tb (S k) i)) (Cpow z k))) (fun k => nmul (Cr (stage_sum tb (S k) i)) (Cpow z (S k)))) by (intros; cbn [Cpow]; ring).
    cbn [Cpow stage_sum]. ring.
  Qed.
  Lemma growth_series z : nadd (nofZ 1) (nmul z (Csum s (fun i => nmul (Cr (weight tb i)) (stage_value z i)))) = Csum (S s) (fun k => nmul (Cr (growth tb k)) (Cpow z k)).
  Proof.
    rewrite Csum_S_l. cbn [growth Cpow]. rewrite Cr_1. f_equal; [ring|].
    unfold stage_value. rewrite (Csum_ext s _ (fun i => Csum s (fun k => nmul (Cr (weight tb i * stage_sum tb k i)) (Cpow z k)))).
    2:{ intros i Hi. rewrite <- Csum_scale. apply Csum_ext. intros k Hk. rewrite Cr_mul. ring. }
    rewrite Csum_swap, <- Csum_scale. apply Csum_ext. intros k Hk. fold s. rewrite <- Csum_Cr.
    transitivity (nmul z (nmul (Cpow z k) (Csum s (fun i => Cr (weight tb i * stage_sum tb k i))))); [|ring]. f_equal. rewrite <- Csum_scale. apply Csum_ext. intros; ring.
  Qed.
  (** rows of B: strictly lower triangular, one zero appended *)
  Hypothesis HB : forall i j, (i <= j)%nat -> (j < s)%nat -> coef tb i j = 0.
  Variable det : mat C -> C.
  Hypothesis HD : det_ok det.
  Lemma det_stability (B : mat R) (coeffs : vec R) z : List.length coeffs = s ->
    (forall j, (j < s)%nat -> at1 coeffs j = weight tb j) -> (forall i j, (i < s)%nat -> (j < s)%nat -> at2 B i j = coef tb i j) ->
    det (stability_matrix coeffs B z) = Csum (S s) (fun k => nmul (Cr (growth tb k)) (Cpow z k)).
  Proof.
    intros Lc Hc Hb. rewrite <- growth_series. unfold stability_matrix. rewrite Lc.
    pose proof (HD s) as H.
    set (L := fun i j : nat => nsub (if Nat.eqb i j then nofZ 1 else nofZ 0) (nmul z (Cr (coef tb i j))) : C).
    pose proof (det_rank_one C (nofZ 0) (nofZ 1) nadd nmul nsub nopp Cth s _ H L (fun _ => nofZ 1) (fun j => nmul z (Cr (weight tb j))) (stage_value z)) as D.
    cbv beta in D. etransitivity; [|etransitivity; [apply D|]].
    - apply (det_ext H). intros i j Hi Hj. unfold L. rewrite Hb, Hc by assumption. change (cofr ?x) with (Cr x). rewrite n0_C, n1_C. ring.
    - split.
      + intros i Hi. unfold L. rewrite Nat.eqb_refl, HB, Cr_0 by lia. ring.
      + intros i j Hij Hj. unfold L. rewrite HB, Cr_0 by lia. destruct (Nat.eqb_spec i j); [lia|]. ring.
    - intros i Hi. change (Csum s (fun j => nmul (L i j) (stage_value z j)) = nofZ 1).
      transitivity (nsub (stage_value z i) (nmul z (Csum s (fun j => nmul (Cr (coef tb i j)) (stage_value z j))))).
      + assert (S1 : Csum s (fun j => if Nat.eqb i j then stage_value z j else nofZ 0) = stage_value z i).
        { rewrite (Csum_single s i); [rewrite Nat.eqb_refl; reflexivity|exact Hi|]. intros j Hj Hne. destruct (Nat.eqb_spec i j); [congruence|reflexivity]. }
        transitivity (nadd (Csum s (fun j => if Nat.eqb i j then stage_value z j else nofZ 0)) (Csum s (fun j => nmul (nopp z) (nmul (Cr (coef tb i j)) (stage_value z j))))).
        * rewrite <- Csum_add. apply Csum_ext. intros j Hj. unfold L. destruct (Nat.eqb_spec i j); ring.
        * rewrite Csum_scale, S1. ring.
      + rewrite (stage_value_rec z i Hi).
        assert (E : Csum s (fun j => nmul (Cr (coef tb i j)) (stage_value z j)) = Csum i (fun j => nmul (Cr (coef tb i j)) (stage_value z j))).
        { apply Csum_tail; [lia|]. intros j Hj. rewrite HB, Cr_0 by lia. ring. }
        rewrite E. ring.
    - f_equal. rewrite <- Csum_scale. unfold Csum. apply ksum_ext. intros j Hj. ring.
  Qed.
End RK.

Lemma formatted_choice method : formatted_table method = rk_choice method.
Proof.
  unfold formatted_table, rk_choice. repeat (match goal with |- context [String.eqb ?a ?b] => destruct (String.eqb a b) end; [reflexivity|]). reflexivity.
Qed.
Definition row_lengths (tb : rk_table) : bool := forallb (fun r => Nat.eqb (List.length r + 1) (stages tb)) (tb_betas tb).
Lemma rows_ok : forallb row_lengths all_tables = true. Proof. vm_compute. reflexivity. Qed.
Theorem rk_determinant det method z : det_ok det ->
  det (stability_matrix (fst (get_formatted_rk_coeffs method)) (snd (get_formatted_rk_coeffs method)) z) =
  Csum (S (stages (rk_choice method))) (fun k => nmul (Cr (growth (rk_choice method) k)) (Cpow z k)).
Proof.
  intro HD. unfold get_formatted_rk_coeffs. rewrite formatted_choice. cbn [fst snd]. set (tb := rk_choice method).
  assert (T : In tb all_tables) by apply rk_choice_known. pose proof (table_sound tb T) as [A1 A2 A3 A4 A5 A6 A7].
  apply det_stability; [|exact HD|apply map_length| |].
  - intros i j Hij Hj. apply A7; lia.
  - intros j Hj. unfold at1, weight. rewrite <- cval_ceval, <- (map_nth ceval). apply nth_indep. rewrite map_length. exact Hj.
  - intros i j Hi Hj. unfold at2, row.
    assert (Hi' : (i < List.length (tb_betas tb))%nat) by (rewrite A3; exact Hi).
    rewrite (nth_indep _ [] (map ceval [] ++ [n0])) by (rewrite map_length; exact Hi'). rewrite (map_nth (fun r => map ceval r ++ [n0])).
    assert (Lr : (List.length (nth i (tb_betas tb) []) + 1)%nat = stages tb).
    { pose proof rows_ok as H. rewrite forallb_forall in H. specialize (H tb T). unfold row_lengths in H. rewrite forallb_forall in H.
      apply Nat.eqb_eq. apply H. apply nth_In. exact Hi'. }
    unfold at1, coef. destruct (Nat.ltb_spec j (List.length (nth i (tb_betas tb) []))) as [H|H].
    + rewrite app_nth1 by (rewrite map_length; exact H). rewrite <- cval_ceval, <- (map_nth ceval). apply nth_indep. rewrite map_length. exact H.
    + rewrite app_nth2 by (rewrite map_length; exact H). rewrite map_length. replace (j - List.length (nth i (tb_betas tb) []))%nat with O by lia. cbn [nth].
      rewrite nth_overflow by exact H. unfold cval. cbn. numR. lra.
Qed.
