(** Rounding to nearest is symmetric: the binary64 operations commute with a change of sign, up to the sign of zeros. *)
From Coq Require Import ZArith List Bool Arith String Lia Floats.SpecFloat Reals.
From Verif Require Import Num Py PyStr Lib LegNumpy Ext Basis Sensor Enhance Limiting AdvectionPhysics EulerPhysics
  Solution Solver RKCoeffs RK SpecTime SpecTrace SpecClip ProofsTime SpecDG SpecSign SpecFloatText ProofsDG ProofsDG2 ProofsWf ProofsCons ProofsRel ProofsRelTrace ProofsShift ProofsSol ProofsOdd.
Import ListNotations.
Open Scope list_scope.

Section Odd.
  Variables p q : Z.
  Lemma round_aux_odd s m e l : binary_round_aux p q (negb s) m e l = SFopp (binary_round_aux p q s m e l).
  Proof.
    unfold binary_round_aux. destruct (shr_fexp p q m e l) as [r e1]. destruct (shr_fexp p q _ e1 loc_Exact) as [r2 e2].
    destruct (shr_m r2); try reflexivity. destruct (e2 <=? q - p)%Z; reflexivity.
  Qed.
  Lemma round_odd s m e : binary_round p q (negb s) m e = SFopp (binary_round p q s m e).
  Proof. unfold binary_round. destruct (shl_align m e _). apply round_aux_odd. Qed.
  Lemma normalize_odd m e : opposite (binary_normalize p q m e false) (binary_normalize p q (- m) e false).
  Proof.
    destruct m as [|m|m]; cbn [binary_normalize Z.opp].
    - right. exists false, false. split; reflexivity.
    - left. exact (round_odd false m e).
    - left. exact (round_odd true m e).
  Qed.
End Odd.
Lemma cond_opp s x : cond_Zopp (negb s) x = (- cond_Zopp s x)%Z.
Proof. destruct s; cbn; lia. Qed.
Ltac zeros := right; do 2 eexists; split; reflexivity.
Ltac odd := first [left; reflexivity | zeros].
Lemma opposite_add x x' y y' : opposite x x' -> opposite y y' -> opposite (nadd x y) (nadd x' y').
Proof.
  intros [->|[a [b [-> ->]]]] [->|[c [e [-> ->]]]].
  - destruct x as [[]|[]| |s m k], y as [[]|[]| |t n j]; cbn; try odd.
    rewrite !cond_opp. rewrite <- Z.opp_add_distr. apply normalize_odd.
  - destruct x as [[]|[]| |s m k], c, e; cbn; odd.
  - destruct y as [[]|[]| |s m k], a, b; cbn; odd.
  - destruct a, b, c, e; cbn; odd.
Qed.
Lemma opposite_sub x x' y y' : opposite x x' -> opposite y y' -> opposite (nsub x y) (nsub x' y').
Proof.
  intros [->|[a [b [-> ->]]]] [->|[c [e [-> ->]]]].
  - destruct x as [[]|[]| |s m k], y as [[]|[]| |t n j]; cbn; try odd.
    rewrite !cond_opp. match goal with |- opposite (binary_normalize _ _ (?u - ?v) _ _) _ => replace (- u - - v)%Z with (- (u - v))%Z by lia end. apply normalize_odd.
  - destruct x as [[]|[]| |s m k], c, e; cbn; odd.
  - destruct y as [[]|[]| |s m k], a, b; cbn; odd.
  - destruct a, b, c, e; cbn; odd.
Qed.
Lemma mul_fin s m k t n j : SFmul prec64 emax64 (S754_finite s m k) (S754_finite t n j) = binary_round_aux prec64 emax64 (xorb s t) (Z.pos (m * n)) (k + j) loc_Exact.
Proof. reflexivity. Qed.
Lemma opposite_mul_r c x x' : opposite x x' -> opposite (nmul x c) (nmul x' c).
Proof.
  intros [->|[a [b [-> ->]]]].
  - destruct x as [[]|[]| |[] m k], c as [[]|[]| |[] n j]; try (cbn; odd); left; cbn [nmul NumSF SFopp]; rewrite !mul_fin, <- round_aux_odd; reflexivity.
  - destruct c as [[]|[]| |[] n j], a, b; cbn; odd.
Qed.
Lemma opposite_mul_l c x x' : opposite x x' -> opposite (nmul c x) (nmul c x').
Proof.
  intros [->|[a [b [-> ->]]]].
  - destruct x as [[]|[]| |[] m k], c as [[]|[]| |[] n j]; try (cbn; odd); left; cbn [nmul NumSF SFopp]; rewrite !mul_fin, <- round_aux_odd; reflexivity.
  - destruct c as [[]|[]| |[] n j], a, b; cbn; odd.
Qed.
Lemma opposite_0 : opposite n0 n0. Proof. zeros. Qed.
Lemma opposite_value x y : opposite x y -> value y = (- value x)%R /\ (y = S754_nan <-> x = S754_nan).
Proof.
  intros [->|[a [b [-> ->]]]].
  - split; [|destruct x; cbn; split; congruence]. destruct x as [| | |s m e]; cbn; try (symmetry; apply Ropp_0). destruct s; cbn; ring.
  - cbn. split; [symmetry; apply Ropp_0|split; congruence].
Qed.

Lemma negated_along ne s s' sol0 : Wf ne sol0 s -> negated ne s s' -> Along opposite ne sol0 s s'.
Proof.
  intros H [W W' S [C1 C2] M]. assert (H' : Wf ne sol0 s') by (split; [exact W'|eapply similar_trans; [exact (proj2 H)|exact S]]).
  split; [exact H|]. split; [exact H'|]. split; [auto|]. split; [auto|]. intros n e f Hn He Hf.
  rewrite <- (similar_NF _ _ (proj2 H)) in Hf. rewrite <- (similar_Ns _ _ (proj2 H)) in Hn. specialize (M e f n He Hf Hn).
  rewrite (similar_NF _ _ (proj2 H)) in Hf. rewrite (similar_Ns _ _ (proj2 H)) in Hn. rewrite !(modes_at' ne sol0) in M by assumption. exact M.
Qed.
Lemma along_negated ne s s' sol0 : Along opposite ne sol0 s s' -> negated ne s s'.
Proof.
  intros [H [H' [E1 [E2 M]]]]. constructor; [apply H|apply H'|eapply Wf_similar; eassumption|auto|]. intros e f n He Hf Hn.
  rewrite (similar_NF _ _ (proj2 H)) in Hf. rewrite (similar_Ns _ _ (proj2 H)) in Hn. rewrite !(modes_at' ne sol0) by assumption. apply M; assumption.
Qed.
Lemma negate_run {L : Libm spec_float} (gamma : spec_float) ne s s' d : negated ne s s' -> s_euler s = false -> wf_dg ne s d -> forall rk cfl tf nout fuel,
  let r := integrate gamma rk d None cfl tf nout fuel s in
  let r' := integrate gamma rk d None cfl tf nout fuel s' in
  Forall2 (negated_event ne) (fst r) (fst r') /\ negated_outcome ne (snd r) (snd r').
Proof.
  intros H E D rk cfl tf nout fuel. cbv zeta. pose proof (ng_wf _ _ _ H) as W.
  destruct (along_run gamma opposite opposite_0 opposite_add opposite_sub opposite_mul_l opposite_mul_r ne s d W D E rk cfl tf nout fuel s'
    (negated_along ne s s' s (Wf_0 ne s W) H)) as [Ev O]. split.
  - clear - Ev. induction Ev as [|x y xs ys [X1 [X2 X3]] _ IH]; constructor; [|exact IH]. split; [symmetry; exact X1|]. split; [symmetry; exact X2|eapply along_negated; exact X3].
  - destruct O as [s1 s1' Y|e e' He|]; [constructor; eapply along_negated; exact Y|subst e'; constructor|constructor].
Qed.
Lemma negate_negated ne s : wf ne s -> negated ne s (negate s).
Proof.
  intro W. pose proof (wf_u _ _ W) as U.
  assert (U' : shape (s_Ns s) ((ne + 2) * s_NF s) (map (map SFopp) (s_u s))).
  { destruct U as [U1 U2]. split; [rewrite map_length; exact U1|]. intros r Hr. apply in_map_iff in Hr. destruct Hr as [r0 [<- Hr]]. rewrite map_length. apply U2. exact Hr. }
  assert (W' : wf ne (negate s)) by (apply wf_with_u; assumption).
  constructor; [exact W|exact W'|apply similar_with_u|split; reflexivity|]. intros e f n He Hf Hn.
  rewrite (modes_at ne s), (modes_at ne (negate s)) by assumption. cbn [negate with_u s_u s_NF]. change (s_NF (negate s)) with (s_NF s). left. unfold at2, row, at1.
  assert (J : (e * s_NF s + f < (ne + 2) * s_NF s)%nat) by (apply cell_index; assumption).
  set (r := nth n (s_u s) []). assert (Lr : List.length r = ((ne + 2) * s_NF s)%nat).
  { destruct U as [U1 U2]. apply U2. apply nth_In. rewrite U1. exact Hn. }
  replace (nth n (map (map SFopp) (s_u s)) []) with (map SFopp r) by (symmetry; exact (map_nth (map SFopp) (s_u s) [] n)).
  rewrite nth_indep with (d' := SFopp n0) by (rewrite map_length, Lr; exact J). apply map_nth.
Qed.
