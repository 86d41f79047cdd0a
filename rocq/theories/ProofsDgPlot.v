(** What analysis/dg_stability.py prints and draws. *)
From Coq Require Import ZArith List Bool Arith String Lia Reals Lra Ring Permutation Sorted.
From Verif Require Import Num Py Lib RealLib LegNumpy Ext Basis Enhance RKCoeffs SpecDG SpecPoly SpecRK SpecEnh Analysis SpecAnalysis AnalysisEig SpecEig
  ProofsDG ProofsEnh ProofsEnh2 ProofsRiemann ProofsShift ProofsAnalysis ProofsAnalysis2 ProofsTime ProofsRKPlot ProofsEig.
Import ListNotations.
Open Scope R_scope.

(** ** the phases *)
Lemma ebjs_phase t : In t (ebjs (A := R)) <-> exists k, (k < 50)%nat /\ t = phase k.
Proof.
  unfold ebjs. rewrite in_map_iff. change (nofZ (-1) * npi)%num with (-1 * PI). change (@npi R LibmR) with PI. split.
  - intros [b [<- Hb]]. apply in_linspace_iff in Hb; [|lia]. destruct Hb as [k [Hk ->]]. exists k. split; [exact Hk|]. unfold phase.
    replace (-1 * PI + INR k * ((PI - -1 * PI) / INR (50 - 1))) with (PI * (2 * INR k - 49) / 49); [reflexivity|]. replace (INR (50 - 1)) with 49 by (cbn; lra). field.
  - intros [k [Hk ->]]. exists (PI * (2 * INR k - 49) / 49). split; [reflexivity|]. apply in_linspace_iff; [lia|]. exists k. split; [exact Hk|].
    replace (INR (50 - 1)) with 49 by (cbn; lra). field.
Qed.
Lemma length_ebjs : List.length (ebjs (A := R)) = 50%nat.
Proof. unfold ebjs. rewrite map_length. apply length_linspace. Qed.
Lemma phase_unit k : fst (phase k) * fst (phase k) + snd (phase k) * snd (phase k) = 1.
Proof. unfold phase. cbn [fst snd]. set (b := PI * (2 * INR k - 49) / 49). pose proof (sin2_cos2 b) as H. unfold Rsqr in H. lra. Qed.
Lemma phase_conj k : (k < 50)%nat -> phase (49 - k) = conjugate (phase k).
Proof.
  intro Hk. unfold phase, conjugate. cbn [fst snd]. rewrite minus_INR by lia. replace (INR 49) with 49 by (cbn; lra).
  replace (PI * (2 * (49 - INR k) - 49) / 49) with (- (PI * (2 * INR k - 49) / 49)) by field. rewrite cos_neg, sin_neg. reflexivity.
Qed.
Lemma phase_0 : phase 0 = Cr (-1).
Proof. unfold phase, Cr. replace (PI * (2 * INR 0 - 49) / 49) with (- PI) by (cbn [INR]; field). rewrite cos_neg, sin_neg, cos_PI, sin_PI. f_equal. ring. Qed.
Lemma phase_49 : phase 49 = Cr (-1).
Proof. pose proof (phase_conj 0 ltac:(lia)) as H. cbn [Nat.sub] in H. rewrite H, phase_0. unfold conjugate, Cr. cbn [fst snd]. f_equal. ring. Qed.
Lemma phase_not_1 k : (k < 50)%nat -> phase k <> nofZ 1.
Proof.
  intros Hk H. unfold phase in H. set (b := PI * (2 * INR k - 49) / 49) in H. apply (f_equal fst) in H. cbn in H. unfold Num.n1 in H. 
  assert (S0 : sin (b / 2) = 0).
  { replace b with (2 * (b / 2)) in H by field. rewrite cos_2a_sin in H. assert (E : sin (b / 2) * sin (b / 2) = 0) by lra. apply Rmult_integral in E. tauto. }
  assert (B : - PI <= b <= PI).
  { pose proof PI_RGT_0. assert (0 <= INR k <= 49). { split; [apply pos_INR|]. replace 49 with (INR 49) by (cbn; lra). apply le_INR. lia. }
    unfold b. split; [apply (Rmult_le_reg_r 49)|apply (Rmult_le_reg_r 49)]; try lra; unfold Rdiv; rewrite Rmult_assoc, Rinv_l by lra; nra. }
  assert (b = 0).
  { destruct (Rtotal_order b 0) as [L|[E|L]]; [|exact E|]; exfalso.
    - assert (0 < sin (- (b / 2))) by (apply sin_gt_0; lra). rewrite sin_neg in *. lra.
    - assert (0 < sin (b / 2)) by (apply sin_gt_0; lra). lra. }
  assert (E : 2 * INR k = 49). { unfold b in *. pose proof PI_RGT_0. assert (PI * (2 * INR k - 49) = 0) by lra. assert (2 * INR k - 49 = 0) by (apply Rmult_integral in H2; destruct H2; lra). lra. }
  replace 49 with (INR 49) in E by (cbn; lra). replace 2 with (INR 2) in E by (cbn; lra). rewrite <- mult_INR in E. apply INR_eq in E. lia.
Qed.

(** ** minima, maxima and means *)
Lemma npminimum_R x y : npminimum x y = Rmin x y.
Proof. unfold npminimum. numR. unfold Rmin. Rcase y x; destruct (Rle_dec x y); lra. Qed.
Lemma npmin_R l m : npmin l = Some m -> In m l /\ forall y, In y l -> m <= y.
Proof.
  destruct l as [|x l]; [discriminate|]. cbn [npmin]. intro E. injection E as <-. revert x. induction l as [|z l IH]; intro x.
  - cbn. split; [tauto|]. intros y [->|[]]. lra.
  - cbn [fold_left]. destruct (IH (npminimum x z)) as [I1 I2]. rewrite npminimum_R in *. split.
    + destruct I1 as [<-|I1]; [|right; right; exact I1]. unfold Rmin. destruct (Rle_dec x z); [left|right; left]; reflexivity.
    + intros y Hy. pose proof (I2 _ (or_introl eq_refl)) as I3. pose proof (Rmin_l x z). pose proof (Rmin_r x z). destruct Hy as [<-|[<-|Hy]]; [lra|lra|]. apply I2. right. exact Hy.
Qed.
Lemma npmax_R l m : npmax l = Some m -> In m l /\ forall y, In y l -> y <= m.
Proof. destruct l as [|x l]; [discriminate|]. cbn [npmax]. intro E. injection E as <-. destruct (fold_max_spec l x). split; assumption. Qed.
Lemma nsum_fold (l : list R) : nsum l = fold_right Rplus 0 l.
Proof. induction l as [|x l IH]; [reflexivity|]. rewrite nsum_R in *. cbn [List.length fold_right]. rewrite Rsum_S_l. cbn [nth]. rewrite <- IH. reflexivity. Qed.
Lemma mean_average (l : list R) : mean l = average l.
Proof. unfold mean, average. rewrite nsum_fold. change (nofZ (Z.of_nat (List.length l))) with (IZR (Z.of_nat (List.length l))). rewrite <- INR_IZR_INZ. reflexivity. Qed.
Lemma average_perm l l' : Permutation l l' -> average l = average l'.
Proof.
  intro P. unfold average. rewrite (Permutation_length P). f_equal. induction P; cbn [fold_right]; try lra. 
Qed.

(** ** the vertices *)
Lemma flat_map_cons_perm {I Y : Type} (f : I -> Y) (g : I -> list Y) l : Permutation (flat_map (fun j => f j :: g j) l) (map f l ++ flat_map g l).
Proof.
  induction l as [|a l IH]; [constructor|]. cbn [flat_map map app]. apply perm_skip. rewrite IH, !app_assoc. apply Permutation_app_tail, Permutation_app_comm.
Qed.
Lemma map_nth_seq {Y : Type} (d : Y) (l : list Y) : map (fun i => nth i l d) (seq 0 (List.length l)) = l.
Proof.
  induction l as [|a l IH]; [reflexivity|]. cbn [List.length seq map nth]. f_equal. rewrite <- seq_shift, map_map. exact IH.
Qed.
Lemma by_columns_perm c (roots : mat C) : Forall (fun r => List.length r = c) roots -> Permutation (by_columns c roots) (List.concat roots).
Proof.
  unfold by_columns. induction 1 as [|r rs Hr F IH].
  - cbn [map List.concat]. generalize (seq 0 c). intro l. induction l as [|a l IHl]; [constructor|exact IHl].
  - cbn [map List.concat]. rewrite flat_map_cons_perm. rewrite IH. apply Permutation_app_tail. unfold at1. rewrite <- Hr, map_nth_seq. reflexivity.
Qed.
Lemma sorted_map {I Y : Type} (P : I -> I -> Prop) (Q : Y -> Y -> Prop) (f : I -> Y) (D : I -> Prop) l : (forall a b, D a -> D b -> P a b -> Q (f a) (f b)) -> Forall D l ->
  StronglySorted P l -> StronglySorted Q (map f l).
Proof.
  intros H F S. induction S as [|a l S IH Fa]; [constructor|]. inversion F as [|? ? Da Dl]; subst. cbn [map]. constructor; [apply IH; exact Dl|].
  apply Forall_map. rewrite Forall_forall in *. intros b Hb. apply H; auto.
Qed.
Lemma Forall2_length {I J : Type} (P : I -> J -> Prop) l m : Forall2 P l m -> List.length l = List.length m.
Proof. induction 1; cbn [List.length]; congruence. Qed.
Section Plot.
  Variables (eigvals : mat C -> vec C) (arctan2 : R -> R -> R) (argsort : vec R -> list nat).
  Hypothesis AS : argsort_ok argsort.
  Notation report := (report (A := R) eigvals arctan2 argsort).
  Lemma eig_rows_ok c FK ts rows : eig_rows eigvals c FK ts = Ok rows ->
    exists Ms, Forall2 (fun t M => FK t = Ok M /\ List.length (eigvals M) = c) ts Ms /\ rows = map eigvals Ms.
  Proof.
    revert rows. induction ts as [|t ts IH]; intros rows H; cbn [eig_rows] in H.
    - apply Ok_inj in H. subst. exists []. split; constructor.
    - destruct (FK t) as [M|] eqn:E; [|discriminate]. cbn [rbind] in H. destruct (Nat.eqb_spec (List.length (eigvals M)) c) as [L|L]; [|discriminate].
      destruct (eig_rows eigvals c FK ts) as [rs|] eqn:E2; [|discriminate]. cbn [rbind] in H. apply Ok_inj in H. subst rows.
      destruct (IH rs eq_refl) as [Ms [F ->]]. exists (M :: Ms). split; [constructor; auto|reflexivity].
  Qed.
  Lemma eig_rows_total c FK ts : (forall t, In t ts -> exists M, FK t = Ok M /\ List.length (eigvals M) = c) -> exists rows, eig_rows eigvals c FK ts = Ok rows.
  Proof.
    induction ts as [|t ts IH]; intro H; cbn [eig_rows]; [eauto|]. destruct (H t (or_introl eq_refl)) as [M [-> L]]. cbn [rbind]. rewrite L, Nat.eqb_refl.
    destruct IH as [rows ->]; [intros; apply H; right; assumption|]. cbn [rbind]. eauto.
  Qed.
  (** the sorted points *)
  Definition sorted_points (c : nat) (rows : mat C) : list C := combine (fst (sort_roots_angle arctan2 argsort c rows)) (snd (sort_roots_angle arctan2 argsort c rows)).
  Lemma points_nth c rows : exists idx, idx = argsort (map (fun q => arctan2 (snd q - average (map snd (by_columns c rows))) (fst q - average (map fst (by_columns c rows)))) (by_columns c rows)) /\
    sorted_points c rows = map (fun i => nth i (by_columns c rows) (0, 0)) idx /\ fst (sort_roots_angle arctan2 argsort c rows) = map fst (sorted_points c rows).
  Proof.
    unfold sorted_points, sort_roots_angle. cbv zeta. cbn [fst snd]. rewrite !mean_average. eexists. split; [reflexivity|]. 
    set (idx := argsort _). set (B := by_columns c rows).
    assert (E : combine (map (at1 (map fst B)) idx) (map (at1 (map snd B)) idx) = map (fun i => nth i B (0, 0)) idx).
    { induction idx as [|i l IH]; [reflexivity|]. cbn [map combine]. rewrite IH. f_equal. unfold at1. change (@n0 R NumR) with (fst (0, 0)) at 1. rewrite map_nth.
      change (@n0 R NumR) with (snd (0, 0)) at 1. rewrite map_nth. destruct (nth i B (0, 0)); reflexivity. }
    split; [exact E|]. rewrite E, map_map. apply map_ext. intro i. unfold at1. change (@n0 R NumR) with (fst (0, 0)) at 1. apply map_nth.
  Qed.
  Lemma points_perm c rows : Forall (fun r => List.length r = c) rows -> Permutation (sorted_points c rows) (List.concat rows).
  Proof.
    intro F. destruct (points_nth c rows) as [idx [Ei [-> _]]]. rewrite <- (by_columns_perm c rows F). destruct (AS (map (fun q => arctan2 (snd q - average (map snd (by_columns c rows))) (fst q - average (map fst (by_columns c rows)))) (by_columns c rows))) as [P _].
    rewrite <- Ei in P. rewrite map_length in P. rewrite P, map_nth_seq. reflexivity.
  Qed.
  Lemma points_sorted c rows : Forall (fun r => List.length r = c) rows ->
    StronglySorted (fun a b => seen arctan2 (sorted_points c rows) a <= seen arctan2 (sorted_points c rows) b) (sorted_points c rows).
  Proof.
    intro F. pose proof (points_perm c rows F) as P. rewrite <- (by_columns_perm c rows F) in P.
    unfold seen. rewrite (average_perm _ _ (Permutation_map fst P)), (average_perm _ _ (Permutation_map snd P)).
    destruct (points_nth c rows) as [idx [Ei [-> _]]]. set (B := by_columns c rows) in *. set (ang := fun q : C => arctan2 (snd q - average (map snd B)) (fst q - average (map fst B))) in *.
    destruct (AS (map ang B)) as [P2 S]. rewrite <- Ei in P2, S.
    apply (sorted_map (fun i j => nth i (map ang B) 0 <= nth j (map ang B) 0) _ _ (fun i => (i < List.length B)%nat)); [|apply Forall_forall; intros i Hi|exact S].
    - intros i j Hi Hj. rewrite (nth_indep (map ang B) 0 (ang (0, 0))), (nth_indep (map ang B) 0 (ang (0, 0))) by (rewrite map_length; assumption). rewrite !map_nth. exact (fun H => H).
    - apply (Permutation_in _ P2) in Hi. rewrite map_length in Hi. apply in_seq in Hi. lia.
  Qed.
  Lemma report_spec p FK lo hi pts : report p FK = Ok (lo, hi, pts) ->
    (exists Ms, Forall2 (fun t M => FK t = Ok M /\ List.length (eigvals M) = (p + 1)%nat) ebjs Ms /\ Permutation pts (List.concat (map eigvals Ms))) /\
    List.length pts = (50 * (p + 1))%nat /\ (exists y, In (lo, y) pts) /\ (exists y, In (hi, y) pts) /\ (forall q, In q pts -> lo <= fst q <= hi) /\
    StronglySorted (fun a b => seen arctan2 pts a <= seen arctan2 pts b) pts.
  Proof.
    unfold AnalysisEig.report, get_eigenvalue. destruct (eig_rows eigvals (p + 1) FK ebjs) as [rows|] eqn:E; [|discriminate]. cbn [rbind].
    destruct (npmin _) as [lo'|] eqn:E1; [|discriminate]. destruct (npmax _) as [hi'|] eqn:E2; [|discriminate]. intro H. apply Ok_inj in H. injection H as <- <- <-.
    destruct (eig_rows_ok _ _ _ _ E) as [Ms [F2 ->]]. fold (sorted_points (p + 1) (map eigvals Ms)). set (pts := sorted_points (p + 1) (map eigvals Ms)).
    assert (F : Forall (fun r => List.length r = (p + 1)%nat) (map eigvals Ms)).
    { apply Forall_map. clear - F2. induction F2 as [|t M ts Ms [_ L] F IH]; constructor; assumption. }
    pose proof (points_perm _ _ F) as P. fold pts in P.
    assert (LP : List.length pts = (50 * (p + 1))%nat).
    { rewrite (Permutation_length P). rewrite <- length_ebjs. pose proof (Forall2_length _ _ _ F2) as FL. rewrite FL. clear - F. induction Ms as [|M Ms IH]; [reflexivity|].
      cbn [map] in *. inversion F; subst. cbn [List.concat List.length]. rewrite app_length, IH by assumption. lia. }
    destruct (points_nth (p + 1) (map eigvals Ms)) as [idx [_ [_ Ex]]]. fold pts in Ex. rewrite Ex in E1, E2.
    apply npmin_R in E1. apply npmax_R in E2. destruct E1 as [I1 B1], E2 as [I2 B2].
    split; [exists Ms; split; [exact F2|exact P]|]. split; [exact LP|].
    split; [apply in_map_iff in I1; destruct I1 as [[a b] [<- I]]; exists b; exact I|].
    split; [apply in_map_iff in I2; destruct I2 as [[a b] [<- I]]; exists b; exact I|].
    split; [intros q Hq; apply (in_map fst) in Hq; split; [apply B1|apply B2]; exact Hq|]. apply points_sorted. exact F.
  Qed.
  Lemma report_total p FK : (forall k, (k < 50)%nat -> exists M, FK (phase k) = Ok M /\ List.length (eigvals M) = (p + 1)%nat) -> exists lo hi pts, report p FK = Ok (lo, hi, pts).
  Proof.
    intro H. unfold AnalysisEig.report, get_eigenvalue. destruct (eig_rows_total (p + 1) FK ebjs) as [rows E].
    { intros t Ht. apply ebjs_phase in Ht. destruct Ht as [k [Hk ->]]. apply H. exact Hk. }
    rewrite E. cbn [rbind]. destruct (eig_rows_ok _ _ _ _ E) as [Ms [F2 ->]].
    assert (F : Forall (fun r => List.length r = (p + 1)%nat) (map eigvals Ms)).
    { apply Forall_map. clear - F2. induction F2 as [|t M ts Ms [_ L] F IH]; constructor; assumption. }
    pose proof (points_perm _ _ F) as P. destruct (points_nth (p + 1) (map eigvals Ms)) as [idx [_ [_ Ex]]]. rewrite Ex.
    assert (NE : sorted_points (p + 1) (map eigvals Ms) <> []).
    { intro N. rewrite N in P. apply Permutation_nil in P. pose proof (Forall2_length _ _ _ F2) as FL. rewrite length_ebjs in FL. destruct Ms as [|M Ms]; [discriminate|]. cbn [map List.concat] in P.
      apply app_eq_nil in P. destruct P as [P _]. inversion F; subst. rewrite P in *. cbn in *. lia. }
    destruct (sorted_points (p + 1) (map eigvals Ms)) as [|q l]; [congruence|]. cbn [map npmin npmax]. eauto.
  Qed.
  (** a point is a vertex iff it is listed at one of the phases *)
  Lemma vertex_iff p FK lo hi pts q : report p FK = Ok (lo, hi, pts) -> In q pts <-> exists k M, (k < 50)%nat /\ FK (phase k) = Ok M /\ In q (eigvals M).
  Proof.
    intro H. destruct (report_spec p FK lo hi pts H) as [[Ms [F2 P]] _]. split.
    - intro Hq. apply (Permutation_in _ P) in Hq. apply in_concat in Hq. destruct Hq as [r [Hr Hq]]. apply in_map_iff in Hr. destruct Hr as [M [<- HM]].
      assert (K : exists t, In t ebjs /\ FK t = Ok M). { clear - F2 HM. induction F2 as [|t M' ts Ms' [E _] F IH]; [destruct HM|]. destruct HM as [->|HM]; [exists t; split; [left; reflexivity|exact E]|].
        destruct (IH HM) as [t' [I E']]. exists t'. split; [right; exact I|exact E']. }
      destruct K as [t [Ht E]]. apply ebjs_phase in Ht. destruct Ht as [k [Hk ->]]. eauto.
    - intros [k [M [Hk [E Hq]]]]. apply (Permutation_in _ (Permutation_sym P)). apply in_concat. exists (eigvals M). split; [|exact Hq]. apply in_map.
      assert (Ht : In (phase k) (ebjs (A := R))) by (apply ebjs_phase; eauto).
      clear - F2 Ht E. induction F2 as [|t M' ts Ms' [E' _] F IH]; [destruct Ht|]. destruct Ht as [->|Ht]; [rewrite E in E'; apply Ok_inj in E'; left; congruence|right; apply IH; exact Ht].
  Qed.
End Plot.
