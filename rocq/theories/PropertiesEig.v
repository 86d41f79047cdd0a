(** Property C85: what analysis/dg_stability.py prints and draws. *)
From Coq Require Import ZArith List Bool Arith String Lia Reals Lra Ring Permutation Sorted.
From Verif Require Import Num Py Lib RealLib LegNumpy Ext Basis Enhance RKCoeffs SpecDG SpecPoly SpecRK SpecEnh Analysis SpecAnalysis AnalysisEig SpecEig
  ProofsDG ProofsEnh ProofsEnh2 ProofsAnalysis ProofsAnalysis2 ProofsEig ProofsGrow ProofsGrowRun ProofsDgPlot ProofsDgPlot2 ExtReal.
Import ListNotations.
Open Scope list_scope.
Open Scope R_scope.

(** C85, the sampled phases: fifty points of the unit circle, closed under conjugation, -1 twice and never 1 *)
Theorem C85_phases :
  List.length (ebjs (A := R)) = 50%nat /\ (forall t, In t (ebjs (A := R)) <-> exists k, (k < 50)%nat /\ t = phase k) /\
  (forall k, fst (phase k) * fst (phase k) + snd (phase k) * snd (phase k) = 1) /\ (forall k, (k < 50)%nat -> phase (49 - k) = conjugate (phase k)) /\
  phase 0 = Cr (-1) /\ phase 49 = Cr (-1) /\ forall k, (k < 50)%nat -> phase k <> nofZ 1.
Proof.
  split; [exact length_ebjs|]. split; [exact ebjs_phase|]. split; [exact phase_unit|]. split; [exact phase_conj|]. split; [exact phase_0|]. split; [exact phase_49|exact phase_not_1].
Qed.
(** C85, the numbers and the polygon: for any matrix as a function of the phase *)
Theorem C85_vertices : forall (eigvals : mat C -> vec C) arctan2 argsort, argsort_ok argsort -> forall p FK lo hi pts, report (A := R) eigvals arctan2 argsort p FK = Ok (lo, hi, pts) ->
  (exists Ms, Forall2 (fun t M => FK t = Ok M /\ List.length (eigvals M) = (p + 1)%nat) ebjs Ms /\ Permutation pts (List.concat (map eigvals Ms))) /\
  List.length pts = (50 * (p + 1))%nat /\ (exists y, In (lo, y) pts) /\ (exists y, In (hi, y) pts) /\ (forall q, In q pts -> lo <= fst q <= hi) /\
  StronglySorted (fun a b => seen arctan2 pts a <= seen arctan2 pts b) pts.
Proof. exact report_spec. Qed.
Theorem C85_total : forall (eigvals : mat C -> vec C) arctan2 argsort, argsort_ok argsort -> forall p FK,
  (forall k, (k < 50)%nat -> exists M, FK (phase k) = Ok M /\ List.length (eigvals M) = (p + 1)%nat) -> exists lo hi pts, report (A := R) eigvals arctan2 argsort p FK = Ok (lo, hi, pts).
Proof. exact report_total. Qed.
(** C85, symmetry about the real axis *)
Theorem C85_symmetric : forall (X : Ext R) eigvals arctan2 argsort p lo hi pts, argsort_ok argsort ->
  (forall k, (k < 50)%nat -> only_eigenvalues (p + 1) (dg_FK p (phase k)) (eigvals (dg_FK p (phase k))) /\ all_eigenvalues (p + 1) (dg_FK p (phase k)) (eigvals (dg_FK p (phase k)))) ->
  dg_stability_standard eigvals arctan2 argsort p = Ok (lo, hi, pts) -> forall q, In q pts -> In (conjugate q) pts.
Proof.
  intros X eigvals arctan2 argsort p lo hi pts AS HE HR q Hq. unfold dg_stability_standard in HR.
  apply (vertex_iff eigvals arctan2 argsort AS p _ lo hi pts q HR) in Hq. destruct Hq as [k [M [Hk [EM Hq]]]]. apply Ok_inj in EM. subst M.
  destruct (proj1 (HE k Hk) q Hq) as [w Ew]. apply eigen_conj_dg in Ew. rewrite <- phase_conj in Ew by exact Hk.
  apply (vertex_iff eigvals arctan2 argsort AS p _ lo hi pts _ HR). exists (49 - k)%nat. eexists. split; [lia|]. split; [reflexivity|]. apply (proj2 (HE (49 - k)%nat ltac:(lia)) _ _ Ew).
Qed.
Theorem C85_symmetric_enhanced : forall (X : Ext R), inv_ok -> forall eigvals arctan2 argsort p mthd e lo hi pts, argsort_ok argsort ->
  Enhance p mthd = Ok e -> NoDup (e_modes e) -> (forall m, In m (e_modes e) -> (m <= p)%nat) ->
  (forall k M, (k < 50)%nat -> icb_FK p (e_modes e) (phase k) = Ok M -> only_eigenvalues (p + 1) M (eigvals M) /\ all_eigenvalues (p + 1) M (eigvals M)) ->
  report eigvals arctan2 argsort p (icb_FK p (e_modes e)) = Ok (lo, hi, pts) -> forall q, In q pts -> In (conjugate q) pts.
Proof.
  intros X IV eigvals arctan2 argsort p mthd e lo hi pts AS HEn ND HB HE HR q Hq.
  apply (vertex_iff eigvals arctan2 argsort AS p _ lo hi pts q HR) in Hq. destruct Hq as [k [M [Hk [EM Hq]]]].
  destruct (icb_FK_ok p mthd e (phase (49 - k)) HEn) as [M' EM'].
  destruct (proj1 (HE k M Hk EM) q Hq) as [w Ew]. assert (EM2 : icb_FK p (e_modes e) (conjugate (phase k)) = Ok M') by (rewrite <- phase_conj by exact Hk; exact EM').
  pose proof (eigen_conj_icb IV p mthd e (phase k) M M' q w HEn ND HB EM EM2 Ew) as Ew'.
  apply (vertex_iff eigvals arctan2 argsort AS p _ lo hi pts _ HR). exists (49 - k)%nat, M'. split; [lia|]. split; [exact EM'|]. apply (proj2 (HE (49 - k)%nat M' ltac:(lia) EM') _ _ Ew').
Qed.
(** C85, the plain scheme: the polygon stays strictly left of the imaginary axis, although the spectrum touches it (C57_constants): T = 1 is not sampled *)
Theorem C85_standard_left : forall (X : Ext R) eigvals arctan2 argsort p lo hi pts, argsort_ok argsort ->
  (forall k, (k < 50)%nat -> only_eigenvalues (p + 1) (dg_FK p (phase k)) (eigvals (dg_FK p (phase k)))) ->
  dg_stability_standard eigvals arctan2 argsort p = Ok (lo, hi, pts) -> (forall q, In q pts -> fst q < 0) /\ hi < 0.
Proof. exact @standard_left. Qed.
(** C85, the script as it stands: the printed maximum real part is positive *)
Theorem C85_script_positive : forall (X : Ext R), inv_ok -> forall eigvals arctan2 argsort lo hi pts, argsort_ok argsort ->
  (forall M, icb_FK 3 [0; 1; 2]%nat (Cr (-1)) = Ok M -> all_eigenvalues 4 M (eigvals M)) ->
  dg_stability eigvals arctan2 argsort = Ok (lo, hi, pts) -> 0.00038 <= hi /\ exists q, In q pts /\ 0.00038 <= fst q.
Proof. exact @script_positive. Qed.

(** ** witnesses *)
(** order 0: the eigenvalue of a 1 x 1 matrix is its entry *)
Definition eig1 (M : mat C) : vec C := [at2 M 0 0].
Lemma eig1_only M : only_eigenvalues 1 M (eig1 M).
Proof.
  intros z [<-|[]]. exists (fun _ => nofZ 1). split; [exists 0%nat; split; [lia|intro H; apply (f_equal fst) in H; cbn in H; lra]|].
  intros i Hi. assert (i = 0%nat) by lia. subst i. unfold Capply, Csum. cbn [ksum]. destruct (at2 M 0 0). apply C_eq; cbn; unfold n0; cbn; ring.
Qed.
Lemma eig1_all M : all_eigenvalues 1 M (eig1 M).
Proof.
  intros z w [[i [Hi Hz]] Hw]. assert (i = 0%nat) by lia. subst i. specialize (Hw 0%nat ltac:(lia)). unfold Capply, Csum in Hw. cbn [ksum] in Hw. left.
  assert (D : nmul (nsub (at2 M 0 0) z) (w 0%nat) = nofZ 0).
  { transitivity (nsub (nadd (nofZ 0) (nmul (at2 M 0 0) (w 0%nat))) (nmul z (w 0%nat))); [destruct (at2 M 0 0), z, (w 0%nat); apply C_eq; cbn; unfold n0; cbn; ring|]. rewrite Hw.
    destruct (nmul z (w 0%nat)). apply C_eq; cbn; unfold n0; cbn; ring. }
  apply C_domain in D. destruct D as [D|D]; [|contradiction]. destruct (at2 M 0 0) as [a b], z as [c d]. pose proof (f_equal fst D). pose proof (f_equal snd D). cbn in *. unfold n0 in *. cbn in *. f_equal; lra.
Qed.
Example C85_standard_witness : forall arctan2, exists lo hi pts, argsort_ok argsort_R /\
  (forall k, (k < 50)%nat -> only_eigenvalues (0 + 1) (@dg_FK R NumR ExtReal 0 (phase k)) (eig1 (@dg_FK R NumR ExtReal 0 (phase k))) /\
     all_eigenvalues (0 + 1) (@dg_FK R NumR ExtReal 0 (phase k)) (eig1 (@dg_FK R NumR ExtReal 0 (phase k)))) /\
  @dg_stability_standard R NumR LibmR ExtReal eig1 arctan2 argsort_R 0 = Ok (lo, hi, pts) /\ hi < 0.
Proof.
  intro arctan2. destruct (C85_total eig1 arctan2 argsort_R argsort_R_ok 0 (fun T => Ok (@dg_FK R NumR ExtReal 0 T))) as [lo [hi [pts H]]]; [intros k Hk; eexists; split; reflexivity|].
  exists lo, hi, pts. split; [exact argsort_R_ok|]. split; [intros; split; [apply eig1_only|apply eig1_all]|]. split; [exact H|].
  apply (C85_standard_left ExtReal eig1 arctan2 argsort_R 0 lo hi pts argsort_R_ok); [intros; apply eig1_only|exact H].
Qed.
(** the script: a list with the four eigenvalues at T = -1 *)
Example C85_script_witness : forall arctan2, exists eigvals lo hi pts,
  (forall M, @icb_FK R NumR ExtReal 3 [0; 1; 2]%nat (Cr (-1)) = Ok M -> all_eigenvalues 4 M (eigvals M)) /\
  @dg_stability R NumR LibmR ExtReal eigvals arctan2 argsort_R = Ok (lo, hi, pts) /\ 0.00038 <= hi.
Proof.
  intro arctan2. destruct four_roots as [a [b [c [d [x [_ [_ HQ]]]]]]]. exists (fun _ => [a; b; c; d]).
  destruct (@Enhance_ok ExtReal ExtReal_inv 3 "icb 0 1 2" "icb" ["0"; "1"; "2"]%string [0; 1; 2]%nat) as [e [E Em]];
    [reflexivity|repeat constructor|repeat constructor; cbn; intuition lia|intros m Hm; cbn in Hm; lia|].
  change (sort_nat [0; 1; 2]%nat) with [0; 1; 2]%nat in Em.
  assert (HA : forall M, @icb_FK R NumR ExtReal 3 [0; 1; 2]%nat (Cr (-1)) = Ok M -> all_eigenvalues 4 M [a; b; c; d]).
  { intros M HM z w Ez. apply HQ. apply (@eigen012_inv ExtReal ExtReal_inv "icb 0 1 2" e z M w E Em); [rewrite Em; exact HM|exact Ez]. }
  destruct (C85_total (fun _ => [a; b; c; d]) arctan2 argsort_R argsort_R_ok 3 (@icb_FK R NumR ExtReal 3 [0; 1; 2]%nat)) as [lo [hi [pts H]]].
  { intros k Hk. destruct (@icb_FK_ok ExtReal 3 "icb 0 1 2" e (phase k) E) as [M HM]. rewrite Em in HM. exists M. split; [exact HM|reflexivity]. }
  exists lo, hi, pts. split; [exact HA|]. split; [exact H|]. apply (C85_script_positive ExtReal ExtReal_inv (fun _ => [a; b; c; d]) arctan2 argsort_R lo hi pts argsort_R_ok HA H).
Qed.
(** order 0 with mode 0 enhanced, for the symmetry *)
Example C85_enhanced_witness : forall arctan2, exists e lo hi pts, @Enhance R NumR ExtReal 0 "icb 0" = Ok e /\ e_modes e = [0]%nat /\
  (forall k M, (k < 50)%nat -> @icb_FK R NumR ExtReal 0 (e_modes e) (phase k) = Ok M -> only_eigenvalues (0 + 1) M (eig1 M) /\ all_eigenvalues (0 + 1) M (eig1 M)) /\
  report eig1 arctan2 argsort_R 0 (@icb_FK R NumR ExtReal 0 (e_modes e)) = Ok (lo, hi, pts).
Proof.
  intro arctan2.
  destruct (@Enhance_ok ExtReal ExtReal_inv 0 "icb 0" "icb" ["0"]%string [0]%nat) as [e [E Em]];
    [reflexivity|repeat constructor|repeat constructor; cbn; intuition lia|intros m Hm; cbn in Hm; lia|].
  change (sort_nat [0]%nat) with [0]%nat in Em.
  destruct (C85_total eig1 arctan2 argsort_R argsort_R_ok 0 (@icb_FK R NumR ExtReal 0 (e_modes e))) as [lo [hi [pts H]]].
  { intros k Hk. destruct (@icb_FK_ok ExtReal 0 "icb 0" e (phase k) E) as [M HM]. exists M. split; [exact HM|reflexivity]. }
  exists e, lo, hi, pts. split; [exact E|]. split; [exact Em|]. split; [intros; split; [apply eig1_only|apply eig1_all]|exact H].
Qed.

Print Assumptions C85_phases.
Print Assumptions C85_vertices.
Print Assumptions C85_total.
Print Assumptions C85_symmetric.
Print Assumptions C85_symmetric_enhanced.
Print Assumptions C85_standard_left.
Print Assumptions C85_script_positive.
