(** Change of sign and of zero level of advected data. *)
From Coq Require Import ZArith List Bool Arith String Reals Lra Lia.
From Verif Require Import Num Py PyStr Lib RealLib LegNumpy Ext Basis Sensor Enhance Limiting AdvectionPhysics EulerPhysics Solution Solver RKCoeffs RK
  SpecTime SpecTrace SpecClip SpecDG SpecPoly SpecUniform SpecLevel ProofsTime ProofsPoly ProofsLeg ProofsGauss ProofsDG ProofsDG2 ProofsWf ProofsCons ProofsBasis ProofsSol ProofsAdv ProofsRel ProofsRelTrace
  SpecLimit ProofsEnh2 ProofsLim ProofsAHR ProofsLimRun ProofsUniform ProofsContact.
Import ListNotations.
Open Scope list_scope.
Open Scope R_scope.

Lemma unit0_match (c : R) n : match n with O => c | S _ => 0 end = c * unit0 n.
Proof. destruct n; cbn [unit0]; ring. Qed.
(** Taylor coefficients of k a + c *)
Definition tlift (k c : R) (a : list R) : list R := tab (List.length a) (fun n => nth n a 0 * k + c * unit0 n).
Lemma length_tlift k c a : List.length (tlift k c a) = List.length a. Proof. apply length_tab. Qed.
Lemma nth_tlift k c a n : (1 <= List.length a)%nat -> nth n (tlift k c a) 0 = nth n a 0 * k + c * unit0 n.
Proof.
  intro L. unfold tlift. destruct (Nat.lt_ge_cases n (List.length a)) as [H|H]; [rewrite nth_tab by exact H; reflexivity|].
  rewrite !nth_overflow by (try rewrite length_tab; exact H). destruct n; [lia|]. cbn [unit0]. ring.
Qed.
Lemma taylor_tlift k c a x : (1 <= List.length a)%nat -> taylor (tlift k c a) x = taylor a x * k + c.
Proof.
  intro L. unfold taylor. rewrite length_tlift. rewrite (Rsum_ext _ _ (fun n => nth n a 0 * (x ^ n / INR (fact n)) * k + c * unit0 n * (x ^ n / INR (fact n)))) by (intros n _; rewrite nth_tlift by exact L; ring).
  rewrite Rsum_plus, Rsum_scale_r. apply Rplus_eq_compat_l. destruct (List.length a) as [|m]; [lia|]. rewrite Rsum_S_l, Rsum_0; [cbn; field|]. intros i _. cbn [unit0]. ring.
Qed.
Lemma dint_tlift m k c a x y : (1 <= List.length a)%nat -> dint m (tlift k c a) x y = k * dint m a x y + c * unit0 m * (y - x).
Proof.
  intro L. unfold dint. rewrite length_tlift.
  rewrite (Rsum_ext _ _ (fun i => k * (nth (m + i) a 0 * mono_int i x y) + c * unit0 (m + i) * mono_int i x y)) by (intros i _; rewrite nth_tlift by exact L; ring).
  rewrite Rsum_plus, Rsum_scale. apply Rplus_eq_compat_l. destruct m as [|m].
  - rewrite Nat.sub_0_r. destruct (List.length a) as [|q]; [lia|]. rewrite Rsum_S_l, Rsum_0; [unfold mono_int; cbn; field|]. intros i _. cbn [unit0 Nat.add]. ring.
  - rewrite Rsum_0; [cbn [unit0]; ring|]. intros i _. cbn [unit0 Nat.add]. ring.
Qed.
Lemma candidates_tlift k c (ac al ar ac' al' ar' v : list R) m : (1 <= m < List.length ac)%nat -> List.length al = List.length ac -> List.length ar = List.length ac -> List.length v = List.length ac ->
  List.length ac' = List.length ac -> List.length al' = List.length ac -> List.length ar' = List.length ac ->
  (forall a a', (a, a') = (ac, ac') \/ (a, a') = (al, al') \/ (a, a') = (ar, ar') -> dint (m - 1) a' (-1) 1 = k * dint (m - 1) a (-1) 1 + 2 * (c * unit0 (m - 1))) ->
  hr_candidates ac' al' ar' (tlift k c v) m = (k * fst (hr_candidates ac al ar v m), k * snd (hr_candidates ac al ar v m) + c * unit0 (m - 1)).
Proof.
  intros Hm Ll Lr Lv Lc' Ll' Lr' D. rewrite !candidates_R by (rewrite ?length_tlift; first [assumption|congruence|lia]). cbv beta zeta. cbn [fst snd].
  rewrite (D ac ac'), (D al al'), (D ar ar') by auto.
  assert (R0 : forall x y, dint (m - 1) (tlift k c v) x y - (nth (m - 1) (tlift k c v) 0 * mono_int 0 x y + nth m (tlift k c v) 0 * mono_int 1 x y) =
    k * (dint (m - 1) v x y - (nth (m - 1) v 0 * mono_int 0 x y + nth m v 0 * mono_int 1 x y))).
  { intros x y. rewrite dint_tlift, !nth_tlift by lia. destruct m as [|m]; [lia|]. cbn [unit0 Nat.sub]. rewrite Nat.sub_0_r. replace (mono_int 0 x y) with (y - x) by (unfold mono_int; cbn; field). ring. }
  rewrite !R0. set (rL := dint (m - 1) v (-3) (-1) - _). set (rC := dint (m - 1) v (-1) 1 - _). set (rR := dint (m - 1) v 1 3 - _).
  set (dl := dint (m - 1) al (-1) 1). set (dc := dint (m - 1) ac (-1) 1). set (dr := dint (m - 1) ar (-1) 1). clearbody rL rC rR dl dc dr.
  f_equal; [|field]. rewrite <- minmod_scale. f_equal; field.
Qed.
Lemma limit_monomial_tlift k c (ac al ar ac' al' ar' v : list R) : List.length al = List.length ac -> List.length ar = List.length ac ->
  List.length ac' = List.length ac -> List.length al' = List.length ac -> List.length ar' = List.length ac ->
  (forall m a a', (1 <= m < List.length ac)%nat -> (a, a') = (ac, ac') \/ (a, a') = (al, al') \/ (a, a') = (ar, ar') -> dint (m - 1) a' (-1) 1 = k * dint (m - 1) a (-1) 1 + 2 * (c * unit0 (m - 1))) ->
  limit_monomial ac al ar = Ok v -> limit_monomial ac' al' ar' = Ok (tlift k c v).
Proof.
  intros Ll Lr Lc' Ll' Lr' D H. apply limit_monomial_spec in H. destruct H as [L2 [Lv [H1 H0]]]. apply limit_monomial_spec. rewrite length_tlift, Lc'.
  split; [exact L2|]. split; [exact Lv|]. split.
  - intros n Hn. rewrite (candidates_tlift k c ac al ar ac' al' ar' v n) by (first [assumption|intros a a'; apply D; exact Hn]). cbn [fst]. unfold at1. change (n0 (A:=R)) with 0. rewrite nth_tlift by lia.
    specialize (H1 n Hn). unfold at1 in H1. change (n0 (A:=R)) with 0 in H1. rewrite H1. destruct n as [|n]; [lia|]. cbn [unit0]. ring.
  - rewrite (candidates_tlift k c ac al ar ac' al' ar' v 1) by (first [assumption|lia|intros a a'; apply D; lia]). cbn [snd]. unfold at1. change (n0 (A:=R)) with 0. rewrite nth_tlift by lia.
    unfold at1 in H0. change (n0 (A:=R)) with 0 in H0. rewrite H0. cbn [unit0 Nat.sub]. ring.
Qed.

Section HrLift.
  Context {X : Ext R}.
  (** the neighbours only enter through their averages when p = 1 *)
  Definition tied (p : nat) (k c : R) (u u' : list R) : Prop :=
    affine (p + 1) k c u u' \/ (p = 1%nat /\ List.length u = 2%nat /\ List.length u' = 2%nat /\ nth 0 u' 0 = nth 0 u 0 * k + c).
  Lemma hr_lift p h k c uc ul ur uc' ul' ur' v : maps_ok p h -> affine (p + 1) k c uc uc' -> tied p k c ul ul' -> tied p k c ur ur' ->
    hr h uc ul ur = Ok v -> exists v', hr h uc' ul' ur' = Ok v' /\ affine (p + 1) k c v v'.
  Proof.
    intros M Ac Tl Tr H.
    assert (Lt : forall u u', tied p k c u u' -> List.length u = (p + 1)%nat /\ List.length u' = (p + 1)%nat) by (intros u u' [[L1 [L2 _]]|[-> [L1 [L2 _]]]]; split; assumption).
    destruct (Lt _ _ (or_introl Ac)) as [Lc Lc']. destruct (Lt _ _ Tl) as [Ll Ll']. destruct (Lt _ _ Tr) as [Lr Lr'].
    destruct (hr_taylor p h uc ul ur M Lc Ll Lr) as [ac [al [ar [Kc [Kl [Kr [Tc [Tl0 [Tr0 HH]]]]]]]]].
    destruct (hr_taylor p h uc' ul' ur' M Lc' Ll' Lr') as [ac' [al' [ar' [Kc' [Kl' [Kr' [Tc' [Tl' [Tr' HH']]]]]]]]].
    apply HH in H. destruct H as [w [Hw ->]].
    assert (Lw : List.length w = (p + 1)%nat) by (apply limit_monomial_spec in Hw; destruct Hw as [_ [-> _]]; exact Kc).
    assert (Q : forall a a' u u', List.length a = (p + 1)%nat -> List.length a' = (p + 1)%nat -> (forall x, taylor a x = legseries u x) -> (forall x, taylor a' x = legseries u' x) -> tied p k c u u' ->
      forall m, (1 <= m < List.length ac)%nat -> dint (m - 1) a' (-1) 1 = k * dint (m - 1) a (-1) 1 + 2 * (c * unit0 (m - 1))).
    { intros a a' u u' La La' Ta Ta' T m Hm. destruct T as [T|[-> [Lu [Lu' T]]]].
      - replace a' with (tlift k c a); [rewrite dint_tlift by lia; ring|]. apply taylor_inj; [rewrite length_tlift; congruence|]. intro x. rewrite taylor_tlift by lia. rewrite Ta, Ta'.
        symmetry. apply (legseries_affine (p + 1)); [exact T|lia].
      - assert (m = 1%nat) as -> by lia. cbn [Nat.sub unit0].
        assert (Z : forall b w0, List.length b = 2%nat -> List.length w0 = 2%nat -> (forall x, taylor b x = legseries w0 x) -> dint 0 b (-1) 1 = 2 * nth 0 w0 0).
        { intros b w0 Lb L0 Tb. specialize (Tb 0). destruct b as [|b0 [|b1 [|]]]; try discriminate Lb. destruct w0 as [|w1 [|w2 [|]]]; try discriminate L0.
          rewrite (legseries_to 2) in Tb by (cbn; lia). unfold taylor in Tb. cbn in Tb. rewrite ?LegP_0, ?LegP_1 in Tb. unfold dint, mono_int. cbn. lra. }
        rewrite (Z a u), (Z a' u') by assumption. rewrite T. ring. }
    exists (dotv (h_M2L h) (tlift k c w)). split.
    - apply HH'. exists (tlift k c w). split; [|reflexivity]. apply (limit_monomial_tlift k c ac al ar); try congruence; [|exact Hw].
      intros m a a' Hm [E|[E|E]]; injection E as -> ->; [apply (Q _ _ uc uc')|apply (Q _ _ ul ul')|apply (Q _ _ ur ur')]; try assumption. left. exact Ac.
    - destruct (m2l_ok p h w M Lw) as [L1 E1]. destruct (m2l_ok p h (tlift k c w) M ltac:(rewrite length_tlift; exact Lw)) as [L2 E2].
      apply affine_legseries; [exact L1|exact L2|lia|]. intro x. rewrite E2, E1. apply taylor_tlift. lia.
  Qed.
End HrLift.

Lemma at_modes (ne : nat) (s : solution R) e n : wf ne s -> s_NF s = 1%nat -> (e < ne + 2)%nat -> (n < s_Ns s)%nat -> at1 (modes s e 0) n = at2 (s_u s) n e.
Proof. intros W F He Hn. rewrite (modes_at ne s e 0 n W He) by (first [exact Hn|lia]). rewrite F. f_equal. lia. Qed.
Section Run.
  Context {X : Ext R}.
  Hypothesis G : gauss_ok.
  Hypothesis IV : inv_ok.
  Variables (gamma k c : R) (ne : nat) (b0 : basis R) (full : bool).
  Let Nu := b_Ns b0.
  Let Co := (ne + 2)%nat.
  (** what is kept inside a step: everything, or the interior cells and the averages *)
  Definition hold (e n : nat) : Prop := full = true \/ (1 <= e <= ne)%nat \/ n = 0%nat.
  Definition Lu (hd : nat -> nat -> Prop) (cc : R) (u u' : mat R) : Prop := shape Nu Co u /\ shape Nu Co u' /\
    forall n e, (n < Nu)%nat -> (e < Co)%nat -> hd e n -> at2 u' n e = k * at2 u n e + cc * unit0 n.
  Definition Lr (hd : nat -> nat -> Prop) (s s' : solution R) : Prop :=
    lifted_on hd k c ne s s' /\ s_basis s = b0 /\ enh_sound s /\ bc_known (s_bcl s) /\ bc_known (s_bcr s).
  Notation Ls := (Lr (fun _ _ => True)).
  Notation Lw := (Lr hold).
  Notation LK := (Lu hold 0).

  Lemma L_NF hd s s' : Lr hd s s' -> s_NF s = 1%nat /\ s_NF s' = 1%nat.
  Proof. intros [[_ _ [E1 E2] _ _ _] _]. unfold s_NF. rewrite E1, E2. split; reflexivity. Qed.
  Lemma L_Ns hd s s' : Lr hd s s' -> s_Ns s = Nu /\ s_Ns s' = Nu.
  Proof. intros [[_ _ _ [Eb _] _ _] [E _]]. unfold s_Ns. rewrite Eb, E. split; reflexivity. Qed.
  Lemma L_u hd s s' : Lr hd s s' -> Lu hd c (s_u s) (s_u s').
  Proof.
    intros H. destruct (L_Ns _ _ _ H) as [N1 N2]. destruct (L_NF _ _ _ H) as [F1 F2]. destruct H as [[M M' _ _ _ Hm] _].
    pose proof (md_wf _ _ M) as W. pose proof (md_wf _ _ M') as W'. pose proof (wf_u _ _ W) as U1. pose proof (wf_u _ _ W') as U2. rewrite N1, F1 in U1. rewrite N2, F2 in U2.
    replace ((ne + 2) * 1)%nat with Co in U1, U2 by (unfold Co; lia). split; [exact U1|]. split; [exact U2|]. intros n e Hn He Hh.
    specialize (Hm e n He ltac:(rewrite N1; exact Hn) Hh). rewrite (at_modes ne s), (at_modes ne s') in Hm by (first [assumption|rewrite ?N1, ?N2; exact Hn]). rewrite Hm, unit0_match. reflexivity.
  Qed.
  Lemma u_L hd hd' s s' u u' : Lr hd s s' -> Lu hd' c u u' -> Lr hd' (with_u s u) (with_u s' u').
  Proof.
    intros H [S1 [S2 S3]]. destruct (L_Ns _ _ _ H) as [N1 N2]. destruct (L_NF _ _ _ H) as [F1 F2]. destruct H as [[M M' Eu S Ck Hm] R0].
    pose proof (md_wf _ _ M) as W. pose proof (md_wf _ _ M') as W'.
    assert (V : wf ne (with_u s u)) by (apply wf_with_u; [exact W|rewrite N1, F1; replace ((ne + 2) * 1)%nat with Co by (unfold Co; lia); exact S1]).
    assert (V' : wf ne (with_u s' u')) by (apply wf_with_u; [exact W'|rewrite N2, F2; replace ((ne + 2) * 1)%nat with Co by (unfold Co; lia); exact S2]).
    split; [|exact R0]. constructor; try assumption.
    - eapply made_similar; [exact M|apply similar_with_u|exact V].
    - eapply made_similar; [exact M'|apply similar_with_u|exact V'].
    - intros e n He Hn Hh. change (s_Ns (with_u s u)) with (s_Ns s) in Hn. rewrite (at_modes ne (with_u s u)), (at_modes ne (with_u s' u')); try assumption.
      + cbn [s_u with_u]. rewrite unit0_match. apply S3; [rewrite <- N1; exact Hn|exact He|exact Hh].
      + change (s_Ns (with_u s' u')) with (s_Ns s'). rewrite N2, <- N1. exact Hn.
  Qed.
  Lemma Lu_axpy cc u u' a K K' : Lu hold cc u u' -> LK K K' -> Lu hold cc (axpy_mat u a K) (axpy_mat u' a K').
  Proof.
    intros [S1 [S2 S3]] [T1 [T2 T3]]. split; [apply shape_axpy; assumption|]. split; [apply shape_axpy; assumption|]. intros n e Hn He Hh.
    unfold axpy_mat. destruct (nltb _ _); [|apply S3; assumption].
    assert (A : forall (v q : mat R), shape Nu Co v -> shape Nu Co q -> at2 (madd v (mscale a q)) n e = at2 v n e + a * at2 q n e).
    { intros v q Hv Hk. etransitivity; [refine (at2_madd _ _ v (mscale a q) n e Hv (shape_mscale _ _ a q Hk) Hn He)|].
      replace (at2 (mscale a q) n e) with (a * at2 q n e) by (symmetry; refine (at2_mscale _ _ a q n e Hk Hn He)). reflexivity. }
    etransitivity; [exact (A u' K' S2 T2)|]. symmetry. etransitivity; [apply f_equal2; [apply f_equal; exact (A u K S1 T1)|reflexivity]|]. symmetry.
    rewrite S3, T3 by assumption. ring.
  Qed.
  Lemma L_weak s s' : Ls s s' -> Lw s s'.
  Proof. intros [[M M' Eu S Ck Hm] R0]. split; [|exact R0]. constructor; try assumption. intros. apply Hm; auto. Qed.
  Lemma L_copy s s' t t' : Lw s s' -> Lw t t' -> Lw (copy_data_only s t) (copy_data_only s' t').
  Proof. intros H1 H2. apply (u_L hold); [exact H1|apply L_u; exact H2]. Qed.
  Lemma L_axpy s s' a K K' : Lw s s' -> LK K K' -> Lw (smart_axpy s a K) (smart_axpy s' a K').
  Proof. intros H1 H2. apply (u_L hold); [exact H1|]. apply Lu_axpy; [apply L_u; exact H1|exact H2]. Qed.
  Lemma L_t hd s s' t : Lr hd s s' -> Lr hd (with_t s t) (with_t s' t).
  Proof.
    intros [[M M' Eu S Ck Hm] R0]. split; [|exact R0]. constructor; try assumption.
    - destruct M. constructor; try assumption. apply wf_with_t. assumption.
    - destruct M'. constructor; try assumption. apply wf_with_t. assumption.
    - cbn. tauto.
  Qed.
  Lemma L_n hd s s' n : Lr hd s s' -> Lr hd (with_n s n) (with_n s' n).
  Proof.
    intros [[M M' Eu S Ck Hm] R0]. split; [|exact R0]. constructor; try assumption.
    - destruct M. constructor; try assumption. apply wf_with_n. assumption.
    - destruct M'. constructor; try assumption. apply wf_with_n. assumption.
    - cbn. tauto.
  Qed.
  Lemma L_time hd s s' : Lr hd s s' -> s_t s = s_t s' /\ s_n s = s_n s'.
  Proof. intros [[_ _ _ _ [-> ->] _] _]. split; reflexivity. Qed.
  Lemma L_bc s s' : Lw s s' -> Ls (with_u s (bc_u ne s)) (with_u s' (bc_u ne s')).
  Proof.
    intros H. destruct (L_Ns _ _ _ H) as [N1 N2]. destruct (L_NF _ _ _ H) as [F1 F2]. pose proof H as [[M M' Eu S Ck Hm] [Eb [En [Bl Br]]]]. pose proof (md_wf _ _ M) as W. pose proof (md_wf _ _ M') as W'.
    apply (u_L hold); [exact H|]. assert (B1 := bc_u_shape ne s). assert (B2 := bc_u_shape ne s'). rewrite N1, F1 in B1. rewrite N2, F2 in B2.
    replace ((ne + 2) * 1)%nat with Co in B1, B2 by (unfold Co; lia). split; [exact B1|]. split; [exact B2|]. intros n e Hn He _.
    pose proof (wf_apply_bc ne s W) as V. pose proof (wf_apply_bc ne s' W') as V'.
    assert (X1 : at2 (bc_u ne s) n e = at1 (modes (with_u s (bc_u ne s)) e 0) n) by (symmetry; apply (at_modes ne (with_u s (bc_u ne s))); try assumption; change (s_Ns (with_u s (bc_u ne s))) with (s_Ns s); rewrite N1; exact Hn).
    assert (X2 : at2 (bc_u ne s') n e = at1 (modes (with_u s' (bc_u ne s')) e 0) n) by (symmetry; apply (at_modes ne (with_u s' (bc_u ne s'))); try assumption; change (s_Ns (with_u s' (bc_u ne s'))) with (s_Ns s'); rewrite N2; exact Hn).
    rewrite X1, X2, (modes_bc ne s), (modes_bc ne s') by (first [assumption|lia]). destruct S as [_ [_ [_ [_ [-> ->]]]]].
    pose proof (src_interior (s_bcl s) (s_bcr s) ne e Bl Br (wf_ne _ _ W) He) as Hi.
    rewrite Hm by (first [rewrite N1; exact Hn|lia|right; left; exact Hi]). rewrite unit0_match. reflexivity.
  Qed.
  Lemma L_affine s s' e : Ls s s' -> (e < ne + 2)%nat -> affine Nu k c (modes s e 0) (modes s' e 0).
  Proof.
    intros H He. destruct (L_Ns _ _ _ H) as [N1 N2]. destruct H as [[M M' Eu S Ck Hm] _].
    split; [rewrite (length_modes ne s) by apply (md_wf _ _ M); exact N1|]. split; [rewrite (length_modes ne s') by apply (md_wf _ _ M'); exact N2|].
    intros n Hn. rewrite Hm by (first [exact He|rewrite N1; exact Hn|exact I]). rewrite unit0_match. ring.
  Qed.
  Lemma L_face s s' e : Ls s s' -> (e <= ne)%nat -> face_minus s' (modes s') e 0 = k * face_minus s (modes s) e 0 + c.
  Proof.
    intros H He. pose proof H as [[M M' Eu S Ck Hm] [_ [En _]]]. destruct S as [Sb [Se _]]. destruct (L_Ns _ _ _ H) as [N1 _].
    set (U := fun e' (f : nat) => match f with O => modes s e' 0 | _ => modes s' e' 0 end).
    destruct (face_affine IV ne s k c U e 0 1 M En) as [A _].
    { intros e' He'. rewrite N1. apply L_affine; [exact H|lia]. }
    unfold face_minus in *. rewrite Se, Sb. unfold U in A. destruct (s_enh s); rewrite A; numR; ring.
  Qed.
  Lemma L_volume s s' n e : Ls s s' -> (e < ne + 2)%nat -> (n < Nu)%nat ->
    volume_term gamma s' (modes s') n e 0 = k * volume_term gamma s (modes s) n e 0 + c * (1 - LegP n (-1)).
  Proof.
    intros H He Hn. pose proof (L_affine s s' e H He) as AF. destruct (L_NF _ _ _ H) as [F1 F2]. destruct (L_Ns _ _ _ H) as [N1 _]. pose proof H as [[M M' [E1 E2] S Ck Hm] [Eb _]]. destruct S as [Sb _].
    set (p := b_p (s_basis s)). assert (NP : Nu = (p + 1)%nat) by (rewrite <- N1; apply (made_Ns ne); exact M).
    unfold volume_term, phys_flux, node_state. rewrite E1, E2, F1, F2, Sb. rewrite (md_basis _ _ M). fold p.
    set (x := fun g => at1 (b_x (Basis p)) g).
    assert (L : forall u, List.length u = (p + 1)%nat -> tab (b_NG (Basis p)) (fun g => at1 (tab 1 (fun f => vdot (row (b_phi (Basis p)) g) u)) 0) = tab (p + 1) (fun g => legseries u (x g))).
    { intros u Lu0. replace (b_NG (Basis p)) with (p + 1)%nat by (symmetry; apply (G_len G)). apply tab_ext. intros g Hg. rewrite at1_tab by lia. apply phi_row; [rewrite (G_len G); exact Hg|exact Lu0]. }
    destruct AF as [L1 [L2 AF]].
    assert (Q : forall (w : list R), List.length w = (p + 1)%nat -> vdot w (tab (p + 1) (fun g => legseries (modes s' e 0) (x g))) = k * vdot w (tab (p + 1) (fun g => legseries (modes s e 0) (x g))) + c * vdot w (tab (p + 1) (fun _ => 1))).
    { intros w Lw0. rewrite !(vdot_R w _ (p + 1)) by (first [exact Lw0|apply length_tab]). rewrite <- !Rsum_scale, <- Rsum_plus. apply Rsum_ext. intros i Hi. rewrite !at1_tab by exact Hi.
      rewrite (legseries_affine Nu k c (modes s e 0) (modes s' e 0)) by (first [split; [exact L1|split; assumption]|lia]). ring. }
    assert (B : forall s0 : solution R, s_NF s0 = 1%nat -> tab (b_NG (Basis p)) (fun g => at1 (tab 1 (fun f => vdot (row (b_phi (Basis p)) g) (modes s0 e f))) 0) = tab (b_NG (Basis p)) (fun g => at1 (tab 1 (fun f => vdot (row (b_phi (Basis p)) g) (modes s0 e 0))) 0)) by reflexivity.
    rewrite (B s F1), (B s' F2), !L by (first [rewrite <- NP; assumption]).
    rewrite Q; [rewrite dphi_one by (first [exact G|lia]); reflexivity|].
    apply (shape_row (p + 1)); [|lia]. pose proof (wf_dphi _ _ (md_wf _ _ M)) as WD. rewrite N1, NP in WD. rewrite (md_basis _ _ M) in WD. fold p in WD. replace (b_NG (Basis p)) with (p + 1)%nat in WD by (symmetry; apply (G_len G)). exact WD.
  Qed.
  Lemma L_iface (s : solution R) e : wf ne s -> s_euler s = false -> iface_flux gamma s (modes s) e = Ok [face_minus s (modes s) e 0].
  Proof. intros W E. unfold iface_flux, num_flux, s_NF. rewrite (proj2 (wf_kind _ _ W) E), E. reflexivity. Qed.
  Lemma L_step hd s s' tout cfl tf : Lr hd s s' -> resx eq eq (get_next_time_step gamma s tout cfl tf) (get_next_time_step gamma s' tout cfl tf).
  Proof.
    intros [[M M' [E1 E2] S Ck Hm] _]. destruct S as [Sb [_ [_ [Sd _]]]]. destruct Ck as [Ct _].
    replace (get_next_time_step gamma s' tout cfl tf) with (get_next_time_step gamma s tout cfl tf).
    - destruct (get_next_time_step gamma s tout cfl tf); constructor; reflexivity.
    - unfold get_next_time_step, cfl_time_step, max_wave_speed. rewrite E1, E2, Sb, Sd, Ct. reflexivity.
  Qed.
  Lemma L_0 hd s s' : Lr hd s s' -> LK (zeros2 (nrows (s_u s)) (ncols (s_u s))) (zeros2 (nrows (s_u s')) (ncols (s_u s'))).
  Proof.
    intro H. destruct (L_u _ _ _ H) as [S1 [S2 _]]. assert (P : (1 <= Nu)%nat) by (unfold Nu, b_Ns; lia).
    rewrite (shape_ncols _ _ _ S1 P), (shape_ncols _ _ _ S2 P), (proj1 S1 : nrows (s_u s) = Nu), (proj1 S2 : nrows (s_u s') = Nu).
    split; [apply shape_tab2|]. split; [apply shape_tab2|]. intros n j Hn Hj _. unfold zeros2. rewrite !at2_tab2 by assumption. cbn. ring.
  Qed.
  (** limiting *)
  Lemma L_sensing s s' sn : (k = 1 \/ k = -1) -> Lw s s' -> s_sens s = Some sn -> sensing gamma false sn (s_u s') (s_NF s') = sensing gamma false sn (s_u s) (s_NF s).
  Proof.
    intros Hk H Hs. pose proof H as [[M M' [E1 E2] S Ck Hm] _]. destruct S as [_ [_ [Ss _]]]. pose proof (md_wf _ _ M) as W. pose proof (md_wf _ _ M') as W'.
    rewrite (sensing_adv gamma ne s sn W E1 Hs), (sensing_adv gamma ne s' sn W' E2) by (rewrite <- Hs; exact Ss).
    destruct (nth_error (sn_thresholds sn) 0) as [t0|]; [|reflexivity]. do 2 f_equal. apply tab_ext. intros e He.
    assert (C : forall i, (i <= ne)%nat -> jump_at s' t0 i = jump_at s t0 i).
    { intros i Hi. unfold jump_at, adv_sensor_value, cell_mean. rewrite !Hm by (first [lia|apply Ns_pos|right; right; reflexivity]). do 2 f_equal. numR.
      set (a := at1 (modes s i 0) 0). set (b := at1 (modes s (i + 1) 0) 0). clearbody a b.
      destruct Hk as [-> | ->]; [f_equal; ring|].
      replace (-1 * b + c - (-1 * a + c)) with (- (b - a)) by ring. apply Rabs_Ropp. }
    unfold near. rewrite (C (e - 1)%nat) by lia. destruct (Nat.leb_spec e ne); [rewrite (C e) by lia; reflexivity|reflexivity].
  Qed.
  Lemma L_tied s s' e : Lw s s' -> (full = true \/ b_p b0 = 1%nat) -> (e < ne + 2)%nat -> tied (b_p b0) k c (modes s e 0) (modes s' e 0).
  Proof.
    intros H Hf He. destruct (L_Ns _ _ _ H) as [N1 N2]. pose proof H as [[M M' Eu S Ck Hm] [Eb _]].
    assert (NP : Nu = (b_p b0 + 1)%nat) by (rewrite <- N1, <- Eb; apply (made_Ns ne); exact M).
    assert (L1 : List.length (modes s e 0) = Nu) by (rewrite (length_modes ne s) by apply (md_wf _ _ M); exact N1).
    assert (L2 : List.length (modes s' e 0) = Nu) by (rewrite (length_modes ne s') by apply (md_wf _ _ M'); exact N2).
    destruct Hf as [Hf|Hp].
    - left. rewrite <- NP. split; [exact L1|]. split; [exact L2|]. intros n Hn. rewrite Hm by (first [exact He|rewrite N1; exact Hn|left; exact Hf]). rewrite unit0_match. ring.
    - right. split; [exact Hp|]. rewrite L1, L2, NP, Hp. split; [reflexivity|]. split; [reflexivity|].
      specialize (Hm e 0%nat He ltac:(apply Ns_pos) ltac:(right; right; reflexivity)). unfold at1 in Hm. change (n0 (A:=R)) with 0 in Hm. rewrite Hm. ring.
  Qed.
  Lemma L_inner s s' e : Lw s s' -> (1 <= e <= ne)%nat -> affine (b_p b0 + 1) k c (modes s e 0) (modes s' e 0).
  Proof.
    intros H He. destruct (L_Ns _ _ _ H) as [N1 N2]. pose proof H as [[M M' Eu S Ck Hm] [Eb _]].
    assert (NP : Nu = (b_p b0 + 1)%nat) by (rewrite <- N1, <- Eb; apply (made_Ns ne); exact M). rewrite <- NP.
    split; [rewrite (length_modes ne s) by apply (md_wf _ _ M); exact N1|]. split; [rewrite (length_modes ne s') by apply (md_wf _ _ M'); exact N2|].
    intros n Hn. rewrite Hm by (first [lia|rewrite N1; exact Hn|right; left; exact He]). rewrite unit0_match. ring.
  Qed.
  Lemma L_adaptive_tied h s s' : maps_ok (b_p b0) h -> (1 <= b_p b0)%nat -> k = 1 \/ k = -1 -> (forall e, (e < ne + 2)%nat -> tied (b_p b0) k c (modes s e 0) (modes s' e 0)) ->
    Lw s s' -> resx eq Ls (limit gamma (Some h) s) (limit gamma (Some h) s').
  Proof.
    intros MO Hp Hk Hti H. destruct (L_Ns _ _ _ H) as [N1 N2]. destruct (L_NF _ _ _ H) as [F1 F2]. pose proof H as [[M M' [E1 E2] S Ck Hm] [Eb [En [Bl Br]]]].
    pose proof (md_wf _ _ M) as W. pose proof (md_wf _ _ M') as W'. pose proof S as [Sb [Se [Ss [Sd [Sl Sr]]]]].
    assert (NP : Nu = (b_p b0 + 1)%nat) by (rewrite <- N1, <- Eb; apply (made_Ns ne); exact M).
    cbn [limit]. destruct (s_sens s) as [sn|] eqn:Es.
    2:{ unfold adaptive_hr. rewrite Ss, Es. constructor. reflexivity. }
    destruct (sensing gamma false sn (s_u s) (s_NF s)) as [sn1|x] eqn:Hs.
    2:{ unfold adaptive_hr. rewrite Ss, Es, E1, E2, (L_sensing s s' sn Hk H Es), Hs. cbn [rbind]. constructor. reflexivity. }
    assert (Hs' : sensing gamma false sn (s_u s') (s_NF s') = Ok sn1) by (rewrite (L_sensing s s' sn Hk H Es); exact Hs).
    assert (LM : forall e f, List.length (modes s e f) = (b_p b0 + 1)%nat) by (intros; rewrite (length_modes ne s e f W), N1; exact NP).
    assert (LM' : forall e f, List.length (modes s' e f) = (b_p b0 + 1)%nat) by (intros; rewrite (length_modes ne s' e f W'), N2; exact NP).
    destruct (adaptive_hr_total gamma ne h s sn sn1 W Es ltac:(rewrite E1; exact Hs)) as [s1 A1].
    { intros e f He Hf' _. apply (hr_total (b_p b0)); [exact MO|apply LM|exact Hp]. }
    destruct (adaptive_hr_total gamma ne h s' sn sn1 W' ltac:(congruence) ltac:(rewrite E2; exact Hs')) as [s1' A1'].
    { intros e f He Hf' _. apply (hr_total (b_p b0)); [exact MO|apply LM'|exact Hp]. }
    rewrite A1, A1'. constructor.
    assert (Lh : List.length (h_M2L h) = s_Ns s) by (rewrite N1, NP; apply maps_len; exact MO).
    assert (Lh' : List.length (h_M2L h) = s_Ns s') by (rewrite N2, NP; apply maps_len; exact MO).
    destruct (adaptive_hr_spec gamma ne h s s1 W Lh A1) as [y [y1 [V [Ey [Hy [Es1 [S1 [T1 [Q1 [W1 [HV HM]]]]]]]]]]].
    destruct (adaptive_hr_spec gamma ne h s' s1' W' Lh' A1') as [z [z1 [V' [Ez [Hz [Es1' [S1' [T1' [Q1' [W1' [HV' HM']]]]]]]]]]].
    rewrite Es in Ey. injection Ey as <-. rewrite E1, Hs in Hy. apply Ok_inj in Hy. subst y1.
    rewrite Ss in Ez; try rewrite Es in Ez. injection Ez as <-. rewrite E2, Hs' in Hz. apply Ok_inj in Hz. subst z1.
    assert (Sim : forall x z : solution R, similar x z -> s_euler z = s_euler x /\ s_basis z = s_basis x /\ s_enh z = s_enh x /\ s_dx z = s_dx x /\ s_bcl z = s_bcl x /\ s_bcr z = s_bcr x).
    { intros x z [t [q [r [u [-> _]]]]]. repeat split. }
    destruct (Sim _ _ S1) as [B1 [B2 [B3 [B4 [B5 B6]]]]]. destruct (Sim _ _ S1') as [C1 [C2 [C3 [C4 [C5 C6]]]]].
    split.
    - constructor.
      + exact (made_similar ne s s1 M S1 W1).
      + exact (made_similar ne s' s1' M' S1' W1').
      + rewrite B1, C1. split; assumption.
      + rewrite B2, B3, B4, B5, B6, C2, C3, C4, C5, C6, Es1, Es1'. repeat split; assumption.
      + rewrite T1, T1', Q1, Q1'. exact Ck.
      + intros e n He Hn _. unfold s_Ns in Hn. rewrite B2 in Hn. fold (s_Ns s) in Hn. rewrite HM, HM' by (first [exact He|lia]). rewrite Sl, Sr.
        set (i := src_cell (s_bcl s) (s_bcr s) ne e). assert (Hi : (1 <= i <= ne)%nat) by (apply src_interior; try assumption; apply (wf_ne _ _ W)).
        destruct (HV i 0%nat ltac:(lia) ltac:(lia)) as [P1 P2]. destruct (HV' i 0%nat ltac:(lia) ltac:(lia)) as [P1' P2'].
        destruct (limited ne (sn_sensors sn1) i).
        * specialize (P1 eq_refl). specialize (P1' eq_refl).
          destruct (hr_lift (b_p b0) h k c _ _ _ (modes s' i 0) (modes s' (i - 1) 0) (modes s' (i + 1) 0) _ MO (L_inner s s' i H Hi) (Hti (i - 1)%nat ltac:(lia)) (Hti (i + 1)%nat ltac:(lia)) P1) as [v' [Hv [_ [_ Av]]]].
          rewrite Hv in P1'. apply Ok_inj in P1'. rewrite <- P1', Av by (rewrite <- NP, <- N1; exact Hn). rewrite unit0_match. ring.
        * rewrite P2, P2' by reflexivity. apply Hm; [lia|exact Hn|right; left; exact Hi].
    - unfold enh_sound. rewrite B2, B3, B5, B6. split; [exact Eb|]. split; [exact En|]. split; assumption.
  Qed.
  Variable l : limiter (A:=R).
  Hypothesis Hlim : forall h, l = Some h -> maps_ok (b_p b0) h /\ (1 <= b_p b0)%nat /\ (k = 1 \/ k = -1) /\ (full = true \/ b_p b0 = 1%nat).
  Lemma L_adaptive h s s' : l = Some h -> Lw s s' -> resx eq Ls (limit gamma (Some h) s) (limit gamma (Some h) s').
  Proof.
    intros El H. destruct (Hlim h El) as [MO [Hp [Hk Hf]]]. apply L_adaptive_tied; try assumption. intros e He. apply L_tied; assumption.
  Qed.
  Lemma L_limit s s' : Lw s s' -> resx eq Lw (limit gamma l s) (limit gamma l s').
  Proof.
    intro H. pose proof (fun h El => L_adaptive h s s' El H) as K. destruct l as [h|]; [|constructor; exact H]. destruct (K h eq_refl); constructor; [apply L_weak; assumption|assumption].
  Qed.
  Lemma L_limits s s' : Ls s s' -> resx eq Ls (limit gamma l s) (limit gamma l s').
  Proof. intro H. pose proof (fun h El => L_adaptive h s s' El (L_weak _ _ H)) as K. destruct l as [h|]; [|constructor; exact H]. exact (K h eq_refl). Qed.
  Variable d : dg.
  Hypothesis D0 : dg_rows d = b_Ns b0 /\ dg_cols d = ne.
  Hypothesis Hfull : full = true -> c = 0.
  Lemma L_res dt s s' : Lw s s' -> resx eq (fun p p' => Lw (fst p) (fst p') /\ LK (mscale dt (snd p)) (mscale dt (snd p'))) (residual gamma d s) (residual gamma d s').
  Proof.
    intros H. destruct (L_Ns _ _ _ H) as [N1 N2]. destruct (L_NF _ _ _ H) as [F1 F2]. pose proof H as [[M M' [E1 E2] S Ck Hm] _]. pose proof (md_wf _ _ M) as W. pose proof (md_wf _ _ M') as W'.
    assert (D1 : wf_dg ne s d) by (unfold wf_dg; rewrite N1, F1, Nat.mul_1_r; exact D0). assert (D2 : wf_dg ne s' d) by (unfold wf_dg; rewrite N2, F2, Nat.mul_1_r; exact D0).
    pose proof (L_bc _ _ H) as Ht. set (t := with_u s (bc_u ne s)) in *. set (t' := with_u s' (bc_u ne s')) in *.
    set (q := fun e => [face_minus t (modes t) e 0]). set (q' := fun e => [face_minus t' (modes t') e 0]).
    assert (R1 : residual gamma d s = Ok (t, residual_mat gamma ne t q)).
    { apply (residual_iff gamma ne s d); [exact W|exact D1|]. split; [reflexivity|]. exists q. split; [|reflexivity]. intros e He. apply (L_iface t e); [apply wf_apply_bc; exact W|exact E1]. }
    assert (R2 : residual gamma d s' = Ok (t', residual_mat gamma ne t' q')).
    { apply (residual_iff gamma ne s' d); [exact W'|exact D2|]. split; [reflexivity|]. exists q'. split; [|reflexivity]. intros e He. apply (L_iface t' e); [apply wf_apply_bc; exact W'|exact E2]. }
    rewrite R1, R2. constructor. cbn [fst snd]. split; [apply L_weak; exact Ht|].
    assert (G1 := shape_residual_mat gamma ne t q). assert (G2 := shape_residual_mat gamma ne t' q').
    change (s_Ns t) with (s_Ns s) in G1. change (s_NF t) with (s_NF s) in G1. change (s_Ns t') with (s_Ns s') in G2. change (s_NF t') with (s_NF s') in G2. rewrite N1, F1, Nat.mul_1_r in G1. rewrite N2, F2, Nat.mul_1_r in G2.
    split; [apply shape_mscale; exact G1|]. split; [apply shape_mscale; exact G2|]. intros n e Hn He Hh.
    etransitivity; [refine (at2_mscale _ _ dt _ n e G2 Hn He)|]. symmetry. etransitivity; [apply f_equal2; [apply f_equal; refine (at2_mscale _ _ dt _ n e G1 Hn He)|reflexivity]|]. symmetry.
    assert (K : at2 (residual_mat gamma ne t' q') n e = k * at2 (residual_mat gamma ne t q) n e).
    { unfold residual_mat. change (s_Ns t) with (s_Ns s). change (s_NF t) with (s_NF s). change (s_Ns t') with (s_Ns s'). change (s_NF t') with (s_NF s'). rewrite N1, F1, N2, F2.
      rewrite !at2_tab2 by (first [exact Hn|rewrite Nat.mul_1_r; exact He]). cbv zeta. rewrite Nat.div_1_r, Nat.mod_1_r.
      assert (Em : at1 (s_minv t') n = at1 (s_minv t) n).
      { change (s_minv t') with (s_minv s'). change (s_minv t) with (s_minv s). rewrite (md_minv _ _ M), (md_minv _ _ M') by (rewrite ?N1, ?N2; exact Hn). destruct S as [_ [_ [_ [-> _]]]]. reflexivity. }
      destruct ((1 <=? e)%nat && (e <=? ne)%nat)%bool eqn:Ei.
      - apply andb_true_iff in Ei. rewrite !Nat.leb_le in Ei. unfold residual_of. rewrite Em, (L_volume t t' n e Ht He Hn). unfold q, q', at1. cbn [nth].
        rewrite (L_face t t' (e - 1) Ht ltac:(lia)), (L_face t t' e Ht ltac:(lia)). fold (at1 (s_minv t) n). rewrite <- odd_even_sign. unfold face_term. numR. destruct (Nat.even n); ring.
      - rewrite Em, (L_volume t t' n e Ht He Hn). numR. destruct Hh as [Hh|[Hh| ->]].
        + rewrite (Hfull Hh). ring.
        + exfalso. apply andb_false_iff in Ei. rewrite !Nat.leb_gt in Ei. lia.
        + rewrite LegP_0. ring. }
    rewrite K. numR. ring.
  Qed.
  Lemma L_run rk cfl tf nout fuel sol sol' : Ls sol sol' ->
    let r := integrate gamma rk d l cfl tf nout fuel sol in
    let r' := integrate gamma rk d l cfl tf nout fuel sol' in
    Forall2 (Rev Ls) (fst r) (fst r') /\ outx eq Ls (snd r) (snd r').
  Proof.
    intro H. apply (integrate_relG gamma eq (@eq_refl exn) Ls Lw LK (fun _ => True) (fun _ => True) d l); auto.
    - exact L_weak. - exact L_copy. - exact L_axpy. - intros; apply L_t; assumption. - intros; eapply L_time; eassumption. - intros; apply L_limit; assumption.
    - intros; apply L_res; assumption. - intros; apply L_n; assumption.
    - intros s s' H1. pose proof H1 as [[M M' _ _ _ _] _]. rewrite (apply_bc_eq ne s (md_wf _ _ M)), (apply_bc_eq ne s' (md_wf _ _ M')). constructor. apply L_bc. exact H1.
    - intros; apply L_limits; assumption.
    - intros; eapply L_step; eassumption.
    - intros s s' q dt [[M M' _ _ _ _] _]. rewrite (printer_total ne q dt s (md_wf _ _ M)), (printer_total ne q dt s' (md_wf _ _ M')). eauto.
    - eapply L_0. exact H.
  Qed.
End Run.

(** ** without the section *)
Lemma lift_lifted {X : Ext R} k c ne s : made ne s -> s_euler s = false -> lifted k c ne s (lift k c ne s).
Proof.
  intros M E. pose proof (md_wf _ _ M) as W. assert (F : s_NF s = 1%nat) by (unfold s_NF; rewrite E; reflexivity).
  assert (W' : wf ne (lift k c ne s)) by (apply wf_with_u; [exact W|apply shape_tab2]).
  constructor; try exact M; try (split; assumption); try (repeat split; reflexivity).
  - eapply made_similar; [exact M|apply similar_with_u|exact W'].
  - intros e n He Hn _. rewrite (at_modes ne (lift k c ne s)), (at_modes ne s) by assumption. cbn [lift with_u s_u]. rewrite at2_tab2 by (first [exact Hn|rewrite F; lia]). reflexivity.
Qed.
Lemma level_run {X : Ext R} gamma k c ne (sol sol' : solution R) d l : gauss_ok -> inv_ok -> lifted k c ne sol sol' -> enh_sound sol -> bc_known (s_bcl sol) -> bc_known (s_bcr sol) -> wf_dg ne sol d ->
  l = None \/ (exists h, l = Some h /\ Limiter "adaptive_hr" sol = Ok (Some h)) /\ (1 <= b_p (s_basis sol))%nat /\ (k = 1 \/ k = -1) /\ (c = 0 \/ b_p (s_basis sol) = 1%nat) ->
  forall rk cfl tf nout fuel,
  let r := integrate gamma rk d l cfl tf nout fuel sol in
  let r' := integrate gamma rk d l cfl tf nout fuel sol' in
  Forall2 (lifted_event k c ne) (fst r) (fst r') /\ lifted_outcome k c ne (snd r) (snd r').
Proof.
  intros G IV H En Bl Br D HL rk cfl tf nout fuel. cbv zeta. pose proof (lf_euler _ _ _ _ _ _ H) as [E _]. assert (F : s_NF sol = 1%nat) by (unfold s_NF; rewrite E; reflexivity).
  destruct D as [D1 D2]. rewrite F, Nat.mul_1_r in D2.
  set (full := if Req_EM_T c 0 then true else false).
  assert (Hf : full = true -> c = 0) by (unfold full; destruct (Req_EM_T c 0); [auto|discriminate]).
  assert (Hlim : forall h, l = Some h -> maps_ok (b_p (s_basis sol)) h /\ (1 <= b_p (s_basis sol))%nat /\ (k = 1 \/ k = -1) /\ (full = true \/ b_p (s_basis sol) = 1%nat)).
  { intros h El. destruct HL as [HL|[[h' [E1 E2]] [Hp [Hk Hc]]]]; [congruence|]. assert (h' = h) by congruence. subst h'.
    split; [exact (Limiter_maps G IV ne sol h (lf_made _ _ _ _ _ _ H) E2)|]. split; [exact Hp|]. split; [exact Hk|]. destruct Hc as [Hc|Hc]; [left; unfold full; destruct (Req_EM_T c 0); [reflexivity|contradiction]|right; exact Hc]. }
  destruct (L_run G IV gamma k c ne (s_basis sol) full l Hlim d (conj D1 D2) Hf rk cfl tf nout fuel sol sol' (conj H (conj eq_refl (conj En (conj Bl Br))))) as [Ev O]. split.
  - clear - Ev. induction Ev as [|x y xs ys [X1 [X2 X3]] _ IH]; constructor; [|exact IH]. split; [symmetry; exact X1|]. split; [symmetry; exact X2|apply X3].
  - destruct O as [s s' [Y _]|e e' He|]; [constructor; exact Y|subst e'; constructor|constructor].
Qed.
(** one call of the limiter on data with filled ghost cells: any level, any order *)
Lemma level_limit {X : Ext R} gamma k c ne (s s' s1 : solution R) h : gauss_ok -> inv_ok -> lifted k c ne s s' -> enh_sound s -> bc_known (s_bcl s) -> bc_known (s_bcr s) -> k = 1 \/ k = -1 ->
  Limiter "adaptive_hr" s = Ok (Some h) -> (1 <= b_p (s_basis s))%nat -> limit gamma (Some h) s = Ok s1 -> exists s1', limit gamma (Some h) s' = Ok s1' /\ lifted k c ne s1 s1'.
Proof.
  intros G IV H En Bl Br Hk HL Hp H1. pose proof (Limiter_maps G IV ne s h (lf_made _ _ _ _ _ _ H) HL) as MO.
  assert (HS : Lr k c ne (s_basis s) (fun _ _ => True) s s') by (split; [exact H|split; [reflexivity|split; [exact En|split; assumption]]]).
  assert (NP : b_Ns (s_basis s) = (b_p (s_basis s) + 1)%nat) by (apply (made_Ns ne); exact (lf_made _ _ _ _ _ _ H)).
  pose proof (L_adaptive_tied gamma k c ne (s_basis s) false h s s' MO Hp Hk) as K.
  assert (K' : resx eq (Lr k c ne (s_basis s) (fun _ _ => True)) (limit gamma (Some h) s) (limit gamma (Some h) s')).
  { apply K; [|apply L_weak; exact HS]. intros e He. left. rewrite <- NP. exact (L_affine k c ne (s_basis s) s s' e HS He). }
  rewrite H1 in K'. destruct (limit gamma (Some h) s') as [y|e]; [|inversion K']. exists y. split; [reflexivity|]. inversion K' as [? ? [Y _]|]. exact Y.
Qed.
