(** The limiter and reflection: limiting the mirror image of a flow gives the mirror image of the limited flow, if the flags are mirrored. *)
From Coq Require Import ZArith List Bool Arith String Reals Lra Lia.
From Verif Require Import Num Py Lib RealLib LegNumpy Ext Basis Sensor Enhance Limiting AdvectionPhysics EulerPhysics Solution Solver RK
  SpecDG SpecPoly ProofsPoly ProofsLeg ProofsGauss ProofsDG ProofsWf ProofsCons ProofsEnh2 SpecLimit ProofsLim ProofsAHR SpecEuler ProofsRiemann ProofsLimRun ProofsSensor ProofsDescartes SpecMirror ProofsMirror ProofsMirrorRun ProofsSensorMirror.
Import ListNotations.
Open Scope list_scope.
Open Scope R_scope.

(** Taylor coefficients of k a(-x) *)
Definition tmir (k : R) (a : list R) : list R := tab (List.length a) (fun n => k * (-1) ^ n * nth n a 0).
Lemma length_tmir k a : List.length (tmir k a) = List.length a. Proof. apply length_tab. Qed.
Lemma nth_tmir k a n : nth n (tmir k a) 0 = k * (-1) ^ n * nth n a 0.
Proof.
  unfold tmir. destruct (Nat.lt_ge_cases n (List.length a)) as [H|H]; [rewrite nth_tab by exact H; reflexivity|].
  rewrite !nth_overflow by (try rewrite length_tab; exact H). ring.
Qed.
Lemma m1_sq n : (-1) ^ n * (-1) ^ n = 1.
Proof. rewrite <- Rpow_mult_distr. replace (-1 * -1) with 1 by ring. apply pow1. Qed.
Lemma pow_neg x n : (- x) ^ n = (-1) ^ n * x ^ n.
Proof. replace (- x) with (-1 * x) by ring. apply Rpow_mult_distr. Qed.
Lemma taylor_tmir k a x : taylor (tmir k a) x = k * taylor a (- x).
Proof.
  unfold taylor. rewrite length_tmir, <- Rsum_scale. apply Rsum_ext. intros n _. rewrite nth_tmir, pow_neg. unfold Rdiv. ring.
Qed.
Lemma mono_int_neg n a b : mono_int n (- b) (- a) = (-1) ^ n * mono_int n a b.
Proof. unfold mono_int. rewrite !(pow_neg _ (S n)). cbn [pow]. unfold Rdiv. ring. Qed.
Lemma dint_tmir m k v a b : dint m (tmir k v) (- b) (- a) = k * (-1) ^ m * dint m v a b.
Proof.
  unfold dint. rewrite length_tmir, <- Rsum_scale. apply Rsum_ext. intros i _. rewrite nth_tmir, mono_int_neg, pow_add.
  transitivity (k * (-1) ^ m * (nth (m + i) v 0 * mono_int i a b) * ((-1) ^ i * (-1) ^ i)); [ring|]. rewrite m1_sq. ring.
Qed.
Lemma candidates_tmir k (ac al ar v : list R) m : (1 <= m < List.length ac)%nat -> List.length al = List.length ac -> List.length ar = List.length ac -> List.length v = List.length ac ->
  hr_candidates (tmir k ac) (tmir k ar) (tmir k al) (tmir k v) m =
    (k * (-1) ^ m * fst (hr_candidates ac al ar v m), k * (-1) ^ (m - 1) * snd (hr_candidates ac al ar v m)).
Proof.
  intros Hm Hl Hr Hv. rewrite !candidates_R by (rewrite ?length_tmir; assumption). cbv zeta. cbn [fst snd].
  assert (Em : (-1) ^ m = - (-1) ^ (m - 1)) by (destruct m as [|m]; [lia|]; cbn [Nat.sub pow]; rewrite Nat.sub_0_r; ring).
  assert (D : forall w a b a' b', a' = - b -> b' = - a -> dint (m - 1) (tmir k w) a' b' = k * (-1) ^ (m - 1) * dint (m - 1) w a b) by (intros w a b a' b' -> ->; apply dint_tmir).
  assert (R0 : forall a b a' b', a' = - b -> b' = - a ->
    dint (m - 1) (tmir k v) a' b' - (nth (m - 1) (tmir k v) 0 * mono_int 0 a' b' + nth m (tmir k v) 0 * mono_int 1 a' b') =
    k * (-1) ^ (m - 1) * (dint (m - 1) v a b - (nth (m - 1) v 0 * mono_int 0 a b + nth m v 0 * mono_int 1 a b))).
  { intros a b a' b' Ea Eb. rewrite (D v a b a' b' Ea Eb), !nth_tmir, Em. subst a' b'. rewrite !mono_int_neg. cbn [pow]. ring. }
  rewrite (R0 1 3 (-3) (-1)), (R0 (-1) 1 (-1) 1), (R0 (-3) (-1) 1 3), !(D _ (-1) 1 (-1) 1) by lra.
  set (rL := dint (m - 1) v (-3) (-1) - _). set (rC := dint (m - 1) v (-1) 1 - _). set (rR := dint (m - 1) v 1 3 - _).
  set (dl := dint (m - 1) al (-1) 1). set (dc := dint (m - 1) ac (-1) 1). set (dr := dint (m - 1) ar (-1) 1). clearbody rL rC rR dl dc dr.
  f_equal; [|ring]. rewrite <- minmod_scale, minmod_sym. rewrite Em. f_equal; ring.
Qed.
Lemma limit_monomial_tmir k (ac al ar v : list R) : List.length al = List.length ac -> List.length ar = List.length ac -> limit_monomial ac al ar = Ok v ->
  limit_monomial (tmir k ac) (tmir k ar) (tmir k al) = Ok (tmir k v).
Proof.
  intros Hl Hr H. apply limit_monomial_spec in H. destruct H as [L2 [Lv [H1 H0]]]. apply limit_monomial_spec. rewrite !length_tmir.
  split; [exact L2|]. split; [exact Lv|]. split.
  - intros n Hn. rewrite (candidates_tmir k ac al ar v n) by assumption. cbn [fst]. unfold at1. rewrite nth_tmir. f_equal. exact (H1 n Hn).
  - rewrite (candidates_tmir k ac al ar v 1) by (try assumption; lia). cbn [snd Nat.sub]. unfold at1. rewrite nth_tmir. f_equal. exact H0.
Qed.

Section HrMirror.
  Context {X : Ext R}.
  Lemma hr_mirror p h k uc ul ur uc' ul' ur' v : maps_ok p h -> List.length uc = (p + 1)%nat -> List.length ul = (p + 1)%nat -> List.length ur = (p + 1)%nat ->
    List.length uc' = (p + 1)%nat -> List.length ul' = (p + 1)%nat -> List.length ur' = (p + 1)%nat ->
    (forall x, legseries uc' x = k * legseries uc (- x)) -> (forall x, legseries ul' x = k * legseries ur (- x)) -> (forall x, legseries ur' x = k * legseries ul (- x)) ->
    hr h uc ul ur = Ok v -> exists v', hr h uc' ul' ur' = Ok v' /\ forall n, nth n v' 0 = k * ((-1) ^ n * nth n v 0).
  Proof.
    intros M Lc Ll Lr Lc' Ll' Lr' Ec El Er H.
    destruct (hr_taylor p h uc ul ur M Lc Ll Lr) as [ac [al [ar [Kc [Kl [Kr [Tc [Tl [Tr HH]]]]]]]]].
    destruct (hr_taylor p h uc' ul' ur' M Lc' Ll' Lr') as [ac' [al' [ar' [Kc' [Kl' [Kr' [Tc' [Tl' [Tr' HH']]]]]]]]].
    assert (Q : forall a a' u u', List.length a = (p + 1)%nat -> List.length a' = (p + 1)%nat -> (forall x, taylor a x = legseries u x) -> (forall x, taylor a' x = legseries u' x) ->
      (forall x, legseries u' x = k * legseries u (- x)) -> a' = tmir k a).
    { intros a a' u u' L L' T T' E. apply taylor_inj; [rewrite length_tmir; congruence|]. intro x. rewrite taylor_tmir, T', T. apply E. }
    apply HH in H. destruct H as [w [Hw ->]]. apply (limit_monomial_tmir k) in Hw as Hw'; [|congruence|congruence].
    assert (Lw : List.length w = (p + 1)%nat) by (apply limit_monomial_spec in Hw; destruct Hw as [_ [-> _]]; exact Kc).
    exists (dotv (h_M2L h) (tmir k w)). split.
    - apply HH'. exists (tmir k w). split; [|reflexivity]. rewrite (Q ac ac' uc uc'), (Q ar al' ur ul'), (Q al ar' ul ur') by assumption. exact Hw'.
    - destruct (m2l_ok p h w M Lw) as [L1 E1]. destruct (m2l_ok p h (tmir k w) M ltac:(rewrite length_tmir; exact Lw)) as [L2 E2].
      intro n. rewrite <- mirror_nth. set (c := dotv (h_M2L h) w) in *.
      rewrite (legseries_inj_nth (dotv (h_M2L h) (tmir k w)) (legscale k (ProofsDescartes.mirror c))).
      + unfold legscale. rewrite (nth_map0 (nmul k)) by (cbn; ring). reflexivity.
      + intro x. rewrite E2, taylor_tmir, legseries_scale, mirror_series, E1. reflexivity.
  Qed.

  Lemma limit_mirror gamma ne (s s' : solution R) sn sn' sn1 sn1' h s1 : mirrored ne s s' -> maps_ok (b_p (s_basis s)) h ->
    s_sens s = Some sn -> s_sens s' = Some sn' -> sensing gamma (s_euler s) sn (s_u s) (s_NF s) = Ok sn1 -> sensing gamma (s_euler s') sn' (s_u s') (s_NF s') = Ok sn1' ->
    (forall e, (1 <= e <= ne)%nat -> nth e (sn_sensors sn1') 0%Z = nth (ne + 1 - e) (sn_sensors sn1) 0%Z) ->
    limit gamma (Some h) s = Ok s1 -> exists s1', limit gamma (Some h) s' = Ok s1' /\ mirrored ne s1 s1' /\ s_sens s1 = Some sn1 /\ s_sens s1' = Some sn1'.
  Proof.
    intros Mi MO Es Es' Hn Hn' Fl H. destruct (mi_NF _ _ _ Mi) as [F3 F3']. pose proof (mi_Ns _ _ _ Mi) as EN.
    pose proof Mi as [M M' [Eu Eu'] Sa [Bc1 Bc2] Hm]. pose proof (md_wf _ _ M) as W. pose proof (md_wf _ _ M') as W'.
    assert (NsP : s_Ns s = (b_p (s_basis s) + 1)%nat) by (apply (made_Ns ne); exact M).
    assert (Lh : List.length (h_M2L h) = s_Ns s) by (rewrite NsP; apply maps_len; exact MO).
    assert (Hne : (1 <= ne)%nat) by apply (wf_ne _ _ W).
    destruct (adaptive_hr_spec gamma ne h s s1 W Lh H) as [y [y1 [V [Ey [Hy [Es1 [S1 [T1 [N1 [W1 [HV HM]]]]]]]]]]].
    rewrite Es in Ey. injection Ey as <-. rewrite Hn in Hy. apply Ok_inj in Hy. subst y1.
    assert (Inn : forall l e, limited ne l e = true -> (1 <= e <= ne)%nat).
    { intros l e. unfold limited. rewrite !andb_true_iff, !Nat.leb_le. lia. }
    assert (Lim : forall e, (e < ne + 2)%nat -> limited ne (sn_sensors sn1') e = limited ne (sn_sensors sn1) (ne + 1 - e)).
    { intros e He. unfold limited. destruct (Nat.leb_spec 1 e); destruct (Nat.leb_spec e ne); destruct (Nat.leb_spec 1 (ne + 1 - e)); destruct (Nat.leb_spec (ne + 1 - e) ne); try lia; try reflexivity.
      cbn [andb]. rewrite Fl by lia. reflexivity. }
    assert (LM : forall e f, List.length (modes s e f) = (b_p (s_basis s) + 1)%nat) by (intros; rewrite (length_modes ne s e f W); exact NsP).
    assert (LM' : forall e f, List.length (modes s' e f) = (b_p (s_basis s) + 1)%nat) by (intros; rewrite (length_modes ne s' e f W'), EN; exact NsP).
    assert (HH : forall e f, (1 <= e <= ne)%nat -> (f < 3)%nat -> limited ne (sn_sensors sn1') e = true ->
      exists v', hr h (modes s' e f) (modes s' (e - 1) f) (modes s' (e + 1) f) = Ok v' /\ forall n, nth n v' 0 = parity f * ((-1) ^ n * nth n (V (ne + 1 - e)%nat f) 0)).
    { intros e f He Hf Hl. rewrite Lim in Hl by lia. destruct (HV (ne + 1 - e)%nat f ltac:(lia) ltac:(lia)) as [HV1 _]. specialize (HV1 Hl).
      apply (hr_mirror (b_p (s_basis s)) h (parity f) (modes s (ne + 1 - e) f) (modes s (ne + 1 - e - 1) f) (modes s (ne + 1 - e + 1) f)); try apply LM; try apply LM'; try assumption.
      - intro x. apply (series_mi ne); [exact Mi|lia|exact Hf].
      - intro x. rewrite (series_mi ne s s' (e - 1) f x Mi) by (try exact Hf; lia). replace (ne + 1 - (e - 1))%nat with (ne + 1 - e + 1)%nat by lia. reflexivity.
      - intro x. rewrite (series_mi ne s s' (e + 1) f x Mi) by (try exact Hf; lia). replace (ne + 1 - (e + 1))%nat with (ne + 1 - e - 1)%nat by lia. reflexivity. }
    destruct (adaptive_hr_total gamma ne h s' sn' sn1' W' Es' Hn') as [s1' H'].
    { intros e f He Hf Hl. rewrite F3' in Hf. destruct (HH e f (Inn _ _ Hl) Hf Hl) as [v' [Hv _]]. exists v'. exact Hv. }
    exists s1'. split; [exact H'|].
    destruct (adaptive_hr_spec gamma ne h s' s1' W' ltac:(rewrite EN; exact Lh) H') as [y [y1 [V' [Ey [Hy [Es1' [S1' [T1' [N1' [W1' [HV' HM']]]]]]]]]]].
    rewrite Es' in Ey. injection Ey as <-. rewrite Hn' in Hy. apply Ok_inj in Hy. subst y1.
    split; [|split; assumption].
    assert (Sd : forall x z : solution R, similar x z -> s_euler z = s_euler x /\ s_basis z = s_basis x /\ s_riemann z = s_riemann x /\ s_enh z = s_enh x /\ s_dx z = s_dx x /\ s_bcl z = s_bcl x /\ s_bcr z = s_bcr x).
    { intros x z [t [k [q [u [-> _]]]]]. repeat split. }
    destruct (Sd _ _ S1) as [A1 [A2 [A3 [A4 [A5 [A6 A7]]]]]]. destruct (Sd _ _ S1') as [B1 [B2 [B3 [B4 [B5 [B6 B7]]]]]]. destruct Sa as [C1 [C2 [C3 [C4 [C5 C6]]]]].
    constructor.
    - exact (made_similar ne s s1 M S1 W1).
    - exact (made_similar ne s' s1' M' S1' W1').
    - rewrite A1, B1. split; assumption.
    - rewrite A2, A3, A4, A5, B2, B3, B4, B5, T1, T1', N1, N1'. repeat split; assumption.
    - rewrite A6, A7, B6, B7. split; assumption.
    - intros e f n He Hf Hk. unfold s_Ns in Hk. rewrite A2 in Hk. fold (s_Ns s) in Hk. rewrite HM' by (rewrite ?F3'; assumption || lia). rewrite HM by (rewrite ?F3; lia).
      rewrite Bc1, Bc2. set (c := src_cell (s_bcr s) (s_bcl s) ne e).
      assert (Hc : (c < ne + 2)%nat) by (apply src_cell_lt; assumption).
      assert (Ec : src_cell (s_bcl s) (s_bcr s) ne (ne + 1 - e) = (ne + 1 - c)%nat) by (apply src_mirror; assumption). rewrite Ec.
      destruct (HV (ne + 1 - c)%nat f ltac:(lia) ltac:(lia)) as [_ P2]. destruct (HV' c f Hc ltac:(lia)) as [Q1 Q2]. pose proof (Lim c Hc) as Lc.
      destruct (limited ne (sn_sensors sn1') c) eqn:El.
      + destruct (HH c f (Inn _ _ El) Hf El) as [v' [Hv Ev]]. specialize (Q1 eq_refl). rewrite Hv in Q1. apply Ok_inj in Q1. rewrite <- Q1. exact (Ev n).
      + rewrite P2, Q2 by (try reflexivity; congruence). apply Hm; assumption.
  Qed.
End HrMirror.
