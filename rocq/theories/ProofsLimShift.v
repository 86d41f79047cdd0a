(** C44, the part that holds: one call of limit() on a periodic solution whose ghost cells are up to date commutes with cyclic shifts. *)
From Coq Require Import ZArith List Bool Arith String Lia.
From Verif Require Import Num Py Lib LegNumpy Ext Basis Sensor Enhance Limiting AdvectionPhysics EulerPhysics
  Solution Solver RKCoeffs RK SpecTime ProofsTime SpecDG ProofsDG ProofsDG2 ProofsWf ProofsCons ProofsRel ProofsShift SpecLimit ProofsLim ProofsAHR ProofsLimRun.
Import ListNotations.
Open Scope list_scope.
Open Scope nat_scope.

Lemma similar_back {A : Type} {N : Num A} (a b : solution A) : similar a b -> similar b a.
Proof.
  intros [t [n [x [u [-> T]]]]]. exists (s_t a), (s_n a), (s_sens a), (s_u a). split; [destruct a; reflexivity|]. cbn.
  destruct (s_sens a), x; try contradiction; try exact I. symmetry. exact T.
Qed.

Section LimShift.
  Context {A : Type} {N : Num A} {L : Libm A}.
  Variable gamma : A.
  Implicit Types s : solution A.
  Variables (ne k : nat) (s s' : solution A).
  Hypothesis (Hs : shift_of ne k s s') (Bl : s_bcl s = pylit "periodic") (Br : s_bcr s = pylit "periodic").
  Hypothesis (F : apply_bc s = Ok s) (F' : apply_bc s' = Ok s').
  Let P := src_cell (pylit "periodic") (pylit "periodic") ne.
  Let W : wf ne s := proj1 Hs.
  Let W' : wf ne s' := proj1 (proj2 Hs).
  Let Sm : similar s s' := proj1 (proj2 (proj2 Hs)).
  Let Hne : 1 <= ne := wf_ne _ _ W.

  Lemma sim_NF : s_NF s' = s_NF s. Proof. apply similar_NF, Sm. Qed.
  Lemma sim_bcl : s_bcl s' = s_bcl s. Proof. destruct Sm as [t [n [sn [u [-> _]]]]]. reflexivity. Qed.
  Lemma sim_bcr : s_bcr s' = s_bcr s. Proof. destruct Sm as [t [n [sn [u [-> _]]]]]. reflexivity. Qed.
  Lemma fresh e f : e < ne + 2 -> f < s_NF s -> modes s e f = modes s (P e) f.
  Proof.
    intros He Hf. destruct (apply_bc_modes ne s W) as [s1 [E [_ [_ M]]]]. rewrite F in E. apply Ok_inj in E. subst s1.
    specialize (M e f He Hf). rewrite Bl, Br in M. exact M.
  Qed.
  Lemma fresh' e f : e < ne + 2 -> f < s_NF s -> modes s' e f = modes s (shift_cell ne k (P e)) f.
  Proof.
    intros He Hf. destruct (apply_bc_modes ne s' W') as [s1 [E [_ [_ M]]]]. rewrite F' in E. apply Ok_inj in E. subst s1.
    rewrite M by (rewrite ?sim_NF; assumption). rewrite sim_bcl, sim_bcr, Bl, Br. apply Hs; [apply (P_range ne Hne); exact He|exact Hf].
  Qed.
  (** interface e of s' is interface shift (P e) of s *)
  Lemma iface e f : e <= ne -> f < s_NF s ->
    modes s' e f = modes s (shift_cell ne k (P e)) f /\ modes s' (e + 1) f = modes s (shift_cell ne k (P e) + 1) f.
  Proof.
    intros He Hf. split; [apply fresh'; [lia|exact Hf]|]. rewrite fresh' by (try exact Hf; lia).
    pose proof (shift_range ne Hne k (P e)) as Rg. rewrite (fresh (shift_cell ne k (P e) + 1)) by (try exact Hf; lia).
    f_equal. symmetry. apply (shift_P ne Hne k e He).
  Qed.
  Lemma iface_P j f : j <= ne -> f < s_NF s -> modes s j f = modes s (P j) f /\ modes s (j + 1) f = modes s (P j + 1) f.
  Proof.
    intros Hj Hf. split; [apply fresh; [lia|exact Hf]|]. rewrite (fresh (j + 1)) by (try exact Hf; lia).
    pose proof (P_range ne Hne j ltac:(lia)) as Rg. fold P in Rg. rewrite (fresh (P j + 1)) by (try exact Hf; lia).
    f_equal. pose proof (P_int ne (P j) Rg) as E. unfold P in *. rewrite !(P_succ ne Hne) by lia. rewrite E. reflexivity.
  Qed.
  Lemma mod_inj a b : 1 <= a <= ne -> 1 <= b <= ne -> a mod ne = b mod ne -> a = b.
  Proof.
    intros Ha Hb H. destruct (Nat.eq_dec a ne) as [->|Na]; destruct (Nat.eq_dec b ne) as [->|Nb]; [reflexivity| | |].
    - rewrite Nat.mod_same in H by lia. rewrite Nat.mod_small in H by lia. lia.
    - rewrite (Nat.mod_same ne) in H by lia. rewrite Nat.mod_small in H by lia. lia.
    - rewrite !Nat.mod_small in H by lia. exact H.
  Qed.
  Lemma pred_shift e : 1 <= e <= ne -> P (shift_cell ne k e - 1) = shift_cell ne k (P (e - 1)).
  Proof.
    intro He. pose proof (shift_range ne Hne k e) as Re. pose proof (P_range ne Hne (e - 1) ltac:(lia)) as Rp.
    pose proof (P_range ne Hne (shift_cell ne k e - 1) ltac:(lia)) as Rq.
    apply mod_inj; [exact Rq|apply shift_range; exact Hne|].
    pose proof (P_succ ne Hne (shift_cell ne k e - 1) ltac:(lia)) as E1. replace (shift_cell ne k e - 1 + 1) with (shift_cell ne k e) in E1 by lia.
    rewrite (P_int ne) in E1 by exact Re.
    pose proof (P_succ ne Hne (e - 1) ltac:(lia)) as E2. replace (e - 1 + 1) with e in E2 by lia. rewrite (P_int ne) in E2 by exact He.
    pose proof (shift_succ ne Hne k (P (e - 1)) Rp) as E3. unfold P in *. rewrite <- E2 in E3. rewrite E1 in E3. lia.
  Qed.
  (** the two interfaces of cell e of s' are those of cell shift e of s *)
  Lemma iface_left e f : 1 <= e <= ne -> f < s_NF s ->
    modes s' (e - 1) f = modes s (shift_cell ne k e - 1) f /\ modes s' (e - 1 + 1) f = modes s (shift_cell ne k e - 1 + 1) f.
  Proof.
    intros He Hf. pose proof (shift_range ne Hne k e) as Re. destruct (iface (e - 1) f ltac:(lia) Hf) as [-> ->].
    destruct (iface_P (shift_cell ne k e - 1) f ltac:(lia) Hf) as [-> ->]. rewrite pred_shift by exact He. split; reflexivity.
  Qed.
  Lemma iface_right e f : 1 <= e <= ne -> f < s_NF s ->
    modes s' e f = modes s (shift_cell ne k e) f /\ modes s' (e + 1) f = modes s (shift_cell ne k e + 1) f.
  Proof. intros He Hf. destruct (iface e f ltac:(lia) Hf) as [-> ->]. unfold P. rewrite (P_int ne) by exact He. split; reflexivity. Qed.

  Lemma near_shift (Q Q' : nat -> bool) e : 1 <= e <= ne ->
    (forall i j, i <= ne -> j <= ne -> (forall f, f < s_NF s -> modes s' i f = modes s j f /\ modes s' (i + 1) f = modes s (j + 1) f) -> Q' i = Q j) ->
    near ne Q' e = near ne Q (shift_cell ne k e).
  Proof.
    intros He HQ. pose proof (shift_range ne Hne k e) as Re. unfold near.
    rewrite (HQ (e - 1) (shift_cell ne k e - 1)) by (try lia; intros; apply iface_left; assumption).
    rewrite (HQ e (shift_cell ne k e)) by (try lia; intros; apply iface_right; assumption).
    replace (1 <=? e) with true by (symmetry; apply Nat.leb_le; lia). replace (e <=? ne) with true by (symmetry; apply Nat.leb_le; lia).
    replace (1 <=? shift_cell ne k e) with true by (symmetry; apply Nat.leb_le; lia).
    replace (shift_cell ne k e <=? ne) with true by (symmetry; apply Nat.leb_le; lia). reflexivity.
  Qed.
  Lemma mean_eq i j f : modes s' i f = modes s j f -> cell_mean s' i f = cell_mean s j f.
  Proof. unfold cell_mean. intros ->. reflexivity. Qed.
  Lemma state_eq i j : s_euler s = true -> (forall f, f < s_NF s -> modes s' i f = modes s j f) -> state3 s' i = state3 s j.
  Proof.
    intros Eu H. assert (NF : s_NF s = 3) by (unfold s_NF; rewrite Eu; reflexivity). unfold state3.
    rewrite (mean_eq i j 0), (mean_eq i j 1), (mean_eq i j 2) by (apply H; lia). reflexivity.
  Qed.

  (** flags move with the cells *)
  Lemma sensing_shift sn sn1 : s_sens s = Some sn -> sensing gamma (s_euler s) sn (s_u s) (s_NF s) = Ok sn1 ->
    exists sn' sn1', s_sens s' = Some sn' /\ sensing gamma (s_euler s') sn' (s_u s') (s_NF s') = Ok sn1' /\
      forall e, 1 <= e <= ne -> nth e (sn_sensors sn1') 0%Z = nth (shift_cell ne k e) (sn_sensors sn1) 0%Z.
  Proof.
    intros Es H. assert (Es' : exists sn', s_sens s' = Some sn' /\ sn_thresholds sn' = sn_thresholds sn).
    { destruct Sm as [t [n [sn' [u [E T]]]]]. rewrite Es in T. destruct sn' as [y|]; [|contradiction]. exists y. rewrite E. split; [reflexivity|congruence]. }
    destruct Es' as [sn' [Es' Et]]. exists sn'. rewrite (similar_euler _ _ Sm).
    assert (Rg : forall e, shift_cell ne k e < ne + 2) by (intro e; pose proof (shift_range ne Hne k e); lia).
    destruct (s_euler s) eqn:Eu.
    - pose proof (sensing_euler gamma ne s' sn' W' ltac:(rewrite (similar_euler _ _ Sm); exact Eu) Es') as E'.
      rewrite (sensing_euler gamma ne s sn W Eu Es) in H. rewrite Et in E'.
      destruct (nth_error (sn_thresholds sn) 0) as [t0|]; [|discriminate]. destruct (nth_error (sn_thresholds sn) 1) as [t1|]; [|discriminate].
      apply Ok_inj in H. subst sn1. eexists. split; [exact Es'|]. split; [exact E'|]. intros e He. cbn [sn_sensors].
      rewrite !nth_tab by (try apply Rg; lia).
      rewrite (near_shift (shock_at gamma s t1) (shock_at gamma s' t1)), (near_shift (contact_at gamma s t0) (contact_at gamma s' t0)); try exact He; [reflexivity| |].
      + intros i j Hi Hj Hm. unfold contact_at. rewrite (state_eq i j), (state_eq (i + 1) (j + 1)) by (try exact Eu; intros; apply Hm; assumption). reflexivity.
      + intros i j Hi Hj Hm. unfold shock_at. rewrite (state_eq i j), (state_eq (i + 1) (j + 1)) by (try exact Eu; intros; apply Hm; assumption). reflexivity.
    - pose proof (sensing_adv gamma ne s' sn' W' ltac:(rewrite (similar_euler _ _ Sm); exact Eu) Es') as E'.
      rewrite (sensing_adv gamma ne s sn W Eu Es) in H. rewrite Et in E'. destruct (nth_error (sn_thresholds sn) 0) as [t0|]; [|discriminate].
      apply Ok_inj in H. subst sn1. eexists. split; [exact Es'|]. split; [exact E'|]. intros e He. cbn [sn_sensors].
      rewrite !nth_tab by (try apply Rg; lia). rewrite (near_shift (jump_at s t0) (jump_at s' t0)); [reflexivity|exact He|].
      intros i j Hi Hj Hm. unfold jump_at. assert (Z0 : 0 < s_NF s) by apply NF_pos.
      rewrite (mean_eq i j), (mean_eq (i + 1) (j + 1)) by (apply Hm; exact Z0). reflexivity.
  Qed.

  Lemma limit_shift h s1 : List.length (h_M2L h) = s_Ns s -> limit gamma (Some h) s = Ok s1 ->
    exists s1', limit gamma (Some h) s' = Ok s1' /\ shift_of ne k s1 s1' /\
      exists sn sn', s_sens s1 = Some sn /\ s_sens s1' = Some sn' /\
        forall e, 1 <= e <= ne -> nth e (sn_sensors sn') 0%Z = nth (shift_cell ne k e) (sn_sensors sn) 0%Z.
  Proof.
    intros Lh H. destruct (adaptive_hr_spec gamma ne h s s1 W Lh H) as [sn [sn1 [V [Es [Hn [Es1 [S1 [T1 [N1 [W1 [HV HM]]]]]]]]]]].
    destruct (sensing_shift sn sn1 Es Hn) as [sn' [sn1' [Es' [Hn' Fl]]]].
    assert (Lim : forall e, 1 <= e <= ne -> limited ne (sn_sensors sn1') e = limited ne (sn_sensors sn1) (shift_cell ne k e)).
    { intros e He. pose proof (shift_range ne Hne k e) as Re. unfold limited. rewrite Fl by exact He.
      replace (1 <=? e) with true by (symmetry; apply Nat.leb_le; lia). replace (e <=? ne) with true by (symmetry; apply Nat.leb_le; lia).
      replace (1 <=? shift_cell ne k e) with true by (symmetry; apply Nat.leb_le; lia).
      replace (shift_cell ne k e <=? ne) with true by (symmetry; apply Nat.leb_le; lia). reflexivity. }
    assert (Inn : forall l e, limited ne l e = true -> 1 <= e <= ne).
    { intros l e. unfold limited. rewrite !andb_true_iff, !Nat.leb_le. lia. }
    assert (Ns : s_Ns s' = s_Ns s) by (destruct Sm as [t [n [x [u [-> _]]]]]; reflexivity).
    assert (HH : forall e f, 1 <= e <= ne -> f < s_NF s ->
      hr h (modes s' e f) (modes s' (e - 1) f) (modes s' (e + 1) f) =
      hr h (modes s (shift_cell ne k e) f) (modes s (shift_cell ne k e - 1) f) (modes s (shift_cell ne k e + 1) f)).
    { intros e f He Hf. destruct (iface_left e f He Hf) as [-> _]. destruct (iface_right e f He Hf) as [-> ->]. reflexivity. }
    destruct (adaptive_hr_total gamma ne h s' sn' sn1' W' Es' Hn') as [s1' H'].
    { intros e f He Hf Hl. pose proof (Inn _ _ Hl) as Hi. rewrite sim_NF in Hf. rewrite Lim in Hl by exact Hi. pose proof (shift_range ne Hne k e) as Re.
      destruct (HV (shift_cell ne k e) f ltac:(lia) Hf) as [HV1 _]. specialize (HV1 Hl). exists (V (shift_cell ne k e) f). rewrite HH by assumption. exact HV1. }
    exists s1'. split; [exact H'|].
    destruct (adaptive_hr_spec gamma ne h s' s1' W' ltac:(rewrite Ns; exact Lh) H') as [y [y1 [V' [Ey [Hy [Es1' [S1' [T1' [N1' [W1' [HV' HM']]]]]]]]]]].
    rewrite Es' in Ey. injection Ey as <-. rewrite Hn' in Hy. apply Ok_inj in Hy. subst y1.
    split.
    - split; [exact W1|]. split; [exact W1'|]. split.
      + apply (similar_trans _ s); [|apply (similar_trans _ s'); assumption].
        apply similar_back. exact S1.
      + pose proof (proj2 (proj2 (proj2 Hs))) as [Et [En Em]]. split; [congruence|]. split; [congruence|]. intros e f He Hf.
        assert (Hf' : f < s_NF s) by (rewrite (similar_NF _ _ S1) in Hf; exact Hf). pose proof (shift_range ne Hne k e) as Re.
        rewrite HM' by (rewrite ?sim_NF; try assumption; lia). rewrite HM by (try assumption; lia). rewrite !src_cell_interior by assumption.
        destruct (HV (shift_cell ne k e) f ltac:(lia) Hf') as [A1 A2]. destruct (HV' e f ltac:(lia) ltac:(rewrite sim_NF; exact Hf')) as [B1 B2].
        rewrite Lim in B1, B2 by exact He. destruct (limited ne (sn_sensors sn1) (shift_cell ne k e)).
        * specialize (A1 eq_refl). specialize (B1 eq_refl). rewrite HH in B1 by assumption. rewrite A1 in B1. apply Ok_inj in B1. symmetry. exact B1.
        * rewrite A2, B2 by reflexivity. apply Em; assumption.
    - exists sn1, sn1'. split; [exact Es1|]. split; [exact Es1'|exact Fl].
  Qed.
End LimShift.
