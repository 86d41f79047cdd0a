(** C54 for whole solutions: the flags of the mirror image of a flow. *)
From Coq Require Import ZArith List Bool Arith String Reals Lra Lia.
From Verif Require Import Num Py Lib RealLib LegNumpy Ext Basis Sensor Enhance Limiting AdvectionPhysics EulerPhysics Solution Solver RK
  SpecDG ProofsDG ProofsWf ProofsCons SpecLimit ProofsLim ProofsAHR SpecEuler ProofsRiemann ProofsLimRun ProofsSensor SpecMirror ProofsMirror ProofsMirrorRun ExtReal Witness.
Import ListNotations.
Open Scope list_scope.
Open Scope R_scope.

(** reversing the interfaces reverses the pattern of flagged cells *)
Lemma near_mirror ne (Q Q' : nat -> bool) e : (e < ne + 2)%nat ->
  (forall i, (i <= ne)%nat -> (i = e \/ i + 1 = e)%nat -> Q' i = Q (ne - i)%nat) -> near ne Q' e = near ne Q (ne + 1 - e).
Proof.
  intros He H. unfold near. destruct (Nat.leb_spec 1 e) as [H1|H1]; destruct (Nat.leb_spec e ne) as [H2|H2].
  - rewrite (H (e - 1)%nat), (H e) by lia. replace (ne + 1 - e - 1)%nat with (ne - e)%nat by lia. replace (ne - (e - 1))%nat with (ne + 1 - e)%nat by lia.
    replace (1 <=? ne + 1 - e)%nat with true by (symmetry; apply Nat.leb_le; lia). replace (ne + 1 - e <=? ne)%nat with true by (symmetry; apply Nat.leb_le; lia).
    cbn [andb]. apply orb_comm.
  - rewrite (H (e - 1)%nat) by lia. replace (ne - (e - 1))%nat with (ne + 1 - e)%nat by lia. replace (1 <=? ne + 1 - e)%nat with false by (symmetry; apply Nat.leb_gt; lia).
    replace (ne + 1 - e <=? ne)%nat with true by (symmetry; apply Nat.leb_le; lia). cbn [andb orb]. apply orb_false_r.
  - rewrite (H e) by lia. replace (ne + 1 - e - 1)%nat with (ne - e)%nat by lia.
    replace (1 <=? ne + 1 - e)%nat with true by (symmetry; apply Nat.leb_le; lia). replace (ne + 1 - e <=? ne)%nat with false by (symmetry; apply Nat.leb_gt; lia).
    cbn [andb orb]. rewrite orb_false_r. reflexivity.
  - lia.
Qed.

Section Flags.
  Context {X : Ext R}.
  Variables (g : R) (ne : nat) (s s' : solution R).
  Hypotheses (Hg : 1 < g) (M : mirrored ne s s').
  Lemma state3_mirror e : (e < ne + 2)%nat -> state3 s' e = mirror (state3 s (ne + 1 - e)).
  Proof.
    intro He. assert (P0 : (0 < s_Ns s)%nat) by apply Ns_pos. unfold state3, cell_mean, mirror.
    rewrite !(mi_modes _ _ _ M) by (try exact He; try exact P0; lia). cbn [parity pow]. f_equal; [f_equal|]; ring.
  Qed.
  Hypothesis Ad : forall e, (e < ne + 2)%nat -> admissible g (state3 s e).
  Lemma contact_at_mirror t i : (i <= ne)%nat -> contact_at g s' t i = contact_at g s t (ne - i).
  Proof.
    intro Hi. unfold contact_at. rewrite !state3_mirror by lia. replace (ne + 1 - (i + 1))%nat with (ne - i)%nat by lia.
    replace (ne + 1 - i)%nat with (ne - i + 1)%nat by lia. rewrite (contact_mirror g Hg) by (apply Ad; lia). reflexivity.
  Qed.
  (** the two compression tests agree, or the jump is too weak to matter *)
  Definition even_shock (t : R) (i : nat) : Prop :=
    shock_value g (state3 s i) (state3 s (i + 1)) <= t \/
    shock_compressive g (mirror (state3 s (i + 1))) (mirror (state3 s i)) = shock_compressive g (state3 s i) (state3 s (i + 1)).
  Lemma shock_at_mirror t i : (i <= ne)%nat -> even_shock t (ne - i) -> shock_at g s' t i = shock_at g s t (ne - i).
  Proof.
    intros Hi Hev. unfold shock_at. rewrite !state3_mirror by lia. replace (ne + 1 - (i + 1))%nat with (ne - i)%nat by lia.
    replace (ne + 1 - i)%nat with (ne - i + 1)%nat by lia. rewrite (shock_mirror g Hg) by (apply Ad; lia).
    destruct Hev as [Hw|Hc]; [|rewrite Hc; reflexivity].
    replace (nltb t (shock_value g (state3 s (ne - i)) (state3 s (ne - i + 1)))) with false; [reflexivity|].
    symmetry. numR. apply Rltb_false. lra.
  Qed.
  Lemma flags_mirror sn sn' sn1 t0 t1 : s_sens s = Some sn -> s_sens s' = Some sn' -> sn_thresholds sn' = sn_thresholds sn ->
    nth_error (sn_thresholds sn) 0 = Some t0 -> nth_error (sn_thresholds sn) 1 = Some t1 -> sensing g (s_euler s) sn (s_u s) (s_NF s) = Ok sn1 ->
    exists sn1', sensing g (s_euler s') sn' (s_u s') (s_NF s') = Ok sn1' /\
      forall e, (e < ne + 2)%nat -> (forall i, (i <= ne)%nat -> (i = e \/ i + 1 = e)%nat -> even_shock t1 (ne - i)) ->
        nth e (sn_sensors sn1') 0%Z = nth (ne + 1 - e) (sn_sensors sn1) 0%Z.
  Proof.
    intros Es Es' Et T0 T1 H. destruct (mi_euler _ _ _ M) as [Eu Eu'].
    rewrite Eu, (sensing_euler g ne s sn (md_wf _ _ (mi_made _ _ _ M)) Eu Es), T0, T1 in H. apply Ok_inj in H. subst sn1.
    rewrite Eu', (sensing_euler g ne s' sn' (md_wf _ _ (mi_made' _ _ _ M)) Eu' Es'), Et, T0, T1. eexists. split; [reflexivity|].
    intros e He Hev. cbn [sn_sensors]. rewrite !nth_tab by lia.
    rewrite (near_mirror ne (shock_at g s t1) (shock_at g s' t1) e He) by (intros i Hi Hie; apply shock_at_mirror; [exact Hi|apply Hev; assumption]).
    rewrite (near_mirror ne (contact_at g s t0) (contact_at g s' t0) e He) by (intros i Hi _; apply contact_at_mirror; exact Hi). reflexivity.
  Qed.
End Flags.

(** advection: reversing the cell averages reverses the flags *)
Lemma flags_mirror_adv g ne (s s' : solution R) sn sn' sn1 : wf ne s -> wf ne s' -> s_euler s = false -> s_euler s' = false ->
  (forall e, (e < ne + 2)%nat -> cell_mean s' e 0 = cell_mean s (ne + 1 - e) 0) ->
  s_sens s = Some sn -> s_sens s' = Some sn' -> sn_thresholds sn' = sn_thresholds sn -> sensing g (s_euler s) sn (s_u s) (s_NF s) = Ok sn1 ->
  exists sn1', sensing g (s_euler s') sn' (s_u s') (s_NF s') = Ok sn1' /\
    forall e, (e < ne + 2)%nat -> nth e (sn_sensors sn1') 0%Z = nth (ne + 1 - e) (sn_sensors sn1) 0%Z.
Proof.
  intros W W' Eu Eu' Hm Es Es' Et H. rewrite Eu, (sensing_adv g ne s sn W Eu Es) in H. rewrite Eu', (sensing_adv g ne s' sn' W' Eu' Es'), Et.
  destruct (nth_error (sn_thresholds sn) 0) as [t|]; [|discriminate]. apply Ok_inj in H. subst sn1. eexists. split; [reflexivity|].
  intros e He. cbn [sn_sensors]. rewrite !nth_tab by lia. rewrite (near_mirror ne (jump_at s t) (jump_at s' t) e He); [reflexivity|].
  intros i Hi _. unfold jump_at. rewrite !Hm by lia. replace (ne + 1 - (i + 1))%nat with (ne - i)%nat by lia. replace (ne + 1 - i)%nat with (ne - i + 1)%nat by lia.
  f_equal. unfold adv_sensor_value. rewrite !sensor_fn_R. numR. rewrite Rabs_minus_sym. reflexivity.
Qed.

(** gas at rest with a pressure jump 1 : 10 in the middle of eight cells *)
Definition comp (f : nat) (c : st) : R := let '(a, b, d) := c in match f with 0%nat => a | 1%nat => b | _ => d end.
Definition step_state (g : R) (e : nat) : st := if (e <=? 4)%nat then cons g 1 0 1 else cons g 1 0 10.
Definition step_u (g : R) (Ns : nat) : mat R := tab2 Ns (10 * 3) (fun n j => if (n =? 0)%nat then comp (j mod 3) (step_state g (j / 3)) else 0).
Lemma step_admissible g e : 1 < g -> admissible g (step_state g e).
Proof. intro Hg. unfold step_state. destruct (e <=? 4)%nat; [exists 1, 0, 1|exists 1, 0, 10]; repeat split; lra. Qed.

Lemma flags_not_mirrored g p r : 1 < g -> exists s s' sn sn1 sn1', @mirrored ExtReal 8 s s' /\ b_p (s_basis s) = p /\ s_riemann s = riemann_choice true r /\
  (forall e, (e < 8 + 2)%nat -> admissible g (state3 s e)) /\
  s_sens s = Some sn /\ s_sens s' = Some sn /\ sn_thresholds sn = [1 / 2; 1 / 3] /\
  sensing g (s_euler s) sn (s_u s) (s_NF s) = Ok sn1 /\ sensing g (s_euler s') sn (s_u s') (s_NF s') = Ok sn1' /\
  sn_sensors sn1 = [0; 0; 0; 0; 2; 2; 0; 0; 0; 0]%Z /\ sn_sensors sn1' = [0; 0; 0; 0; 0; 0; 0; 0; 0; 0]%Z.
Proof.
  intro Hg. destruct (entropy_built p r) as [s0 [d [B _]]]. destruct (built_sens _ _ _ _ _ _ _ (1 / 2) [1 / 3] B) as [_ M0]. set (s1 := with_sens s0 _) in *.
  assert (Eu : s_euler s1 = true) by exact (bl_euler _ _ _ _ _ _ _ B).
  assert (NF : s_NF s1 = 3%nat) by (unfold s_NF; rewrite Eu; reflexivity).
  set (s := with_u s1 (step_u g (s_Ns s1))).
  assert (Wu : wf 8 s). { apply wf_with_u; [exact (md_wf _ _ M0)|]. rewrite NF. apply shape_tab2. }
  assert (M : @made ExtReal 8 s) by (apply (made_similar 8 s1); [exact M0|apply similar_with_u|exact Wu]).
  pose proof (reflect_mirrored (X := ExtReal) 8 s M Eu) as Mi.
  assert (St : forall e, (e < 10)%nat -> state3 s e = step_state g e).
  { intros e He. unfold state3, cell_mean, s. assert (P0 : (0 < s_Ns s1)%nat) by apply Ns_pos.
    assert (K : forall f, (f < 3)%nat -> at1 (modes (with_u s1 (step_u g (s_Ns s1))) e f) 0 = comp f (step_state g e)).
    { intros f Hf. change (with_u s1 (step_u g (s_Ns s1))) with s. rewrite (modes_at 8 s) by (try exact Wu; try exact P0; change (s_NF s) with (s_NF s1); lia).
      change (s_NF s) with (s_NF s1). rewrite NF. cbn [s_u s with_u]. unfold step_u. rewrite at2_tab2 by (try exact P0; lia). cbn [Nat.eqb].
      rewrite (Nat.add_comm (e * 3) f), Nat.mod_add, Nat.div_add by lia. rewrite Nat.mod_small, Nat.div_small by lia. reflexivity. }
    rewrite !K by lia. destruct (step_state g e) as [[? ?] ?]. reflexivity. }
  assert (Ad : forall e, (e < 8 + 2)%nat -> admissible g (state3 s e)) by (intros e He; rewrite St by lia; apply step_admissible; exact Hg).
  assert (St' : forall e, (e < 10)%nat -> state3 (reflect 8 s) e = mirror (step_state g (9 - e))).
  { intros e He. rewrite (state3_mirror (X := ExtReal) 8 s (reflect 8 s) Mi e) by lia. rewrite St by lia. reflexivity. }
  pose proof (md_wf _ _ (mi_made' _ _ _ Mi)) as W'.
  set (sn := Sensor [1 / 2; 1 / 3] (8 + 2)).
  exists s, (reflect 8 s), sn. do 2 eexists. split; [exact Mi|]. split; [exact (bl_p _ _ _ _ _ _ _ B)|]. split; [exact (bl_riemann _ _ _ _ _ _ _ B)|]. split; [exact Ad|].
  split; [reflexivity|]. split; [reflexivity|]. split; [reflexivity|].
  change (s_euler s) with (s_euler s1). change (s_euler (reflect 8 s)) with (s_euler s1). rewrite Eu.
  split; [apply (sensing_euler g 8 s sn Wu Eu eq_refl)|]. split; [apply (sensing_euler g 8 (reflect 8 s) sn W' Eu eq_refl)|]. cbn [sn_sensors].
  destruct (shock_not_mirror g Hg) as [Q1 [Q2 Q3]].
  assert (AL : admissible g (cons g 1 0 1)) by (exists 1, 0, 1; repeat split; lra). assert (AR : admissible g (cons g 1 0 10)) by (exists 1, 0, 10; repeat split; lra).
  assert (Hc : forall i, (i <= 8)%nat -> contact_at g s (1 / 2) i = false).
  { intros i Hi. unfold contact_at. numR. apply Rltb_false. apply contact_bounds; apply Ad; lia. }
  assert (Hc' : forall i, (i <= 8)%nat -> contact_at g (reflect 8 s) (1 / 2) i = false).
  { intros i Hi. rewrite (contact_at_mirror (X := ExtReal) g 8 s _ Hg Mi Ad) by exact Hi. apply Hc. lia. }
  assert (Hz : forall c, admissible g c -> nltb (1 / 3) (shock_value g c c) = false).
  { intros c [rho [v [q [Hr [Hq ->]]]]]. rewrite (shock_value_prim g Hg) by assumption. numR. apply Rltb_false. replace (q - q) with 0 by ring. rewrite Rabs_R0. unfold bump, Rdiv. rewrite Rmult_0_l, Rmult_0_r, Rmult_0_l. lra. }
  assert (Hs : forall i, (i <= 8)%nat -> shock_at g s (1 / 3) i = (i =? 4)%nat).
  { intros i Hi. unfold shock_at. rewrite !St by lia. unfold step_state. destruct (Nat.eqb_spec i 4) as [->|Hn].
    - cbn [Nat.leb Nat.add]. rewrite Q1, andb_true_r. numR. apply Rltb_true. exact Q3.
    - destruct (Nat.leb_spec i 4); destruct (Nat.leb_spec (i + 1) 4); try lia; rewrite Hz by assumption; reflexivity. }
  assert (Hs' : forall i, (i <= 8)%nat -> shock_at g (reflect 8 s) (1 / 3) i = false).
  { intros i Hi. unfold shock_at. rewrite !St' by lia. unfold step_state. destruct (Nat.eq_dec i 4) as [->|Hn].
    - cbn [Nat.leb Nat.add Nat.sub]. rewrite Q2, andb_false_r. reflexivity.
    - destruct (Nat.leb_spec (9 - i) 4); destruct (Nat.leb_spec (9 - (i + 1)) 4); try lia; rewrite (shock_mirror g Hg), Hz by assumption; reflexivity. }
  split; unfold tab; cbn [Nat.add seq map]; unfold near; rewrite ?Hs, ?Hs', ?Hc, ?Hc' by (cbn; lia); reflexivity.
Qed.
