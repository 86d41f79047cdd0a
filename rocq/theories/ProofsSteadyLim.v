(** Steady states made of plateaus stay put under the limiter too. *)
From Coq Require Import ZArith List Bool Arith String Lia Reals Lra.
From Verif Require Import Num Py PyStr Lib RealLib LegNumpy Ext Basis Constants Sensor Enhance Limiting AdvectionPhysics EulerPhysics
  IC Solution Solver RKCoeffs RK SpecTime SpecTrace SpecClip ProofsTime ProofsTrace SpecDG SpecPoly SpecEuler SpecLimit SpecEnh SpecUniform ProofsPoly ProofsDG ProofsDG2 ProofsWf ProofsCons
  ProofsSol ProofsBasis ProofsGauss ProofsAdv ProofsLim ProofsAHR ProofsLimRun ProofsShift ProofsRun ProofsTime2 ProofsUniform ProofsSteady.
Import ListNotations.
Open Scope list_scope.

(** the arguments of the limiter keep what every stage keeps *)
Section Clips.
  Context {A : Type} {N : Num A} {L : Libm A}.
  Variable gamma : A.
  Variables (Pk : solution A -> Prop) (PK : mat A -> Prop).
  Variables (d : dg) (l : limiter (A:=A)).
  Hypothesis Hcopy : forall s s', Pk s -> Pk s' -> Pk (copy_data_only s s').
  Hypothesis Haxk : forall s a K, Pk s -> PK K -> Pk (smart_axpy s a K).
  Hypothesis Ht : forall s t, Pk s -> Pk (with_t s t).
  Hypothesis Hlim : forall s s', Pk s -> limit gamma l s = Ok s' -> Pk s'.
  Hypothesis Hres : forall dt s s' F, Pk s -> residual gamma d s = Ok (s', F) -> Pk s' /\ PK (mscale dt F).
  Lemma classic_clips_in betas dt cas : forall k sc, Psc Pk PK sc -> Forall Pk (classic_clips gamma d l betas dt k cas sc).
  Proof.
    induction cas as [|[c a] cas IH]; intros k sc Hsc; [constructor|]. cbn [classic_clips]. destruct Hsc as [H1 [H2 H3]].
    match goal with |- context [if (0 <? k)%nat then limit gamma l ?u else _] => assert (Hu : Pk u) end.
    { apply Ht. apply (fold_axpy_inv Pk PK Haxk); [apply Hcopy; assumption|].
      apply Forall_forall. intros [b K] Hin. apply in_combine_r in Hin. rewrite Forall_forall in H3. apply H3. exact Hin. }
    match goal with |- context [if (0 <? k)%nat then limit gamma l ?u else _] => set (w := u) in * end.
    apply Forall_app. split; [destruct (0 <? k)%nat; constructor; [exact Hu|constructor]|].
    destruct (if (0 <? k)%nat then limit gamma l w else Ok w) as [u3|er] eqn:E3; [|constructor].
    assert (Hu' : Pk u3) by (destruct (0 <? k)%nat; [eapply Hlim; [exact Hu|exact E3]|apply Ok_inj in E3; subst u3; exact Hu]).
    destruct (residual gamma d u3) as [[u4 F]|er] eqn:E4; [|constructor].
    destruct (Hres dt _ _ _ Hu' E4) as [R1 R2]. apply IH. split; [exact H1|]. split; [exact R1|]. apply Forall_lset; assumption.
  Qed.
  Lemma low_storage_clips_in dt bgs : forall k sc, sc_K sc <> [] -> Psc Pk PK sc -> Forall Pk (low_storage_clips gamma d l dt k bgs sc).
  Proof.
    induction bgs as [|[b g] bgs IH]; intros k sc HK Hsc; [constructor|]. cbn [low_storage_clips]. destruct Hsc as [H1 [H2 H3]].
    match goal with |- context [if (0 <? k)%nat then limit gamma l ?u else _] => assert (Hu : Pk u) end.
    { apply Ht. apply Haxk; [apply Hcopy; assumption|]. destruct (sc_K sc) as [|K Ks]; [contradiction|]. inversion H3; assumption. }
    match goal with |- context [if (0 <? k)%nat then limit gamma l ?u else _] => set (w := u) in * end.
    apply Forall_app. split; [destruct (0 <? k)%nat; constructor; [exact Hu|constructor]|].
    destruct (if (0 <? k)%nat then limit gamma l w else Ok w) as [u3|er] eqn:E3; [|constructor].
    assert (Hu' : Pk u3) by (destruct (0 <? k)%nat; [eapply Hlim; [exact Hu|exact E3]|apply Ok_inj in E3; subst u3; exact Hu]).
    destruct (residual gamma d u3) as [[u4 F]|er] eqn:E4; [|constructor].
    destruct (Hres dt _ _ _ Hu' E4) as [R1 R2]. apply IH; [discriminate|]. split; [exact H1|]. split; [exact R1|]. constructor; [exact R2|constructor].
  Qed.
  Lemma inner_clips_in rk dt sc : sc_K sc <> [] -> Psc Pk PK sc -> Forall Pk (inner_clips gamma rk d l dt sc).
  Proof.
    intros HK Hsc. unfold inner_clips. destruct (String.eqb rk "low_storage_rk4"); [apply low_storage_clips_in; assumption|apply classic_clips_in; assumption].
  Qed.
End Clips.

Open Scope R_scope.
(** ** a constant cell next to an equal one *)
Lemma minmod_0_l x : minmod 0 x = 0.
Proof. destruct (minmod_bound 0 x) as [H _]. rewrite Rabs_R0 in H. pose proof (Rabs_pos (minmod 0 x)). destruct (Req_dec (minmod 0 x) 0) as [E|E]; [exact E|]. apply Rabs_no_R0 in E. lra. Qed.
Lemma minmod_0_r x : minmod x 0 = 0.
Proof. rewrite minmod_sym. apply minmod_0_l. Qed.
Lemma nth_cmodes_S p c n : (1 <= n)%nat -> nth n (cmodes p c) 0 = 0.
Proof. intro H. pose proof (at1_cmodes p c n) as E. unfold at1 in E. destruct n; [lia|]. exact E. Qed.
Lemma dint_cmodes p c m a b : dint m (cmodes p c) a b = match m with O => c * (b - a) | S _ => 0 end.
Proof.
  unfold dint. rewrite length_cmodes. destruct m as [|m].
  - rewrite (Rsum_single _ 0); [|lia|intros i _ Hi; rewrite nth_cmodes_S by lia; ring]. rewrite mono_int_0. reflexivity.
  - apply Rsum_0. intros i _. rewrite nth_cmodes_S by lia. ring.
Qed.
Lemma monomial_flat p c (al ar : list R) : (1 <= p)%nat -> List.length al = (p + 1)%nat -> List.length ar = (p + 1)%nat ->
  al = cmodes p c \/ ar = cmodes p c -> limit_monomial (cmodes p c) al ar = Ok (cmodes p c).
Proof.
  intros Hp Ll Lr H. apply limit_monomial_spec. rewrite length_cmodes. split; [lia|]. split; [reflexivity|].
  assert (Z : forall m a b, (1 <= m)%nat -> dint (m - 1) (cmodes p c) a b - (nth (m - 1) (cmodes p c) 0 * mono_int 0 a b + nth m (cmodes p c) 0 * mono_int 1 a b) = 0).
  { intros m a b Hm. rewrite dint_cmodes, (nth_cmodes_S p c m) by exact Hm. destruct m as [|[|m]]; [lia| |].
    - cbn [Nat.sub]. change (nth 0 (cmodes p c) 0) with c. rewrite mono_int_0. ring.
    - replace (S (S m) - 1)%nat with (S m) by lia. rewrite nth_cmodes_S by lia. ring. }
  assert (K : forall m, (1 <= m < p + 1)%nat -> hr_candidates (cmodes p c) al ar (cmodes p c) m = (0, / 2 * dint (m - 1) (cmodes p c) (-1) 1)).
  { intros m Hm. rewrite candidates_R by (rewrite ?length_cmodes; first [lia|assumption]). cbv beta zeta. rewrite !Z by lia. f_equal; [|ring].
    destruct H as [-> | ->]; [rewrite <- (minmod_0_l (/ 2 * (/ 2 * (dint (m - 1) ar (-1) 1 - 0) - / 2 * (dint (m - 1) (cmodes p c) (-1) 1 - 0))))|
      rewrite <- (minmod_0_r (/ 2 * (/ 2 * (dint (m - 1) (cmodes p c) (-1) 1 - 0) - / 2 * (dint (m - 1) al (-1) 1 - 0))))]; f_equal; ring. }
  split.
  - intros n Hn. rewrite K by exact Hn. cbn [fst]. apply nth_cmodes_S. lia.
  - rewrite K by lia. cbn [snd Nat.sub]. rewrite dint_cmodes. change (at1 (cmodes p c) 0) with c. field.
Qed.
Section Flat.
  Context {X : Ext R}.
  Hypothesis G : gauss_ok.
  Lemma taylor_cmodes p c x : taylor (cmodes p c) x = c.
  Proof.
    rewrite taylor_mono, length_cmodes. rewrite (Rsum_single _ 0); [|lia|intros i _ Hi; rewrite nth_cmodes_S by lia; ring]. rewrite mono_0. change (nth 0 (cmodes p c) 0) with c. ring.
  Qed.
  Lemma hr_flat p h c ul ur : maps_ok p h -> (1 <= p)%nat -> List.length ul = (p + 1)%nat -> List.length ur = (p + 1)%nat ->
    ul = cmodes p c \/ ur = cmodes p c -> hr h (cmodes p c) ul ur = Ok (cmodes p c).
  Proof.
    intros M Hp Ll Lr O. destruct (hr_taylor p h (cmodes p c) ul ur M (length_cmodes p c) Ll Lr) as [ac [al [ar [Kc [Kl [Kr [Ec [El [Er HH]]]]]]]]].
    assert (F : forall a u, List.length a = (p + 1)%nat -> (forall x, taylor a x = legseries u x) -> u = cmodes p c -> a = cmodes p c).
    { intros a u La Ea Eu. apply taylor_inj; [rewrite length_cmodes; exact La|]. intro x. rewrite Ea, Eu, legseries_cmodes, taylor_cmodes. reflexivity. }
    pose proof (F ac _ Kc Ec eq_refl) as ->. apply HH. exists (cmodes p c). split.
    - apply monomial_flat; [exact Hp|exact Kl|exact Kr|]. destruct O as [O|O]; [left; apply (F al ul)|right; apply (F ar ur)]; assumption.
    - destruct (m2l_ok p h (cmodes p c) M (length_cmodes p c)) as [L E]. apply legseries_inj; [rewrite length_cmodes; congruence|].
      intro x. rewrite E, taylor_cmodes, legseries_cmodes. reflexivity.
  Qed.
End Flat.

(** ** whole runs *)
Section SteadyLim.
  Context {X : Ext R}.
  Variable gamma : R.
  Variables (ne : nat) (sol0 : solution R) (d : dg) (h : hr_maps R).
  Hypothesis W0 : wf ne sol0.
  Hypothesis D0 : wf_dg ne sol0 d.
  Hypothesis Bl : bc_known (s_bcl sol0).
  Hypothesis Br : bc_known (s_bcr sol0).
  Hypothesis B0 : apply_bc sol0 = Ok sol0.
  Hypothesis HR : forall s, Wf ne sol0 s -> (forall e f, (1 <= e <= ne)%nat -> (f < s_NF sol0)%nat -> modes s e f = modes sol0 e f) ->
    exists s' F, residual gamma d s = Ok (s', F) /\
      (forall n e f, (n < s_Ns sol0)%nat -> (e < ne + 2)%nat -> (f < s_NF sol0)%nat -> (1 <= e <= ne)%nat \/ n = 0%nat -> at2 F n (e * s_NF sol0 + f) = 0).
  Hypothesis MO : maps_ok (b_p (s_basis sol0)) h.
  Hypothesis Hp : (1 <= b_p (s_basis sol0))%nat.
  (** every cell is constant and has an equal neighbour in the interior *)
  Hypothesis HF : forall e f, (1 <= e <= ne)%nat -> (f < s_NF sol0)%nat -> exists c, modes sol0 e f = cmodes (b_p (s_basis sol0)) c /\
    ((2 <= e)%nat /\ modes sol0 (e - 1) f = modes sol0 e f \/ (e + 1 <= ne)%nat /\ modes sol0 (e + 1) f = modes sol0 e f).
  Notation Fix := (Fix ne sol0).
  Notation FixK := (FixK ne sol0).
  Lemma flat_lim s s' : Fix s -> limit gamma (Some h) s = Ok s' -> Fix s'.
  Proof.
    intros Fx H. pose proof Fx as [[W S] _]. pose proof (similar_basis _ _ S) as Eb. pose proof (similar_NF _ _ S) as EF.
    destruct (adaptive_hr_spec gamma ne h s s' W) as [sn [sn' [V [_ [_ [_ [S' [_ [_ [_ [HV Hm]]]]]]]]]]]; [rewrite Ns_p, Eb; apply maps_len; exact MO|exact H|].
    apply (Fix_src ne sol0 W0 Bl Br B0 s); [exact Fx| |].
    - split; [eapply wf_limit; eassumption|eapply similar_trans; eassumption].
    - intros e f He Hf. assert (Eb2 : s_bcl s = s_bcl sol0 /\ s_bcr s = s_bcr sol0) by (destruct S as [t [n' [sn0 [u [-> _]]]]]; split; reflexivity).
      rewrite Hm by (rewrite ?EF; assumption). set (c := src_cell (s_bcl s) (s_bcr s) ne e).
      assert (Hc : (1 <= c <= ne)%nat) by (unfold c; destruct Eb2 as [-> ->]; apply src_interior; try assumption; apply (wf_ne _ _ W0)).
      destruct (HV c f ltac:(lia) ltac:(rewrite EF; exact Hf)) as [V1 V2].
      destruct (limited ne (sn_sensors sn') c) eqn:El; [|apply V2; reflexivity]. specialize (V1 eq_refl).
      destruct (HF c f Hc Hf) as [a [Ea Hn]].
      assert (Lm : forall e', List.length (modes s e' f) = (b_p (s_basis sol0) + 1)%nat) by (intro e'; rewrite (length_modes ne s e' f W), Ns_p, Eb; reflexivity).
      rewrite (Fix_modes ne sol0 W0 s c f Fx Hc Hf), Ea in V1.
      rewrite (hr_flat (b_p (s_basis sol0)) h a _ _ MO Hp (Lm _) (Lm _)) in V1.
      + apply Ok_inj in V1. rewrite <- V1, (Fix_modes ne sol0 W0 s c f Fx Hc Hf), Ea. reflexivity.
      + destruct Hn as [[Hn En]|[Hn En]]; [left; rewrite (Fix_modes ne sol0 W0 s (c - 1) f Fx)|right; rewrite (Fix_modes ne sol0 W0 s (c + 1) f Fx)]; try lia; try assumption; rewrite En; exact Ea.
  Qed.
  Lemma flat_visits rk cfl tf nout k tout touts s sc evs :
    visits gamma rk d (Some h) cfl tf nout sol0 k tout touts s sc evs -> Fix s /\ Psc Fix FixK sc /\ sc_K sc <> [] /\ Forall (fun ev => Fix (ev_sol ev)) evs.
  Proof.
    apply (ProofsWf.visits_inv gamma Fix Fix FixK (fun _ => True) d (Some h)).
    - apply Fix_copy. - apply Fix_copy. - apply Fix_axpy. - apply Fix_axpy. - apply Fix_t. - exact flat_lim. - eapply Fix_res'; eassumption.
    - apply Fix_clock. - eapply Fix_bc; eassumption. - exact flat_lim. - auto. - apply Fix_0; assumption. - apply Fix_0; assumption. - apply FixK_0; assumption.
  Qed.
  Lemma flat_set_us s sc : Fix s -> Psc Fix FixK sc -> Psc Fix FixK (set_us sc s).
  Proof. intros H [U1 [U2 U3]]. split; [apply Fix_copy; assumption|]. split; assumption. Qed.
  Lemma flat_evaluated rk cfl tf nout x : evaluated gamma rk d (Some h) cfl tf nout sol0 x -> Fix x.
  Proof.
    intros [k [tout [touts [s [sc [evs [dt [o [dn [V [_ Hx]]]]]]]]]]]. destruct (flat_visits _ _ _ _ _ _ _ _ _ _ V) as [V1 [V2 [V3 _]]].
    assert (Q : Forall Fix (inner_inputs gamma rk d (Some h) dt (set_us sc s))); [|rewrite Forall_forall in Q; apply Q; exact Hx].
    apply (inner_inputs_in gamma Fix FixK d (Some h)); [apply Fix_copy|apply Fix_axpy|apply Fix_t|exact flat_lim| |exact V3|apply flat_set_us; assumption].
    intros. eapply Fix_res'; try eassumption. exact I.
  Qed.
  Lemma flat_clipped rk cfl tf nout x : clipped gamma rk d (Some h) cfl tf nout sol0 x -> Fix x.
  Proof.
    intros [k [tout [touts [s [sc [evs [dt [o [dn [V [_ Hx]]]]]]]]]]]. destruct (flat_visits _ _ _ _ _ _ _ _ _ _ V) as [V1 [V2 [V3 _]]].
    pose proof (flat_set_us s sc V1 V2) as V4. destruct Hx as [Hx|[s1 [sc1 [E1 Hx]]]].
    - assert (Q : Forall Fix (inner_clips gamma rk d (Some h) dt (set_us sc s))); [|rewrite Forall_forall in Q; apply Q; exact Hx].
      apply (inner_clips_in gamma Fix FixK d (Some h)); [apply Fix_copy|apply Fix_axpy|apply Fix_t|exact flat_lim| |exact V3|exact V4].
      intros. eapply Fix_res'; try eassumption. exact I.
    - eapply Fix_bc; [eassumption..| |exact Hx]. apply Fix_clock.
      eapply (inner_inv gamma Fix Fix FixK (fun _ => True) d (Some h)) in E1; try eassumption; [apply E1|..].
      + apply Fix_copy. + apply Fix_axpy. + apply Fix_axpy. + apply Fix_t. + exact flat_lim. + eapply Fix_res'; eassumption. + exact I.
  Qed.
End SteadyLim.
Section PlateauRun.
  Context {X : Ext R}.
  Lemma limit_plateau gamma ne s h s' e f c : wf ne s -> maps_ok (b_p (s_basis s)) h -> (1 <= b_p (s_basis s))%nat -> limit gamma (Some h) s = Ok s' ->
    (1 <= e <= ne)%nat -> (f < s_NF s)%nat -> modes s e f = cmodes (b_p (s_basis s)) c ->
    modes s (e - 1) f = modes s e f \/ modes s (e + 1) f = modes s e f -> modes s' e f = modes s e f.
  Proof.
    intros W M Hp H He Hf Ec O. cbn [limit] in H.
    destruct (adaptive_hr_spec gamma ne h s s' W) as [sn [sn' [V [_ [_ [_ [_ [_ [_ [_ [HV Hm]]]]]]]]]]]; [rewrite Ns_p; apply maps_len; exact M|exact H|].
    rewrite Hm, src_cell_interior by (assumption || lia). destruct (HV e f ltac:(lia) Hf) as [V1 V2].
    destruct (limited ne (sn_sensors sn') e) eqn:El; [|apply V2; reflexivity].
    specialize (V1 eq_refl). rewrite Ec in V1, O. rewrite (hr_flat (b_p (s_basis s))) in V1; try exact M; try exact Hp; try (apply (length_modes ne); exact W); try exact O.
    apply Ok_inj in V1. congruence.
  Qed.
  Lemma flat_run gamma ne sol0 d h : wf ne sol0 -> wf_dg ne sol0 d -> bc_known (s_bcl sol0) -> bc_known (s_bcr sol0) -> apply_bc sol0 = Ok sol0 ->
    (forall s, Wf ne sol0 s -> (forall e f, (1 <= e <= ne)%nat -> (f < s_NF sol0)%nat -> modes s e f = modes sol0 e f) ->
      exists s' F, residual gamma d s = Ok (s', F) /\
        (forall n e f, (n < s_Ns sol0)%nat -> (e < ne + 2)%nat -> (f < s_NF sol0)%nat -> (1 <= e <= ne)%nat \/ n = 0%nat -> at2 F n (e * s_NF sol0 + f) = 0)) ->
    maps_ok (b_p (s_basis sol0)) h -> (1 <= b_p (s_basis sol0))%nat ->
    (forall e f, (1 <= e <= ne)%nat -> (f < s_NF sol0)%nat -> exists c, modes sol0 e f = cmodes (b_p (s_basis sol0)) c /\
      ((2 <= e)%nat /\ modes sol0 (e - 1) f = modes sol0 e f \/ (e + 1 <= ne)%nat /\ modes sol0 (e + 1) f = modes sol0 e f)) ->
    forall rk cfl tf nout fuel evs out, integrate gamma rk d (Some h) cfl tf nout fuel sol0 = (evs, out) ->
    forall s, (exists ev, In ev evs /\ s = ev_sol ev) \/ out = Finished s ->
    similar sol0 s /\ forall e f, (1 <= e <= ne)%nat -> (f < s_NF sol0)%nat -> modes s e f = modes sol0 e f.
  Proof.
    intros W0 D0 Bl Br B0 HR MO Hp HF rk cfl tf nout fuel evs out H s Hs.
    assert (Q : Forall (fun ev => Fix ne sol0 (ev_sol ev)) evs /\ (forall s', out = Finished s' -> Fix ne sol0 s')).
    { revert H. apply (integrate_inv gamma (Fix ne sol0) (Fix ne sol0) (FixK ne sol0) (fun _ => True) d (Some h)).
      - apply Fix_copy. - apply Fix_copy. - apply Fix_axpy. - apply Fix_axpy. - apply Fix_t. - exact (flat_lim gamma ne sol0 h W0 Bl Br B0 MO Hp HF). - intros; eapply Fix_res'; eassumption.
      - apply Fix_clock. - intros; eapply Fix_bc; eassumption. - exact (flat_lim gamma ne sol0 h W0 Bl Br B0 MO Hp HF). - auto. - apply Fix_0; assumption. - apply Fix_0; assumption. - apply FixK_0; assumption. }
    destruct Q as [H1 H2]. rewrite Forall_forall in H1.
    assert (U : Fix ne sol0 s) by (destruct Hs as [[ev [Hi ->]]|Hs]; auto). split; [apply U|]. intros e f He Hf. apply (Fix_modes ne sol0 W0 s e f U He Hf).
  Qed.
End PlateauRun.
