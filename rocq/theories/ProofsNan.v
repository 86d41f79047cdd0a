(** NaN in binary64 runs: what the limiter and the time loop do with it. *)
From Coq Require Import ZArith List Bool Arith String Lia Floats.SpecFloat.
From Verif Require Import Num Py PyStr Lib LegNumpy Ext Basis Sensor Enhance Limiting AdvectionPhysics EulerPhysics
  Solution Solver RKCoeffs RK SpecTime SpecTrace ProofsTime SpecDG SpecLimit ProofsDG ProofsDG2 ProofsWf ProofsCons ProofsRel ProofsShift ProofsSol ProofsLim ProofsAHR ProofsTime2 ProofsRelTrace ProofsOdd.
Import ListNotations.
Open Scope list_scope.
Open Scope nat_scope.

(** ** something that stays true of the solution from step to step stays true of later snapshots *)
Section Later.
  Context {A : Type} {N : Num A} {L : Libm A}.
  Variables (gamma : A) (ne : nat) (sol0 : solution A) (d : dg) (l : limiter (A:=A)).
  Hypothesis W0 : wf ne sol0.
  Hypothesis D0 : wf_dg ne sol0 d.
  Variable Q : solution A -> Prop.
  Hypothesis Qax : forall s a K, Wf ne sol0 s -> WfK ne sol0 K -> Q s -> Q (smart_axpy s a K).
  Hypothesis Qclock : forall s t n, Q s -> Q (with_n (with_t s t) n).
  Hypothesis Qbc : forall s s', Wf ne sol0 s -> Q s -> apply_bc s = Ok s' -> Q s'.
  Hypothesis Qlim : forall s s', Wf ne sol0 s -> Q s -> limit gamma l s = Ok s' -> Q s'.
  Notation Wsc := (Psc (Wf ne sol0) (WfK ne sol0)).
  Lemma later_step rk cfl tf tout s sc s' sc' r : Wf ne sol0 s -> Wsc sc -> sc_K sc <> [] ->
    time_step gamma (rk_inner gamma rk d l) l cfl tf tout s sc = Ok (s', sc', r) -> Wf ne sol0 s' /\ Wsc sc' /\ sc_K sc' <> [] /\ (Q s -> Q s').
  Proof.
    intros Hs Hsc HK H.
    assert (B : forall P : solution A -> Prop, (forall s, P s -> Wf ne sol0 s) -> (forall s a K, P s -> WfK ne sol0 K -> P (smart_axpy s a K)) ->
      (forall s t n, P s -> P (with_n (with_t s t) n)) -> (forall s s', P s -> apply_bc s = Ok s' -> P s') -> (forall s s', P s -> limit gamma l s = Ok s' -> P s') -> P s ->
      P s' /\ Wsc sc' /\ sc_K sc' <> []).
    { intros P PW Pa Pc Pb Pl HP. apply (time_step_inv gamma P (Wf ne sol0) (WfK ne sol0) (fun _ => True) d l) with (rk := rk) (cfl := cfl) (tf := tf) (tout := tout) (s := s) (sc := sc) (r := r); try assumption.
      - intros x y Hx Hy. apply Wf_copy; assumption.
      - intros x y Hx Hy. apply Wf_copy; [assumption|apply PW; assumption].
      - intros x a K Hx HK'. apply Wf_axpy; assumption.
      - intros x t Hx. apply Wf_t; assumption.
      - intros x y Hx Hl. exact (Wf_lim gamma ne sol0 l x y Hx Hl).
      - intros dt x y F _ Hx Hr. exact (Wf_res gamma ne sol0 d D0 dt x y F I Hx Hr).
      - auto. }
    destruct (B (Wf ne sol0)) as [B1 [B2 B3]]; auto.
    - intros x a K Hx HK'. apply Wf_axpy; assumption.
    - intros x t n Hx. apply Wf_n, Wf_t; assumption.
    - intros x y Hx Hb. exact (Wf_bc ne sol0 x y Hx Hb).
    - intros x y Hx Hl. exact (Wf_lim gamma ne sol0 l x y Hx Hl).
    - split; [exact B1|]. split; [exact B2|]. split; [exact B3|]. intro HQ. destruct (B (fun x => Wf ne sol0 x /\ Q x)) as [[_ B4] _]; [tauto| | | | | |exact B4].
      + intros x a K [X1 X2] HK'. split; [apply Wf_axpy; assumption|apply Qax; assumption].
      + intros x t n [X1 X2]. split; [apply Wf_n, Wf_t; assumption|apply Qclock; assumption].
      + intros x y [X1 X2] Hb. split; [exact (Wf_bc ne sol0 x y X1 Hb)|exact (Qbc x y X1 X2 Hb)].
      + intros x y [X1 X2] Hl. split; [exact (Wf_lim gamma ne sol0 l x y X1 Hl)|exact (Qlim x y X1 X2 Hl)].
      + split; assumption.
  Qed.
  Definition implied (x y : event A) : Prop := Q (ev_sol x) -> Q (ev_sol y).
  Lemma pairs_snoc (evs : list (event A)) ev : ForallOrdPairs implied evs -> Forall (fun x => implied x ev) evs -> ForallOrdPairs implied (evs ++ [ev]).
  Proof.
    intros H. induction H as [|x xs H1 H2 IH]; intro F; cbn [app]; [repeat constructor|]. inversion F; subst. constructor; [apply Forall_app; split; [exact H1|repeat constructor; assumption]|apply IH; assumption].
  Qed.
  Lemma later_loop rk cfl tf : forall fuel k tout touts s sc evs evs' out, Wf ne sol0 s -> Wsc sc -> sc_K sc <> [] ->
    ForallOrdPairs implied evs -> Forall (fun x => Q (ev_sol x) -> Q s) evs ->
    time_loop gamma (rk_inner gamma rk d l) l cfl tf fuel k tout touts s sc evs = (evs', out) ->
    ForallOrdPairs implied evs' /\ (forall s', out = Finished s' -> Forall (fun x => Q (ev_sol x) -> Q s') evs').
  Proof.
    induction fuel as [|fuel IH]; intros k tout touts s sc evs evs' out Hs Hsc HK Hp Hq H.
    - cbn in H. injection H as <- <-. split; [exact Hp|discriminate].
    - cbn [time_loop] in H. destruct (time_step _ _ _ _ _ _ _ _) as [[[s1 sc1] [[dt o] dn]]|e] eqn:Est.
      2: { injection H as <- <-. split; [exact Hp|discriminate]. }
      destruct (later_step _ _ _ _ _ _ _ _ _ Hs Hsc HK Est) as [S1 [S2 [S3 S4]]].
      assert (Hq1 : Forall (fun x => Q (ev_sol x) -> Q s1) evs) by (eapply Forall_impl; [|exact Hq]; cbn; auto).
      destruct o.
      + destruct (printer k dt s1) as [ev|e] eqn:Ep.
        2: { injection H as <- <-. split; [exact Hp|discriminate]. }
        assert (Ee : ev_sol ev = s1) by (apply printer_Ok in Ep; subst ev; reflexivity).
        assert (Hp' : ForallOrdPairs implied (evs ++ [ev])) by (apply pairs_snoc; [exact Hp|unfold implied; rewrite Ee; exact Hq1]).
        assert (Hq' : Forall (fun x => Q (ev_sol x) -> Q s1) (evs ++ [ev])) by (apply Forall_app; split; [exact Hq1|constructor; [rewrite Ee; auto|constructor]]).
        destruct dn.
        * injection H as <- <-. split; [exact Hp'|]. intros s' E. injection E as <-. exact Hq'.
        * destruct touts as [|tout' touts']; [injection H as <- <-; split; [exact Hp'|discriminate]|].
          eapply IH; [exact S1|exact S2|exact S3|exact Hp'|exact Hq'|exact H].
      + destruct dn.
        * injection H as <- <-. split; [exact Hp|]. intros s' E. injection E as <-. exact Hq1.
        * eapply IH; [exact S1|exact S2|exact S3|exact Hp|exact Hq1|exact H].
  Qed.
  Lemma later_run rk cfl tf nout fuel evs out : integrate gamma rk d l cfl tf nout fuel sol0 = (evs, out) ->
    ForallOrdPairs implied evs /\ (forall s', out = Finished s' -> Forall (fun x => Q (ev_sol x) -> Q s') evs).
  Proof.
    intro H. rewrite integrate_run_rk in H. unfold run_rk in H.
    destruct (nout <? 0)%Z; [injection H as <- <-; split; [constructor|discriminate]|].
    destruct (printer 0 n0 sol0) as [ev|e] eqn:Ep; [|injection H as <- <-; split; [constructor|discriminate]].
    assert (Ee : ev_sol ev = sol0) by (apply printer_Ok in Ep; subst ev; reflexivity).
    destruct (slice_from _ _) as [|tout touts]; [injection H as <- <-; split; [repeat constructor|discriminate]|].
    pose proof (WfK_0 ne sol0 W0) as HK. pose proof (Wf_0 ne sol0 W0) as H0.
    eapply later_loop; [exact H0| | | | |exact H].
    - split; [exact H0|]. split; [exact H0|]. cbn [sc_K]. unfold rk_K0.
      destruct (String.eqb rk "low_storage_rk4"); [constructor; [exact HK|constructor]|].
      apply Forall_forall. intros x Hx. apply in_map_iff in Hx. destruct Hx as [? [<- _]]. exact HK.
    - apply K0_nonempty.
    - repeat constructor.
    - constructor; [rewrite Ee; auto|constructor].
  Qed.
End Later.

(** ** NaN *)
Notation sf := spec_float.
Notation nan := S754_nan.
Lemma add_nan_l' (y : sf) : nadd nan y = nan. Proof. destruct y; reflexivity. Qed.
Lemma add_nan_r' (x : sf) : nadd x nan = nan. Proof. destruct x as [[]|[]| |]; reflexivity. Qed.
Lemma sub_nan_l (y : sf) : nsub nan y = nan. Proof. destruct y; reflexivity. Qed.
Lemma sub_nan_r (x : sf) : nsub x nan = nan. Proof. destruct x as [[]|[]| |]; reflexivity. Qed.
Lemma mul_nan_l (y : sf) : nmul nan y = nan. Proof. destruct y; reflexivity. Qed.
Lemma mul_nan_r (x : sf) : nmul x nan = nan. Proof. destruct x as [[]|[]| |]; reflexivity. Qed.
Lemma nsum_nan (l : list sf) : In nan l -> nsum l = nan.
Proof. induction l as [|x l IH]; cbn [In nsum]; [contradiction|]. intros [->|H]; [apply add_nan_l'|rewrite (IH H); apply add_nan_r']. Qed.
Lemma vdot_nan (r : vec sf) : forall (v : vec sf) n, n < List.length r -> n < List.length v -> at1 v n = nan -> vdot r v = nan.
Proof.
  intros v n Hr Hv H. unfold vdot. apply nsum_nan. revert v n Hr Hv H. induction r as [|a r IH]; intros [|b v] n Hr Hv H; cbn [List.length] in *; try lia.
  cbn [map2 In]. destruct n as [|n]; [left; change b with (at1 (b :: v) 0); rewrite H; apply mul_nan_r|right; apply (IH v n); [lia|lia|exact H]].
Qed.
Lemma dotv_nan (m : mat sf) r c v n i : shape r c m -> n < c -> n < List.length v -> at1 v n = nan -> i < r -> at1 (dotv m v) i = nan.
Proof.
  intros [H1 H2] Hn Hv H Hi. unfold dotv, at1. rewrite nth_indep with (d' := vdot [] v) by (rewrite map_length; exact (eq_ind_r (fun k => i < k) Hi H1)). rewrite (map_nth (fun r => vdot r v)).
  apply (vdot_nan _ v n); [|exact Hv|exact H]. refine (eq_ind_r (fun k => n < k) Hn (H2 _ _)). apply nth_In. exact (eq_ind_r (fun k => i < k) Hi H1).
Qed.
Lemma minmod_nan_nan : scalar_minmod nan nan = nan. Proof. reflexivity. Qed.
(** Taylor coefficients that are all NaN stay so *)
Definition all_nan (v : vec sf) : Prop := forall i, i < List.length v -> at1 v i = nan.
Lemma candidates_nan (ac al ar alim : vec sf) m : all_nan ac -> 1 <= m < List.length ac -> hr_candidates ac al ar alim m = (nan, nan).
Proof.
  intros H Hm. unfold hr_candidates. cbv beta zeta.
  replace (nsum (map (fun n => nmul (at1 ac n) (integrate_monomial_derivative (m - 1) n)) (seq (m - 1) (List.length ac - 1 + 2 - m)))) with nan.
  2: { symmetry. apply nsum_nan. apply in_map_iff. exists (m - 1). split; [rewrite (H (m - 1)) by lia; apply mul_nan_l|apply in_seq; lia]. }
  repeat first [rewrite sub_nan_l|rewrite sub_nan_r|rewrite mul_nan_r]. rewrite minmod_nan_nan. reflexivity.
Qed.
Lemma loop_nan (ac al ar : vec sf) : all_nan ac -> forall m alim avg, m < List.length ac -> List.length alim = List.length ac ->
  (forall i, m < i < List.length ac -> at1 alim i = nan) ->
  let r := hr_loop ac al ar m alim avg in
  List.length (fst r) = List.length ac /\ (forall i, 1 <= i < List.length ac -> at1 (fst r) i = nan) /\ (1 <= m -> snd r = Some nan).
Proof.
  intro H. induction m as [|m IH]; intros alim avg Hm Hl Ha; cbv zeta.
  - cbn [hr_loop fst snd]. split; [exact Hl|]. split; [intros i Hi; apply Ha; lia|lia].
  - cbn [hr_loop]. rewrite (candidates_nan ac al ar alim (S m) H) by lia. destruct (IH (vset alim (S m) nan) (Some nan)) as [I1 [I2 I3]]; [lia|rewrite length_vset; exact Hl| |].
    + intros i Hi. rewrite at1_vset by lia. destruct (Nat.eqb_spec i (S m)); [reflexivity|apply Ha; lia].
    + split; [exact I1|]. split; [exact I2|]. intros _. destruct m as [|m]; [reflexivity|apply I3; lia].
Qed.
Lemma limit_nan (ac al ar v : vec sf) : all_nan ac -> limit_monomial ac al ar = Ok v -> List.length v = List.length ac /\ all_nan v.
Proof.
  intros H E. unfold limit_monomial in E. destruct (Nat.le_gt_cases (List.length ac) 1) as [Z|Z].
  - replace (List.length ac - 1) with 0 in E by lia. cbn [hr_loop] in E. discriminate.
  - destruct (loop_nan ac al ar H (List.length ac - 1) (zeros (List.length ac)) None) as [I1 [I2 I3]]; [lia|apply length_tab|intros i Hi; lia|].
    destruct (hr_loop ac al ar _ _ None) as [alim avg]. cbn [fst snd] in *. specialize (I3 ltac:(lia)). subst avg. apply Ok_inj in E. subst v. rewrite length_vset. split; [exact I1|].
    intros i Hi. rewrite length_vset, I1 in Hi. rewrite at1_vset by lia. destruct (Nat.eqb_spec i 0); [reflexivity|apply I2; lia].
Qed.
(** a cell with a NaN among its modes comes out of the reconstruction with NaN modes only *)
Lemma hr_nan (h : hr_maps sf) Ns uc ul ur v n : shape Ns Ns (h_L2M h) -> shape Ns Ns (h_M2L h) -> List.length uc = Ns -> n < Ns -> at1 uc n = nan ->
  hr h uc ul ur = Ok v -> forall i, i < Ns -> at1 v i = nan.
Proof.
  intros S1 S2 Hl Hn H E i Hi. unfold hr in E. inv_bind E. apply Ok_inj in E. subst v.
  assert (LA : List.length (dotv (h_L2M h) uc) = Ns) by (unfold dotv; rewrite map_length; apply S1).
  destruct (limit_nan _ _ _ _ ltac:(intros j Hj; rewrite LA in Hj; apply (dotv_nan (h_L2M h) Ns Ns uc n j S1 Hn ltac:(lia) H Hj)) Hx) as [Lx Nx].
  rewrite LA in Lx. apply (dotv_nan (h_M2L h) Ns Ns x 0 i S2); [lia|lia|apply Nx; lia|exact Hi].
Qed.

Section Persist.
  Context {L : Libm sf}.
  Variables (gamma : sf) (ne : nat) (sol0 : solution sf) (d : dg) (l : limiter (A:=sf)).
  Hypothesis W0 : wf ne sol0.
  Hypothesis D0 : wf_dg ne sol0 d.
  Hypothesis Hl : forall h, l = Some h -> shape (s_Ns sol0) (s_Ns sol0) (h_L2M h) /\ shape (s_Ns sol0) (s_Ns sol0) (h_M2L h).
  Variables (e f n : nat).
  Hypothesis He : 1 <= e <= ne.
  Hypothesis Hf : f < s_NF sol0.
  Hypothesis Hn : n < s_Ns sol0.
  Definition is_nan (s : solution sf) : Prop := at1 (modes s e f) n = nan.
  Lemma nan_axpy s a K : Wf ne sol0 s -> WfK ne sol0 K -> is_nan s -> is_nan (smart_axpy s a K).
  Proof.
    intros Hs HK H. unfold is_nan in *. rewrite (modes_at' ne sol0) in H by (try assumption; lia). rewrite (modes_at' ne sol0) by (try assumption; try lia; apply Wf_axpy; assumption).
    cbn [s_u smart_axpy with_u]. unfold axpy_mat. destruct (nltb _ _); [|exact H].
    rewrite (at2_madd _ _ (s_u s) (mscale a K) n _ (Wf_u' ne sol0 s Hs) (shape_mscale _ _ a K HK) Hn) by (apply cell_index; [exact Hf|lia]). rewrite H. apply add_nan_l'.
  Qed.
  Lemma nan_bc s s' : Wf ne sol0 s -> is_nan s -> apply_bc s = Ok s' -> is_nan s'.
  Proof.
    intros Hs H E. rewrite (apply_bc_eq _ _ (proj1 Hs)) in E. apply Ok_inj in E. subst s'. unfold is_nan. rewrite (modes_bc ne s); [|apply Hs|lia|rewrite (similar_NF _ _ (proj2 Hs)); exact Hf].
    rewrite src_cell_interior by exact He. exact H.
  Qed.
  Lemma nan_limit s s' : Wf ne sol0 s -> is_nan s -> limit gamma l s = Ok s' -> is_nan s'.
  Proof.
    intros Hs H E. destruct l as [h|] eqn:El; [|apply Ok_inj in E; subst s'; exact H]. destruct (Hl h eq_refl) as [S1 S2]. pose proof (similar_NF _ _ (proj2 Hs)) as EF. pose proof (similar_Ns _ _ (proj2 Hs)) as EN.
    destruct (adaptive_hr_spec gamma ne h s s' (proj1 Hs)) as [sn [sn' [V [_ [_ [_ [_ [_ [_ [_ [V1 V2]]]]]]]]]]]; [rewrite EN; apply S2|exact E|].
    unfold is_nan. rewrite V2 by (try lia; rewrite EF; exact Hf). rewrite src_cell_interior by exact He. destruct (V1 e f) as [V3 V4]; [lia|rewrite EF; exact Hf|].
    destruct (limited ne (sn_sensors sn') e); [|rewrite V4 by reflexivity; exact H].
    refine (hr_nan h (s_Ns sol0) _ _ _ _ n S1 S2 _ Hn _ (V3 eq_refl) n Hn); [rewrite (length_modes' ne sol0) by exact Hs; reflexivity|exact H].
  Qed.
  Lemma nan_run rk cfl tf nout fuel evs out : integrate gamma rk d l cfl tf nout fuel sol0 = (evs, out) ->
    ForallOrdPairs (fun x y => is_nan (ev_sol x) -> is_nan (ev_sol y)) evs /\ (forall s', out = Finished s' -> Forall (fun x => is_nan (ev_sol x) -> is_nan s') evs).
  Proof.
    apply (later_run gamma ne sol0 d l W0 D0 is_nan).
    - exact nan_axpy. - intros s t k H. exact H. - exact nan_bc. - exact nan_limit.
  Qed.
End Persist.

Lemma pairs_nth {X : Type} (R : X -> X -> Prop) (l : list X) : ForallOrdPairs R l -> forall i j x y, i < j -> nth_error l i = Some x -> nth_error l j = Some y -> R x y.
Proof.
  induction 1 as [|a l H1 H2 IH]; intros [|i] [|j] x y Hij Hx Hy; try lia; cbn [nth_error] in *; try discriminate.
  - injection Hx as ->. rewrite Forall_forall in H1. apply H1. exact (nth_error_In _ _ Hy).
  - apply (IH i j); [lia|assumption|assumption].
Qed.
Lemma nan_kept {L : Libm sf} (gamma : sf) ne s d l : wf ne s -> wf_dg ne s d ->
  (forall h, l = Some h -> shape (s_Ns s) (s_Ns s) (h_L2M h) /\ shape (s_Ns s) (s_Ns s) (h_M2L h)) ->
  forall e f n, 1 <= e <= ne -> f < s_NF s -> n < s_Ns s ->
  forall rk cfl tf nout fuel evs out, integrate gamma rk d l cfl tf nout fuel s = (evs, out) ->
  (forall i j x y, i < j -> nth_error evs i = Some x -> nth_error evs j = Some y -> at1 (modes (ev_sol x) e f) n = nan -> at1 (modes (ev_sol y) e f) n = nan) /\
  (forall s' x, out = Finished s' -> In x evs -> at1 (modes (ev_sol x) e f) n = nan -> at1 (modes s' e f) n = nan).
Proof.
  intros W D Hl e f n He Hf Hn rk cfl tf nout fuel evs out E. destruct (nan_run gamma ne s d l W D Hl e f n He Hf Hn _ _ _ _ _ _ _ E) as [H1 H2]. split.
  - intros i j x y Hij Hx Hy. exact (pairs_nth _ _ H1 i j x y Hij Hx Hy).
  - intros s' x Eo Hx. specialize (H2 s' Eo). rewrite Forall_forall in H2. exact (H2 x Hx).
Qed.
Lemma blind_run {A : Type} {N : Num A} {L : Libm A} (gamma : A) ne (s s' : solution A) d :
  wf ne s -> wf ne s' -> similar s s' -> s_t s = s_t s' -> s_n s = s_n s' -> s_euler s = false -> wf_dg ne s d -> forall rk cfl tf nout fuel,
  let r := integrate gamma rk d None cfl tf nout fuel s in
  let r' := integrate gamma rk d None cfl tf nout fuel s' in
  Forall2 (fun x y => ev_nout x = ev_nout y /\ ev_dt x = ev_dt y /\ s_t (ev_sol x) = s_t (ev_sol y) /\ s_n (ev_sol x) = s_n (ev_sol y)) (fst r) (fst r') /\
  match snd r, snd r' with
  | Finished a, Finished b => s_t a = s_t b /\ s_n a = s_n b
  | Failed a, Failed b => a = b
  | OutOfFuel, OutOfFuel => True
  | _, _ => False
  end.
Proof.
  intros W W' S T Nn Eu D rk cfl tf nout fuel. cbv zeta.
  destruct (along_run gamma (fun _ _ => True) I (fun _ _ _ _ _ _ => I) (fun _ _ _ _ _ _ => I) (fun _ _ _ _ => I) (fun _ _ _ _ => I) ne s d W D Eu rk cfl tf nout fuel s') as [H1 H2].
  - split; [apply Wf_0; exact W|]. split; [split; assumption|]. split; [exact T|]. split; [exact Nn|]. intros ? ? ? ? ? ?. exact I.
  - split; [|destruct H2 as [a b H| |]; [destruct H as [_ [_ [H3 [H4 _]]]]; split; assumption|assumption|exact I]].
    eapply Forall2_impl'; [|exact H1]. intros x y [E1 [E2 [_ [_ [E3 [E4 _]]]]]]. auto.
Qed.
