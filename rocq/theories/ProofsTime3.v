(** Which of the requested outputs a completed run writes (real arithmetic). *)
From Coq Require Import ZArith List Bool Arith String Lia Reals Lra.
From Verif Require Import Num Py Lib LegNumpy Ext Basis Sensor Enhance Limiting Solution Solver RKCoeffs RK SpecTime ProofsTime.
Import ListNotations.
Open Scope R_scope.

Section Rule.
  Variables (gamma : R) (rk : string) (d : dg) (l : limiter (A:=R)) (cfl tf : R) (nout : Z) (sol0 : solution R).
  Hypothesis Hnout : (2 <= nout)%Z.
  Hypothesis Htf : s_t sol0 <= tf.
  Let n := Z.to_nat nout.
  Let h := (tf - s_t sol0) / INR (n - 1).
  Notation grid i := (s_t sol0 + INR i * h).
  Lemma grid_out i : out_time tf nout sol0 i = grid i.
  Proof. reflexivity. Qed.

  Theorem output_rule fuel evs s : s_t sol0 < tf ->
    integrate gamma rk d l cfl tf nout fuel sol0 = (evs, Finished s) ->
    exists k tout touts s0 sc evs0 v,
      visits gamma rk d l cfl tf nout sol0 k tout touts s0 sc evs0 /\
      max_wave_speed gamma s0 = Ok v /\
      tf - s_dx s0 * cfl / (v * INR (2 * b_p (s_basis s0) + 1)) < s_t s0 <= tf /\
      List.length evs = S k /\
      (forall i ev, nth_error evs i = Some ev -> (i < k)%nat -> s_t (ev_sol ev) = grid i) /\
      (forall i, (i < n)%nat -> grid i < s_t s0 -> (i < k)%nat) /\
      (forall i, (i < n)%nat -> (k <= i)%nat -> s_t s0 <= grid i <= tf) /\
      (forall i, (i < k)%nat -> grid i <= s_t s0).
  Proof.
    intros Hlt H. apply finished_events in H; [|assumption|assumption].
    destruct H as [k [tout [touts [s0 [sc [evs0 [sc' [dt [Hv [Hs ->]]]]]]]]]].
    pose proof Hv as Hv'. apply visits_inv in Hv'; [|assumption|assumption].
    destruct Hv' as [Ik Itout _ It Ilo Ilen Iev].
    apply time_step_clock in Hs; [|intros *; apply frame_inner]. destruct Hs as [Hn _].
    apply next_step_cases in Hn. destruct Hn as [v [Hw [_ Hc]]]. cbv zeta in Hc.
    destruct Hc as [[H1 _] | [[_ [_ [_ [_ Hb]]]] | [_ [_ [_ [Hb _]]]]]]; try discriminate.
    assert (Hh : 0 <= h) by (apply (h_nonneg tf nout sol0); assumption).
    assert (Hmono : forall i j, (i <= j)%nat -> grid i <= grid j) by (intros i j Hij; apply (out_time_mono tf nout sol0); assumption).
    assert (Hend : grid (n - 1)%nat = tf) by (apply (out_time_last tf nout sol0); assumption).
    rewrite grid_out in Ilo. subst tout. rewrite grid_out in It. fold n in Ik.
    assert (Hk : grid k <= tf) by (rewrite <- Hend; apply Hmono; lia).
    exists k, (out_time tf nout sol0 k), touts, s0, sc, evs0, v.
    split; [exact Hv|]. split; [exact Hw|]. split; [split; lra|].
    split; [rewrite app_length; simpl; lia|].
    split. { intros i ev Hi Hik. rewrite nth_error_app1 in Hi by lia. apply Iev in Hi. exact (proj2 Hi). }
    split. { intros i Hi Hg. destruct (lt_dec i k) as [|Hge]; [assumption|exfalso]. assert (grid k <= grid i) by (apply Hmono; lia). lra. }
    split. { intros i Hi Hg. assert (grid k <= grid i) by (apply Hmono; lia). assert (grid i <= grid (n - 1)%nat) by (apply Hmono; lia). lra. }
    intros i Hi. assert (grid i <= grid (k - 1)%nat) by (apply Hmono; lia). lra.
  Qed.

  (** in other words: outputs requested before the last step are written; those that are not written
      lie less than one CFL step before the final time *)
  Corollary missing_outputs fuel evs s : s_t sol0 < tf ->
    integrate gamma rk d l cfl tf nout fuel sol0 = (evs, Finished s) ->
    exists s0 v, max_wave_speed gamma s0 = Ok v /\
      (exists k tout touts sc evs0, visits gamma rk d l cfl tf nout sol0 k tout touts s0 sc evs0) /\
      (forall i, (i < n - 1)%nat -> grid i < s_t s0 -> exists ev, nth_error evs i = Some ev /\ s_t (ev_sol ev) = grid i) /\
      (forall i, (List.length evs - 1 <= i < n - 1)%nat ->
         0 < tf - grid i < s_dx s0 * cfl / (v * INR (2 * b_p (s_basis s0) + 1))).
  Proof.
    intros Hlt H. destruct (output_rule fuel evs s Hlt H) as [k [tout [touts [s0 [sc [evs0 [v [Hv [Hw [Ht [Hlen [He [H1 [H2 H3]]]]]]]]]]]]]].
    exists s0, v. split; [exact Hw|]. split; [exists k, tout, touts, sc, evs0; exact Hv|].
    split.
    - intros i Hi Hg. assert (Hik : (i < k)%nat) by (apply H1; [lia|exact Hg]).
      destruct (nth_error evs i) as [ev|] eqn:E; [exists ev; split; [reflexivity|exact (He i ev E Hik)]|].
      apply nth_error_None in E. lia.
    - intros i Hi. rewrite Hlen in Hi. destruct (H2 i ltac:(lia) ltac:(lia)) as [A B].
      assert (Hend : grid (n - 1)%nat = tf) by (apply (out_time_last tf nout sol0); assumption).
      assert (Hh : 0 < h) by (unfold h; apply Rdiv_lt_0_compat; [lra|apply lt_0_INR; lia]).
      assert (INR i * h < INR (n - 1) * h) by (apply Rmult_lt_compat_r; [exact Hh|apply lt_INR; lia]). lra.
  Qed.
End Rule.
