(** Error of rk3 advection runs against the travelling profile, in L2. *)
From Coq Require Import ZArith List Bool Arith String Lia Reals Lra Psatz FunctionalExtensionality.
From Verif Require Import Num Py PyStr Lib RealLib Constants LegNumpy Ext Basis Enhance Solution Solver RKCoeffs RK SpecDG SpecTime SpecPoly SpecRK SpecUniform SpecMonotone SpecConverge SpecL2 SpecOrder
  ProofsDG ProofsCons ProofsWf ProofsSol ProofsTime ProofsAdv ProofsRun ProofsPoly ProofsLeg ProofsGauss ProofsBasis ProofsMonotone ProofsAnalysis3 ProofsL2 ProofsL2Run ProofsRadau ProofsOrder.
Import ListNotations.
Open Scope list_scope.
Open Scope R_scope.

(** * L2 norms of families of functions on the cells *)
Definition czero : cfun := {| cf := fct_cte 0; cf_c := continuity_const (fct_cte 0) (fun _ _ => eq_refl) |}.
Lemma Int_zero : Int czero = 0.
Proof. apply Int_nint. eapply nint_ext; [|apply nint_0]. intro x. reflexivity. Qed.
Section Cells.
  Variables (ne : nat) (h : R).
  Hypothesis Hh : 0 < h.
  Definition sq (g : cfun) : cfun := {| cf := fun x => h / 2 * (g x * g x); cf_c := continuity_scal (fun x => g x * g x) (h / 2) (continuity_mult g g (cf_c g) (cf_c g)) |}.
  Definition tot (a : nat -> cfun) : R := Rsum ne (fun i => Int (sq (a (i + 1)%nat))).
  Lemma sq_pos g : 0 <= Int (sq g).
  Proof. rewrite <- Int_zero. apply Int_le. intros x _. cbn [czero sq cf]. unfold fct_cte. pose proof (Rle_0_sqr (g x)) as Q. unfold Rsqr in Q. apply Rmult_le_pos; [lra|exact Q]. Qed.
  Lemma tot_pos a : 0 <= tot a. Proof. apply Rsum_nonneg. intros. apply sq_pos. Qed.
  Lemma tot_mink (a b c : nat -> cfun) : (forall e x, (1 <= e <= ne)%nat -> c e x = a e x + b e x) -> sqrt (tot c) <= sqrt (tot a) + sqrt (tot b).
  Proof.
    intro H. apply mink; try apply tot_pos. intros s Hs. unfold tot. rewrite <- !Rsum_scale, <- Rsum_plus. apply Rsum_le. intros i Hi.
    set (A := a (i + 1)%nat). set (Bb := b (i + 1)%nat). set (C := c (i + 1)%nat).
    set (z1 := clin czero (sq A) (1 + s)). set (z := clin z1 (sq Bb) (1 + / s)).
    assert (E1 : Int z1 = (1 + s) * Int (sq A)) by (rewrite (Int_lin czero (sq A) z1 (1 + s)), Int_zero by reflexivity; ring).
    assert (E2 : Int z = (1 + s) * Int (sq A) + (1 + / s) * Int (sq Bb)) by (rewrite (Int_lin z1 (sq Bb) z (1 + / s)), E1 by reflexivity; ring).
    rewrite <- E2. apply Int_le. intros x _. unfold z, z1. cbn [clin sq czero cf]. unfold fct_cte. unfold C. rewrite H by lia. fold A Bb.
    pose proof (young (A x) (Bb x) s Hs) as Q. apply Rle_trans with (h / 2 * ((1 + s) * (A x * A x) + (1 + / s) * (Bb x * Bb x))); [apply Rmult_le_compat_l; lra|right; ring].
  Qed.
  Lemma tot_flat (b : nat -> cfun) K : (forall e x, (1 <= e <= ne)%nat -> -1 <= x <= 1 -> Rabs (b e x) <= K) -> (1 <= ne)%nat -> sqrt (tot b) <= sqrt (INR ne * h) * K.
  Proof.
    intros H Hne. assert (HK : 0 <= K) by (eapply Rle_trans; [apply Rabs_pos|apply (H 1%nat 0); [lia|lra]]).
    rewrite <- (sqrt_square K HK) at 1. rewrite <- sqrt_mult_alt by (apply Rmult_le_pos; [apply pos_INR|lra]). apply sqrt_le_1_alt. unfold tot.
    apply Rle_trans with (Rsum ne (fun _ => h * (K * K))); [|rewrite Rsum_const; right; ring]. apply Rsum_le. intros i Hi.
    eapply Rle_trans; [apply Rle_abs|]. replace (h * (K * K)) with (2 * (h / 2 * (K * K))) by field. apply Int_bound. intros x Hx. cbn [sq cf].
    specialize (H (i + 1)%nat x ltac:(lia) Hx). apply Rabs_le_inv in H. set (y := b (i + 1)%nat x) in *. clearbody y.
    pose proof (Rle_0_sqr y) as Q. unfold Rsqr in Q. rewrite Rabs_right by (apply Rle_ge, Rmult_le_pos; lra). apply Rmult_le_compat_l; [lra|]. nra.
  Qed.
  Lemma tot_ext (a b : nat -> cfun) : (forall e x, (1 <= e <= ne)%nat -> a e x = b e x) -> tot a = tot b.
  Proof. intro H. apply Rsum_ext. intros i Hi. apply Int_ext. intro x. cbn [sq cf]. rewrite H by lia. reflexivity. Qed.
End Cells.
(** polynomials given by their coefficients *)
Definition cser (N : nat) (x : nat -> R) : cfun.
Proof.
  refine {| cf := fun xi => Rsum N (fun n => x n * LegP n xi) |}. apply (cont_poly N). apply (is_poly_Rsum N N (fun n xi => x n * LegP n xi)). intros n Hn. apply is_poly_scal. apply (is_poly_le n); [lia|apply LegP_poly].
Defined.
Lemma tot_modes N ne h (x : nat -> nat -> R) : tot ne h (fun e => cser N (fun n => x n e)) = h * ip N ne x x.
Proof.
  unfold tot, ip. rewrite <- Rsum_scale. apply Rsum_ext. intros i Hi. apply Int_nint. set (c := tab N (fun n => x n (i + 1)%nat)).
  assert (Lc : List.length c = N) by apply length_tab.
  assert (Ec : forall n, (n < N)%nat -> nth n c 0 = x n (i + 1)%nat) by (intros n Hn; unfold c; rewrite nth_tab by exact Hn; reflexivity).
  eapply nint_ext; [|eapply nint_val; [|apply (nint_scal (h / 2)); apply (nint_product_series c c N Lc Lc)]].
  - intro xi. cbn [sq cser cf]. unfold legseries. rewrite Lc. rewrite (Rsum_ext N (fun n => nth n c 0 * LegP n xi) (fun n => x n (i + 1)%nat * LegP n xi)) by (intros n Hn; rewrite Ec by exact Hn; reflexivity). reflexivity.
  - rewrite <- !Rsum_scale. apply Rsum_ext. intros n Hn. rewrite Ec by exact Hn. pose proof (w_pos n). field. lra.
Qed.

Section Run.
  Context {X : Ext R}.
  Hypothesis G : gauss_ok.
  Variables (ne : nat) (sol0 : solution R).
  Hypothesis M : made ne sol0.
  Hypothesis Ha : s_euler sol0 = false.
  Hypothesis He : s_enh sol0 = None.
  Hypothesis Hl : is_literal (s_bcl sol0) "periodic" = true.
  Notation N := (s_Ns sol0).
  Notation h := (s_dx sol0).
  Notation p := (b_p (s_basis sol0)).
  Let Hne : (1 <= ne)%nat := wf_ne _ _ (md_wf _ _ M).
  Let Hh : 0 < h := md_dx _ _ M.
  Variables (F : nat -> R -> R) (B : nat -> R) (a : R).
  Hypothesis HS : smooth_profile F B (INR ne * h).
  Let HF : forall k x, derivable_pt_lim (F k) x (F (S k) x) := proj1 HS.
  Let HB : forall k x, Rabs (F k x) <= B k := proj1 (proj2 HS).
  Lemma HP k : forall x, F k (x + INR ne * h) = F k x.
  Proof.
    induction k as [|k IH]; intro x; [apply HS|]. apply (uniqueness_limite (F k) x); [|apply HF].
    apply (dlim_ext (fun y => F k (1 * y + INR ne * h))); [intro y; rewrite Rmult_1_l; apply IH|]. replace (F (S k) (x + INR ne * h)) with (1 * F (S k) (1 * x + INR ne * h)) by (rewrite !Rmult_1_l; reflexivity).
    apply dlim_affine. apply HF.
  Qed.
  Lemma Ns_S : N = S p. Proof. unfold s_Ns, b_Ns. lia. Qed.
  Notation wav t := (wave p h a F HF 0 t).
  (** the error as a family of functions *)
  Definition cwave (t : R) (e : nat) : cfun := cellg h a F HF 0 e t 1.
  Definition csol (s : solution R) (e : nat) : cfun := cser (S p) (fun n => at2 (s_u s) n e).
  Definition cerr (s : solution R) (t : R) (e : nat) : cfun := clin (csol s e) (cwave t e) (-1).
  Lemma err_is s t : Wf ne sol0 s -> l2err ne a s (fun x => F 0 (x - t)) (tot ne h (cerr s t)).
  Proof.
    intro Ws. assert (Ex : s_dx s = h) by (destruct Ws as [_ Sim]; apply (similar_fields _ _ Sim)).
    exists (fun e => Int (sq h (cerr s t e))). split; [|reflexivity]. intros e Hee. rewrite Ex.
    pose proof (Int_integral (sq h (cerr s t e))) as Q.
    match type of Q with integral ?f _ _ _ => match goal with |- integral ?g _ _ _ => replace g with f; [exact Q|] end end.
    apply functional_extensionality. intro xi. cbn [sq cerr clin csol cser cwave cellg cf]. destruct (cell_modes ne sol0 M Ha s e Ws Hee) as [Lm Em].
    unfold legseries. rewrite Lm, Ns_S. rewrite (Rsum_ext (S p) (fun i => nth i (modes s e 0) 0 * LegP i xi) (fun n => at2 (s_u s) n e * LegP n xi)) by (intros n Hn; rewrite Em by (rewrite Ns_S; exact Hn); reflexivity).
    unfold cellx. replace (centre a h e - t + h / 2 * xi) with (centre a h e + h / 2 * xi - t) by ring. ring.
  Qed.
  Lemma err_unique s f E E' : l2err ne a s f E -> l2err ne a s f E' -> E = E'.
  Proof. intros [v [Hv ->]] [v' [Hv' ->]]. apply Rsum_ext. intros i Hi. eapply integral_unique; [apply Hv; lia|apply Hv'; lia]. Qed.
  (** the same up to the projection error, with the code's coefficients *)
  Definition dif (s : solution R) (t : R) : nat -> nat -> R := fun n e => at2 (s_u s) n e + -1 * wav t n e.
  Definition cdif (s : solution R) (t : R) (e : nat) : cfun := cser (S p) (fun n => dif s t n e).
  Definition cprj (t : R) (e : nat) : cfun := clin (cser (S p) (fun n => wav t n e)) (cwave t e) (-1).
  Lemma tot_dif s t : sqrt (tot ne h (cdif s t)) = sqrt h * nm (S p) ne (dif s t).
  Proof. unfold cdif. rewrite (tot_modes (S p) ne h (dif s t)). unfold nm. apply sqrt_mult_alt. lra. Qed.
  Notation L := (INR ne * h).
  Lemma tot_prj t : sqrt (tot ne h (cprj t)) <= sqrt L * proj_size p (h / 2) B.
  Proof.
    apply tot_flat; [exact Hh| |exact Hne]. intros e x _ Hx. pose proof (wave_close p h a Hh F B HF HB t e x Hx) as Q.
    cbn [cprj clin cser cwave cellg cf]. replace (Rsum (S p) (fun n => wav t n e * LegP n x) + -1 * (1 * F 0%nat (cellx h a e t x))) with (Rsum (S p) (fun n => wav t n e * LegP n x) - F 0%nat (cellx h a e t x)) by ring. exact Q.
  Qed.
  Lemma ser_dif s t e x : cdif s t e x = Rsum (S p) (fun n => at2 (s_u s) n e * LegP n x) - Rsum (S p) (fun n => wav t n e * LegP n x).
  Proof. cbn [cdif cser cf]. rewrite <- Rsum_minus. apply Rsum_ext. intros n Hn. unfold dif. ring. Qed.
  Lemma err_dif s t : sqrt (tot ne h (cerr s t)) <= sqrt h * nm (S p) ne (dif s t) + sqrt L * proj_size p (h / 2) B.
  Proof.
    rewrite <- tot_dif. eapply Rle_trans; [apply (tot_mink ne h Hh (cdif s t) (cprj t))|apply Rplus_le_compat_l; apply tot_prj].
    intros e x _. rewrite ser_dif. cbn [cerr csol cprj clin cser cwave cf]. ring.
  Qed.
  Definition cneg (g : cfun) : cfun := clin czero g (-1).
  Lemma dif_err s t : sqrt h * nm (S p) ne (dif s t) <= sqrt (tot ne h (cerr s t)) + sqrt L * proj_size p (h / 2) B.
  Proof.
    rewrite <- tot_dif. eapply Rle_trans; [apply (tot_mink ne h Hh (cerr s t) (fun e => cneg (cprj t e)))|apply Rplus_le_compat_l].
    - intros e x _. rewrite ser_dif. cbn [cerr csol cneg czero cprj clin cser cwave cf]. unfold fct_cte. ring.
    - replace (tot ne h (fun e => cneg (cprj t e))) with (tot ne h (cprj t)); [apply tot_prj|]. apply Rsum_ext. intros i _. apply Int_ext. intro x. cbn [sq cneg clin czero cf]. unfold fct_cte. ring.
  Qed.
  Variables (gamma : R) (d : dg) (cfl tf : R) (nout : Z).
  Hypothesis D : wf_dg ne sol0 d.
  Hypothesis Hn2 : (2 <= nout)%Z.
  Hypothesis Ht : s_t sol0 <= tf.
  Hypothesis Hc : 2 * (INR N * INR N) * cfl <= INR (2 * p + 1).
  Notation t0 := (s_t sol0).
  Definition speed : R := sqrt (INR ne * INR (S p)) * trunc_size p (h / 2) B.
  Theorem run_dif fuel evs out : integrate gamma "rk3" d None cfl tf nout fuel sol0 = (evs, out) ->
    forall s, (exists ev, In ev evs /\ s = ev_sol ev) \/ out = Finished s ->
    (Wf ne sol0 s /\ t0 <= s_t s) /\ nm (S p) ne (dif s (s_t s - t0)) <= nm (S p) ne (dif sol0 0) + (s_t s - t0) * speed.
  Proof.
    intros I s Hst. pose proof (md_wf _ _ M) as W0.
    destruct (run_states gamma "rk3" d None cfl tf nout sol0 (fun s => (Wf ne sol0 s /\ t0 <= s_t s) /\ nm (S p) ne (dif s (s_t s - t0)) <= nm (S p) ne (dif sol0 0) + (s_t s - t0) * speed)) with (fuel := fuel) (evs := evs) (out := out) as [HE HFn]; [| |exact I|].
    - split; [split; [split; [exact W0|apply similar_refl]|lra]|]. rewrite Rminus_diag_eq by reflexivity. lra.
    - intros k tout touts s1 sc evs0 s' sc' [[dt o] dn] V [[Ws Lt] Ls] T.
      destruct (Wf_visits gamma ne sol0 d None W0 D _ _ _ _ _ _ _ _ _ _ V) as [_ [Wsc [Kn _]]].
      destruct (Wf_time_step gamma ne sol0 d None D _ _ _ _ _ _ _ _ _ Ws Wsc Kn T) as [Ws' _].
      destruct (step_dt ne sol0 M Ha gamma d cfl tf nout D Hn2 Ht "rk3" _ _ _ _ _ _ _ _ _ _ _ V T) as [D0 [D1 Et]]. split; [split; [exact Ws'|lra]|].
      pose proof (dt_small ne sol0 M cfl Hc dt D0 D1) as Hs. pose proof (rk3_step G ne sol0 M Ha He Hl gamma d cfl tf nout D _ _ _ _ _ _ _ _ _ _ _ V T) as E.
      rewrite Ns_S in Hs, E.
      pose proof (step_error p ne h a Hh Hne F B HF HB HP dt D0 Hs (at2 (s_u s1)) (at2 (s_u s')) (s_t s1 - t0) E) as Q.
      rewrite Et. replace (s_t s1 + dt - t0) with (s_t s1 - t0 + dt) by ring. unfold dif at 1. eapply Rle_trans; [exact Q|]. fold (dif s1 (s_t s1 - t0)).
      change (sqrt (INR ne * INR (S p)) * tau p h B) with speed. lra.
    - destruct Hst as [[ev [Hin ->]] | E]; [rewrite Forall_forall in HE; apply HE; exact Hin|apply HFn; exact E].
  Qed.
  Theorem run_error fuel evs out : integrate gamma "rk3" d None cfl tf nout fuel sol0 = (evs, out) -> forall E0, l2err ne a sol0 (F 0%nat) E0 ->
    forall s, (exists ev, In ev evs /\ s = ev_sol ev) \/ out = Finished s ->
    t0 <= s_t s /\ exists E, l2err ne a s (fun x => F 0%nat (x - (s_t s - t0))) E /\
      sqrt E <= sqrt E0 + sqrt L * (2 * proj_size p (h / 2) B + (s_t s - t0) * sqrt (INR (S p)) * trunc_size p (h / 2) B).
  Proof.
    intros I E0 H0 s Hst. destruct (run_dif fuel evs out I s Hst) as [[Ws Lt] Q]. split; [exact Lt|]. exists (tot ne h (cerr s (s_t s - t0))). split; [apply err_is; exact Ws|].
    assert (W00 : Wf ne sol0 sol0) by (split; [apply M|apply similar_refl]).
    assert (Z : E0 = tot ne h (cerr sol0 0)).
    { apply (err_unique sol0 (F 0%nat)); [exact H0|]. pose proof (err_is sol0 0 W00) as Q0. replace (F 0%nat) with (fun x => F 0%nat (x - 0)) by (apply functional_extensionality; intro x; rewrite Rminus_0_r; reflexivity). exact Q0. }
    pose proof (err_dif s (s_t s - t0)) as A1. pose proof (dif_err sol0 0) as A2. rewrite <- Z in A2. pose proof (sqrt_pos h) as Sh.
    assert (A3 : sqrt h * nm (S p) ne (dif s (s_t s - t0)) <= sqrt h * (nm (S p) ne (dif sol0 0) + (s_t s - t0) * speed)) by (apply Rmult_le_compat_l; assumption).
    assert (A4 : sqrt h * speed = sqrt L * sqrt (INR (S p)) * trunc_size p (h / 2) B).
    { unfold speed. rewrite <- Rmult_assoc. f_equal. rewrite !sqrt_mult_alt by apply pos_INR. ring. }
    replace (sqrt h * (nm (S p) ne (dif sol0 0) + (s_t s - t0) * speed)) with (sqrt h * nm (S p) ne (dif sol0 0) + (s_t s - t0) * (sqrt h * speed)) in A3 by ring. rewrite A4 in A3. lra.
  Qed.
End Run.
