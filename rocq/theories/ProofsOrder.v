(** One step of the scheme on the Gauss-Radau projection of a travelling wave: size of the truncation error. *)
From Coq Require Import List Bool Arith Lia Reals Lra Psatz.
From Verif Require Import Num RealLib SpecPoly SpecConverge ProofsPoly ProofsLeg ProofsGauss ProofsBasis ProofsL2 ProofsL2Run ProofsRadau.
Import ListNotations.
Open Scope R_scope.

(** Minkowski's inequality from the family of quadratic bounds *)
Lemma mink A B E : 0 <= A -> 0 <= B -> (forall s, 0 < s -> E <= (1 + s) * A + (1 + / s) * B) -> sqrt E <= sqrt A + sqrt B.
Proof.
  intros HA HB H. apply le_epsilon. intros eps He. set (al := sqrt A + eps / 2). set (be := sqrt B + eps / 2).
  pose proof (sqrt_pos A) as SA. pose proof (sqrt_pos B) as SB. assert (Ha : 0 < al) by (unfold al; lra). assert (Hb : 0 < be) by (unfold be; lra).
  assert (Q : E <= (al + be) * (al + be)).
  { eapply Rle_trans; [apply (H (be / al)); apply Rdiv_lt_0_compat; assumption|].
    assert (LA : A <= al * al) by (pose proof (sqrt_sqrt A HA); unfold al; nra). assert (LB : B <= be * be) by (pose proof (sqrt_sqrt B HB); unfold be; nra).
    assert (P1 : 0 < be / al) by (apply Rdiv_lt_0_compat; assumption). assert (P2 : 0 < / (be / al)) by (apply Rinv_0_lt_compat; exact P1).
    apply Rle_trans with ((1 + be / al) * (al * al) + (1 + / (be / al)) * (be * be)); [apply Rplus_le_compat; apply Rmult_le_compat_l; lra|]. right. clearbody al be. field. lra. }
  replace (sqrt A + sqrt B + eps) with (al + be) by (unfold al, be; lra). rewrite <- (sqrt_square (al + be)) by lra. apply sqrt_le_1_alt. exact Q.
Qed.
Lemma young a b s : 0 < s -> (a + b) * (a + b) <= (1 + s) * (a * a) + (1 + / s) * (b * b).
Proof.
  intro Hs. pose proof (Rle_0_sqr (s * a - b)) as Q. unfold Rsqr in Q. assert (E : (1 + s) * (a * a) + (1 + / s) * (b * b) - (a + b) * (a + b) = / s * ((s * a - b) * (s * a - b))) by (field; lra).
  assert (0 <= / s * ((s * a - b) * (s * a - b))) by (apply Rmult_le_pos; [apply Rlt_le, Rinv_0_lt_compat; exact Hs|exact Q]). lra.
Qed.

Section Norm.
  Variables (N ne : nat).
  Hypothesis Hne : (1 <= ne)%nat.
  Definition nm (x : nat -> nat -> R) : R := sqrt (ip N ne x x).
  Lemma nm_ext x y : eqi N ne x y -> nm x = nm y.
  Proof. intro H. unfold nm. rewrite (ip_ext N ne Hne _ _ _ _ H H). reflexivity. Qed.
  Lemma nm_pos x : 0 <= nm x. Proof. apply sqrt_pos. Qed.
  Lemma nm_scale c x : nm (fun n e => c * x n e) = Rabs c * nm x.
  Proof.
    unfold nm. rewrite ip_scale, ip_sym, ip_scale, <- Rmult_assoc, sqrt_mult_alt by (apply Rle_0_sqr). f_equal. fold (Rsqr c). rewrite sqrt_Rsqr_abs. reflexivity.
  Qed.
  Lemma nm_add x y : nm (fun n e => x n e + y n e) <= nm x + nm y.
  Proof.
    apply mink; try apply ip_pos. intros s Hs. unfold ip. rewrite <- !Rsum_scale, <- Rsum_plus. apply Rsum_le. intros i Hi.
    rewrite <- !Rsum_scale, <- Rsum_plus. apply Rsum_le. intros n Hn. pose proof (w_pos n) as W. pose proof (young (x n (i + 1)%nat) (y n (i + 1)%nat) s Hs) as Q.
    set (a := x n (i + 1)%nat) in *. set (b := y n (i + 1)%nat) in *. set (w := 2 * INR n + 1) in *. clearbody a b w.
    replace ((1 + s) * (a * a / w) + (1 + / s) * (b * b / w)) with (((1 + s) * (a * a) + (1 + / s) * (b * b)) / w) by (unfold Rdiv; ring).
    apply Rmult_le_compat_r; [apply Rlt_le, Rinv_0_lt_compat; exact W|exact Q].
  Qed.
  Lemma nm_bound x K : 0 <= K -> (forall n e, (n < N)%nat -> (1 <= e <= ne)%nat -> Rabs (x n e) <= K) -> nm x <= sqrt (INR ne * INR N) * K.
  Proof.
    intros HK H. rewrite <- (sqrt_square K HK) at 1. rewrite <- sqrt_mult_alt by (apply Rmult_le_pos; apply pos_INR). apply sqrt_le_1_alt. unfold ip.
    apply Rle_trans with (Rsum ne (fun _ => Rsum N (fun _ => K * K))); [|rewrite !Rsum_const; right; ring].
    apply Rsum_le. intros i Hi. apply Rsum_le. intros n Hn. specialize (H n (i + 1)%nat Hn ltac:(lia)). pose proof (w_pos n) as W. pose proof (pos_INR n) as W0.
    apply Rabs_le_inv in H. set (a := x n (i + 1)%nat) in *. clearbody a. assert (Q : a * a <= K * K) by nra. pose proof (Rle_0_sqr a) as Q0. unfold Rsqr in Q0.
    apply Rle_trans with (a * a * 1); [|lra]. unfold Rdiv. apply Rmult_le_compat_l; [exact Q0|]. rewrite <- Rinv_1. apply Rinv_le_contravar; lra.
  Qed.
End Norm.

Section Wave.
  Variables (p ne : nat) (h A : R).
  Hypothesis Hh : 0 < h.
  Hypothesis Hne : (1 <= ne)%nat.
  Variable F : nat -> R -> R.
  Variable B : nat -> R.
  Hypothesis HF : forall k x, derivable_pt_lim (F k) x (F (S k) x).
  Hypothesis HB : forall k x, Rabs (F k x) <= B k.
  Hypothesis HP : forall k x, F k (x + INR ne * h) = F k x.
  Notation N := (S p).
  Lemma B_pos k : 0 <= B k. Proof. eapply Rle_trans; [apply Rabs_pos|apply (HB k 0)]. Qed.
  Lemma F_cont k : continuity (F k).
  Proof. intro x. apply derivable_continuous_pt. exists (F (S k) x). apply HF. Qed.
  (** the k-th derivative, at time t, seen from cell e, times c *)
  Definition cellx (e : nat) (t xi : R) : R := centre A h e - t + h / 2 * xi.
  Lemma cell_cont k e t c : continuity (fun xi => c * F k (cellx e t xi)).
  Proof.
    apply (continuity_scal (fun xi => F k (cellx e t xi)) c). apply (continuity_comp (fun xi => cellx e t xi) (F k)); [|apply F_cont].
    apply (cont_poly 1). apply (is_poly_ext _ (fun xi => centre A h e - t + h / 2 * xi)); [reflexivity|]. apply is_poly_plus; [apply is_poly_const|]. apply is_poly_scal, is_poly_id.
  Qed.
  Definition cellg (k e : nat) (t c : R) : cfun := {| cf := fun xi => c * F k (cellx e t xi); cf_c := cell_cont k e t c |}.
  Lemma cellg_deriv k e t c xi : derivable_pt_lim (cellg k e t c) xi (cellg (S k) e t (c * (h / 2)) xi).
  Proof.
    cbn [cellg cf]. apply (dlim_eq _ _ (c * (h / 2 * F (S k) (h / 2 * xi + (centre A h e - t))))); [unfold cellx; rewrite (Rplus_comm (h / 2 * xi)); ring|].
    apply dlim_scal. apply (dlim_ext (fun xi => F k (h / 2 * xi + (centre A h e - t)))); [intro; unfold cellx; f_equal; ring|]. apply dlim_affine. apply HF.
  Qed.
  Lemma cell_faces k e t c : (1 <= e <= ne)%nat -> cellg k (prev ne e) t c 1 = cellg k e t c (-1).
  Proof.
    intro H. cbn [cellg cf]. f_equal. unfold cellx, prev, centre. destruct (Nat.eqb_spec e 1) as [->|E].
    - rewrite <- (HP k (A + (INR 1 - 1 / 2) * h - t + h / 2 * -1)). f_equal. cbn [INR]. field.
    - rewrite minus_INR by lia. f_equal. cbn [INR]. field.
  Qed.
  (** projections of the wave and of its derivatives *)
  Definition sg1 (k : nat) : R := (-1) ^ k.
  Definition wave (k : nat) (t : R) : nat -> nat -> R := fun n e => rc p (cellg k e t (sg1 k)) n.
  Definition lack (k : nat) (t : R) : nat -> nat -> R := fun n e => if (n =? p)%nat then defect p (cellg k e t (sg1 k)) else 0.
  Lemma dop_wave k t : eqi N ne (dop N ne h (wave k t)) (fun n e => wave (S k) t n e + lack (S k) t n e).
  Proof.
    intros n e Hn He. unfold dop, at_right. unfold wave at 1 2 3. rewrite (rc_vol p _ n) by lia. rewrite !rc_right, cell_faces by exact He.
    set (g := cellg k e t (sg1 k)). set (g' := cellg (S k) e t (sg1 k * (h / 2))).
    pose proof (by_parts g g' n (fun x => cellg_deriv k e t (sg1 k) x)) as BP.
    pose proof (pc_rc p (cellg (S k) e t (sg1 (S k))) n ltac:(lia)) as Q. unfold wave, lack.
    replace (rc p (cellg (S k) e t (sg1 (S k))) n + (if (n =? p)%nat then defect p (cellg (S k) e t (sg1 (S k))) else 0)) with (pc (cellg (S k) e t (sg1 (S k))) n) by lra.
    assert (Em : mom g' n = - (h / 2) * mom (cellg (S k) e t (sg1 (S k))) n).
    { pose proof (mom_lin (cellg (S k) e t 0) (cellg (S k) e t (sg1 (S k))) g' (- (h / 2)) n) as L. rewrite L by (intro x; unfold g', sg1; cbn [cellg cf pow]; ring).
      pose proof (mom_lin (cellg (S k) e t 0) (cellg (S k) e t 0) (cellg (S k) e t 0) 1 n) as Z. rewrite Z at 1 by (intro x; cbn [cellg cf]; ring).
      assert (Z0 : mom (cellg (S k) e t 0) n = 0) by (pose proof (Z ltac:(intro x; cbn [cellg cf]; ring)); lra). rewrite Z0. ring. }
    unfold pc. replace (Int (cdP g n) - g 1 + sgn n * g (-1)) with (- mom g' n) by lra. rewrite Em. field. lra.
  Qed.
  (** sizes *)
  Definition cap (k : nat) : R := B (k + N)%nat * ((h / 2) ^ N / INR (fact N)).
  Lemma cap_pos k : 0 <= cap k.
  Proof. unfold cap. apply Rmult_le_pos; [apply B_pos|]. apply Rmult_le_pos; [apply pow_le; lra|apply Rlt_le, Rinv_0_lt_compat, INR_fact_lt_0]. Qed.
  Lemma sg1_abs k : Rabs (sg1 k) = 1.
  Proof. unfold sg1. rewrite <- RPow_abs, Rabs_left by lra. replace (- (-1)) with 1 by ring. apply pow1. Qed.
  (** the Taylor polynomial of degree p at the centre of the cell *)
  Definition near (k e : nat) (t c xi : R) : R := c * tpoly F N k (centre A h e - t) (h / 2 * xi + 0).
  Lemma near_poly k e t c : is_poly p (near k e t c).
  Proof. unfold near. apply is_poly_scal. apply (is_poly_affine p (tpoly F N k (centre A h e - t)) (h / 2) 0). apply tpoly_poly. Qed.
  Definition cnear k e t c : cfun := {| cf := near k e t c; cf_c := cont_poly p _ (near_poly k e t c) |}.
  Lemma near_close k e t c xi : Rabs c = 1 -> -1 <= xi <= 1 -> Rabs (clin (cellg k e t c) (cnear k e t c) (-1) xi) <= cap k.
  Proof.
    intros Hc Hx. cbn [clin cellg cnear cf]. unfold near, cellx. rewrite Rplus_0_r.
    replace (c * F k (centre A h e - t + h / 2 * xi) + -1 * (c * tpoly F N k (centre A h e - t) (h / 2 * xi))) with (c * (F k (centre A h e - t + h / 2 * xi) - tpoly F N k (centre A h e - t) (h / 2 * xi))) by ring.
    rewrite Rabs_mult, Hc, Rmult_1_l. eapply Rle_trans; [apply (taylor_bound F HF N k _ (B (k + N)%nat)); intro; apply HB|].
    unfold cap. apply Rmult_le_compat_l; [apply B_pos|]. apply Rmult_le_compat_r; [apply Rlt_le, Rinv_0_lt_compat, INR_fact_lt_0|]. apply pow_incr. split; [apply Rabs_pos|].
    rewrite Rabs_mult, (Rabs_right (h / 2)) by lra. assert (Rabs xi <= 1) by (apply Rabs_le; lra). nra.
  Qed.
  Lemma lack_bound k t n e : Rabs (lack k t n e) <= (1 + INR N * INR N) * cap k.
  Proof.
    pose proof (cap_pos k) as C0. unfold lack. destruct (n =? p)%nat.
    - apply (defect_near p (cellg k e t (sg1 k)) (cnear k e t (sg1 k)) (clin (cellg k e t (sg1 k)) (cnear k e t (sg1 k)) (-1))); [apply near_poly|reflexivity|]. intros x Hx. apply near_close; [apply sg1_abs|exact Hx].
    - rewrite Rabs_R0. apply Rmult_le_pos; [|exact C0]. pose proof (Rle_0_sqr (INR N)) as Q. unfold Rsqr in Q. lra.
  Qed.
  (** the projection is close to the wave *)
  Lemma wave_close t e xi : -1 <= xi <= 1 -> Rabs (Rsum N (fun n => wave 0 t n e * LegP n xi) - F 0 (cellx e t xi)) <= (1 + INR N * (1 + INR N * INR N)) * cap 0.
  Proof.
    intro Hx. pose proof (rc_near p (cellg 0 e t (sg1 0)) (cnear 0 e t (sg1 0)) (clin (cellg 0 e t (sg1 0)) (cnear 0 e t (sg1 0)) (-1)) (cap 0)) as Q.
    specialize (Q ltac:(apply near_poly) ltac:(reflexivity) ltac:(intros x H; apply near_close; [apply sg1_abs|exact H]) xi Hx).
    cbn [cellg cf] in Q. unfold sg1 in Q at 2. cbn [pow] in Q. rewrite Rmult_1_l in Q. exact Q.
  Qed.
  (** * one step *)
  Variable dt : R.
  Hypothesis Hdt : 0 <= dt.
  Hypothesis Hcfl : 2 * (INR N * INR N) * dt <= h.
  Notation lop := (lop N ne h dt).
  Notation nm := (nm N ne).
  Lemma lop_ext x y : eqi N ne x y -> eqi N ne (lop x) (lop y).
  Proof. intros H n e Hn He. unfold ProofsL2.lop. rewrite (dop_ext N ne h Hne x y H n e Hn He). reflexivity. Qed.
  Lemma lop_add x y n e : lop (fun n e => x n e + y n e) n e = lop x n e + lop y n e.
  Proof. unfold ProofsL2.lop. rewrite dop_add. ring. Qed.
  Lemma lop_scale c x n e : lop (fun n e => c * x n e) n e = c * lop x n e.
  Proof. unfold ProofsL2.lop. rewrite dop_scale. ring. Qed.
  Lemma lop_nm x : nm (lop x) <= nm x.
  Proof. apply sqrt_le_1_alt. apply lop_bound; assumption. Qed.
  Lemma lop_wave k t : eqi N ne (lop (wave k t)) (fun n e => dt * wave (S k) t n e + dt * lack (S k) t n e).
  Proof. intros n e Hn He. unfold ProofsL2.lop. rewrite (dop_wave k t n e Hn He). ring. Qed.
  Lemma lop2_wave k t : eqi N ne (lop (lop (wave k t))) (fun n e => dt * (dt * wave (S (S k)) t n e + dt * lack (S (S k)) t n e) + dt * lop (lack (S k) t) n e).
  Proof.
    intros n e Hn He. rewrite (lop_ext _ _ (lop_wave k t) n e Hn He), (lop_add (fun n e => dt * wave (S k) t n e) (fun n e => dt * lack (S k) t n e)), !lop_scale, (lop_wave (S k) t n e Hn He). reflexivity.
  Qed.
  Lemma lop3_wave k t : eqi N ne (lop (lop (lop (wave k t)))) (fun n e => dt * (dt * (dt * wave (S (S (S k))) t n e + dt * lack (S (S (S k))) t n e) + dt * lop (lack (S (S k)) t) n e) + dt * lop (lop (lack (S k) t)) n e).
  Proof.
    intros n e Hn He. rewrite (lop_ext _ _ (lop2_wave k t) n e Hn He).
    rewrite (lop_add (fun n e => dt * (dt * wave (S (S k)) t n e + dt * lack (S (S k)) t n e)) (fun n e => dt * lop (lack (S k) t) n e)), !lop_scale.
    rewrite (lop_add (fun n e => dt * wave (S (S k)) t n e) (fun n e => dt * lack (S (S k)) t n e)), !lop_scale, (lop_wave (S (S k)) t n e Hn He). reflexivity.
  Qed.
  (** the exact wave after dt *)
  Definition rest (t : R) (e : nat) : cfun :=
    clin (clin (clin (clin (cellg 0 e (t + dt) 1) (cellg 0 e t 1) (-1)) (cellg 1 e t (-1)) (- dt)) (cellg 2 e t 1) (- (dt * dt / 2))) (cellg 3 e t (-1)) (- (dt * dt * dt / 6)).
  Definition restc (t : R) : nat -> nat -> R := fun n e => rc p (rest t e) n.
  Lemma rc_clin f g c n : rc p (clin f g c) n = rc p f n + c * rc p g n. Proof. apply rc_lin. reflexivity. Qed.
  Lemma wave_later t n e : wave 0 (t + dt) n e = wave 0 t n e + dt * wave 1 t n e + dt * dt / 2 * wave 2 t n e + dt * dt * dt / 6 * wave 3 t n e + restc t n e.
  Proof.
    unfold restc, rest, wave, sg1. cbn [pow]. rewrite !Rmult_1_r. replace (-1 * -1) with 1 by ring. replace (-1 * 1) with (-1) by ring.
    set (a0 := cellg 0 e (t + dt) 1). set (b0 := cellg 0 e t 1). set (b1 := cellg 1 e t (-1)). set (b2 := cellg 2 e t 1). set (b3 := cellg 3 e t (-1)).
    rewrite !rc_clin. ring.
  Qed.
  Lemma rest_bound t e xi : Rabs (rest t e xi) <= B 4 * (dt ^ 4 / 24).
  Proof.
    pose proof (taylor_bound F HF 4 0 (cellx e t xi) (B 4) ltac:(intro; apply HB) (- dt)) as T. rewrite Rabs_Ropp, (Rabs_right dt) in T by lra.
    unfold tpoly in T. cbn [Rsum Nat.add fact Nat.mul INR pow] in T. unfold rest. cbn [clin cellg cf].
    replace (1 + 1 + 1 + 1 + 1 + 1 + 1 + 1 + 1 + 1 + 1 + 1 + 1 + 1 + 1 + 1 + 1 + 1 + 1 + 1 + 1 + 1 + 1 + 1) with 24 in T by ring. cbn [pow].
    replace (cellx e (t + dt) xi) with (cellx e t xi + - dt) by (unfold cellx; ring).
    match goal with |- Rabs ?a <= _ => match type of T with Rabs ?b <= _ => replace a with b by field end end. exact T.
  Qed.
  Definition excess (t : R) : nat -> nat -> R := fun n e => step3 N ne h dt (wave 0 t) n e - wave 0 (t + dt) n e.
  Definition tau : R := (1 + INR N * INR N) * (5 / 3 * cap 1 + 2 / 3 * (h / 2) * cap 2 + / 6 * ((h / 2) * (h / 2)) * cap 3 + B 4 * ((h / 2) ^ 3 / 24)).
  Theorem excess_bound t : nm (excess t) <= dt * (sqrt (INR ne * INR N) * tau).
  Proof.
    pose proof (lt_0_INR N ltac:(lia)) as PN. assert (PN1 : 1 <= INR N) by (rewrite S_INR; pose proof (pos_INR p); lra).
    assert (Hdh : dt <= h / 2) by (assert (1 <= INR N * INR N) by nra; nra).
    set (K := 1 + INR N * INR N) in *. assert (HK : 0 <= K) by (unfold K; nra). set (q := sqrt (INR ne * INR N)). assert (Hq : 0 <= q) by apply sqrt_pos.
    assert (L : forall k, nm (lack k t) <= q * (K * cap k)).
    { intro k. apply nm_bound; [exact Hne|apply Rmult_le_pos; [exact HK|apply cap_pos]|]. intros n e _ _. apply lack_bound. }
    assert (LR : nm (restc t) <= q * (K * (B 4 * (dt ^ 4 / 24)))).
    { apply nm_bound; [exact Hne|apply Rmult_le_pos; [exact HK|]; eapply Rle_trans; [apply Rabs_pos|apply (rest_bound t 0 0)]|]. intros n e Hn _. apply (rc_bound p (rest t e)); [lia|]. intros x _. apply rest_bound. }
    set (l1 := lack 1 t) in *. set (l2 := lack 2 t) in *. set (l3 := lack 3 t) in *.
    rewrite (nm_ext N ne Hne (excess t) (fun n e => (dt * l1 n e + (dt * dt / 2 * l2 n e + (dt * dt * dt / 6 * l3 n e + (dt / 2 * lop l1 n e + (dt * dt / 6 * lop l2 n e + (dt / 6 * lop (lop l1) n e + -1 * restc t n e))))))));
      [|intros n e Hn He; unfold excess, step3; rewrite (lop_wave 0 t n e Hn He), (lop2_wave 0 t n e Hn He), (lop3_wave 0 t n e Hn He), wave_later; fold l1 l2 l3; field].
    pose proof (nm_pos N ne l1). pose proof (nm_pos N ne l2). pose proof (nm_pos N ne l3). pose proof (nm_pos N ne (restc t)).
    assert (S1 : nm (fun n e => (dt * l1 n e + (dt * dt / 2 * l2 n e + (dt * dt * dt / 6 * l3 n e + (dt / 2 * lop l1 n e + (dt * dt / 6 * lop l2 n e + (dt / 6 * lop (lop l1) n e + -1 * restc t n e)))))))
      <= dt * nm l1 + (dt * dt / 2 * nm l2 + (dt * dt * dt / 6 * nm l3 + (dt / 2 * nm l1 + (dt * dt / 6 * nm l2 + (dt / 6 * nm l1 + nm (restc t))))))).
    { assert (D2 : 0 <= dt * dt) by nra. assert (D3 : 0 <= dt * dt * dt) by nra.
      eapply Rle_trans; [apply nm_add|]. apply Rplus_le_compat; [rewrite nm_scale, Rabs_right by lra; lra|].
      eapply Rle_trans; [apply nm_add|]. apply Rplus_le_compat; [rewrite nm_scale, Rabs_right by lra; lra|].
      eapply Rle_trans; [apply nm_add|]. apply Rplus_le_compat; [rewrite nm_scale, Rabs_right by lra; lra|].
      eapply Rle_trans; [apply nm_add|]. apply Rplus_le_compat; [rewrite nm_scale, Rabs_right by lra; apply Rmult_le_compat_l; [lra|apply lop_nm]|].
      eapply Rle_trans; [apply nm_add|]. apply Rplus_le_compat; [rewrite nm_scale, Rabs_right by lra; apply Rmult_le_compat_l; [lra|apply lop_nm]|].
      eapply Rle_trans; [apply nm_add|]. apply Rplus_le_compat; [rewrite nm_scale, Rabs_right by lra; apply Rmult_le_compat_l; [lra|eapply Rle_trans; [apply lop_nm|apply lop_nm]]|].
      rewrite nm_scale. replace (Rabs (-1)) with 1 by (rewrite Rabs_left by lra; ring). lra. }
    eapply Rle_trans; [exact S1|]. clear S1.
    apply Rle_trans with (dt * (5 / 3 * (q * (K * cap 1)) + 2 / 3 * (h / 2) * (q * (K * cap 2)) + / 6 * ((h / 2) * (h / 2)) * (q * (K * cap 3)) + q * (K * (B 4 * ((h / 2) ^ 3 / 24))))); [|unfold tau; fold K; right; ring].
    assert (R1 : dt * nm l1 + (dt * dt / 2 * nm l2 + (dt * dt * dt / 6 * nm l3 + (dt / 2 * nm l1 + (dt * dt / 6 * nm l2 + (dt / 6 * nm l1 + nm (restc t))))))
      = dt * (5 / 3 * nm l1 + 2 / 3 * dt * nm l2 + / 6 * (dt * dt) * nm l3) + nm (restc t)) by field.
    rewrite R1. clear R1.
    assert (R2 : nm (restc t) <= dt * (q * (K * (B 4 * ((h / 2) ^ 3 / 24))))).
    { eapply Rle_trans; [exact LR|]. pose proof (B_pos 4) as P4. replace (q * (K * (B 4 * (dt ^ 4 / 24)))) with (dt * (q * (K * (B 4 * (dt ^ 3 / 24))))) by (cbn [pow]; field).
      apply Rmult_le_compat_l; [exact Hdt|]. apply Rmult_le_compat_l; [exact Hq|]. apply Rmult_le_compat_l; [exact HK|]. apply Rmult_le_compat_l; [exact P4|].
      apply Rmult_le_compat_r; [lra|]. apply pow_incr. lra. }
    assert (R3 : 2 / 3 * dt * nm l2 <= 2 / 3 * (h / 2) * (q * (K * cap 2))).
    { apply Rmult_le_compat; [lra|assumption|lra|apply L]. }
    assert (R4 : / 6 * (dt * dt) * nm l3 <= / 6 * ((h / 2) * (h / 2)) * (q * (K * cap 3))).
    { apply Rmult_le_compat; [nra|assumption| |apply L]. apply Rmult_le_compat_l; [lra|]. apply Rmult_le_compat; lra. }
    pose proof (L 1%nat) as R5. fold l1 in R5.
    assert (R6 : dt * (5 / 3 * nm l1 + 2 / 3 * dt * nm l2 + / 6 * (dt * dt) * nm l3) <= dt * (5 / 3 * (q * (K * cap 1)) + 2 / 3 * (h / 2) * (q * (K * cap 2)) + / 6 * ((h / 2) * (h / 2)) * (q * (K * cap 3)))) by (apply Rmult_le_compat_l; [exact Hdt|lra]).
    lra.
  Qed.
  (** the scheme against the wave *)
  Lemma step3_add x y n e : (n < N)%nat -> (1 <= e <= ne)%nat -> step3 N ne h dt (fun n e => x n e + y n e) n e = step3 N ne h dt x n e + step3 N ne h dt y n e.
  Proof.
    intros Hn He. unfold step3. assert (E1 : eqi N ne (lop (fun n e => x n e + y n e)) (fun n e => lop x n e + lop y n e)) by (intros i j _ _; apply lop_add).
    assert (E2 : eqi N ne (lop (lop (fun n e => x n e + y n e))) (fun n e => lop (lop x) n e + lop (lop y) n e)) by (intros i j Hi Hj; rewrite (lop_ext _ _ E1 i j Hi Hj); apply lop_add).
    rewrite (lop_ext _ _ E2 n e Hn He), (lop_ext _ _ E1 n e Hn He), !lop_add. ring.
  Qed.
  Lemma step3_ext' x y n e : (n < N)%nat -> (1 <= e <= ne)%nat -> (forall i j, x i j = y i j) -> step3 N ne h dt x n e = step3 N ne h dt y n e.
  Proof.
    intros Hn He H. assert (E0 : eqi N ne x y) by (intros i j _ _; apply H). pose proof (lop_ext _ _ E0) as E1. pose proof (lop_ext _ _ E1) as E2. pose proof (lop_ext _ _ E2) as E3.
    unfold step3. rewrite (E3 n e Hn He), (E2 n e Hn He), (E1 n e Hn He), H. reflexivity.
  Qed.
  Theorem step_error x x' t : eqi N ne x' (step3 N ne h dt x) ->
    nm (fun n e => x' n e + -1 * wave 0 (t + dt) n e) <= nm (fun n e => x n e + -1 * wave 0 t n e) + dt * (sqrt (INR ne * INR N) * tau).
  Proof.
    intro H. set (y := fun n e => x n e + -1 * wave 0 t n e).
    rewrite (nm_ext N ne Hne _ (fun n e => step3 N ne h dt y n e + excess t n e)).
    - eapply Rle_trans; [apply nm_add|]. apply Rplus_le_compat; [|apply excess_bound]. apply sqrt_le_1_alt. apply step3_norm; assumption.
    - intros n e Hn He. rewrite (H n e Hn He). unfold excess.
      pose proof (step3_add y (wave 0 t) n e Hn He) as E. rewrite (step3_ext' x (fun n e => y n e + wave 0 t n e)) by (first [assumption|intros i j; unfold y; ring]). rewrite E. ring.
  Qed.
End Wave.
