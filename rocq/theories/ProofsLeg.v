(** Legendre polynomials and the series operations of numpy.polynomial.legendre. *)
From Coq Require Import ZArith List Bool Arith Reals Lra Lia FunctionalExtensionality.
From Verif Require Import Num Py Lib LegNumpy Ext RealLib SpecDG SpecPoly ProofsPoly.
Import ListNotations.
Open Scope R_scope.

(** ** Legendre polynomials *)
Lemma snd_legpair n x : snd (legpair n x) = LegP (S n) x.
Proof. unfold LegP. cbn [legpair]. destruct (legpair n x). reflexivity. Qed.
Lemma legpair_eq n x : legpair n x = (LegP n x, LegP (S n) x).
Proof. rewrite <- snd_legpair. unfold LegP. destruct (legpair n x). reflexivity. Qed.
Lemma LegP_0 x : LegP 0 x = 1. Proof. reflexivity. Qed.
Lemma LegP_1 x : LegP 1 x = x. Proof. reflexivity. Qed.
Lemma INR_2k k : INR (2 * k) = 2 * INR k. Proof. rewrite mult_INR. cbn [INR]. ring. Qed.
Ltac inr := rewrite ?plus_INR, ?S_INR, ?INR_2k, ?plus_INR, ?S_INR in *; cbn [INR] in *; rewrite ?plus_INR, ?S_INR, ?INR_2k in *.
Lemma LegP_SS n x : LegP (S (S n)) x = ((2 * INR n + 3) * x * LegP (S n) x - (INR n + 1) * LegP n x) / (INR n + 2).
Proof.
  unfold LegP at 1. cbn [legpair]. rewrite legpair_eq. cbn [fst].
  rewrite !plus_INR, INR_2k. cbn [INR]. pose proof (pos_INR n). field. lra.
Qed.
Lemma INR2_neq n : INR n + 2 <> 0. Proof. pose proof (pos_INR n). lra. Qed.
Lemma Bonnet n x : (INR n + 2) * LegP (S (S n)) x = (2 * INR n + 3) * x * LegP (S n) x - (INR n + 1) * LegP n x.
Proof. rewrite LegP_SS. field. apply INR2_neq. Qed.
Lemma LegP_poly n : is_poly n (LegP n).
Proof.
  induction n as [| |n IH1 IH2] using two_step_ind.
  - apply (is_poly_const 0 1).
  - exact is_poly_id.
  - apply (is_poly_ext _ (fun x => ((2 * INR n + 3) / (INR n + 2)) * (x * LegP (S n) x) - ((INR n + 1) / (INR n + 2)) * LegP n x)).
    { intro x. rewrite LegP_SS. field. apply INR2_neq. }
    apply is_poly_minus; [apply is_poly_scal; apply is_poly_mulx; exact IH2|].
    apply is_poly_scal. apply (is_poly_le n); [lia|exact IH1].
Qed.
Lemma LegP_at1 n : LegP n 1 = 1.
Proof. induction n as [| |n IH1 IH2] using two_step_ind; [reflexivity|reflexivity|]. rewrite LegP_SS, IH1, IH2. field. apply INR2_neq. Qed.
Lemma LegP_neg n x : LegP n (- x) = (if Nat.odd n then -1 else 1) * LegP n x.
Proof.
  induction n as [| |n IH1 IH2] using two_step_ind; [rewrite !LegP_0; cbn; ring|rewrite !LegP_1; cbn; ring|].
  rewrite !LegP_SS, IH1, IH2. rewrite !Nat.odd_succ, !Nat.even_succ, <- (Nat.negb_even n). destruct (Nat.even n); cbn [negb]; field; apply INR2_neq.
Qed.
Lemma LegP_atm1 n : LegP n (-1) = if Nat.odd n then -1 else 1.
Proof. replace (-1) with (- (1)) at 1 by ring. rewrite LegP_neg, LegP_at1. destruct (Nat.odd n); ring. Qed.
Lemma LegP_ends n : LegP n (-1) = (-1) ^ n /\ LegP n 1 = 1.
Proof.
  split; [|apply LegP_at1]. rewrite LegP_atm1. induction n as [|n IH]; [reflexivity|].
  rewrite Nat.odd_succ. cbn [pow]. rewrite <- IH, <- Nat.negb_odd. destruct (Nat.odd n); cbn [negb]; ring.
Qed.

(** ** derivatives *)
Fixpoint dpair (n : nat) (x : R) : R * R :=
  match n with
  | O => (0, 1)
  | S k => let '(da, db) := dpair k x in
           (db, ((2 * INR k + 3) * (LegP (S k) x + x * db) - (INR k + 1) * da) / (INR k + 2))
  end.
Definition dLegP n x := fst (dpair n x).
Lemma dpair_eq n x : dpair n x = (dLegP n x, dLegP (S n) x).
Proof. unfold dLegP. cbn [dpair]. destruct (dpair n x). reflexivity. Qed.
Lemma dLegP_0 x : dLegP 0 x = 0. Proof. reflexivity. Qed.
Lemma dLegP_1 x : dLegP 1 x = 1. Proof. reflexivity. Qed.
Lemma dLegP_SS n x : dLegP (S (S n)) x = ((2 * INR n + 3) * (LegP (S n) x + x * dLegP (S n) x) - (INR n + 1) * dLegP n x) / (INR n + 2).
Proof. unfold dLegP at 1. cbn [dpair]. rewrite dpair_eq. reflexivity. Qed.
Lemma LegP_deriv n x : derivable_pt_lim (LegP n) x (dLegP n x).
Proof.
  induction n as [| |n IH1 IH2] using two_step_ind.
  - rewrite dLegP_0. apply (dlim_ext (fun _ => 1)); [reflexivity|apply dlim_const].
  - rewrite dLegP_1. apply (dlim_ext (fun y => y)); [reflexivity|apply dlim_id].
  - apply (dlim_ext (fun x => ((2 * INR n + 3) / (INR n + 2)) * (x * LegP (S n) x) - ((INR n + 1) / (INR n + 2)) * LegP n x)).
    { intro y. rewrite LegP_SS. field. apply INR2_neq. }
    apply (dlim_eq _ _ (((2 * INR n + 3) / (INR n + 2)) * (1 * LegP (S n) x + x * dLegP (S n) x) - ((INR n + 1) / (INR n + 2)) * dLegP n x)).
    { rewrite dLegP_SS. field. apply INR2_neq. }
    apply (dlim_minus (fun x => ((2 * INR n + 3) / (INR n + 2)) * (x * LegP (S n) x))).
    + apply (dlim_scal _ (fun x => x * LegP (S n) x)). apply (dlim_mult (fun x => x)); [apply dlim_id|exact IH2].
    + apply dlim_scal. exact IH1.
Qed.
Lemma dLeg_AB n x : dLegP (S n) x - x * dLegP n x = (INR n + 1) * LegP n x /\
                    x * dLegP (S n) x - dLegP n x = (INR n + 1) * LegP (S n) x.
Proof.
  induction n as [|n [IA IB]].
  - rewrite dLegP_0, dLegP_1, LegP_0, LegP_1. cbn [INR]. split; ring.
  - rewrite S_INR.
    assert (EA : dLegP (S (S n)) x - x * dLegP (S n) x = (INR n + 1 + 1) * LegP (S n) x).
    { rewrite dLegP_SS. apply (Rmult_eq_reg_l (INR n + 2)); [|apply INR2_neq].
      transitivity ((2 * INR n + 3) * LegP (S n) x + (INR n + 1) * (x * dLegP (S n) x - dLegP n x)); [field; apply INR2_neq|].
      rewrite IB. ring. }
    split; [exact EA|].
    assert (E1 : dLegP (S (S n)) x = x * dLegP (S n) x + (INR n + 2) * LegP (S n) x) by lra.
    assert (E2 : dLegP n x = x * dLegP (S n) x - (INR n + 1) * LegP (S n) x) by lra.
    rewrite E1. rewrite E2 in IA.
    pose proof (Bonnet n x) as B. replace (INR n + 1 + 1) with (INR n + 2) by ring. rewrite B.
    assert (E3 : dLegP (S n) x = x * (x * dLegP (S n) x - (INR n + 1) * LegP (S n) x) + (INR n + 1) * LegP n x) by lra.
    replace (x * (x * dLegP (S n) x + (INR n + 2) * LegP (S n) x) - dLegP (S n) x) with
      ((x * (x * dLegP (S n) x - (INR n + 1) * LegP (S n) x) + (INR n + 1) * LegP n x) - dLegP (S n) x + (2 * INR n + 3) * x * LegP (S n) x - (INR n + 1) * LegP n x) by ring.
    rewrite <- E3. ring.
Qed.
Lemma dLeg_diff n x : dLegP (S (S n)) x - dLegP n x = (2 * INR n + 3) * LegP (S n) x.
Proof.
  destruct (dLeg_AB n x) as [_ B]. destruct (dLeg_AB (S n) x) as [A _]. rewrite S_INR in A. lra.
Qed.
(** (1-x^2) P_{n+1}' = (n+1)(P_n - x P_{n+1}) *)
Lemma dLeg_C n x : (1 - x * x) * dLegP (S n) x = (INR n + 1) * (LegP n x - x * LegP (S n) x).
Proof.
  destruct (dLeg_AB n x) as [A B].
  replace ((INR n + 1) * (LegP n x - x * LegP (S n) x)) with ((INR n + 1) * LegP n x - x * ((INR n + 1) * LegP (S n) x)) by ring.
  rewrite <- A, <- B. ring.
Qed.
(** Legendre's equation *)
Lemma Leg_ode n x : derivable_pt_lim (fun y => (1 - y * y) * dLegP n y) x (- (INR n * (INR n + 1)) * LegP n x).
Proof.
  destruct n as [|n].
  - cbn [INR]. apply (dlim_ext (fun _ => 0)); [intro; rewrite dLegP_0; ring|]. apply (dlim_eq _ _ 0); [ring|apply dlim_const].
  - apply (dlim_ext (fun y => (INR n + 1) * (LegP n y - y * LegP (S n) y))); [intro; symmetry; apply dLeg_C|].
    apply (dlim_eq _ _ ((INR n + 1) * (dLegP n x - (1 * LegP (S n) x + x * dLegP (S n) x)))).
    { destruct (dLeg_AB n x) as [_ B]. rewrite S_INR. replace (dLegP n x) with (x * dLegP (S n) x - (INR n + 1) * LegP (S n) x) by lra. ring. }
    apply (dlim_scal _ (fun y => LegP n y - y * LegP (S n) y)). apply (dlim_minus (LegP n) (fun y => y * LegP (S n) y)); [apply LegP_deriv|].
    apply (dlim_mult (fun y => y)); [apply dlim_id|apply LegP_deriv].
Qed.
Lemma INR_consec_neq m n : m <> n -> INR m * (INR m + 1) - INR n * (INR n + 1) <> 0.
Proof.
  intros H E. pose proof (pos_INR m). pose proof (pos_INR n).
  assert ((INR m - INR n) * (INR m + INR n + 1) = 0) by (rewrite <- E; ring).
  apply Rmult_integral in H2. destruct H2; [|lra]. apply H. apply INR_eq. lra.
Qed.
Lemma Leg_orth0 m n : m <> n -> nint (fun x => LegP m x * LegP n x) (-1) 1 0.
Proof.
  intro H. pose proof (INR_consec_neq m n H) as K. set (k := INR m * (INR m + 1) - INR n * (INR n + 1)) in *.
  exists (fun x => / k * ((1 - x * x) * dLegP n x * LegP m x - (1 - x * x) * dLegP m x * LegP n x)). split.
  - intro x.
    apply (dlim_eq _ _ (/ k * (((- (INR n * (INR n + 1)) * LegP n x) * LegP m x + ((1 - x * x) * dLegP n x) * dLegP m x)
       - ((- (INR m * (INR m + 1)) * LegP m x) * LegP n x + ((1 - x * x) * dLegP m x) * dLegP n x)))).
    { transitivity (/ k * (k * (LegP m x * LegP n x))); [unfold k; ring|]. field. exact K. }
    apply (dlim_scal _ (fun x => (1 - x * x) * dLegP n x * LegP m x - (1 - x * x) * dLegP m x * LegP n x)).
    apply (dlim_minus (fun x => (1 - x * x) * dLegP n x * LegP m x) (fun x => (1 - x * x) * dLegP m x * LegP n x)).
    + apply (dlim_mult (fun x => (1 - x * x) * dLegP n x)); [apply Leg_ode|apply LegP_deriv].
    + apply (dlim_mult (fun x => (1 - x * x) * dLegP m x)); [apply Leg_ode|apply LegP_deriv].
  - ring.
Qed.
(** the integral of P_n^2 is 2/(2n+1) *)
Lemma Leg_norm n : nint (fun x => LegP n x * LegP n x) (-1) 1 (2 / (2 * INR n + 1)).
Proof.
  induction n as [|n IH].
  - exists (fun x => x). split; [intro x; rewrite LegP_0; apply (dlim_eq _ _ 1); [ring|apply dlim_id]|]. cbn [INR]. field.
  - pose proof (pos_INR n) as Pn. rewrite S_INR.
    (* x P_n P_{n+1} *)
    assert (H1 : nint (fun x => x * (LegP n x * LegP (S n) x)) (-1) 1 ((INR n + 1) / (2 * INR n + 3) * (2 / (2 * INR n + 1)))).
    { pose proof (nint_plus _ _ _ _ _ _ (nint_scal ((INR n + 2) / (2 * INR n + 3)) _ _ _ _ (Leg_orth0 (S (S n)) n ltac:(lia)))
                 (nint_scal ((INR n + 1) / (2 * INR n + 3)) _ _ _ _ IH)) as Q.
      apply (nint_val _ _ _ _ ((INR n + 1) / (2 * INR n + 3) * (2 / (2 * INR n + 1)))) in Q; [|ring].
      apply (nint_ext (fun x => (INR n + 2) / (2 * INR n + 3) * (LegP (S (S n)) x * LegP n x) +
             (INR n + 1) / (2 * INR n + 3) * (LegP n x * LegP n x))); [|exact Q].
      intro x. rewrite LegP_SS. field. split; lra. }
    destruct n as [|n].
    + cbn [INR] in *. apply (nint_ext (fun x => x * (LegP 0 x * LegP 1 x))); [intro; rewrite LegP_0, LegP_1; ring|].
      eapply nint_val; [|exact H1]. field.
    + (* (n+2) P_{n+2}^2 = (2n+3) x P_{n+1} P_{n+2} - (n+1) P_n P_{n+2} *)
      rewrite S_INR in *. pose proof (pos_INR n) as Pn'.
      pose proof (nint_minus _ _ _ _ _ _ (nint_scal ((2 * INR n + 3) / (INR n + 2)) _ _ _ _ H1)
                 (nint_scal ((INR n + 1) / (INR n + 2)) _ _ _ _ (Leg_orth0 n (S (S n)) ltac:(lia)))) as Q.
      eapply nint_val; [|eapply nint_ext; [|exact Q]].
      * field. repeat split; lra.
      * intro x. cbn beta. rewrite (LegP_SS n x) at 3. field. lra.
Qed.

(** ** series *)
Lemma legseries_nil x : legseries [] x = 0. Proof. reflexivity. Qed.
Lemma legseries_snoc c a x : legseries (c ++ [a]) x = legseries c x + a * LegP (length c) x.
Proof.
  unfold legseries. rewrite app_length. cbn [length]. rewrite Nat.add_1_r. cbn [Rsum]. f_equal.
  - apply Rsum_ext. intros i Hi. rewrite app_nth1 by exact Hi. reflexivity.
  - rewrite app_nth2 by lia. rewrite Nat.sub_diag. reflexivity.
Qed.
(** a series may be summed further than its length *)
Lemma legseries_to m c x : (length c <= m)%nat -> legseries c x = Rsum m (fun n => nth n c 0 * LegP n x).
Proof.
  intro H. unfold legseries. replace m with (length c + (m - length c))%nat by lia. rewrite Rsum_app.
  rewrite (Rsum_0 (m - length c)); [ring|]. intros i _. rewrite nth_overflow by lia. ring.
Qed.
Lemma legseries_poly c : is_poly (length c - 1) (legseries c).
Proof.
  unfold legseries. apply (is_poly_Rsum _ _ (fun n x => nth n c 0 * LegP n x)). intros i Hi. apply is_poly_scal. apply (is_poly_le i); [lia|apply LegP_poly].
Qed.
Lemma legseries_poly' d c : (length c <= S d)%nat -> is_poly d (legseries c).
Proof. intro H. apply (is_poly_le (length c - 1)); [lia|apply legseries_poly]. Qed.
Lemma legseries_add a b x : legseries (legadd a b) x = legseries a x + legseries b x.
Proof.
  set (m := Nat.max (length a) (length b)).
  assert (E : forall n, nth n (legadd a b) 0 = nth n a 0 + nth n b 0).
  { intro n. unfold m. clear. revert b n. induction a as [|u a IH]; intros [|v b] n; cbn [legadd]; numR.
    - destruct n; cbn; ring.
    - destruct n; cbn; ring.
    - destruct n; cbn; ring.
    - destruct n; cbn [nth]; [reflexivity|apply IH]. }
  assert (L : length (legadd a b) = m).
  { unfold m. clear. revert b. induction a as [|u a IH]; intros [|v b]; cbn; auto. }
  rewrite (legseries_to m (legadd a b)), (legseries_to m a), (legseries_to m b) by lia.
  rewrite <- Rsum_plus. apply Rsum_ext. intros n _. rewrite E. ring.
Qed.
Lemma nth_map0 (f : R -> R) a n : f 0 = 0 -> nth n (map f a) 0 = f (nth n a 0).
Proof. intro H. rewrite <- H at 1. apply map_nth. Qed.
Lemma legseries_scale k a x : legseries (legscale k a) x = k * legseries a x.
Proof.
  unfold legseries, legscale. rewrite map_length, <- Rsum_scale. apply Rsum_ext. intros n Hn.
  rewrite (nth_map0 (fun v : R => (k * v)%num)) by (numR; ring). numR. ring.
Qed.
Lemma legseries_opp a x : legseries (map nopp a) x = - legseries a x.
Proof.
  unfold legseries. rewrite map_length, <- Rsum_opp. apply Rsum_ext. intros n Hn.
  rewrite (nth_map0 (@nopp R _)) by (numR; ring). numR. ring.
Qed.
Lemma legseries_sub a b x : legseries (legsub a b) x = legseries a x - legseries b x.
Proof. unfold legsub. rewrite legseries_add, legseries_opp. ring. Qed.

(** Clenshaw's recursion evaluates a series in any structure that maps homomorphically to R *)
Section Clen.
  Context {S : Type}.
  Variables (emb : R -> S) (sadd ssub : S -> S -> S) (sscale : R -> S -> S) (mulx : S -> S) (ev : S -> R) (b x : R).
  Hypothesis Hemb : forall c, ev (emb c) = c * b.
  Hypothesis Hadd : forall u v, ev (sadd u v) = ev u + ev v.
  Hypothesis Hsub : forall u v, ev (ssub u v) = ev u - ev v.
  Hypothesis Hscale : forall k u, ev (sscale k u) = k * ev u.
  Hypothesis Hmulx : forall u, ev (mulx u) = ev u * x.
  Lemma nnat_INR n : (nnat n : R) = INR n.
  Proof. unfold nnat. numR. symmetry. apply INR_IZR_INZ. Qed.
  Lemma clenshaw_loop_ok c : forall u v,
    ev (clenshaw_loop emb sadd ssub sscale mulx (rev c) (length c + 2) u v)
    = b * legseries c x + ev u * LegP (length c) x + ev v * LegP (Datatypes.S (length c)) x.
  Proof.
    induction c as [|a c IH] using rev_ind; intros u v.
    - cbn [rev clenshaw_loop length]. rewrite Hadd, Hmulx, legseries_nil, LegP_0, LegP_1. ring.
    - rewrite rev_app_distr. cbn [rev app clenshaw_loop]. rewrite app_length. cbn [length].
      replace (length c + 1 + 2 - 1)%nat with (length c + 2)%nat by lia. rewrite IH.
      rewrite Hsub, Hadd, !Hscale, Hemb, Hmulx, legseries_snoc.
      rewrite Nat.add_1_r. rewrite LegP_SS. rewrite !nnat_INR.
      replace (length c + 2 - 1)%nat with (length c + 1)%nat by lia. replace (2 * (length c + 2) - 1)%nat with (2 * length c + 3)%nat by lia.
      rewrite !plus_INR, INR_2k. cbn [INR]. numR. pose proof (pos_INR (length c)). field. lra.
  Qed.
  Lemma clenshaw_ok zero c : ev zero = 0 -> ev (clenshaw emb sadd ssub sscale mulx zero c) = b * legseries c x.
  Proof.
    intro Hz. destruct c as [|c1 c _] using rev_ind; [unfold clenshaw; cbn [rev]; rewrite Hz, legseries_nil; ring|].
    destruct c as [|c0 c _] using rev_ind.
    - unfold clenshaw. cbn [rev app]. rewrite Hemb. unfold legseries. cbn [length Rsum nth]. rewrite LegP_0. ring.
    - unfold clenshaw. rewrite !rev_app_distr. cbn [rev app]. rewrite !app_length. cbn [length].
      rewrite <- Nat.add_assoc. cbn [Nat.add]. rewrite clenshaw_loop_ok, !Hemb, !legseries_snoc, app_length. cbn [length]. rewrite Nat.add_1_r. ring.
  Qed.
End Clen.

Lemma legval_ok x c : legval x c = legseries c x.
Proof.
  unfold legval. change (clenshaw (fun c0 : R => c0) nadd nsub nmul (fun s : R => (s * x)%num) n0 c) with
    (id (clenshaw (fun c0 : R => c0) nadd nsub nmul (fun s : R => (s * x)%num) n0 c)).
  rewrite (clenshaw_ok (fun c0 : R => c0) nadd nsub nmul (fun s : R => (s * x)%num) id 1 x); unfold id; intros; numR; ring.
Qed.
Lemma LegP_mulx n x : x * LegP (S n) x = (INR n + 2) / (2 * INR n + 3) * LegP (S (S n)) x + (INR n + 1) / (2 * INR n + 3) * LegP n x.
Proof. rewrite LegP_SS. pose proof (pos_INR n). field. split; lra. Qed.
Lemma length_legmulx (c : list R) : length (legmulx c) = (length c + 1)%nat.
Proof. apply length_tab. Qed.
Lemma legmulx_ok c x : legseries (legmulx c) x = legseries c x * x.
Proof.
  unfold legseries at 1. rewrite length_legmulx.
  rewrite (Rsum_ext _ _ (fun k => (match k with O => 0 | S i => nth i c 0 * (INR i + 1) / (2 * INR i + 1) * LegP k x end)
                                 + (nth (k + 1) c 0 * (INR k + 1) / (2 * INR k + 3) * LegP k x))).
  2:{ intros k Hk. unfold legmulx. rewrite nth_tab by exact Hk. rewrite !nnat_INR, !plus_INR, INR_2k. cbn [INR].
      destruct (Nat.ltb_spec (k + 1) (length c)) as [L|L].
      - numR. destruct k as [|i].
        + cbn [INR]. field.
        + rewrite !nnat_INR, !plus_INR, INR_2k, !S_INR. cbn [INR]. pose proof (pos_INR i). field. repeat split; lra.
      - rewrite (nth_overflow c 0) by lia. numR. destruct k as [|i].
        + unfold Rdiv. ring.
        + rewrite !nnat_INR, !plus_INR, INR_2k. cbn [INR]. unfold Rdiv. ring. }
  rewrite Rsum_plus.
  replace (length c + 1)%nat with (S (length c)) by lia. rewrite Rsum_S_l.
  rewrite (Rmult_comm _ x). unfold legseries. rewrite <- Rsum_scale.
  destruct c as [|c0 c]; [cbn; rewrite !Rmult_0_l; unfold Rdiv; ring|].
  cbn [length].
  rewrite (Rsum_S_l (length c) (fun i => nth i (c0 :: c) 0 * (INR i + 1) / (2 * INR i + 1) * LegP (S i) x)).
  rewrite (Rsum_S_l (length c) (fun i => x * (nth i (c0 :: c) 0 * LegP i x))).
  cbn [Rsum]. rewrite (nth_overflow (c0 :: c) 0 (n := (length c + 1)%nat)), (nth_overflow (c0 :: c) 0 (n := (S (length c) + 1)%nat)) by (cbn [length]; lia).
  rewrite (Rsum_ext _ (fun i => x * (nth (S i) (c0 :: c) 0 * LegP (S i) x))
     (fun i => nth (S i) (c0 :: c) 0 * (INR (S i) + 1) / (2 * INR (S i) + 1) * LegP (S (S i)) x + nth (i + 1) (c0 :: c) 0 * (INR i + 1) / (2 * INR i + 3) * LegP i x)).
  2:{ intros i _. rewrite Nat.add_1_r. transitivity (nth (S i) (c0 :: c) 0 * (x * LegP (S i) x)); [ring|]. rewrite LegP_mulx.
      rewrite S_INR. pose proof (pos_INR i). field. lra. }
  rewrite Rsum_plus. cbn [nth INR]. rewrite LegP_1, LegP_0. unfold Rdiv. rewrite Rmult_0_r, Rplus_0_l. replace (0 + 1) with 1 by ring. rewrite Rinv_1. ring.
Qed.
Lemma legmul_ok a b x : legseries (legmul a b) x = legseries a x * legseries b x.
Proof.
  unfold legmul. rewrite (clenshaw_ok (fun c : R => legscale c b) legadd legsub legscale legmulx (fun c => legseries c x) (legseries b x) x).
  - ring.
  - intro. apply legseries_scale.
  - intros. apply legseries_add.
  - intros. apply legseries_sub.
  - intros. apply legseries_scale.
  - intros. apply legmulx_ok.
  - unfold legseries. cbn. numR. ring.
Qed.
Lemma legcompose_ok c X y : legseries (legcompose c X) y = legseries c (legseries X y).
Proof.
  unfold legcompose. rewrite (clenshaw_ok (fun v : R => [v]) legadd legsub legscale (fun s => legmul s X) (fun c => legseries c y) 1 (legseries X y)).
  - ring.
  - intro. unfold legseries. cbn [length Rsum nth]. rewrite LegP_0. ring.
  - intros. apply legseries_add.
  - intros. apply legseries_sub.
  - intros. apply legseries_scale.
  - intros. apply legmul_ok.
  - unfold legseries. cbn. numR. ring.
Qed.
(** derivative *)
Definition dlegseries (c : list R) x := Rsum (length c) (fun n => nth n c 0 * dLegP n x).
Lemma legseries_deriv c x : derivable_pt_lim (legseries c) x (dlegseries c x).
Proof.
  unfold legseries, dlegseries. apply (dlim_Rsum (length c) (fun n y => nth n c 0 * LegP n y)). intros. apply dlim_scal. apply LegP_deriv.
Qed.
Lemma length_fold_two (c : list R) : length (fold_two c) = length c.
Proof. induction c; cbn; auto. Qed.
Lemma nth_fold_two (c : list R) n : nth n (fold_two c) 0 = nth n c 0 + nth (S (S n)) (fold_two c) 0.
Proof.
  revert n. induction c as [|a c IH]; intro n; [destruct n; cbn; ring|].
  cbn [fold_two]. destruct n as [|n].
  - cbn [nth]. destruct (fold_two c) as [|u [|v w]]; cbn [nth]; numR; try ring. 
  - cbn [nth]. rewrite IH. reflexivity.
Qed.
Lemma legder_ok c x : legseries (legder c) x = dlegseries c x.
Proof.
  destruct c as [|c0 [|c1 c]].
  - reflexivity.
  - unfold dlegseries, legseries. cbn [legder length Rsum nth]. rewrite dLegP_0, LegP_0. numR. ring.
  - remember (c0 :: c1 :: c) as l eqn:El. assert (Hl : exists m, length l = S (S m)) by (subst; cbn; eauto). destruct Hl as [m Hm].
    replace (legder l) with (tab (length l - 1) (fun j => nnat (2 * j + 1) * nth (S j) (fold_two l) 0)%num : list R) by (subst l; reflexivity).
    clear El. unfold legseries. rewrite length_tab.
    rewrite (Rsum_ext _ _ (fun j => nth (S j) (fold_two l) 0 * ((2 * INR j + 1) * LegP j x))).
    2:{ intros j Hj. rewrite nth_tab by exact Hj. rewrite nnat_INR, plus_INR, INR_2k. cbn [INR]. numR. ring. }
    unfold dlegseries. rewrite Hm. replace (S (S m) - 1)%nat with (S m) by lia.
    (* c_n = c'_n - c'_{n+2} *)
    rewrite (Rsum_ext (S (S m)) (fun n => nth n l 0 * dLegP n x) (fun n => nth n (fold_two l) 0 * dLegP n x - nth (S (S n)) (fold_two l) 0 * dLegP n x)).
    2:{ intros n _. rewrite (nth_fold_two l n). ring. }
    rewrite Rsum_minus. set (d := fold_two l) in *. assert (Ld : length d = S (S m)) by (unfold d; rewrite length_fold_two; exact Hm).
    rewrite (Rsum_S_l (S m)), (Rsum_S_l m). rewrite (Rsum_S_l m (fun j => nth (S j) d 0 * _)).
    cbn [Rsum]. rewrite !(nth_overflow d 0 (n := S (S (S m)))) by lia. rewrite !(nth_overflow d 0 (n := S (S m))) by lia.
    rewrite dLegP_0, dLegP_1, LegP_0.
    rewrite (Rsum_ext m (fun i => nth (S (S i)) d 0 * ((2 * INR (S i) + 1) * LegP (S i) x)) (fun i => nth (S (S i)) d 0 * dLegP (S (S i)) x - nth (S (S i)) d 0 * dLegP i x)).
    2:{ intros i _. rewrite S_INR. pose proof (dLeg_diff i x). rewrite <- Rmult_minus_distr_l, H. ring. }
    rewrite Rsum_minus. cbn [INR]. ring.
Qed.
Lemma legder_deriv c x : derivable_pt_lim (legseries c) x (legseries (legder c) x).
Proof. rewrite legder_ok. apply legseries_deriv. Qed.
(** antiderivative *)
Lemma legint_raw_deriv c x : derivable_pt_lim (legseries (legint_raw c)) x (legseries c x).
Proof.
  apply (dlim_eq _ _ (dlegseries (legint_raw c) x)); [|apply legseries_deriv].
  unfold dlegseries, legint_raw. rewrite length_tab.
  rewrite (Rsum_ext _ _ (fun k => (match k with O => 0 | S i => nth i c 0 / (2 * INR i + 1) * dLegP k x end)
                                 - (nth (S k) c 0 / (2 * INR k + 3) * dLegP k x))).
  2:{ intros k Hk. rewrite nth_tab by exact Hk. rewrite !nnat_INR, !plus_INR, INR_2k, Nat.add_1_r. cbn [INR].
      destruct (Nat.ltb_spec (S k) (length c)) as [L|L].
      - numR. destruct k as [|i].
        + rewrite dLegP_0. ring.
        + rewrite !nnat_INR, !plus_INR, INR_2k, !S_INR. cbn [INR]. pose proof (pos_INR i). field. repeat split; lra.
      - rewrite (nth_overflow c 0) by lia. numR. destruct k as [|i].
        + rewrite dLegP_0. unfold Rdiv. ring.
        + rewrite !nnat_INR, !plus_INR, INR_2k. cbn [INR]. unfold Rdiv. ring. }
  rewrite Rsum_minus. replace (length c + 1)%nat with (S (length c)) by lia. rewrite Rsum_S_l.
  cbn [Rsum]. rewrite !(nth_overflow c 0 (n := S (length c))) by lia.
  unfold legseries. destruct c as [|c0 c]; [cbn; unfold Rdiv; ring|].
  cbn [length]. rewrite (Rsum_S_l (length c)). rewrite (Rsum_S_l (length c) (fun n => nth n (c0 :: c) 0 * LegP n x)).
  cbn [Rsum]. rewrite !(nth_overflow (c0 :: c) 0 (n := S (length c))) by (cbn [length]; lia).
  rewrite (Rsum_ext _ (fun n => nth (S n) (c0 :: c) 0 * LegP (S n) x)
     (fun i => nth (S i) (c0 :: c) 0 / (2 * INR (S i) + 1) * dLegP (S (S i)) x - nth (S i) (c0 :: c) 0 / (2 * INR i + 3) * dLegP i x)).
  2:{ intros i _. rewrite S_INR. pose proof (dLeg_diff i x) as D. pose proof (pos_INR i).
      replace (LegP (S i) x) with ((dLegP (S (S i)) x - dLegP i x) / (2 * INR i + 3)) by (rewrite D; field; lra). field. lra. }
  rewrite Rsum_minus. rewrite !S_INR. cbn [nth]. change (INR 0) with 0. rewrite dLegP_1, LegP_0. pose proof (pos_INR (length c)). field. repeat split; lra.
Qed.
Lemma legint_series c x : legseries (legint c) x = legseries (legint_raw c) x - legseries (legint_raw c) 0.
Proof.
  unfold legint. rewrite legval_ok. numR. assert (H : exists t r, legint_raw c = t :: r).
  { unfold legint_raw. rewrite Nat.add_1_r, tab_S. eauto. }
  destruct H as [t [r E]]. rewrite E. generalize (legseries (t :: r) 0). intro v.
  unfold legseries. cbn [length]. rewrite !Rsum_S_l. cbn [nth]. rewrite LegP_0. ring.
Qed.
Lemma legint_deriv c x : derivable_pt_lim (legseries (legint c)) x (legseries c x).
Proof.
  apply (dlim_ext (fun x => legseries (legint_raw c) x - legseries (legint_raw c) 0)); [intro; symmetry; apply legint_series|].
  apply (dlim_eq _ _ (legseries c x - 0)); [ring|]. apply (dlim_minus (legseries (legint_raw c)) (fun _ => legseries (legint_raw c) 0)); [apply legint_raw_deriv|apply dlim_const].
Qed.
Lemma legint_0 c : legseries (legint c) 0 = 0.
Proof. rewrite legint_series. ring. Qed.
