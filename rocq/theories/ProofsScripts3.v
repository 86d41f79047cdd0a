(** The comparison with the gold files and the printed orders. *)
From Coq Require Import ZArith List Bool Arith String Ascii Lia Reals Lra Psatz.
From Verif Require Import Num Py PyStr ProofsStr Lib RealLib Constants LegNumpy Ext Basis Sensor Enhance Limiting IC Solution Solver RKCoeffs RK IO Deck Main Scripts
  SpecDG SpecText SpecIO SpecTime SpecPoly SpecScripts
  ProofsText ProofsIO ProofsTime2 ProofsDG ProofsDG2 ProofsCons ProofsWf ProofsSol ProofsIC ProofsMain ProofsPoly ProofsBasis ProofsRun.
Import ListNotations.
Open Scope list_scope.
Open Scope R_scope.

Lemma Forall2_iff {Y Z} (P : Y -> Z -> Prop) (dy : Y) (dz : Z) a b :
  Forall2 P a b <-> List.length a = List.length b /\ forall i, (i < List.length a)%nat -> P (nth i a dy) (nth i b dz).
Proof.
  revert b. induction a as [|y a IH]; intros [|z b]; split; intro H.
  - split; [reflexivity|cbn; lia]. - constructor. - inversion H. - destruct H; discriminate. - inversion H. - destruct H; discriminate.
  - inversion H as [|? ? ? ? H1 H2]; subst. apply IH in H2. destruct H2 as [L H2]. split; [cbn; lia|]. intros [|i] Hi; [exact H1|]. cbn in *. apply H2. lia.
  - destruct H as [L H]. constructor; [apply (H 0%nat); cbn; lia|]. apply IH. cbn in L. split; [lia|]. intros i Hi. apply (H (S i)). cbn. lia.
Qed.
Lemma all2_iff {Y Z} (p : Y -> Z -> bool) (P : Y -> Z -> Prop) a b : (forall y z, p y z = true <-> P y z) -> all2 p a b = true <-> Forall2 P a b.
Proof.
  intro HP. revert b. induction a as [|y a IH]; intros [|z b]; cbn [all2]; split; intro H; try discriminate; try constructor; try (inversion H; fail).
  - apply andb_true_iff in H. apply HP. apply H. - apply andb_true_iff in H. apply IH. apply H.
  - inversion H; subst. apply andb_true_iff. split; [apply HP|apply IH]; assumption.
Qed.
Lemma almost_equal_R (x y : R) : almost_equal x y = true <-> Rabs (x - y) < 15 / 100000000000.
Proof.
  unfold almost_equal. cbn [nisnan NumR andb orb]. numR.
  rewrite orb_true_iff, andb_true_iff, !Rleb_true, Rltb_true. split; [intros [[H1 H2]|H]|].
  - replace (x - y) with 0 by lra. rewrite Rabs_R0. lra. - exact H. - intro H. right. exact H.
Qed.

Section Compare.
  Context {X : Ext R}.
  Definition near_entry (x y : R) : Prop := Rabs (x - y) < 15 / 100000000000.
  Lemma same_table_R t1 t2 : same_table t1 t2 = true <-> Forall2 (Forall2 near_entry) t1 t2.
  Proof. unfold same_table. apply all2_iff. intros r1 r2. apply all2_iff. apply almost_equal_R. Qed.
  Definition agree_field (f ne : nat) (s g : solution R) : Prop :=
    s_Ns s = s_Ns g /\ (forall e, (e < ne)%nat -> near_entry (at1 (s_xc s) e) (at1 (s_xc g) e)) /\
    (forall n e, (n < s_Ns s)%nat -> (1 <= e <= ne)%nat -> near_entry (at2 (s_u s) n (e * s_NF s + f)) (at2 (s_u g) n (e * s_NF s + f))).
  Lemma row_entry ne (s : solution R) f n e : wf ne s -> (f < s_NF s)%nat -> (n < s_Ns s)%nat -> (e < ne)%nat ->
    nth n (map (fun r => at1 (field_row (s_NF s) f r) e) (s_u s)) 0 = at2 (s_u s) n ((e + 1) * s_NF s + f).
  Proof.
    intros W Hf Hn He. pose proof (wf_u _ _ W) as [U1 U2].
    rewrite (nth_indep _ 0 (at1 (field_row (s_NF s) f []) e)) by (rewrite map_length; eapply Nat.lt_le_trans; [exact Hn|apply Nat.eq_le_incl; symmetry; exact U1]). rewrite (map_nth (fun r => at1 (field_row (s_NF s) f r) e)).
    rewrite (field_row_at ne); [reflexivity|apply NF_pos|exact Hf| |exact He]. apply U2. apply nth_In. eapply Nat.lt_le_trans; [exact Hn|apply Nat.eq_le_incl; symmetry; exact U1].
  Qed.
  Lemma table_agree f ne ne' (s g : solution R) : wf ne s -> wf ne' g -> (1 <= ne)%nat -> s_NF s = s_NF g -> (f < s_NF s)%nat ->
    Forall2 (Forall2 near_entry) (field_table s f) (field_table g f) <-> ne = ne' /\ agree_field f ne s g.
  Proof.
    intros W W' H1 ENF Hf. pose proof (wf_u _ _ W) as [U1 U2]. pose proof (wf_u _ _ W') as [V1 V2].
    rewrite (Forall2_iff _ [] []). unfold field_table. rewrite !length_tab, (wf_xc _ _ W), (wf_xc _ _ W').
    split; intros [E H]; (split; [exact E|]); subst ne'.
    - assert (K : forall e, (e < ne)%nat -> near_entry (at1 (s_xc s) e) (at1 (s_xc g) e) /\ s_Ns s = s_Ns g /\
        forall n, (n < s_Ns s)%nat -> near_entry (at2 (s_u s) n ((e + 1) * s_NF s + f)) (at2 (s_u g) n ((e + 1) * s_NF s + f))).
      { intros e He. specialize (H e He). rewrite !nth_tab in H by exact He. inversion H as [|? ? ? ? K1 K2]; subst. split; [exact K1|].
        apply (Forall2_iff _ 0 0) in K2. destruct K2 as [L K2]. rewrite map_length in L, K2. rewrite map_length in L. assert (L' : s_Ns s = s_Ns g) by (transitivity (List.length (s_u s)); [symmetry; exact U1|]; transitivity (List.length (s_u g)); [exact L|exact V1]). split; [exact L'|]. intros n Hn.
        specialize (K2 n ltac:(eapply Nat.lt_le_trans; [exact Hn|apply Nat.eq_le_incl; symmetry; exact U1])). rewrite (row_entry ne) in K2 by assumption.
        rewrite (row_entry ne) in K2 by (try assumption; try congruence; lia). rewrite <- ENF in K2. exact K2. }
      split; [|split].
      + apply (K 0%nat). lia. + intros e He. apply (K e He).
      + intros n e Hn He. destruct (K (e - 1)%nat ltac:(lia)) as [_ [_ K3]]. specialize (K3 n Hn). replace (e - 1 + 1)%nat with e in K3 by lia. exact K3.
    - destruct H as [EN [Hx Hu]]. intros e He. rewrite !nth_tab by exact He. constructor; [apply Hx; exact He|].
      apply (Forall2_iff _ 0 0). rewrite map_length, map_length. split; [transitivity (s_Ns s); [exact U1|]; transitivity (s_Ns g); [exact EN|symmetry; exact V1]|]. intros n Hn'.
      assert (Hn : (n < s_Ns s)%nat) by (eapply Nat.lt_le_trans; [exact Hn'|apply Nat.eq_le_incl; exact U1]).
      rewrite (row_entry ne), (row_entry ne) by (try assumption; try congruence; lia). rewrite <- ENF. apply Hu; [exact Hn|lia].
  Qed.

  Lemma field_compared f name ne ne' (s g : solution R) dir : wf ne s -> wf ne' g -> (1 <= ne)%nat -> s_NF s = s_NF g -> (f < s_NF s)%nat ->
    texts_ok ne s -> texts_ok ne' g -> bc_name_ok (s_bcl s) -> bc_name_ok (s_bcr s) -> bc_name_ok (s_bcl g) -> bc_name_ok (s_bcr g) ->
    read_file dir (name ++ "0000000001.dat")%string = Some (field_file s f) -> read_file dir (name ++ "0000000001.gold")%string = Some (field_file g f) ->
    exists b, compare_field dir name = Ok b /\ (b = true <-> ne = ne' /\ agree_field f ne s g).
  Proof.
    intros W W' H1 ENF Hf T T' B1 B2 B3 B4 R1 R2. unfold compare_field, read. rewrite R1. cbn [rbind].
    rewrite file_loadtxt; [|apply T|assumption|assumption|apply (field_table_ok ne); assumption]. cbn [rbind]. rewrite R2. cbn [rbind].
    rewrite file_loadtxt; [|apply T'|assumption|assumption|apply (field_table_ok ne'); [assumption|assumption|congruence]]. cbn [rbind].
    eexists. split; [reflexivity|]. rewrite same_table_R. apply table_agree; assumption.
  Qed.

  Lemma compare_ok ne ne' (s g : solution R) dir : wf ne s -> wf ne' g -> s_euler s = true -> s_euler g = true ->
    texts_ok ne s -> texts_ok ne' g -> bc_name_ok (s_bcl s) -> bc_name_ok (s_bcr s) -> bc_name_ok (s_bcl g) -> bc_name_ok (s_bcr g) ->
    (forall f name, nth_error (s_fields s) f = Some name -> read_file dir (name ++ "0000000001.dat")%string = Some (field_file s f)) ->
    (forall f name, nth_error (s_fields s) f = Some name -> read_file dir (name ++ "0000000001.gold")%string = Some (field_file g f)) ->
    exists b, compare_with_golds dir = Ok b /\ (b = true <-> ne = ne' /\ agree (15 / 100000000000) ne s g).
  Proof.
    intros W W' Es Eg T T' B1 B2 B3 B4 R1 R2. pose proof (wf_ne _ _ W) as Hne.
    assert (NF : s_NF s = 3%nat) by (unfold s_NF; rewrite Es; reflexivity). assert (ENF : s_NF s = s_NF g) by (unfold s_NF; rewrite Es, Eg; reflexivity).
    assert (C : forall f name, nth_error (s_fields s) f = Some name -> (f < 3)%nat -> exists b, compare_field dir name = Ok b /\ (b = true <-> ne = ne' /\ agree_field f ne s g)).
    { intros f name Hn Hf. apply field_compared; try assumption; [lia|apply R1; exact Hn|apply R2; exact Hn]. }
    assert (EF : s_fields s = ["rho"; "rhou"; "E"]%string) by (unfold s_fields; rewrite Es; reflexivity). rewrite EF in C.
    destruct (C 0%nat _ eq_refl ltac:(lia)) as [b0 [C0 A0]]. destruct (C 1%nat _ eq_refl ltac:(lia)) as [b1 [C1 A1]]. destruct (C 2%nat _ eq_refl ltac:(lia)) as [b2 [C2 A2]].
    exists (b0 && b1 && b2)%bool. split.
    - unfold compare_with_golds. rewrite C0. cbn [rbind]. destruct b0; [|reflexivity]. rewrite C1. cbn [rbind]. destruct b1; [|reflexivity]. rewrite C2. reflexivity.
    - rewrite !andb_true_iff, A0, A1, A2. split.
      + intros [[[E [N1 [X1 U0]]] [_ [_ [_ U1]]]] [_ [_ [_ U2]]]]. split; [exact E|]. split; [exact N1|]. split; [exact X1|]. intros n e f Hn He Hf. rewrite NF in Hf.
        destruct f as [|[|[|f]]]; [apply U0|apply U1|apply U2|lia]; assumption.
      + intros [E [N1 [X1 U]]].
        assert (Q : forall f, (f < 3)%nat -> agree_field f ne s g) by (intros f Hf; split; [exact N1|]; split; [exact X1|]; intros n e Hn He; apply U; (assumption || lia)).
        repeat split; try exact E; try exact N1; try exact X1; apply Q; lia.
  Qed.
End Compare.

(** * observed orders *)
Lemma diff_shift (ln : R -> R) c (errs : list R) : (forall x, In x errs -> ln (c * x) = ln c + ln x) -> diff (map ln (map (Rmult c) errs)) = diff (map ln errs).
Proof.
  intro H. unfold diff. destruct errs as [|x errs]; [reflexivity|]. cbn [map tl]. revert x H. induction errs as [|y errs IH]; intros x H; [reflexivity|].
  cbn [map map2]. f_equal; [|apply IH; intros z Hz; apply H; right; exact Hz]. rewrite !H by (cbn; auto). numR. ring.
Qed.
Lemma orders_scale c (errs : list R) resolutions : 0 < c -> (forall x, In x errs -> 0 < x) ->
  observed_orders ln (map (Rmult c) errs) resolutions = observed_orders ln errs resolutions.
Proof. intros Hc H. unfold observed_orders. rewrite diff_shift; [reflexivity|]. intros x Hx. apply ln_mult; [exact Hc|apply H; exact Hx]. Qed.
(** errors C h^q give the orders q *)
Lemma orders_exact C q (resolutions : list nat) : 0 < C -> (forall n, In n resolutions -> (1 <= n)%nat) -> NoDup resolutions ->
  observed_orders ln (map (fun n => C * Rpower (INR n) (- q)) resolutions) resolutions = repeat q (List.length resolutions - 1).
Proof.
  intros HC H ND. unfold observed_orders, diff. destruct resolutions as [|n l]; [reflexivity|]. cbn [map tl].
  replace (List.length (n :: l) - 1)%nat with (List.length l) by (cbn; lia). revert n H ND. induction l as [|m l IH]; intros n H ND; [reflexivity|].
  cbn [map map2 List.length repeat]. f_equal; [|apply IH; [intros k Hk; apply H; right; exact Hk|inversion ND; assumption]].
  assert (P : forall k, In k (n :: m :: l) -> 0 < INR k) by (intros k Hk; apply lt_0_INR; specialize (H k Hk); lia).
  rewrite !ln_mult by (try exact HC; apply exp_pos). unfold Rpower. rewrite !ln_exp. numR. rewrite <- !INR_IZR_INZ.
  assert (ln (INR m) - ln (INR n) <> 0); [|field; assumption]. intro E. assert (INR m = INR n) by (apply ln_inv; [apply P; cbn; auto|apply P; cbn; auto|lra]).
  apply INR_eq in H0. subst m. inversion ND as [|? ? K _]. apply K. left. reflexivity.
Qed.

(** * the curve drawn over advection plots *)
Lemma sin_shift (k : Z) y : sin (y - 2 * PI * IZR k) = sin y.
Proof.
  assert (Pn : forall (n : nat) y, sin (y - 2 * PI * INR n) = sin y).
  { intros n z. rewrite <- (sin_period (z - 2 * PI * INR n) n). f_equal. ring. }
  destruct (Z.le_gt_cases 0 k) as [Hk|Hk].
  - replace k with (Z.of_nat (Z.to_nat k)) by lia. rewrite <- INR_IZR_INZ. apply Pn.
  - replace k with (- Z.of_nat (Z.to_nat (- k)))%Z by lia. rewrite opp_IZR, <- INR_IZR_INZ. rewrite <- (sin_period y (Z.to_nat (- k))). f_equal. ring.
Qed.
Lemma exact_points x y : In (x, y) (plot_exact (A := R)) <-> exists i, (i < 200)%nat /\ x = -1 + INR i * (2 / 199) /\ y = sin (2 * PI * x).
Proof.
  unfold plot_exact. rewrite in_map_iff.
  assert (E : forall i, (i < 200)%nat -> at1 (linspace (- n1) n1 200) i = -1 + INR i * (2 / 199)).
  { intros i Hi. change 200%nat with (199 + 1)%nat. rewrite at1_linspace by lia. numR. replace (INR 199) with 199 by (rewrite INR_IZR_INZ; reflexivity). lra. }
  assert (LL : List.length (linspace (- n1) (n1 : R) 200) = 200%nat) by (change 200%nat with (199 + 1)%nat; apply length_linspace').
  split.
  - intros [x' [Ep Hin]]. injection Ep as <- <-. apply (In_nth _ _ 0) in Hin. destruct Hin as [i [Hi0 Ex]].
    assert (Hi : (i < 200)%nat) by (eapply Nat.lt_le_trans; [exact Hi0|apply Nat.eq_le_incl; exact LL]).
    exists i. split; [exact Hi|]. split; [rewrite <- (E i Hi); symmetry; exact Ex|reflexivity].
  - intros [i [Hi [-> ->]]]. exists (-1 + INR i * (2 / 199)). split; [reflexivity|]. rewrite <- (E i Hi). apply nth_In. eapply Nat.lt_le_trans; [exact Hi|apply Nat.eq_le_incl; symmetry; exact LL].
Qed.
Lemma exact_curve t : (forall x y, In (x, y) (plot_exact (A := R)) -> y = sin (2 * PI * (x - t))) <-> exists k : Z, t = IZR k.
Proof.
  split.
  - intro H.
    assert (P : forall i, (i < 200)%nat -> let x := -1 + INR i * (2 / 199) in sin (2 * PI * x) = sin (2 * PI * (x - t))).
    { intros i Hi. cbv zeta. apply H. apply exact_points. exists i. split; [exact Hi|]. split; reflexivity. }
    pose proof (P 0%nat ltac:(lia)) as H0. pose proof (P 1%nat ltac:(lia)) as H1. cbv zeta in H0, H1. cbn [INR] in H0, H1.
    assert (S0 : sin (2 * PI * t) = 0).
    { replace (2 * PI * (-1 + 0 * (2 / 199))) with (0 - 2 * PI * IZR 1) in H0 by lra. rewrite sin_shift, sin_0 in H0.
      replace (2 * PI * (-1 + 0 * (2 / 199) - t)) with (- (2 * PI * t) - 2 * PI * IZR 1) in H0 by lra. rewrite sin_shift, sin_neg in H0. lra. }
    apply sin_eq_0_0 in S0. destruct S0 as [k Hk]. pose proof PI_RGT_0 as HP. assert (Ht : t = IZR k / 2) by (apply (Rmult_eq_reg_l (2 * PI)); [lra|lra]).
    destruct (Z.Even_or_Odd k) as [[m ->]|[m ->]].
    + exists m. rewrite Ht, mult_IZR. lra.
    + exfalso. rewrite plus_IZR, mult_IZR in Ht.
      replace (2 * PI * (-1 + 1 * (2 / 199) - t)) with ((2 * PI * (-1 + 1 * (2 / 199)) - PI) - 2 * PI * IZR m) in H1 by (rewrite Ht; lra).
      rewrite sin_shift in H1. set (y := 2 * PI * (-1 + 1 * (2 / 199))) in *.
      replace (sin (y - PI)) with (- sin y) in H1 by (rewrite sin_minus, sin_PI, cos_PI; ring).
      assert (Z0 : sin y = 0) by lra. unfold y in Z0. replace (2 * PI * (-1 + 1 * (2 / 199))) with (4 * PI / 199 - 2 * PI * IZR 1) in Z0 by lra. rewrite sin_shift in Z0.
      assert (0 < sin (4 * PI / 199)) by (apply sin_gt_0; lra). lra.
  - intros [k ->] x y Hin. apply exact_points in Hin. destruct Hin as [i [_ [_ ->]]]. replace (2 * PI * (x - IZR k)) with (2 * PI * x - 2 * PI * IZR k) by ring.
    symmetry. apply sin_shift.
Qed.
(** the pressure drawn and the pressure at another gamma *)
Lemma shown_pressure gamma (s : solution R) e x : s_euler s = true -> gamma <> 1 -> shown (14 / 10) s e 2 x = 4 / 10 / (gamma - 1) * shown gamma s e 2 x.
Proof. intros E H. unfold shown. rewrite E. cbv zeta. generalize (value_at s e 2 x - value_at s e 0 x * (value_at s e 1 x / value_at s e 0 x * (value_at s e 1 x / value_at s e 0 x)) / 2). intro q. field. lra. Qed.
