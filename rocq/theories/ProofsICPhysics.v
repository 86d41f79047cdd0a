(** C79, C80: what the built-in initial conditions are, and whether they fit their boundary conditions. *)
From Coq Require Import ZArith List Bool Arith String Lia Reals Lra.
From Verif Require Import Num Py PyStr Lib RealLib Ext Constants IC SpecEuler SpecIC ProofsDG ProofsSol ProofsIC ProofsIC2.
Import ListNotations.
Open Scope list_scope.
Open Scope R_scope.

(** ** hyperbolic tangent *)
Lemma tanh_exp y : tanh y = 1 - 2 / (exp (2 * y) + 1).
Proof.
  unfold tanh, sinh, cosh. pose proof (exp_pos y). pose proof (exp_pos (- y)). pose proof (exp_pos (2 * y)).
  assert (E : exp y * exp (- y) = 1) by (rewrite <- exp_plus; replace (y + - y) with 0 by ring; apply exp_0).
  replace (exp (2 * y)) with (exp y * exp y) by (rewrite <- exp_plus; f_equal; ring).
  apply Rmult_eq_reg_r with ((exp y + exp (- y)) * (exp y * exp y + 1)); [|apply Rgt_not_eq, Rmult_lt_0_compat; nra].
  transitivity ((exp y - exp (- y)) * (exp y * exp y + 1)); [field; lra|].
  transitivity ((exp y * exp y - 1) * (exp y + exp (- y))); [|field; nra].
  replace ((exp y - exp (- y)) * (exp y * exp y + 1)) with (exp y * exp y * exp y + exp y - exp y * (exp y * exp (- y)) - exp (- y)) by ring.
  replace ((exp y * exp y - 1) * (exp y + exp (- y))) with (exp y * exp y * exp y + exp y * (exp y * exp (- y)) - exp y - exp (- y)) by ring.
  rewrite E. ring.
Qed.
Lemma tanh_odd y : tanh (- y) = - tanh y.
Proof.
  unfold tanh, sinh, cosh. rewrite Ropp_involutive. pose proof (exp_pos y). pose proof (exp_pos (- y)). field. lra.
Qed.
Lemma tanh_mono x y : x <= y -> tanh x <= tanh y.
Proof.
  intro H. rewrite !tanh_exp. assert (E : exp (2 * x) <= exp (2 * y)).
  { destruct H as [H| ->]; [|lra]. left. apply exp_increasing. lra. }
  pose proof (exp_pos (2 * x)). unfold Rminus. apply Rplus_le_compat_l, Ropp_le_contravar. unfold Rdiv. apply Rmult_le_compat_l; [lra|].
  apply Rinv_le_contravar; lra.
Qed.
Lemma tanh_near y : y < 0 -> 1 + tanh y <= 1 / - y.
Proof.
  intro H. rewrite tanh_exp. pose proof (exp_pos (2 * y)) as P. pose proof (exp_ineq1_le (- (2 * y))) as E. rewrite exp_Ropp in E.
  set (e := exp (2 * y)) in *. replace (1 + (1 - 2 / (e + 1))) with (2 * e / (e + 1)) by (field; lra).
  apply Rle_trans with (2 * e).
  - unfold Rdiv. rewrite <- (Rmult_1_r (2 * e)) at 2. apply Rmult_le_compat_l; [lra|]. rewrite <- Rinv_1. apply Rinv_le_contravar; lra.
  - apply Rmult_le_reg_r with (- y); [lra|]. replace (1 / - y * - y) with 1 by (field; lra).
    assert (e * (1 + - (2 * y)) <= 1). { apply Rle_trans with (e * / e); [apply Rmult_le_compat_l; lra|rewrite Rinv_r; lra]. } nra.
Qed.
Lemma tanh_cont y : continuity_pt tanh y.
Proof.
  apply (continuity_pt_locally_ext (fun y => 1 - 2 / (exp (2 * y) + 1)) _ 1); [lra|intros; symmetry; apply tanh_exp|].
  apply derivable_continuous_pt. assert (exp (2 * y) + 1 <> 0) by (pose proof (exp_pos (2 * y)); lra). reg.
Qed.

(** ** the smooth step of simplew *)
Definition ramp (s : R) : R :=
  if Rle_dec s (- (1 / 2)) then 0 else if Rlt_dec s (1 / 2) then / 3 * (1 + tanh (s / (1 / 4 - s * s))) else 2 / 3.
Lemma ramp_low s : s <= - (1 / 2) -> ramp s = 0.
Proof. intro H. unfold ramp. destruct Rle_dec; [reflexivity|lra]. Qed.
Lemma ramp_mid s : - (1 / 2) < s -> s < 1 / 2 -> ramp s = / 3 * (1 + tanh (s / (1 / 4 - s * s))).
Proof. intros H1 H2. unfold ramp. destruct Rle_dec; [lra|]. destruct Rlt_dec; [reflexivity|lra]. Qed.
Lemma ramp_high s : 1 / 2 <= s -> ramp s = 2 / 3.
Proof. intro H. unfold ramp. destruct Rle_dec; [lra|]. destruct Rlt_dec; [lra|reflexivity]. Qed.
Lemma ramp_bounds s : 0 <= ramp s <= 2 / 3.
Proof. unfold ramp. destruct Rle_dec; [lra|]. destruct Rlt_dec; [|lra]. pose proof (tanh_bounds (s / (1 / 4 - s * s))). lra. Qed.
Lemma ramp_sym s : ramp (- s) = 2 / 3 - ramp s.
Proof.
  destruct (Rle_lt_dec s (- (1 / 2))) as [H|H]; [rewrite (ramp_low s H), ramp_high by lra; lra|].
  destruct (Rlt_le_dec s (1 / 2)) as [H'|H']; [|rewrite (ramp_high s H'), ramp_low by lra; lra].
  rewrite (ramp_mid s H H'), ramp_mid by lra. replace (- s / (1 / 4 - - s * - s)) with (- (s / (1 / 4 - s * s))) by (field; nra).
  rewrite tanh_odd. lra.
Qed.
Lemma ramp_mono x y : x <= y -> ramp x <= ramp y.
Proof.
  intro H. pose proof (ramp_bounds x). pose proof (ramp_bounds y).
  destruct (Rle_lt_dec x (- (1 / 2))) as [K|K]; [rewrite (ramp_low x K); lra|].
  destruct (Rlt_le_dec y (1 / 2)) as [L|L]; [|rewrite (ramp_high y L); lra].
  rewrite (ramp_mid x), (ramp_mid y) by lra. apply Rmult_le_compat_l; [lra|]. apply Rplus_le_compat_l, tanh_mono.
  assert (0 < 1 / 4 - x * x) by nra. assert (0 < 1 / 4 - y * y) by nra.
  apply Rmult_le_reg_r with ((1 / 4 - x * x) * (1 / 4 - y * y)); [apply Rmult_lt_0_compat; assumption|].
  replace (x / (1 / 4 - x * x) * ((1 / 4 - x * x) * (1 / 4 - y * y))) with (x * (1 / 4 - y * y)) by (field; lra).
  replace (y / (1 / 4 - y * y) * ((1 / 4 - x * x) * (1 / 4 - y * y))) with (y * (1 / 4 - x * x)) by (field; lra).
  assert (0 <= (y - x) * (1 / 4 + x * y)); [|nra]. apply Rmult_le_pos; [lra|]. nra.
Qed.
Lemma ramp_near s : - (1 / 2) <= s -> s <= - (1 / 4) -> ramp s <= 2 * (s + 1 / 2).
Proof.
  intros H1 H2. destruct H1 as [H1| <-]; [|rewrite ramp_low; lra]. rewrite ramp_mid by lra.
  assert (P : 0 < 1 / 4 - s * s) by nra. assert (Y : s / (1 / 4 - s * s) < 0).
  { unfold Rdiv. rewrite <- (Ropp_involutive s) at 1. rewrite Ropp_mult_distr_l_reverse. apply Ropp_lt_gt_0_contravar, Rmult_gt_0_compat; [lra|apply Rinv_0_lt_compat, P]. }
  pose proof (tanh_near _ Y) as T. replace (1 / - (s / (1 / 4 - s * s))) with ((1 / 4 - s * s) / - s) in T by (field; lra).
  assert ((1 / 4 - s * s) / - s <= 4 * (s + 1 / 2)); [|lra].
  apply Rmult_le_reg_r with (- s); [lra|]. replace ((1 / 4 - s * s) / - s * - s) with (1 / 4 - s * s) by (field; lra). nra.
Qed.
Lemma ramp_cont_low : continuity_pt ramp (- (1 / 2)).
Proof.
  intros e He. exists (Rmin (1 / 4) (e / 2)). split; [apply Rmin_pos; lra|].
  intros x [_ Hx]. unfold dist, R_met, R_dist in *. simpl in Hx |- *. unfold R_dist in Hx |- *. rewrite (ramp_low (- (1 / 2))) by lra. rewrite Rminus_0_r, Rabs_pos_eq by apply ramp_bounds.
  assert (A1 := Rlt_le_trans _ _ _ Hx (Rmin_l _ _)). assert (A2 := Rlt_le_trans _ _ _ Hx (Rmin_r _ _)).
  apply Rabs_def2 in A1. apply Rabs_def2 in A2.
  destruct (Rle_lt_dec x (- (1 / 2))) as [K|K]; [rewrite (ramp_low x K); lra|]. pose proof (ramp_near x ltac:(lra) ltac:(lra)). lra.
Qed.
Lemma cont_ext (f g : R -> R) x : (forall y, f y = g y) -> continuity_pt f x -> continuity_pt g x.
Proof. intros E. apply (continuity_pt_locally_ext f g 1 x); [lra|intros; apply E]. Qed.
Lemma ramp_cont s : continuity_pt ramp s.
Proof.
  destruct (Rtotal_order s (- (1 / 2))) as [H|[ -> |H]].
  - apply (continuity_pt_locally_ext (fun _ => 0) _ (- (1 / 2) - s)); [lra| |apply continuity_pt_const; intros ? ?; reflexivity].
    intros y Hy. unfold R_dist in Hy. apply Rabs_def2 in Hy. symmetry. apply ramp_low. lra.
  - exact ramp_cont_low.
  - destruct (Rtotal_order s (1 / 2)) as [H'|[ -> |H']].
    + apply (continuity_pt_locally_ext (fun y => / 3 * (1 + tanh (y / (1 / 4 - y * y)))) _ (Rmin (s + 1 / 2) (1 / 2 - s))); [apply Rmin_pos; lra| |].
      * intros y Hy. unfold R_dist in Hy. pose proof (Rmin_l (s + 1 / 2) (1 / 2 - s)). pose proof (Rmin_r (s + 1 / 2) (1 / 2 - s)).
        apply Rabs_def2 in Hy. symmetry. apply ramp_mid; lra.
      * apply (continuity_pt_mult (fun _ => / 3)); [apply continuity_pt_const; intros ? ?; reflexivity|].
        apply (continuity_pt_plus (fun _ => 1)); [apply continuity_pt_const; intros ? ?; reflexivity|].
        apply (continuity_pt_comp (fun y => y / (1 / 4 - y * y)) tanh); [|apply tanh_cont].
        apply derivable_continuous_pt. assert (1 / 4 - s * s <> 0) by nra. reg.
    + apply (cont_ext (fun y => 2 / 3 - ramp (- y))); [intro y; rewrite ramp_sym; lra|].
      apply (continuity_pt_minus (fun _ => 2 / 3)); [apply continuity_pt_const; intros ? ?; reflexivity|].
      apply (continuity_pt_comp (fun y => - y) ramp); [apply derivable_continuous_pt; reg|exact ramp_cont_low].
    + apply (continuity_pt_locally_ext (fun _ => 2 / 3) _ (s - 1 / 2)); [lra| |apply continuity_pt_const; intros ? ?; reflexivity].
      intros y Hy. unfold R_dist in Hy. apply Rabs_def2 in Hy. symmetry. apply ramp_high. lra.
Qed.

(** the velocity of simplew *)
Definition twowaves (x : R) : R := ramp (x - 1) - ramp (- x - 1).
Lemma simplew_twowaves x : simplew_u (A:=R) 3 x = Ok (twowaves x).
Proof.
  unfold simplew_u, twowaves. numR. cbn [ntanh LibmR]. unfold Rltb, Rleb.
  replace (-3 / 2) with (- (3 / 2)) by lra. replace (-1 / 2) with (- (1 / 2)) by lra.
  destruct (Rle_dec x (- (3 / 2))). { rewrite ramp_low, ramp_high by lra. f_equal. lra. }
  destruct (Rlt_dec (- (3 / 2)) x); [|lra]. destruct (Rlt_dec x (- (1 / 2))); cbn [andb].
  { rewrite ramp_low by lra. replace (- x - 1) with (- (x + 1)) by ring. rewrite ramp_sym, ramp_mid by lra. f_equal.
    replace (npown (x + 1) 2) with ((x + 1) * (x + 1)) by (cbn; ring). lra. }
  destruct (Rle_dec (- (1 / 2)) x); [|lra]. destruct (Rle_dec x (1 / 2)); cbn [andb]. { rewrite !ramp_low by lra. f_equal. lra. }
  destruct (Rlt_dec (1 / 2) x); [|lra]. destruct (Rlt_dec x (3 / 2)); cbn [andb].
  { rewrite (ramp_low (- x - 1)), ramp_mid by lra. f_equal. replace (npown (x - 1) 2) with ((x - 1) * (x - 1)) by (cbn; ring). lra. }
  destruct (Rle_dec (3 / 2) x); [|lra]. rewrite (ramp_low (- x - 1)), ramp_high by lra. f_equal. lra.
Qed.
Lemma twowaves_odd x : twowaves (- x) = - twowaves x.
Proof. unfold twowaves. rewrite Ropp_involutive. ring. Qed.
Lemma twowaves_mono x y : x <= y -> twowaves x <= twowaves y.
Proof. intro H. unfold twowaves. pose proof (ramp_mono (x - 1) (y - 1) ltac:(lra)). pose proof (ramp_mono (- y - 1) (- x - 1) ltac:(lra)). lra. Qed.
Lemma twowaves_rest x : Rabs x <= 1 / 2 -> twowaves x = 0.
Proof. intro H. unfold twowaves. unfold Rabs in H. destruct (Rcase_abs x); rewrite !ramp_low; lra. Qed.
Lemma twowaves_right x : 0 <= x -> 0 <= twowaves x.
Proof. intro H. rewrite <- (twowaves_rest 0); [apply twowaves_mono, H|rewrite Rabs_R0; lra]. Qed.
Lemma twowaves_far x : 3 / 2 <= x -> twowaves x = 2 / 3.
Proof. intro H. unfold twowaves. rewrite ramp_high, ramp_low by lra. lra. Qed.
Lemma twowaves_cont : continuity twowaves.
Proof.
  intro x. unfold twowaves. apply (continuity_pt_minus (fun x => ramp (x - 1)) (fun x => ramp (- x - 1))).
  - apply (continuity_pt_comp (fun y => y - 1) ramp); [apply derivable_continuous_pt; reg|apply ramp_cont].
  - apply (continuity_pt_comp (fun y => - y - 1) ramp); [apply derivable_continuous_pt; reg|apply ramp_cont].
Qed.
Lemma twowaves_bound x : Rabs (twowaves x) <= 2 / 3.
Proof. apply (simplew_bound x). apply simplew_twowaves. Qed.
Lemma twowaves_moving x : 1 / 2 < x -> 0 < twowaves x.
Proof.
  intro H. destruct (Rlt_le_dec x (3 / 2)) as [K|K]; [|rewrite twowaves_far by exact K; lra].
  unfold twowaves. rewrite (ramp_low (- x - 1)), ramp_mid by lra. pose proof (tanh_bounds ((x - 1) / (1 / 4 - (x - 1) * (x - 1)))). lra.
Qed.

Lemma cos25_pos : 0 < cos 25.
Proof.
  assert (U : PI < 10 / 3).
  { pose proof (PI_ineq 3) as [_ H]. unfold tg_alt, PI_tg in H. cbn [sum_f_R0 Nat.mul Nat.add pow INR] in H. lra. }
  pose proof PI2_3_2 as P2. replace 25 with ((25 - 8 * PI) + 2 * INR 4 * PI) by (cbn [INR]; ring). rewrite cos_period. apply cos_gt_0; lra.
Qed.

Section Flow.
  Context {X : Ext R}.
  Ltac look H := unfold ic_lookup in H; cbn [String.eqb Ascii.eqb Bool.eqb] in H; apply Ok_inj in H; subst.

  Lemma simplew_flow params g ic : ic_lookup (A:=R) "simplew" params g = Ok ic ->
    ic_gamma_after ic = 3 /\ is_flow ic (fun x => 3 * (1 - Rabs (twowaves x))) twowaves (fun x => (1 - Rabs (twowaves x)) ^ 3).
  Proof.
    intro H. look H. cbn [ic_gamma_after ic_f]. numR. split; [reflexivity|]. intro x. cbn [ic_f ic_gamma_after].
    unfold f_simplew. rewrite simplew_twowaves. cbn [rbind]. pose proof (twowaves_bound x) as B. set (u := twowaves x) in *. numR.
    set (a := 1 - (3 - 1) / 2 * Rabs u). assert (Ha : 0 < a) by (unfold a; lra). cbn [npow LibmR]. rewrite Rpow_1 by exact Ha.
    replace (1 - Rabs u) with a by (unfold a; lra). do 4 f_equal. unfold energy. field; lra.
  Qed.
  Lemma sound3 a : 0 < a -> sound_of 3 (3 * a) (a ^ 3) = a.
  Proof. intro H. unfold sound_of. replace (3 * a ^ 3 / (3 * a)) with (a * a) by (field; lra). apply sqrt_square. lra. Qed.
  Lemma simplew_waves params g ic : ic_lookup (A:=R) "simplew" params g = Ok ic ->
    ic_gamma_after ic = 3 /\ exists rho v p, is_flow ic rho v p /\ continuity rho /\ continuity v /\ continuity p /\
      (forall x, rho (- x) = rho x /\ v (- x) = - v x /\ p (- x) = p x) /\
      (forall x, Rabs x <= 1 / 2 -> rho x = 3 /\ v x = 0 /\ p x = 1) /\
      (forall x, 3 / 2 <= x -> v x = 2 / 3) /\
      (forall x, 0 <= x -> same_isentrope 3 (rho 0) (p 0) (rho x) (p x) /\ same_invariant 3 (rho 0) (v 0) (p 0) (rho x) (v x) (p x)) /\
      (forall x y, 0 <= x -> x <= y -> v x <= v y /\ v x - sound_of 3 (rho x) (p x) <= v y - sound_of 3 (rho y) (p y)) /\
      (forall x, 1 / 2 < x -> 0 < v x).
  Proof.
    intro H. destruct (simplew_flow _ _ _ H) as [Hg Hf]. split; [exact Hg|]. do 3 eexists. split; [exact Hf|]. cbn beta.
    pose proof (fun x => twowaves_bound x) as B.
    assert (CA : continuity (fun x => Rabs (twowaves x))). { apply (continuity_comp twowaves Rabs); [exact twowaves_cont|exact Rcontinuity_abs]. }
    assert (C1 : continuity (fun x => 1 - Rabs (twowaves x))). { apply (continuity_minus (fun _ => 1)); [apply continuity_const; intros ? ?; reflexivity|exact CA]. }
    split; [|split; [exact twowaves_cont|split; [|split; [|split; [|split; [|split; [|split]]]]]]].
    - apply (continuity_mult (fun _ => 3)); [apply continuity_const; intros ? ?; reflexivity|exact C1].
    - apply (continuity_comp (fun x => 1 - Rabs (twowaves x)) (fun y => y ^ 3)); [exact C1|]. apply derivable_continuous. apply derivable_pow.
    - intro x. rewrite !twowaves_odd, Rabs_Ropp. repeat split; reflexivity.
    - intros x Hx. rewrite (twowaves_rest x Hx), Rabs_R0. repeat split; lra.
    - exact twowaves_far.
    - intros x Hx. rewrite (twowaves_rest 0) by (rewrite Rabs_R0; lra). rewrite Rabs_R0. specialize (B x). pose proof (twowaves_right x Hx) as P.
      set (u := twowaves x) in *. rewrite (Rabs_pos_eq u P) in *. unfold same_isentrope, same_invariant. split.
      + replace 3 with (INR 3) at 2 4 by (cbn; lra). rewrite !Rpower_pow by lra. field. lra.
      + rewrite !sound3 by lra. field.
    - intros x y Hx Hy. pose proof (twowaves_mono x y Hy). split; [assumption|]. pose proof (twowaves_right x Hx). pose proof (twowaves_right y ltac:(lra)).
      rewrite !sound3 by (first [specialize (B x); lra|specialize (B y); lra]). rewrite !Rabs_pos_eq by assumption. lra.
    - exact twowaves_moving.
  Qed.

  Lemma entrpyw_flow params g ic : ic_lookup (A:=R) "entrpyw" params g = Ok ic ->
    ic_gamma_after ic = g /\ is_flow ic (fun x => 1 + sin (PI * x) / 5) (fun _ => 1) (fun _ => 1).
  Proof.
    intro H. look H. split; [reflexivity|]. intro x. cbn [ic_f ic_gamma_after]. unfold f_entrpyw. numR. cbn [nsin npi LibmR].
    f_equal. f_equal; [lra|]. f_equal; [lra|]. f_equal. unfold energy. lra.
  Qed.
  Lemma acsticw_flow params g ic : ic_lookup (A:=R) "acsticw" params g = Ok ic ->
    ic_gamma_after ic = g /\ is_flow ic (fun x => 1 + cos (PI * x / 2) ^ 8 / 10000) (fun _ => 0) (fun x => / g + cos (PI * x / 2) ^ 8 / 10000).
  Proof.
    intro H. look H. split; [reflexivity|]. intro x. cbn [ic_f ic_gamma_after]. unfold f_acsticw, acsticw_h. numR. cbn [ncos npi LibmR].
    replace (1 / 2 * PI * x) with (PI * x / 2) by field. set (c := cos (PI * x / 2)). replace (npown c 8) with (c ^ 8) by (cbn; ring).
    f_equal. f_equal; [field|]. f_equal; [field|]. f_equal. unfold energy, Rdiv. ring.
  Qed.
  Lemma cos8_range x : 0 <= cos x ^ 8 <= 1.
  Proof.
    replace (cos x ^ 8) with ((cos x ^ 2) ^ 4) by ring. assert (H : 0 <= cos x ^ 2 <= 1).
    { pose proof (sin2_cos2 x) as E. unfold Rsqr in E. pose proof (Rle_0_sqr (sin x)) as P. unfold Rsqr in P. nra. }
    split; [apply pow_le; lra|]. rewrite <- (pow1 4). apply pow_incr. exact H.
  Qed.
  Lemma acsticw_wave params g ic : 0 < g -> ic_lookup (A:=R) "acsticw" params g = Ok ic ->
    exists rho v p, is_flow ic rho v p /\ ic_gamma_after ic = g /\ sound_of g 1 (/ g) = 1 /\
      (forall x, v x = 0 /\ p x - / g = rho x - 1 /\ 1 <= rho x <= 1 + 1 / 10000 /\ rho (- x) = rho x) /\ rho 0 = 1 + 1 / 10000 /\ rho 1 = 1.
  Proof.
    intros Hg H. destruct (acsticw_flow _ _ _ H) as [E F]. do 3 eexists. split; [exact F|]. split; [exact E|]. split.
    { unfold sound_of. replace (g * / g / 1) with 1 by (field; lra). apply sqrt_1. }
    split; [|split].
    - intro x. cbn beta. pose proof (cos8_range (PI * x / 2)). split; [reflexivity|]. split; [lra|]. split; [lra|].
      replace (PI * - x / 2) with (- (PI * x / 2)) by field. rewrite cos_neg. reflexivity.
    - replace (PI * 0 / 2) with 0 by field. rewrite cos_0, pow1. lra.
    - replace (PI * 1 / 2) with (PI / 2) by field. rewrite cos_PI2. simpl. lra.
  Qed.

  Lemma float_given params i v : float_param (A:=R) params i = Ok v -> given params i v.
  Proof.
    unfold float_param, given. destruct (nth_error params i) as [t|]; [|discriminate]. intro H. exists t. split; [reflexivity|].
    destruct (parse_float t); [apply Ok_inj in H; subst; reflexivity|discriminate].
  Qed.
  Lemma scktube_flow params g ic : ic_lookup (A:=R) "scktube" params g = Ok ic ->
    ic_gamma_after ic = 14 / 10 /\ List.length params = 8%nat /\ exists xd rl vl pl rr vr pr,
      given params 1 xd /\ given params 2 rl /\ given params 3 vl /\ given params 4 pl /\ given params 5 rr /\ given params 6 vr /\ given params 7 pr /\
      exists rho v p, is_flow ic rho v p /\
        (forall x, x < xd -> rho x = rl /\ v x = vl /\ p x = pl) /\ (forall x, xd <= x -> rho x = rr /\ v x = vr /\ p x = pr).
  Proof.
    intro H. unfold ic_lookup in H. cbn [String.eqb Ascii.eqb Bool.eqb] in H. destruct (Nat.eqb_spec (List.length params) 8) as [L|]; [cbn [negb] in H|discriminate].
    inv_bind H. inv_bind H. inv_bind H. inv_bind H. inv_bind H. inv_bind H. inv_bind H. apply Ok_inj in H. subst ic. cbn [ic_gamma_after].
    split; [unfold gamma_default; numR; reflexivity|]. split; [exact L|]. exists x, x0, x1, x2, x3, x4, x5.
    repeat (split; [apply float_given; assumption|]).
    exists (fun y => if Rlt_dec y x then x0 else x3), (fun y => if Rlt_dec y x then x1 else x4), (fun y => if Rlt_dec y x then x2 else x5).
    split; [|split; intros y Hy; cbn beta; destruct (Rlt_dec y x); try lra; repeat split; reflexivity].
    intro y. cbn [ic_f ic_gamma_after]. unfold gamma_default, f_scktube. numR. unfold Rltb, Rleb.
    destruct (Rlt_dec y x); cbn [rbind]; [|destruct (Rle_dec x y); [cbn [rbind]|lra]]; do 4 f_equal; unfold energy; field; lra.
  Qed.

  Lemma sqrt35 : 59160797 / 10000000 < sqrt 35 < 59160799 / 10000000.
  Proof.
    split.
    - rewrite <- (sqrt_Rsqr (59160797 / 10000000)) by lra. apply sqrt_lt_1; unfold Rsqr; lra.
    - rewrite <- (sqrt_Rsqr (59160799 / 10000000)) by lra. apply sqrt_lt_1; unfold Rsqr; lra.
  Qed.
  (** a shock of Mach number 3 into gas at rest *)
  Lemma mach3 : rankine_hugoniot (14 / 10) (3 * sound_of (14 / 10) 1 1) 1 0 1 (27 / 7) (4 * sqrt 35 / 9) (31 / 3).
  Proof.
    assert (E : sound_of (14 / 10) 1 1 = sqrt 35 / 5).
    { unfold sound_of. replace (14 / 10 * 1 / 1) with (35 / (5 * 5)) by field. rewrite sqrt_div_alt by lra. rewrite sqrt_square by lra. reflexivity. }
    rewrite E. assert (S : sqrt 35 * sqrt 35 = 35) by (apply sqrt_sqrt; lra). set (s := sqrt 35) in *. clearbody s.
    unfold rankine_hugoniot, st_minus, st_scale, eflux, cons, energy. cbv beta iota zeta. apply f_equal2; [apply f_equal2|].
    - field.
    - nra.
    - replace (27 / 7 * (4 * s / 9) * (4 * s / 9) / 2) with (27 / 7 * 16 / 81 / 2 * (s * s)) by field. rewrite S. field.
  Qed.
  Lemma shuoshe_flow params g ic : ic_lookup (A:=R) "shuoshe" params g = Ok ic ->
    ic_gamma_after ic = 14 / 10 /\ exists rho v p, is_flow ic rho v p /\
      (exists r u q, rankine_hugoniot (14 / 10) (3 * sound_of (14 / 10) 1 1) 1 0 1 r u q /\
        forall x, x < 1 -> Rabs (rho x - r) <= 1 / 1000000 /\ Rabs (v x - u) <= 1 / 1000000 /\ Rabs (p x - q) <= 1 / 1000000) /\
      (forall x, 1 <= x -> rho x = 1 + sin (5 * (x - 5)) / 5 /\ v x = 0 /\ p x = 1).
  Proof.
    intro H. look H. cbn [ic_gamma_after]. split; [unfold gamma_default; numR; reflexivity|].
    exists (fun x => if Rlt_dec x 1 then 3857143 / 1000000 else 1 + sin (5 * (x - 5)) / 5), (fun x => if Rlt_dec x 1 then 2629369 / 1000000 else 0),
      (fun x => if Rlt_dec x 1 then 10333333 / 1000000 else 1). split; [|split].
    - intro y. cbn [ic_f ic_gamma_after]. unfold f_shuoshe, gamma_default. numR. cbn [nsin LibmR]. unfold Rltb, Rleb.
      destruct (Rlt_dec y 1); cbn [rbind]; [|destruct (Rle_dec 1 y); [cbn [rbind]|lra]].
      + do 4 f_equal; unfold energy; field; lra.
      + f_equal. f_equal; [field|]. f_equal; [field|]. f_equal. unfold energy. field.
    - exists (27 / 7), (4 * sqrt 35 / 9), (31 / 3). split; [exact mach3|]. intros x Hx. destruct (Rlt_dec x 1); [|lra]. pose proof sqrt35 as S.
      repeat split; apply Rabs_le; lra.
    - intros x Hx. destruct (Rlt_dec x 1); [lra|]. repeat split; reflexivity.
  Qed.

  (** ** boundary conditions *)
  Lemma sinewave_wave params g ic : ic_lookup (A:=R) "sinewave" params g = Ok ic ->
    exists y : R -> R, (forall x, ic_f ic x = Ok [y x]) /\ (forall x, y (x + 1 / 2) = - y x) /\ (forall x, y (- x) = - y x) /\ (forall x, -1 <= y x <= 1) /\ y (1 / 4) = 1.
  Proof.
    intro H. look H. exists (fun x => sin (2 * PI * x)). split; [|split; [|split; [|split]]].
    - intro x. cbn [ic_f]. unfold f_sinewave. numR. reflexivity.
    - intro x. replace (2 * PI * (x + 1 / 2)) with (2 * PI * x + PI) by field. apply neg_sin.
    - intro x. replace (2 * PI * - x) with (- (2 * PI * x)) by ring. apply sin_neg.
    - intro x. apply SIN_bound.
    - replace (2 * PI * (1 / 4)) with (PI / 2) by field. apply sin_PI2.
  Qed.
  Lemma flow_ext ic rho v p x y : is_flow ic rho v p -> rho x = rho y -> v x = v y -> p x = p y -> ic_f ic x = ic_f ic y.
  Proof. intros F E1 E2 E3. rewrite !F, E1, E2, E3. reflexivity. Qed.
  Lemma periodic_fits name params g ic : ic_lookup (A:=R) name params g = Ok ic -> ic_bc ic = "periodic"%string -> name <> "ictest"%string ->
    ic_A ic < ic_B ic /\ forall x, ic_f ic (x + (ic_B ic - ic_A ic)) = ic_f ic x.
  Proof.
    intros H Hb Hn. destruct (String.eqb_spec name "sinewave") as [->|N1].
    { destruct (sinewave_wave _ _ _ H) as [y [Hy [Hh _]]]. look H. cbn [ic_A ic_B]. numR. split; [lra|]. intro x. rewrite !Hy. do 2 f_equal.
      replace (x + (1 - -1)) with (x + 1 / 2 + 1 / 2 + 1 / 2 + 1 / 2) by field. rewrite !Hh. lra. }
    destruct (String.eqb_spec name "entrpyw") as [->|N2].
    { destruct (entrpyw_flow _ _ _ H) as [_ F]. assert (E : ic_B ic = 1 /\ ic_A ic = -1) by (look H; split; reflexivity). destruct E as [-> ->]. split; [lra|].
      intro x. apply (flow_ext _ _ _ _ _ _ F); try reflexivity. cbn beta. replace (PI * (x + (1 - -1))) with (PI * x + 2 * PI) by ring.
      rewrite sin_plus, sin_2PI, cos_2PI. do 2 f_equal. ring. }
    destruct (String.eqb_spec name "acsticw") as [->|N3].
    { destruct (acsticw_flow _ _ _ H) as [_ F]. assert (E : ic_B ic = 1 /\ ic_A ic = -1) by (look H; split; reflexivity). destruct E as [-> ->]. split; [lra|].
      intro x. assert (E : cos (PI * (x + (1 - -1)) / 2) ^ 8 = cos (PI * x / 2) ^ 8).
      { replace (PI * (x + (1 - -1)) / 2) with (PI * x / 2 + PI) by field. rewrite neg_cos. ring. }
      apply (flow_ext _ _ _ _ _ _ F); cbn beta; rewrite ?E; reflexivity. }
    exfalso. unfold ic_lookup in H. apply String.eqb_neq in N1, N2, N3, Hn. rewrite N1, N2, N3, Hn in H.
    destruct (String.eqb name "simplew"); [apply Ok_inj in H; subst ic; discriminate|].
    destruct (String.eqb name "scktube").
    { destruct (negb _); [discriminate|]. repeat inv_bind H. apply Ok_inj in H; subst ic; discriminate. }
    destruct (String.eqb name "shuoshe"); [apply Ok_inj in H; subst ic; discriminate|discriminate].
  Qed.
  Lemma ictest_jumps params g ic : ic_lookup (A:=R) "ictest" params g = Ok ic ->
    ic_bc ic = "periodic"%string /\ exists y : R -> R, (forall x, ic_f ic x = Ok [y x]) /\ y (ic_A ic) < 1 - 1 / 8 < y (ic_B ic).
  Proof.
    intro H. look H. cbn [ic_bc ic_A ic_B]. split; [reflexivity|]. exists (fun x => sin (x - PI / 3) ^ 3 + 1). numR. split.
    - intro x. cbn [ic_f]. unfold f_ictest. numR. cbn [nsin npi LibmR]. reflexivity.
    - pose proof PI_RGT_0 as P. pose proof PI2_3_2 as P2. pose proof PI_4 as P4.
      assert (A1 : sin (- (PI / 6)) = - (1 / 2)) by (rewrite sin_neg, sin_PI6; lra).
      split.
      + assert (S : sin (-1 - PI / 3) < - (1 / 2)).
        { replace (-1 - PI / 3) with (- (PI - (1 + PI / 3) - PI) - 2 * (1 + PI / 3)) by ring.
          replace (- (PI - (1 + PI / 3) - PI) - 2 * (1 + PI / 3)) with (- (1 + PI / 3)) by ring. rewrite sin_neg. apply Ropp_lt_contravar.
          rewrite <- sin_PI6. destruct (Rle_lt_dec (1 + PI / 3) (PI / 2)).
          - apply sin_increasing_1; lra.
          - rewrite <- (sin_PI_x (1 + PI / 3)). apply sin_increasing_1; lra. }
        set (s := sin (-1 - PI / 3)) in *. assert (s ^ 3 < - (1 / 8)); [|lra].
        replace (s ^ 3) with (- ((- s) ^ 3)) by ring. apply Ropp_lt_contravar. replace (1 / 8) with ((1 / 2) ^ 3) by field.
        simpl. nra.
      + assert (S : - (1 / 2) < sin (1 - PI / 3)). { rewrite <- A1. apply sin_increasing_1; lra. }
        set (s := sin (1 - PI / 3)) in *. assert (- (1 / 8) < s ^ 3); [|lra].
        assert (0 < (s + 1 / 2) * (s * s - s / 2 + 1 / 4)); [apply Rmult_lt_0_compat; nra|]. nra.
  Qed.
  Lemma simplew_ends params g ic : ic_lookup (A:=R) "simplew" params g = Ok ic ->
    ic_bc ic = "zerograd"%string /\ (forall x, x <= ic_A ic + 5 / 2 -> ic_f ic x = ic_f ic (ic_A ic)) /\ (forall x, ic_B ic - 5 / 2 <= x -> ic_f ic x = ic_f ic (ic_B ic)).
  Proof.
    intro H. destruct (simplew_flow _ _ _ H) as [_ F]. assert (E : ic_bc ic = "zerograd"%string /\ ic_B ic = 4 /\ ic_A ic = -4) by (look H; repeat split; reflexivity).
    destruct E as [-> [-> ->]]. split; [reflexivity|]. split; intros x Hx.
    - assert (V : twowaves x = twowaves (-4)).
      { rewrite <- (Ropp_involutive x), twowaves_odd, (twowaves_far (- x)) by lra. replace (-4) with (Ropp 4) by lra. rewrite twowaves_odd, twowaves_far by lra. reflexivity. }
      apply (flow_ext _ _ _ _ _ _ F); cbn beta; rewrite V; reflexivity.
    - assert (V : twowaves x = twowaves 4) by (rewrite !twowaves_far by lra; reflexivity).
      apply (flow_ext _ _ _ _ _ _ F); cbn beta; rewrite V; reflexivity.
  Qed.
  Lemma scktube_ends params g ic xd : ic_lookup (A:=R) "scktube" params g = Ok ic -> given params 1 xd ->
    ic_bc ic = "zerograd"%string /\ ic_A ic < ic_B ic /\ (forall x y, x < xd -> y < xd -> ic_f ic x = ic_f ic y) /\ (forall x y, xd <= x -> xd <= y -> ic_f ic x = ic_f ic y).
  Proof.
    intros H [t [T1 T2]]. destruct (scktube_flow _ _ _ H) as [_ [_ [xd' [rl [vl [pl [rr [vr [pr [[t' [T3 T4]] [_ [_ [_ [_ [_ [_ [rho [v [p [F [HL HR]]]]]]]]]]]]]]]]]]]]].
    assert (xd' = xd) by congruence. subst xd'.
    assert (E : ic_bc ic = "zerograd"%string /\ ic_B ic = 1 /\ ic_A ic = -1).
    { unfold ic_lookup in H. cbn [String.eqb Ascii.eqb Bool.eqb] in H. destruct (negb _); [discriminate|]. repeat inv_bind H. apply Ok_inj in H; subst ic. repeat split; reflexivity. }
    destruct E as [-> [-> ->]]. split; [reflexivity|]. split; [lra|]. split; intros x y Hx Hy.
    - destruct (HL x Hx) as [? [? ?]], (HL y Hy) as [? [? ?]]. apply (flow_ext _ _ _ _ _ _ F); congruence.
    - destruct (HR x Hx) as [? [? ?]], (HR y Hy) as [? [? ?]]. apply (flow_ext _ _ _ _ _ _ F); congruence.
  Qed.
  (** at the right end of shuoshe the density is not flat: its slope there is cos 25 > 0 *)
  Lemma shuoshe_ends params g ic : ic_lookup (A:=R) "shuoshe" params g = Ok ic ->
    ic_bc ic = "zerograd"%string /\ (forall x y, x < ic_A ic + 1 -> y < ic_A ic + 1 -> ic_f ic x = ic_f ic y) /\
    exists rho v p, is_flow ic rho v p /\ derivable_pt_lim rho (ic_B ic) (cos 25) /\ 0 < cos 25.
  Proof.
    intro H. destruct (shuoshe_flow _ _ _ H) as [_ [rho [v [p [F [_ HR]]]]]].
    assert (E : ic_bc ic = "zerograd"%string /\ ic_B ic = 10 /\ ic_A ic = 0) by (look H; repeat split; reflexivity).
    destruct E as [-> [-> ->]]. split; [reflexivity|]. split.
    - intros x y Hx Hy. look H. cbn [ic_f]. unfold f_shuoshe, gamma_default. numR. unfold Rltb. destruct (Rlt_dec x 1); [|lra]. destruct (Rlt_dec y 1); [|lra]. reflexivity.
    - exists rho, v, p. split; [exact F|]. split; [|exact cos25_pos].
      assert (D : derivable_pt_lim (fun x => 1 + sin (5 * (x - 5)) / 5) 10 (cos 25)).
      { assert (D0 : derivable_pt_lim (fun x => 5 * (x - 5)) 10 5).
        { pose proof (derivable_pt_lim_scal (fun x => x - 5) 5 10 (1 - 0) (derivable_pt_lim_minus id (fun _ => 5) 10 1 0 (derivable_pt_lim_id 10) (derivable_pt_lim_const 5 10))) as K.
          replace (5 * (1 - 0)) with 5 in K by ring. exact K. }
        replace (cos 25) with (0 + / 5 * (cos (5 * (10 - 5)) * 5)) by (replace (5 * (10 - 5)) with 25 by ring; field).
        apply (derivable_pt_lim_plus (fun _ => 1)); [apply derivable_pt_lim_const|].
        intros e He. destruct (derivable_pt_lim_scal _ (/ 5) _ _ (derivable_pt_lim_comp (fun x => 5 * (x - 5)) sin 10 5 (cos (5 * (10 - 5))) D0 (derivable_pt_lim_sin _)) e He) as [d Hd].
        exists d. intros h H1 H2. specialize (Hd h H1 H2). unfold mult_real_fct, comp in Hd. unfold Rdiv in *. rewrite (Rmult_comm (sin (5 * (10 + h - 5)))), (Rmult_comm (sin (5 * (10 - 5)))). exact Hd. }
      intros e He. destruct (D e He) as [d Hd]. assert (Hm : 0 < Rmin d 1) by (apply Rmin_pos; [apply cond_pos|lra]). exists (mkposreal _ Hm).
      intros h Hh Hlt. cbn [pos] in Hlt. pose proof (Rmin_l d 1). pose proof (Rmin_r d 1). specialize (Hd h Hh ltac:(lra)).
      assert (-1 < h) by (apply Rabs_def2 with (a := 1); lra).
      rewrite (proj1 (HR (10 + h) ltac:(lra))), (proj1 (HR 10 ltac:(lra))). exact Hd.
  Qed.
End Flow.
