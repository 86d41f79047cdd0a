(** C46: the built-in Euler initial conditions are admissible, at every point and on average. *)
From Coq Require Import ZArith List Bool Arith String Lia Reals Lra.
From Verif Require Import Num Py PyStr Lib RealLib LegNumpy Ext Basis Constants Sensor Enhance Limiting AdvectionPhysics EulerPhysics
  IC Solution Solver RKCoeffs RK IO Deck Main SpecDG SpecPoly SpecEuler SpecLimit ProofsPoly ProofsLeg ProofsGauss ProofsDG ProofsDG2 ProofsWf ProofsCons
  ProofsSol ProofsIC ProofsBasis ProofsAdv ProofsGodunov ProofsLimRun ProofsMain.
Import ListNotations.
Open Scope list_scope.
Open Scope R_scope.

(** the initial conditions C46 speaks about *)
Definition euler_ic {X : Ext R} (name : string) (params : list string) : Prop :=
  In name ["simplew"; "entrpyw"; "acsticw"; "shuoshe"]%string \/
  (name = "scktube"%string /\ forall i v, In i [2; 4; 5; 7]%nat -> float_param (A:=R) params i = Ok v -> 0 < v).

(** ** at every point *)
Lemma tanh_bounds x : -1 < tanh x < 1.
Proof.
  unfold tanh, sinh, cosh. pose proof (exp_pos x). pose proof (exp_pos (- x)).
  replace ((exp x - exp (- x)) / 2 / ((exp x + exp (- x)) / 2)) with ((exp x - exp (- x)) / (exp x + exp (- x))) by (field; lra).
  split; apply Rmult_lt_reg_r with (exp x + exp (- x)); try lra; unfold Rdiv; rewrite Rmult_assoc, Rinv_l by lra; lra.
Qed.
Lemma simplew_bound x u : simplew_u (A:=R) 3 x = Ok u -> Rabs u <= 2 / 3.
Proof.
  unfold simplew_u. numR. cbn [ntanh LibmR].
  repeat match goal with |- context [if ?c then _ else _] => destruct c end; intro H; try discriminate; apply Ok_inj in H; subst u;
    try match goal with |- context [tanh ?y] => pose proof (tanh_bounds y) as T; generalize dependent (tanh y); intros t T end;
    unfold Rabs; destruct Rcase_abs; lra.
Qed.
Lemma acsticw_nonneg x : 0 <= acsticw_h (A:=R) x.
Proof.
  unfold acsticw_h. numR. apply Rmult_le_pos; [lra|]. cbn [ncos npi LibmR]. set (c := cos (1 / 2 * PI * x)).
  replace (npown c 8) with (c ^ 8) by (cbn; ring). replace (c ^ 8) with ((c ^ 4) ^ 2) by ring. apply pow2_ge_0.
Qed.
Lemma Rpow_1 x : 0 < x -> Rpow x (2 / (3 - 1)) = x.
Proof. intro H. rewrite Rpow_pos by exact H. replace (2 / (3 - 1)) with 1 by lra. apply Rpower_1. exact H. Qed.
Section Point.
  Context {X : Ext R}.
  Lemma param_Ok (params : list string) i v : float_param (A:=R) params i = Ok v -> (i < List.length params)%nat.
  Proof. unfold float_param. destruct (nth_error params i) eqn:E; [intros _|discriminate]. apply nth_error_Some. congruence. Qed.
  Lemma ic_admissible name params ic : euler_ic name params -> ic_lookup (A:=R) name params gamma_default = Ok ic ->
    1 < ic_gamma_after ic /\ forall x, exists rho v p, 0 < rho /\ 0 < p /\ ic_f ic x = Ok [rho; rho * v; energy (ic_gamma_after ic) rho v p].
  Proof.
    intros Hn H. destruct Hn as [Hn|[-> Hpos]].
    - cbn [In] in Hn. destruct Hn as [<-|[<-|[<-|[<-|[]]]]]; unfold ic_lookup in H; cbn [String.eqb Ascii.eqb Bool.eqb] in H; apply Ok_inj in H; subst ic; cbn [ic_gamma_after ic_f].
      + numR. split; [lra|]. intro x. unfold f_simplew. destruct (simplew_u_total 3 x) as [u Hu]. pose proof (simplew_bound x u Hu) as B. numR. rewrite Hu. cbn [rbind].
        set (a := 1 - (3 - 1) / 2 * Rabs u). assert (Ha : 0 < a) by (unfold a; lra). rewrite Rpow_1 by exact Ha.
        exists (3 * a), u, (3 * a * a * a / 3). split; [lra|]. split; [unfold Rdiv; repeat apply Rmult_lt_0_compat; lra|]. do 4 f_equal. unfold energy. field; lra.
      + unfold gamma_default. numR. split; [lra|]. intro x. unfold f_entrpyw. numR. cbn [nsin npi LibmR]. set (s := sin (PI * x)). pose proof (SIN_bound (PI * x)) as B. fold s in B.
        exists (1 + 2 / 10 * s), 1, 1. split; [lra|]. split; [lra|]. do 4 f_equal. unfold energy. field; lra.
      + unfold gamma_default. numR. split; [lra|]. intro x. unfold f_acsticw. numR. pose proof (acsticw_nonneg x) as Hh. set (h := acsticw_h x) in *.
        exists (1 + h), 0, (1 / (14 / 10) + h). split; [lra|]. split; [lra|]. do 4 f_equal. unfold energy. field; lra.
      + unfold gamma_default. numR. split; [lra|]. intro x. unfold f_shuoshe, gamma_default. numR. cbn [nsin LibmR]. Rcase x 1; cbn [rbind].
        * exists (3857143 / 1000000), (2629369 / 1000000), (10333333 / 1000000). split; [lra|]. split; [lra|]. do 4 f_equal. unfold energy. field; lra.
        * unfold Rleb. destruct (Rle_dec 1 x); [|lra]. cbn [rbind]. set (s := sin (5 * (x - 5))). pose proof (SIN_bound (5 * (x - 5))) as B. fold s in B.
          exists (1 + 2 / 10 * s), 0, 1. split; [lra|]. split; [lra|]. do 4 f_equal. unfold energy. field; lra.
    - unfold ic_lookup in H. cbn [String.eqb Ascii.eqb Bool.eqb] in H. destruct (negb _); [discriminate|].
      inv_bind H. inv_bind H. inv_bind H. inv_bind H. inv_bind H. inv_bind H. inv_bind H. apply Ok_inj in H. subst ic. cbn [ic_gamma_after ic_f].
      match goal with H2 : float_param params 2 = Ok ?a, H4 : float_param params 4 = Ok ?b, H5 : float_param params 5 = Ok ?c, H7 : float_param params 7 = Ok ?d |- _ =>
        pose proof (Hpos 2%nat a ltac:(cbn; tauto) H2); pose proof (Hpos 4%nat b ltac:(cbn; tauto) H4); pose proof (Hpos 5%nat c ltac:(cbn; tauto) H5); pose proof (Hpos 7%nat d ltac:(cbn; tauto) H7) end.
      unfold gamma_default. numR. split; [lra|]. intro y. unfold f_scktube. numR. Rcase y x; cbn [rbind].
      + exists x0, x1, x2. split; [assumption|]. split; [assumption|]. do 4 f_equal. unfold energy. field; lra.
      + unfold Rleb. destruct (Rle_dec x y); [|lra]. cbn [rbind]. exists x3, x4, x5. split; [assumption|]. split; [assumption|]. do 4 f_equal. unfold energy. field; lra.
  Qed.
End Point.

(** ** averages *)
Lemma Rsum_pos n f : (1 <= n)%nat -> (forall i, (i < n)%nat -> 0 < f i) -> 0 < Rsum n f.
Proof.
  intros Hn H. destruct n as [|n]; [lia|]. clear Hn. induction n as [|n IH]; cbn [Rsum] in *; [specialize (H 0%nat ltac:(lia)); lra|].
  specialize (IH (fun i Hi => H i ltac:(lia))). specialize (H (S n) ltac:(lia)). cbn [Rsum] in IH. lra.
Qed.
(** the admissible set is a convex cone *)
Lemma mix_admissible g n w (rho m E : nat -> R) : 1 < g -> (1 <= n)%nat -> (forall i, (i < n)%nat -> 0 < w i) ->
  (forall i, (i < n)%nat -> admissible g (rho i, m i, E i)) ->
  admissible g (Rsum n (fun i => w i * rho i), Rsum n (fun i => w i * m i), Rsum n (fun i => w i * E i)).
Proof.
  intros Hg Hn Hw H. apply (admissible_iff g Hg). set (r := Rsum n (fun i => w i * rho i)). set (M := Rsum n (fun i => w i * m i)).
  assert (Hr : 0 < r). { apply Rsum_pos; [exact Hn|]. intros i Hi. apply Rmult_lt_0_compat; [auto|]. apply (proj1 (admissible_iff g Hg _ _ _) (H i Hi)). }
  split; [exact Hr|]. apply Rmult_lt_0_compat; [lra|]. set (v := M / r).
  replace (Rsum n (fun i => w i * E i) - M * M / (2 * r)) with (Rsum n (fun i => w i * (E i - m i * v + rho i * (v * v / 2)))).
  - apply Rsum_pos; [exact Hn|]. intros i Hi. apply Rmult_lt_0_compat; [auto|]. destruct (proj1 (admissible_iff g Hg _ _ _) (H i Hi)) as [A B].
    assert (B' : 0 < E i - m i * m i / (2 * rho i)) by (apply Rmult_lt_reg_l with (g - 1); lra).
    replace (E i - m i * v + rho i * (v * v / 2)) with ((E i - m i * m i / (2 * rho i)) + rho i / 2 * ((m i / rho i - v) * (m i / rho i - v))) by (field; lra).
    pose proof (Rle_0_sqr (m i / rho i - v)) as S. unfold Rsqr in S. nra.
  - rewrite (Rsum_ext n _ (fun i => (w i * E i + (- v) * (w i * m i)) + (v * v / 2) * (w i * rho i))) by (intros; ring).
    rewrite !Rsum_plus, !Rsum_scale. fold M r. unfold v. field. lra.
Qed.
Lemma half_admissible g rho m E : 1 < g -> admissible g (rho, m, E) -> admissible g (/ 2 * rho, / 2 * m, / 2 * E).
Proof.
  intros Hg H. apply (admissible_iff g Hg) in H. apply (admissible_iff g Hg). destruct H as [A B]. split; [lra|].
  replace ((g - 1) * (/ 2 * E - / 2 * m * (/ 2 * m) / (2 * (/ 2 * rho)))) with (/ 2 * ((g - 1) * (E - m * m / (2 * rho)))) by (field; lra). lra.
Qed.
Section Mean.
  Context {X : Ext R}.
  Hypothesis G : gauss_ok.
  Hypothesis FT : legfit_ok.
  (** Gauss weights are positive: integrate the square of a Lagrange polynomial *)
  Lemma weight_pos p i : (i <= p)%nat -> 0 < at1 (b_w (Basis p)) i.
  Proof.
    intro Hi. set (y := tab (p + 1) (fun j => if (j =? i)%nat then 1 else 0)).
    destruct (FT (p + 1)%nat (b_x (Basis p)) y) as [L E]; [lia|apply (G_len G)|apply length_tab|apply (gr_nodup _ _ _ (G_rule G p))|].
    set (c := legfit (b_x (Basis p)) y (p + 1 - 1)) in *.
    assert (V : forall j, (j <= p)%nat -> legseries c (at1 (b_x (Basis p)) j) = if (j =? i)%nat then 1 else 0).
    { intros j Hj. unfold at1. numR. rewrite E by lia. change (nth j y 0) with (at1 (A:=R) y j). unfold y. rewrite at1_tab by lia. reflexivity. }
    pose proof (G_exact G p (fun x => legseries c x * legseries c x) _ ltac:(apply (is_poly_le (p + p)); [lia|]; apply is_poly_mult; apply legseries_poly'; lia) (nint_product_series c c (p + 1) L L)) as Q.
    rewrite (Rsum_single (p + 1) i) in Q; [|lia|].
    - rewrite V, Nat.eqb_refl, !Rmult_1_r in Q by exact Hi. rewrite Q.
      assert (T : forall n, (n < p + 1)%nat -> 0 <= nth n c 0 * nth n c 0 * (2 / (2 * INR n + 1))).
      { intros n Hn. pose proof (pos_INR n). apply Rmult_le_pos; [nra|]. apply Rlt_le, Rdiv_lt_0_compat; lra. }
      destruct (Rsum_nonneg _ _ T) as [P|P]; [exact P|]. exfalso. symmetry in P. pose proof (Rsum_nonneg_0 _ _ T P) as Z.
      specialize (V i Hi). rewrite Nat.eqb_refl in V. unfold legseries in V. rewrite L in V. rewrite (Rsum_0 (p + 1)) in V; [lra|].
      intros n Hn. specialize (Z n Hn). cbn beta in Z. pose proof (pos_INR n). assert (D : 0 < 2 / (2 * INR n + 1)) by (apply Rdiv_lt_0_compat; lra).
      assert (nth n c 0 = 0) as ->; [|ring]. destruct (Rmult_integral _ _ Z) as [Z1|Z1]; [|lra]. destruct (Rmult_integral _ _ Z1); assumption.
    - intros j Hj Hne. rewrite V by lia. destruct (Nat.eqb_spec j i); [congruence|ring].
  Qed.

  (** averages of a constructed solution *)
  Lemma constructed_nodes icline system order riem enh th s g name params ic : split_ws icline = name :: params ->
    ic_lookup (A:=R) name params gamma_default = Ok ic -> ic_succeeds icline system order riem ->
    Solution icline system order riem enh th = Ok (s, g) -> (1 <= s_NE s)%Z ->
    g = ic_gamma_after ic /\ let x := linspace (ic_A ic) (ic_B ic) (Z.to_nat (s_NE s) + 1) in
    s_dx s = linspace_step (ic_A ic) (ic_B ic) (Z.to_nat (s_NE s) + 1) /\ s_bcl s = pylit (ic_bc ic) /\ s_bcr s = pylit (ic_bc ic) /\ s_t s = 0 /\ forall e f fc, (1 <= e <= Z.to_nat (s_NE s))%nat -> (f < s_NF s)%nat ->
    (forall x, exists fx, ic_f ic x = Ok fx /\ nth_error fx f = Some (fc x)) ->
    at1 (modes s e f) 0 = / 2 * Rsum (order + 1) (fun i => at1 (b_w (Basis order)) i * fc (node_at order (at1 x (e - 1)) (at1 x (e - 1 + 1)) i)).
  Proof.
    intros Hs Hl Hic H HNE. apply Solution_Ok in H; [|exact Hic]. destruct H as [nm [ps [s1 [en [K1 [K2 [_ K4]]]]]]].
    rewrite Hs in K1. injection K1 as <- <-. apply run_ic_Ok in K2. destruct K2 as [ic' [NE [u [p0 [L1 [_ [_ [L4 [L5 [L6 L7]]]]]]]]]].
    cbn [s_icname s_params blank_solution] in L1. rewrite Hl in L1. apply Ok_inj in L1. subst ic'. unfold ic_state in L4. subst s1.
    assert (EN : s_NE s = Z.of_nat NE) by (subst s; reflexivity). rewrite EN in *. rewrite Nat2Z.id. cbv zeta. split.
    - rewrite L5. destruct (Nat.ltb_spec 0 NE); [reflexivity|lia].
    - set (x := linspace (ic_A ic) (ic_B ic) (NE + 1)) in *. do 4 (split; [subst s; reflexivity|]).
      intros e f fc He Hf Hfc. assert (ENF : s_NF s = s_NF (blank_solution (A:=R) name params (String.eqb system "euler") (riemann_choice (String.eqb system "euler") riem) order)) by (subst s; reflexivity).
      set (s0 := blank_solution name params (String.eqb system "euler") (riemann_choice (String.eqb system "euler") riem) order) in *.
      destruct (L7 (e - 1)%nat f ltac:(lia) ltac:(rewrite <- ENF; exact Hf)) as [v [P1 P2]].
      destruct (projection_spec G FT order (at1 x (e - 1)) (at1 x (e - 1 + 1)) (ic_f ic) f fc Hfc) as [c [C1 [C2 [_ [_ [_ [C3 _]]]]]]].
      change (s_basis s0) with (Basis (A:=R) order) in P1. rewrite C1 in P1. apply Ok_inj in P1. subst v. rewrite <- C3.
      unfold modes. replace (s_u s) with (add_ghosts (s_NF s0) u) by (subst s; reflexivity). rewrite ENF.
      rewrite (col_add_ghosts (s_Ns s0) (s_NF s0) NE) by (try exact L6; try lia; rewrite <- ENF; exact Hf). rewrite P2.
      apply at1_tab. unfold s0. rewrite blank_Ns. lia.
  Qed.
  Lemma constructed_means icline system order riem enh th s g name params ic : split_ws icline = name :: params ->
    ic_lookup (A:=R) name params gamma_default = Ok ic -> ic_succeeds icline system order riem ->
    Solution icline system order riem enh th = Ok (s, g) -> (1 <= s_NE s)%Z ->
    g = ic_gamma_after ic /\ exists node : nat -> nat -> R, forall e f fc, (1 <= e <= Z.to_nat (s_NE s))%nat -> (f < s_NF s)%nat ->
    (forall x, exists fx, ic_f ic x = Ok fx /\ nth_error fx f = Some (fc x)) ->
    at1 (modes s e f) 0 = / 2 * Rsum (order + 1) (fun i => at1 (b_w (Basis order)) i * fc (node e i)).
  Proof. intros Hs Hl Hic H HNE. destruct (constructed_nodes _ _ _ _ _ _ _ _ _ _ _ Hs Hl Hic H HNE) as [-> [_ [_ [_ [_ Hm]]]]]. split; [reflexivity|]. eexists. exact Hm. Qed.
  Lemma averages_admissible icline system order riem enh th s g name params : split_ws icline = name :: params -> euler_ic name params ->
    ic_succeeds icline system order riem -> Solution icline system order riem enh th = Ok (s, g) -> (1 <= s_NE s)%Z -> s_euler s = true ->
    1 < g /\ forall e, (1 <= e <= Z.to_nat (s_NE s))%nat -> admissible g (at1 (modes s e 0) 0, at1 (modes s e 1) 0, at1 (modes s e 2) 0).
  Proof.
    intros Hs He Hic H HNE Eu.
    assert (Hl : exists ic, ic_lookup (A:=R) name params gamma_default = Ok ic).
    { unfold ic_succeeds in Hic. rewrite Hs in Hic. unfold run_ic in Hic. cbn [s_icname s_params blank_solution] in Hic.
      destruct (ic_lookup name params gamma_default) as [ic|e]; [eauto|discriminate]. }
    destruct Hl as [ic Hl]. destruct (ic_admissible name params ic He Hl) as [Hg Hp]. destruct (constructed_means _ _ _ _ _ _ _ _ _ _ _ Hs Hl Hic H HNE) as [-> [node Hm]].
    split; [exact Hg|]. intros e Hr. assert (NF : s_NF s = 3%nat) by (unfold s_NF; rewrite Eu; reflexivity).
    set (fx := fun x => match ic_f ic x with Ok l => l | Raise _ => [] end).
    assert (Hf : forall x, exists a b c, ic_f ic x = Ok [a; b; c] /\ admissible (ic_gamma_after ic) (a, b, c) /\ fx x = [a; b; c]).
    { intro x. destruct (Hp x) as [rho [v [p [H1 [H2 E]]]]]. do 3 eexists. unfold fx. rewrite E. split; [reflexivity|]. split; [|reflexivity]. exists rho, v, p. auto. }
    assert (Hk : forall k x, (k < 3)%nat -> exists l, ic_f ic x = Ok l /\ nth_error l k = Some (nth k (fx x) 0)).
    { intros k x Hk. destruct (Hf x) as [a [b [c [E [_ Ef]]]]]. exists [a; b; c]. split; [exact E|]. rewrite Ef. destruct k as [|[|[|]]]; try reflexivity. lia. }
    rewrite (Hm e 0%nat (fun x => nth 0 (fx x) 0) Hr ltac:(lia) (fun x => Hk 0%nat x ltac:(lia))).
    rewrite (Hm e 1%nat (fun x => nth 1 (fx x) 0) Hr ltac:(lia) (fun x => Hk 1%nat x ltac:(lia))).
    rewrite (Hm e 2%nat (fun x => nth 2 (fx x) 0) Hr ltac:(lia) (fun x => Hk 2%nat x ltac:(lia))).
    apply half_admissible; [exact Hg|].
    apply (mix_admissible _ (order + 1) (fun i => at1 (b_w (Basis order)) i) (fun i => nth 0 (fx (node e i)) 0) (fun i => nth 1 (fx (node e i)) 0) (fun i => nth 2 (fx (node e i)) 0)); [exact Hg|lia| |].
    - intros i Hi. apply weight_pos. lia.
    - intros i _. destruct (Hf (node e i)) as [a [b [c [_ [A ->]]]]]. exact A.
  Qed.

  (** the enhancement does not matter to set-up *)
  Lemma bc_enh (s s' : solution R) x : apply_bc s = Ok s' -> apply_bc (with_enh s x) = Ok (with_enh s' x).
  Proof. unfold apply_bc. intro H. inv_bind H. apply Ok_inj in H. subst s'. cbn [s_bcl s_bcr s_u with_enh]. change (s_NF (with_enh s x)) with (s_NF s). rewrite Hx. reflexivity. Qed.
  Lemma limit_enh gamma l (s s' : solution R) x : limit gamma l s = Ok s' -> limit gamma l (with_enh s x) = Ok (with_enh s' x).
  Proof.
    destruct l as [h|]; cbn [limit]; [|intro H; apply Ok_inj in H; subst; reflexivity].
    unfold adaptive_hr. change (s_sens (with_enh s x)) with (s_sens s). destruct (s_sens s) as [sn|]; [|discriminate]. intro H. inv_bind H. inv_bind H.
    change (s_euler (with_enh s x)) with (s_euler s). change (s_u (with_enh s x)) with (s_u s). change (s_NF (with_enh s x)) with (s_NF s).
    rewrite Hx. cbn [rbind]. change (limited_column h (with_enh s x) (sn_sensors x0)) with (limited_column h s (sn_sensors x0)). rewrite Hx0. cbn [rbind].
    exact (bc_enh _ _ x H).
  Qed.
  Lemma Solution_enh icline system order riem enh th (s : solution R) g : ic_succeeds icline system order riem ->
    Solution icline system order riem enh th = Ok (s, g) -> Solution icline system order riem "" th = Ok (with_enh s None, g).
  Proof.
    intros Hic H. pose proof Hic as Hic'. apply Solution_Ok in H; [|exact Hic]. destruct H as [nm [ps [s1 [en [K1 [K2 [K3 K4]]]]]]].
    unfold Solution. rewrite K1, K2. cbn [String.eqb rbind]. assert (E1 : s_enh s1 = None /\ s_sens s1 = None).
    { apply run_ic_Ok in K2. destruct K2 as [ic [NE [u [p0 [_ [_ [_ [-> _]]]]]]]]. split; reflexivity. }
    destruct E1 as [E1 E2]. subst s. destruct th as [|t th].
    - f_equal. f_equal. destruct s1; cbn in *; subst; reflexivity.
    - apply run_ic_Ok in K2. destruct K2 as [ic [NE [u [p0 [_ [_ [_ [Hst _]]]]]]]]. assert (EN : s_NE s1 = Z.of_nat NE) by (rewrite Hst; reflexivity).
      destruct (Z.ltb_spec (s_NE s1 + 2) 0); [lia|]. f_equal. f_equal. destruct s1; cbn in *; subst; reflexivity.
  Qed.
  Hypothesis IV : inv_ok.
  (** after set-up *)
  Lemma limit_ghosts (gamma : R) ne l (s s' : solution R) : wf ne s -> apply_bc s = Ok s -> limit gamma l s = Ok s' -> apply_bc s' = Ok s'.
  Proof.
    intros W F H. destruct l as [h|]; cbn [limit] in H; [|apply Ok_inj in H; subst; exact F].
    unfold adaptive_hr in H. destruct (s_sens s) as [sn|] eqn:Es; [|discriminate]. inv_bind H. inv_bind H.
    eapply apply_bc_idem; [|exact H]. apply (wf_similar ne s); [exact W| | |].
    - exists (s_t s), (s_n s), (Some x), (of_columns (nrows (s_u s)) x0). split; [destruct s; reflexivity|].
      rewrite Es. symmetry. eapply sensing_thresholds. exact Hx.
    - cbn [s_u with_u]. pose proof (wf_u _ _ W) as Wu. replace (nrows (s_u s)) with (s_Ns s) by (symmetry; apply Wu).
      apply shape_of_columns. rewrite (mapM_Ok_length _ _ _ Hx0), seq_length. eapply shape_ncols; [exact Wu|apply Ns_pos].
    - cbn. rewrite (length_sensing _ _ _ _ _ _ Hx). pose proof (wf_sens _ _ W) as Ws. rewrite Es in Ws. exact Ws.
  Qed.
  Lemma first_step (d : deck R) s g dgs l name params : split_ws (dk_ic d) = name :: params -> euler_ic name params -> dk_system d = "euler"%string ->
    ic_valid d -> setup d = Ok (s, g, dgs, l) ->
    1 < g /\ (forall e, (e < Z.to_nat (s_NE s) + 2)%nat -> admissible g (at1 (modes s e 0) 0, at1 (modes s e 1) 0, at1 (modes s e 2) 0)) /\
    (0 < dk_cfl d -> exists dt, cfl_time_step g s (dk_cfl d) = Ok dt /\ 0 < dt).
  Proof.
    intros Hs He Hsys [Hic [s0' [g0' [H0 HNE]]]] H. unfold setup in H. destruct (dk_order d <? 0)%Z; [discriminate|].
    rewrite H0 in H. cbn [rbind] in H. inv_bind H. inv_bind H. inv_bind H. inv_bind H. apply Ok_inj in H. injection H as <- <- <- <-.
    rename x into s1, Hx into E1, x2 into s2, Hx2 into E2. rename s0' into s0, g0' into g.
    (* drop the enhancement *)
    pose proof (Solution_enh _ _ _ _ _ _ _ _ Hic H0) as H0'. pose proof (bc_enh _ _ None E1) as E1'. pose proof (limit_enh _ _ _ _ None E2) as E2'.
    set (t0 := with_enh s0 None) in *. set (t1 := with_enh s1 None) in *. set (t2 := with_enh s2 None) in *.
    set (ne := Z.to_nat (s_NE s0)).
    assert (M0 : made ne t0).
    { apply (Solution_made _ _ _ _ _ _ _ _ (fun n Hn => gr_lx _ _ _ (G n Hn)) Hic H0' HNE I). }
    assert (Eu : s_euler t0 = true).
    { pose proof (Solution_inv _ _ _ _ _ _ _ _ H0') as [nm [ps [s1' [e [Hsp [Hr [_ [F _]]]]]]]]. destruct (run_ic_sens _ _ _ _ _ Hr) as [_ S2].
      destruct F as [_ [_ [_ [_ [F _]]]]]. rewrite F, S2. cbn [s_euler blank_solution]. rewrite Hsys. reflexivity. }
    destruct (averages_admissible _ _ _ _ _ _ _ _ _ _ Hs He Hic H0' HNE Eu) as [Hg Ha]. change (Z.to_nat (s_NE t0)) with ne in Ha.
    split; [exact Hg|].
    pose proof (md_wf _ _ M0) as W0. pose proof (wf_bc _ _ _ W0 E1') as W1. pose proof (similar_bc _ _ E1') as S1. pose proof (made_similar _ _ _ M0 S1 W1) as M1.
    pose proof (wf_limit g _ _ _ _ W1 E2') as W2. pose proof (similar_limit g _ _ _ E2') as S2.
    pose proof (apply_bc_idem _ _ _ W0 E1') as F1. pose proof (limit_ghosts g ne _ _ _ W1 F1 E2') as F2.
    assert (NF0 : s_NF t0 = 3%nat) by (unfold s_NF; rewrite Eu; reflexivity).
    assert (NF1 : s_NF t1 = 3%nat) by (rewrite (similar_NF _ _ S1); exact NF0).
    assert (NF2 : s_NF t2 = 3%nat) by (rewrite (similar_NF _ _ S2); exact NF1).
    assert (BB : (is_literal (s_bcl t2) "periodic" = true \/ is_literal (s_bcl t2) "zerograd" = true) /\ (is_literal (s_bcr t2) "periodic" = true \/ is_literal (s_bcr t2) "zerograd" = true)).
    { destruct S2 as [? [? [? [? [-> _]]]]]. destruct S1 as [? [? [? [? [-> _]]]]]. cbn [s_bcl s_bcr with_u with_sens with_n with_t].
      pose proof (Solution_Ok _ _ _ _ _ _ _ _ Hic H0') as [nm [ps [s1' [en [K1 [K2 [_ K4]]]]]]]. apply run_ic_Ok in K2. destruct K2 as [ic [NE [u [p0 [L1 [_ [_ [L4 _]]]]]]]].
      unfold ic_state in L4. rewrite K4, L4. cbn [s_bcl s_bcr with_enh with_sens with_minv with_u with_mesh with_NE with_bc].
      destruct (ic_lookup_bc _ _ _ _ L1) as [-> | ->]; split; [left|left|right|right]; reflexivity. }
    destruct BB as [BC BR].
    assert (K : forall e f, (1 <= e <= ne)%nat -> (f < 3)%nat -> at1 (modes t2 e f) 0 = at1 (modes t0 e f) 0).
    { intros e f He' Hf. rewrite (any_limiter_keeps G IV g ne t1 (dk_limiting d) x1 M1 Hx1 t1 t2 W1 (similar_refl t1) E2' e f He' ltac:(lia)).
      destruct (apply_bc_modes ne t0 W0) as [t1' [E [_ [_ Mo]]]]. rewrite E1' in E. apply Ok_inj in E. subst t1'.
      rewrite Mo by lia. rewrite src_cell_interior by lia. reflexivity. }
    assert (EN2 : s_NE s2 = s_NE s0).
    { change (s_NE t2 = s_NE t0). rewrite (wf_NE _ _ W2), (wf_NE _ _ W0). reflexivity. }
    rewrite EN2. fold ne. change (modes s2) with (modes t2).
    assert (AD : forall e, (e < ne + 2)%nat -> admissible g (at1 (modes t2 e 0) 0, at1 (modes t2 e 1) 0, at1 (modes t2 e 2) 0)).
    { intros e He'. destruct (apply_bc_modes ne t2 W2) as [t2' [E [_ [_ Mo]]]]. rewrite F2 in E. apply Ok_inj in E. subst t2'.
      assert (Hin : (1 <= src_cell (s_bcl t2) (s_bcr t2) ne e <= ne)%nat).
      { pose proof (wf_ne _ _ W0). unfold src_cell. destruct (Nat.eqb_spec e 0); [destruct BC as [Q|Q]; rewrite Q; [lia|destruct (is_literal (s_bcl t2) "periodic"); lia]|].
        destruct (Nat.eqb_spec e (ne + 1)); [destruct BR as [Q|Q]; rewrite Q; [lia|destruct (is_literal (s_bcr t2) "periodic"); lia]|lia]. }
      rewrite !(Mo e) by lia. rewrite !K by (try exact Hin; lia). apply Ha. exact Hin. }
    split; [exact AD|]. intro Hc. unfold cfl_time_step.
    assert (PR : exists rho v p : nat -> R, forall e, (e < ne + 2)%nat -> 0 < rho e /\ 0 < p e /\
      (at1 (modes t2 e 0) 0, at1 (modes t2 e 1) 0, at1 (modes t2 e 2) 0) = cons g (rho e) (v e) (p e)).
    { exists (fun e => at1 (modes t2 e 0) 0), (fun e => at1 (modes t2 e 1) 0 / at1 (modes t2 e 0) 0),
        (fun e => (g - 1) * (at1 (modes t2 e 2) 0 - at1 (modes t2 e 1) 0 * at1 (modes t2 e 1) 0 / (2 * at1 (modes t2 e 0) 0))).
      intros e He'. destruct (proj1 (admissible_iff g Hg _ _ _) (AD e He')) as [A B]. split; [exact A|]. split; [exact B|].
      unfold cons, energy. f_equal; [f_equal|]; field; lra. }
    destruct PR as [rho [v [p PR]]].
    assert (Eu2 : s_euler t2 = true). { destruct (s_euler t2) eqn:E; [reflexivity|]. unfold s_NF in NF2. rewrite E in NF2. discriminate. }
    destruct (max_speed_bounds g Hg ne t2 rho v p W2 Eu2 PR) as [m [Em [_ [e [He' Ev]]]]].
    change (max_wave_speed g s2) with (max_wave_speed g t2). rewrite Em. cbn [rbind]. eexists. split; [reflexivity|]. numR.
    assert (Hm : 0 < m). { rewrite Ev. destruct (PR e He') as [A [B _]]. pose proof (Rabs_pos (v e)).
      assert (0 < sound_of g (rho e) (p e)); [|lra]. unfold sound_of. apply sqrt_lt_R0. apply Rdiv_lt_0_compat; [apply Rmult_lt_0_compat; lra|exact A]. }
    pose proof (made_similar _ _ _ M1 S2 W2) as M2. pose proof (md_dx _ _ M2) as Hdx. change (s_dx t2) with (s_dx s2) in Hdx.
    apply Rdiv_lt_0_compat; [apply Rmult_lt_0_compat; assumption|]. apply Rmult_lt_0_compat; [exact Hm|]. unfold nnat. numR. apply IZR_lt. lia.
  Qed.
End Mean.
