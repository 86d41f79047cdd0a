(** The basis tables, projections and exactness properties (C21-C25). *)
From Coq Require Import ZArith List Bool Arith Reals Lra Lia.
From Verif Require Import Num Py Lib LegNumpy Ext Basis RealLib SpecDG SpecPoly ProofsPoly ProofsLeg ProofsGauss ProofsDG.
Import ListNotations.
Open Scope R_scope.

Section B.
  Context {X : Ext R}.
  Lemma Basis_eq p : Basis (A:=R) p = let x := fst (leggauss (p + 1)) in let w := snd (leggauss (p + 1)) in
    {| b_p := p; b_x := x; b_w := w; b_phi := basis_phi (p + 1) x; b_dphi_w := basis_dphi_w (p + 1) x w;
       b_psi := basis_psi (p + 1); b_m := basis_m (p + 1); b_minv := basis_minv (p + 1) |}.
  Proof. unfold Basis. destruct (leggauss (p + 1)). reflexivity. Qed.
  Ltac bs := rewrite ?Basis_eq; cbn [b_p b_x b_w b_phi b_dphi_w b_psi b_m b_minv].

  Lemma mass_entry p i : (i <= p)%nat -> at1 (b_m (Basis p)) i = 2 / (2 * INR i + 1).
  Proof. intro. bs. unfold basis_m. rewrite at1_tab by lia. rewrite nnat_INR, plus_INR, INR_2k. cbn [INR]. numR. reflexivity. Qed.
  Lemma minv_entry p i : (i <= p)%nat -> at1 (b_minv (Basis p)) i = (2 * INR i + 1) / 2.
  Proof. intro. bs. unfold basis_minv. rewrite at1_tab by lia. rewrite nnat_INR, plus_INR, INR_2k. cbn [INR]. numR. reflexivity. Qed.
  Lemma LegP2_poly i j : is_poly (i + j) (fun x => LegP i x * LegP j x).
  Proof. apply is_poly_mult; apply LegP_poly. Qed.
  Lemma mass_matrix p i j : (i <= p)%nat -> (j <= p)%nat ->
    length (b_m (Basis p)) = (p + 1)%nat /\ length (b_minv (Basis p)) = (p + 1)%nat /\
    integral (fun x => LegP i x * LegP j x) (-1) 1 (if (i =? j)%nat then at1 (b_m (Basis p)) i else 0) /\
    at1 (b_m (Basis p)) i * at1 (b_minv (Basis p)) i = 1.
  Proof.
    intros Hi Hj. split; [bs; apply length_tab|]. split; [bs; apply length_tab|]. split.
    - apply (poly_integral (i + j)); [apply LegP2_poly|lra|]. destruct (Nat.eqb_spec i j) as [<-|Hne].
      + rewrite mass_entry by exact Hi. apply Leg_norm.
      + apply Leg_orth0. exact Hne.
    - rewrite mass_entry, minv_entry by exact Hi. pose proof (pos_INR i). field. lra.
  Qed.

  (** edges *)
  Lemma psi_entry p n : (n <= p)%nat -> at2 (b_psi (Basis p)) 0 n = LegP n (-1) /\ at2 (b_psi (Basis p)) 1 n = LegP n 1.
  Proof.
    intro H. bs. unfold at2, basis_psi, row. cbn [nth]. rewrite !at1_tab by lia. rewrite LegP_atm1, LegP_at1. numR.
    split; [destruct (Nat.odd n); reflexivity|reflexivity].
  Qed.
  Lemma psi_shape p : shape 2 (p + 1) (b_psi (Basis (A:=R) p)).
  Proof. bs. split; [reflexivity|]. intros x [<-|[<-|[]]]; apply length_tab. Qed.
  Lemma series_dot (v c : list R) n x : length v = n -> length c = n -> (forall i, (i < n)%nat -> at1 v i = LegP i x) -> vdot v c = legseries c x.
  Proof.
    intros Lv Lc H. rewrite (vdot_R v c n Lv Lc). unfold legseries. rewrite Lc. apply Rsum_ext. intros i Hi. rewrite H by exact Hi.
    unfold at1. numR. ring.
  Qed.
  Lemma psi_left p c : length c = (p + 1)%nat -> vdot (row (b_psi (Basis p)) 0) c = legseries c (-1).
  Proof.
    intro L. apply (series_dot _ c (p + 1)); [apply (shape_row 2 (p + 1)); [apply psi_shape|lia]|exact L|].
    intros i Hi. apply (proj1 (psi_entry p i ltac:(lia))).
  Qed.
  Lemma psi_right p c : length c = (p + 1)%nat -> vdot (row (b_psi (Basis p)) 1) c = legseries c 1.
  Proof.
    intro L. apply (series_dot _ c (p + 1)); [apply (shape_row 2 (p + 1)); [apply psi_shape|lia]|exact L|].
    intros i Hi. apply (proj2 (psi_entry p i ltac:(lia))).
  Qed.

  (** nodes *)
  Lemma phi_entry p g n : (g < length (b_x (Basis p)))%nat -> (n <= p)%nat -> at2 (b_phi (Basis p)) g n = LegP n (at1 (b_x (Basis p)) g).
  Proof.
    bs. intros Hg Hn. unfold basis_phi, at2, row. rewrite nth_tab by exact Hg. rewrite at1_tab by lia. rewrite legval_ok. apply legseries_basis.
  Qed.
  Lemma phi_row p g c : (g < length (b_x (Basis p)))%nat -> length c = (p + 1)%nat ->
    vdot (row (b_phi (Basis p)) g) c = legseries c (at1 (b_x (Basis p)) g).
  Proof.
    intros Hg L. apply (series_dot _ c (p + 1)); [|exact L|].
    - revert Hg. bs. intro Hg. unfold basis_phi, row. rewrite nth_tab by exact Hg. apply length_tab.
    - intros i Hi. apply phi_entry; [exact Hg|lia].
  Qed.
  Lemma dphi_entry p g n : (g < length (b_x (Basis p)))%nat -> (n <= p)%nat ->
    at2 (b_dphi_w (Basis p)) n g = dLegP n (at1 (b_x (Basis p)) g) * at1 (b_w (Basis p)) g.
  Proof.
    bs. intros Hg Hn. unfold basis_dphi_w, at2, row. rewrite nth_tab by lia. rewrite at1_tab by exact Hg. rewrite legval_ok, legder_ok.
    numR. f_equal. unfold dlegseries. rewrite length_leg_basis. cbn [Rsum]. rewrite Rsum_0.
    - unfold leg_basis. rewrite app_nth2 by (rewrite length_tab; lia). rewrite length_tab, Nat.sub_diag. cbn [nth]. numR. ring.
    - intros i Hi. unfold leg_basis. rewrite app_nth1 by (rewrite length_tab; exact Hi). rewrite nth_tab by exact Hi. numR. ring.
  Qed.
  Lemma dLegP_unique n D x : derivable_pt_lim (LegP n) x D -> D = dLegP n x.
  Proof. intro H. apply (uniqueness_limite (LegP n) x); [exact H|apply LegP_deriv]. Qed.
  Lemma dLegP_poly n : is_poly (n - 1) (dLegP n).
  Proof.
    destruct (is_poly_deriv n (LegP n) (LegP_poly n)) as [f' [Hf D]].
    apply (is_poly_ext _ f'); [|exact Hf]. intro x. apply dLegP_unique. apply D.
  Qed.

  Section Gauss.
    Hypothesis G : gauss_ok.
    Lemma G_rule p : gauss_rule (p + 1) (b_x (Basis p)) (b_w (Basis p)).
    Proof. bs. apply G. lia. Qed.
    Lemma G_len p : length (b_x (Basis p)) = (p + 1)%nat. Proof. apply (gr_lx _ _ _ (G_rule p)). Qed.
    Lemma G_lenw p : length (b_w (Basis p)) = (p + 1)%nat. Proof. apply (gr_lw _ _ _ (G_rule p)). Qed.
    Lemma G_exact p f v : is_poly (2 * p + 1) f -> nint f (-1) 1 v ->
      Rsum (p + 1) (fun g => at1 (b_w (Basis p)) g * f (at1 (b_x (Basis p)) g)) = v.
    Proof.
      intros Hf Hv. apply (gr_exact _ _ _ (G_rule p)).
      - replace (2 * (p + 1) - 1)%nat with (2 * p + 1)%nat by lia. exact Hf.
      - apply (poly_integral (2 * p + 1)); [exact Hf|lra|exact Hv].
    Qed.
    (** volume quadrature *)
    Lemma dphi_exact p n F v : (n <= p)%nat -> is_poly (p + 2) F -> nint (fun x => dLegP n x * F x) (-1) 1 v ->
      vdot (row (b_dphi_w (Basis p)) n) (map F (b_x (Basis p))) = v.
    Proof.
      intros Hn HF Hv.
      rewrite (vdot_R _ _ (p + 1)).
      - rewrite <- (G_exact p (fun x => dLegP n x * F x) v); [| |exact Hv].
        2:{ destruct n as [|n]; [apply (is_poly_ext _ (fun _ => 0)); [intro; rewrite dLegP_0; ring|apply is_poly_const]|].
            apply (is_poly_le (S n - 1 + (p + 2))); [lia|apply is_poly_mult; [apply dLegP_poly|exact HF]]. }
        apply Rsum_ext. intros g Hg. assert (Hg' : (g < length (b_x (Basis p)))%nat) by (rewrite G_len; exact Hg).
        replace (at1 (row (b_dphi_w (Basis p)) n) g) with (dLegP n (at1 (b_x (Basis p)) g) * at1 (b_w (Basis p)) g) by (symmetry; apply dphi_entry; assumption).
        unfold at1 at 3. rewrite nth_indep with (d' := F 0) by (rewrite map_length; exact Hg'). rewrite map_nth. unfold at1. numR. ring.
      - bs. unfold basis_dphi_w, row. rewrite nth_tab by lia. rewrite length_tab. pose proof (G_len p) as E. rewrite Basis_eq in E. exact E.
      - rewrite map_length. apply G_len.
    Qed.
    Lemma dphi_exact_integral p n D F v : (n <= p)%nat -> (forall x, derivable_pt_lim (LegP n) x (D x)) -> is_poly (p + 2) F ->
      integral (fun x => D x * F x) (-1) 1 v -> vdot (row (b_dphi_w (Basis p)) n) (map F (b_x (Basis p))) = v.
    Proof.
      intros Hn HD HF Hv. apply dphi_exact; [exact Hn|exact HF|].
      assert (E : forall x, D x * F x = dLegP n x * F x) by (intro x; rewrite (dLegP_unique n (D x) x (HD x)); reflexivity).
      apply (nint_ext (fun x => D x * F x)); [exact E|].
      apply (poly_integral (n - 1 + (p + 2))); [|lra|exact Hv].
      apply (is_poly_ext _ (fun x => dLegP n x * F x)); [intro; symmetry; apply E|]. apply is_poly_mult; [apply dLegP_poly|exact HF].
    Qed.

    (** projection *)
    Hypothesis FT : legfit_ok.
    Definition node_at p (l r : R) g := (r - l) / 2 * at1 (b_x (Basis p)) g + (r + l) / 2.
    Lemma projection_ok p l r (f : R -> res (list R)) k (fc : R -> R) :
      (forall x, exists fx, f x = Ok fx /\ nth_error fx k = Some (fc x)) ->
      exists c, projection (Basis p) l r f k = Ok c /\ length c = (p + 1)%nat /\
        (forall g, (g <= p)%nat -> legseries c (at1 (b_x (Basis p)) g) = fc (node_at p l r g)).
    Proof.
      intro Hf. unfold projection.
      rewrite (mapM_total _ fc).
      2:{ intros x _. destruct (Hf x) as [fx [E1 E2]]. rewrite E1. cbn [rbind]. rewrite E2. reflexivity. }
      cbn [rbind]. eexists. split; [reflexivity|].
      replace (b_p (Basis p)) with (p + 1 - 1)%nat by (bs; lia).
      destruct (FT (p + 1)%nat (b_x (Basis p)) (map fc (shifted_xgauss (Basis p) l r))) as [L E].
      - lia.
      - apply G_len.
      - unfold shifted_xgauss. rewrite !map_length. apply G_len.
      - apply (gr_nodup _ _ _ (G_rule p)).
      - split; [exact L|]. intros g Hg. specialize (E g ltac:(lia)). unfold at1 at 1. numR. rewrite E.
        unfold shifted_xgauss. rewrite map_map.
        rewrite nth_indep with (d' := fc ((1 / 2 * (r - l) * 0 + 1 / 2 * (r + l)))) by (rewrite map_length, G_len; lia).
        numR. rewrite (map_nth (fun x => fc (1 / 2 * (r - l) * x + 1 / 2 * (r + l)))). f_equal. unfold node_at, at1. numR. field.
    Qed.
    Lemma nodes_unique p c c' : length c = (p + 1)%nat -> length c' = (p + 1)%nat ->
      (forall g, (g <= p)%nat -> legseries c (at1 (b_x (Basis p)) g) = legseries c' (at1 (b_x (Basis p)) g)) -> c = c'.
    Proof.
      intros L L' H. apply legseries_inj; [congruence|].
      apply (poly_eq_nodes p _ _ (b_x (Basis p))).
      - apply legseries_poly'. lia.
      - apply legseries_poly'. lia.
      - apply (gr_nodup _ _ _ (G_rule p)).
      - rewrite G_len. lia.
      - intros x Hx. apply In_nth with (d := 0) in Hx. destruct Hx as [g [Hg <-]]. rewrite G_len in Hg. apply (H g ltac:(lia)).
    Qed.
    Lemma projection_unique p l r fc c c' : length c = (p + 1)%nat -> length c' = (p + 1)%nat ->
      (forall g, (g <= p)%nat -> legseries c (at1 (b_x (Basis p)) g) = fc (node_at p l r g)) ->
      (forall g, (g <= p)%nat -> legseries c' (at1 (b_x (Basis p)) g) = fc (node_at p l r g)) -> c = c'.
    Proof. intros L L' H H'. apply (nodes_unique p); [exact L|exact L'|]. intros g Hg. rewrite H, H' by exact Hg. reflexivity. Qed.
    Lemma projection_poly p l r fc c : length c = (p + 1)%nat -> is_poly p fc ->
      (forall g, (g <= p)%nat -> legseries c (at1 (b_x (Basis p)) g) = fc (node_at p l r g)) ->
      forall xi, legseries c xi = fc ((r - l) / 2 * xi + (r + l) / 2).
    Proof.
      intros L Hp H. apply (poly_eq_nodes p _ _ (b_x (Basis p))).
      - apply legseries_poly'. lia.
      - apply is_poly_affine. exact Hp.
      - apply (gr_nodup _ _ _ (G_rule p)).
      - rewrite G_len. lia.
      - intros x Hx. apply In_nth with (d := 0) in Hx. destruct Hx as [g [Hg <-]]. rewrite G_len in Hg. apply (H g ltac:(lia)).
    Qed.
    Lemma projection_mean p l r fc c : length c = (p + 1)%nat ->
      (forall g, (g <= p)%nat -> legseries c (at1 (b_x (Basis p)) g) = fc (node_at p l r g)) ->
      at1 c 0 = / 2 * Rsum (p + 1) (fun g => at1 (b_w (Basis p)) g * fc (node_at p l r g)).
    Proof.
      intros L H. rewrite (Rsum_ext _ _ (fun g => at1 (b_w (Basis p)) g * legseries c (at1 (b_x (Basis p)) g))).
      - rewrite (G_exact p (legseries c) (2 * nth 0 c 0)); [unfold at1; numR; field|apply legseries_poly'; lia|apply nint_series].
      - intros g Hg. rewrite H by lia. reflexivity.
    Qed.
    Theorem projection_spec p l r (f : R -> res (list R)) k (fc : R -> R) :
      (forall x, exists fx, f x = Ok fx /\ nth_error fx k = Some (fc x)) ->
      exists c, projection (Basis p) l r f k = Ok c /\ length c = (p + 1)%nat /\
        (forall g, (g <= p)%nat -> legseries c (at1 (b_x (Basis p)) g) = fc (node_at p l r g)) /\
        (forall c', length c' = (p + 1)%nat ->
           (forall g, (g <= p)%nat -> legseries c' (at1 (b_x (Basis p)) g) = fc (node_at p l r g)) -> c' = c) /\
        (is_poly p fc -> forall xi, legseries c xi = fc ((r - l) / 2 * xi + (r + l) / 2)) /\
        at1 c 0 = / 2 * Rsum (p + 1) (fun g => at1 (b_w (Basis p)) g * fc (node_at p l r g)) /\
        (forall g, (g <= p)%nat -> vdot (row (b_phi (Basis p)) g) c = fc (node_at p l r g)).
    Proof.
      intro Hf. destruct (projection_ok p l r f k fc Hf) as [c [E [L H]]]. exists c. split; [exact E|]. split; [exact L|]. split; [exact H|].
      split; [intros c' L' H'; apply (projection_unique p l r fc); assumption|].
      split; [intro Hp; apply (projection_poly p l r fc); assumption|].
      split; [apply projection_mean; assumption|].
      intros g Hg. rewrite phi_row by (try exact L; rewrite G_len; lia). apply H. exact Hg.
    Qed.
  End Gauss.

  (** shift and product integration *)
  Lemma shift_legendre_ok (l : list R) s x : legseries (shift_legendre l s) x = legseries l (x + s).
  Proof.
    unfold shift_legendre. rewrite legcompose_ok. f_equal. unfold legseries. cbn [length Rsum nth]. rewrite LegP_0, LegP_1. numR. ring.
  Qed.
  Lemma product_nint (l1 l2 : list R) : nint (fun x => legseries l1 x * legseries l2 x) (-1) 1 (integrate_legendre_product l1 l2).
  Proof.
    unfold integrate_legendre_product. rewrite !legval_ok. numR.
    exists (legseries (legint (legmul l1 l2))). split; [|reflexivity]. intro x. rewrite <- legmul_ok. apply legint_deriv.
  Qed.
  Lemma product_integral (l1 l2 : list R) : integral (fun x => legseries l1 x * legseries l2 x) (-1) 1 (integrate_legendre_product l1 l2).
  Proof.
    apply (poly_integral ((length l1 - 1) + (length l2 - 1))); [apply is_poly_mult; apply legseries_poly|lra|apply product_nint].
  Qed.
End B.
