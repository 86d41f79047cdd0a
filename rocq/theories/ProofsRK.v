(** Runge-Kutta steps: low-storage RK4 is RK4 (C07). *)
From Coq Require Import ZArith List Bool Arith String Lia Reals Lra SpecFloat.
From Verif Require Import Num Py PyStr Lib RealLib LegNumpy Ext Basis Sensor Enhance Limiting Solution Solver RKCoeffs RK SpecTime SpecDG SpecRK ProofsTime
  ProofsDG ProofsDG2 ProofsWf ProofsCons.
Import ListNotations.
Open Scope list_scope.
Open Scope nat_scope.

Section LS.
  Context {A : Type} {N : Num A} {L : Libm A}.
  Variable gamma : A.
  Implicit Types s : solution A.
  (** what the proof needs to know about the arithmetic *)
  Hypothesis skip0 : nltb (lit 1 1000000000000000) (nabs (n0 : A)) = false.
  Hypothesis lit0 : (lit 0 1 : A) = n0.
  Hypothesis lit1 : (lit 1 1 : A) = n1.

  Definition same_scratch (sc1 sc2 : scratch A) : Prop :=
    sc_us sc1 = sc_us sc2 /\ sc_uk sc1 = sc_uk sc2 /\ List.length (sc_K sc1) = 4.
  Definition same_result (r1 r2 : res (solution A * scratch A)) : Prop :=
    match r1, r2 with
    | Raise e1, Raise e2 => e1 = e2
    | Ok (s1, sc1), Ok (s2, sc2) => s1 = s2 /\ same_scratch sc1 sc2
    | _, _ => False
    end.
  Lemma axpy0 s x : smart_axpy s n0 x = s.
  Proof. unfold smart_axpy, axpy_mat. rewrite skip0. destruct s; reflexivity. Qed.

  Lemma ls_inner d l dt sol sc1 sc2 : same_scratch sc1 sc2 ->
    same_result (classic_stages gamma d l (map (map ceval) (tb_betas rk4_table)) dt 0
                   (combine (map ceval (tb_coeffs rk4_table)) (map ceval (tb_alphas rk4_table))) sol sc1)
                (low_storage_stages gamma d l dt 0 (combine ls_betas ls_gammas) sol sc2).
  Proof.
    intros [E1 [E2 E3]]. destruct sc1 as [us uk K]. cbn in E1, E2, E3. destruct K as [|K0 [|K1 [|K2 [|K3 [|]]]]]; cbn in E3; try discriminate.
    destruct sc2 as [us' uk' K']. cbn in E1, E2. subst us' uk'.
    cbn -[residual limit smart_axpy copy_data_only mscale lit nhalf n0 n1 ceval].
    unfold ceval; cbn [ce_n5 ce_n ce_d cq c5 c0]. rewrite !lit0, !lit1. fold (nhalf : A).
    rewrite !axpy0.
    match goal with |- context [residual gamma d ?x] => destruct (residual gamma d x) as [[u1 F1]|e]; cbn -[residual limit smart_axpy copy_data_only mscale lit nhalf n0 n1]; [|reflexivity] end.
    match goal with |- context [limit gamma l ?x] => destruct (limit gamma l x) as [v1|e]; cbn -[residual limit smart_axpy copy_data_only mscale lit nhalf n0 n1]; [|reflexivity] end.
    match goal with |- context [residual gamma d ?x] => destruct (residual gamma d x) as [[u2 F2]|e]; cbn -[residual limit smart_axpy copy_data_only mscale lit nhalf n0 n1]; [|reflexivity] end.
    rewrite !axpy0.
    match goal with |- context [limit gamma l ?x] => destruct (limit gamma l x) as [v2|e]; cbn -[residual limit smart_axpy copy_data_only mscale lit nhalf n0 n1]; [|reflexivity] end.
    match goal with |- context [residual gamma d ?x] => destruct (residual gamma d x) as [[u3 F3]|e]; cbn -[residual limit smart_axpy copy_data_only mscale lit nhalf n0 n1]; [|reflexivity] end.
    rewrite !axpy0.
    match goal with |- context [limit gamma l ?x] => destruct (limit gamma l x) as [v3|e]; cbn -[residual limit smart_axpy copy_data_only mscale lit nhalf n0 n1]; [|reflexivity] end.
    match goal with |- context [residual gamma d ?x] => destruct (residual gamma d x) as [[u4 F4]|e]; cbn -[residual limit smart_axpy copy_data_only mscale lit nhalf n0 n1]; [|reflexivity] end.
    repeat split.
  Qed.

  Lemma ls_loop inner1 inner2 l cfl tf :
    (forall dt s sc1 sc2, same_scratch sc1 sc2 -> same_result (inner1 dt s sc1) (inner2 dt s sc2)) ->
    forall fuel k tout touts s sc1 sc2 evs, same_scratch sc1 sc2 ->
    time_loop gamma inner1 l cfl tf fuel k tout touts s sc1 evs = time_loop gamma inner2 l cfl tf fuel k tout touts s sc2 evs.
  Proof.
    intros HI fuel. induction fuel as [|fuel IH]; intros k tout touts s sc1 sc2 evs Hsc; cbn [time_loop]; [reflexivity|].
    unfold time_step. destruct (get_next_time_step gamma s tout cfl tf) as [[[dt o] dn]|e]; cbn [rbind]; [|reflexivity].
    assert (Hsc' : same_scratch (set_us sc1 s) (set_us sc2 s)).
    { destruct Hsc as [H1 [H2 H3]]. unfold set_us, same_scratch. cbn. rewrite H1. auto. }
    specialize (HI dt s _ _ Hsc'). unfold same_result in HI.
    destruct (inner1 dt s (set_us sc1 s)) as [[s1 sc1']|e1], (inner2 dt s (set_us sc2 s)) as [[s2 sc2']|e2]; try contradiction; cbn [rbind]; [|subst; reflexivity].
    destruct HI as [-> Hsc2]. destruct (apply_bc _) as [s3|e]; cbn [rbind]; [|reflexivity].
    destruct (limit gamma l s3) as [s4|e]; cbn [rbind]; [|reflexivity].
    destruct o; [|destruct dn; [reflexivity|apply IH; exact Hsc2]].
    destruct (printer k dt s4) as [ev|e]; [|reflexivity]. destruct dn; [reflexivity|]. destruct touts as [|t ts]; [reflexivity|]. apply IH. exact Hsc2.
  Qed.
  Lemma ls_integrate d l cfl tf nout fuel sol :
    integrate gamma "low_storage_rk4" d l cfl tf nout fuel sol = integrate gamma "rk4" d l cfl tf nout fuel sol.
  Proof.
    unfold integrate. cbn [String.eqb Ascii.eqb Bool.eqb]. change (rk_choice "rk4") with rk4_table. unfold low_storage_rk4, classic_rk, run_rk.
    destruct (nout <? 0)%Z; [reflexivity|]. destruct (printer 0 n0 sol) as [ev|e]; [|reflexivity].
    destruct (slice_from _ _) as [|t ts]; [reflexivity|]. symmetry. apply ls_loop.
    - intros dt s sc1 sc2. apply ls_inner.
    - repeat split.
  Qed.
End LS.

Lemma ls_integrate_R (gamma : R) d l cfl tf nout fuel sol :
  integrate gamma "low_storage_rk4" d l cfl tf nout fuel sol = integrate gamma "rk4" d l cfl tf nout fuel sol.
Proof.
  apply ls_integrate; unfold lit, n0, n1; numR; [|lra|lra]. rewrite Rabs_R0. Rcase (1 / 1000000000000000)%R 0%R; [lra|reflexivity].
Qed.
Lemma ls_integrate_SF (L : Libm spec_float) (gamma : spec_float) d l cfl tf nout fuel sol :
  integrate gamma "low_storage_rk4" d l cfl tf nout fuel sol = integrate gamma "rk4" d l cfl tf nout fuel sol.
Proof. apply ls_integrate; vm_compute; reflexivity. Qed.

(** * Butcher steps (C08) *)
Local Open Scope R_scope.
Lemma cval_ceval c : ceval (A:=R) c = cval c.
Proof.
  unfold ceval, cval, lit. destruct (ce_n5 c) eqn:E; numR; [|reflexivity|reflexivity]. unfold Rdiv at 3. ring.
Qed.

(** ** facts about the tables, by computation on the entries *)
Definition tiny_or (n d n5 d5 : Z) : bool :=
  let big x := (d * d5 * 1000 <? x * 1000000000000000)%Z in
  match n5 with
  | 0%Z => ((n =? 0) || (d <? n * 1000000000000000) || (d <? - n * 1000000000000000))%Z%bool
  | Zpos _ => (big (n * d5 * 1000 + n5 * d * 2236) || big (- (n * d5 * 1000 + n5 * d * 2237)))%Z%bool
  | Zneg _ => (big (n * d5 * 1000 + n5 * d * 2237) || big (- (n * d5 * 1000 + n5 * d * 2236)))%Z%bool
  end.
Definition entry_ok (c : centry) : bool := tiny_or (ce_n c) (Zpos (ce_d c)) (ce_n5 c) (Zpos (ce_d5 c)).
Definition good (x : R) : Prop := x = 0 \/ 1 / 1000000000000000 < Rabs x.
Lemma sqrt5_bounds : 2236 / 1000 < sqrt 5 < 2237 / 1000.
Proof.
  assert (H : sqrt 5 * sqrt 5 = 5) by (apply sqrt_sqrt; lra). assert (0 < sqrt 5) by (apply sqrt_lt_R0; lra). split.
  - destruct (Rlt_le_dec (2236 / 1000) (sqrt 5)); [assumption|]. exfalso. nra.
  - destruct (Rlt_le_dec (sqrt 5) (2237 / 1000)); [assumption|]. exfalso. nra.
Qed.
Lemma good_pos x : 1 / 1000000000000000 < x -> good x.
Proof. intro H. right. rewrite Rabs_right; lra. Qed.
Lemma good_neg x : 1 / 1000000000000000 < - x -> good x.
Proof. intro H. right. rewrite Rabs_left; lra. Qed.
Lemma entry_ok_good c : entry_ok c = true -> good (cval c).
Proof.
  unfold entry_ok, cval. destruct c as [n d n5 d5]. cbn [ce_n ce_d ce_n5 ce_d5].
  assert (Hd : 0 < IZR (Zpos d)) by (apply IZR_lt; lia). assert (Hd5 : 0 < IZR (Zpos d5)) by (apply IZR_lt; lia).
  pose proof sqrt5_bounds as [S1 S2]. set (D := IZR (Zpos d)) in *. set (D5 := IZR (Zpos d5)) in *.
  destruct n5 as [|p|p]; cbn [tiny_or]; intro H.
  - replace (IZR 0 / D5 * sqrt 5) with 0 by (unfold Rdiv; ring). rewrite Rplus_0_r.
    apply orb_prop in H. destruct H as [H|H]; [apply orb_prop in H; destruct H as [H|H]|].
    + apply Z.eqb_eq in H. subst n. left. unfold Rdiv. ring.
    + apply Z.ltb_lt, IZR_lt in H. rewrite mult_IZR in H. apply good_pos. fold D in H.
      apply Rmult_lt_reg_r with D; [exact Hd|]. unfold Rdiv at 2. rewrite Rmult_assoc, Rinv_l, Rmult_1_r by lra. lra.
    + apply Z.ltb_lt, IZR_lt in H. rewrite mult_IZR, opp_IZR in H. apply good_neg. fold D in H.
      apply Rmult_lt_reg_r with D; [exact Hd|]. replace (- (IZR n / D) * D) with (- IZR n) by (field; lra). lra.
  - assert (Hp : 0 < IZR (Zpos p)) by (apply IZR_lt; lia). set (P := IZR (Zpos p)) in *.
    assert (E : forall x, x * (D * D5) = IZR n * D5 + P * D * sqrt 5 -> x = IZR n / D + P / D5 * sqrt 5).
    { intros x E. apply Rmult_eq_reg_r with (D * D5); [|apply Rgt_not_eq; nra]. rewrite E. field. split; lra. }
    assert (B : 0 < D * D5) by nra. assert (PD : 0 < P * D) by nra.
    apply orb_prop in H. destruct H as [H|H]; apply Z.ltb_lt, IZR_lt in H; rewrite ?mult_IZR, ?opp_IZR, ?plus_IZR, ?mult_IZR in H; fold D D5 P in H;
      [apply good_pos|apply good_neg]; apply Rmult_lt_reg_r with (D * D5); try exact B.
    + replace ((IZR n / D + P / D5 * sqrt 5) * (D * D5)) with (IZR n * D5 + P * D * sqrt 5) by (field; split; lra).
      assert (P * D * (2236 / 1000) < P * D * sqrt 5) by (apply Rmult_lt_compat_l; assumption). lra.
    + replace (- (IZR n / D + P / D5 * sqrt 5) * (D * D5)) with (- (IZR n * D5 + P * D * sqrt 5)) by (field; split; lra).
      assert (P * D * sqrt 5 < P * D * (2237 / 1000)) by (apply Rmult_lt_compat_l; assumption). lra.
  - assert (Hp : 0 < - IZR (Zneg p)) by (rewrite <- opp_IZR; apply IZR_lt; lia). set (P := IZR (Zneg p)) in *.
    assert (B : 0 < D * D5) by nra. assert (PD : 0 < - P * D) by nra.
    apply orb_prop in H. destruct H as [H|H]; apply Z.ltb_lt, IZR_lt in H; rewrite ?mult_IZR, ?opp_IZR, ?plus_IZR, ?mult_IZR in H; fold D D5 P in H;
      [apply good_pos|apply good_neg]; apply Rmult_lt_reg_r with (D * D5); try exact B.
    + replace ((IZR n / D + P / D5 * sqrt 5) * (D * D5)) with (IZR n * D5 + P * D * sqrt 5) by (field; split; lra).
      assert (- P * D * sqrt 5 < - P * D * (2237 / 1000)) by (apply Rmult_lt_compat_l; assumption). lra.
    + replace (- (IZR n / D + P / D5 * sqrt 5) * (D * D5)) with (- (IZR n * D5 + P * D * sqrt 5)) by (field; split; lra).
      assert (- P * D * (2236 / 1000) < - P * D * sqrt 5) by (apply Rmult_lt_compat_l; assumption). lra.
Qed.

(** a zero entry *)
Definition is_c0 (c : centry) : bool := ((ce_n c =? 0) && (ce_n5 c =? 0))%Z%bool.
Lemma is_c0_val c : is_c0 c = true -> cval c = 0.
Proof.
  unfold is_c0. intro H. apply andb_prop in H. destruct H as [H1 H2]. apply Z.eqb_eq in H1, H2. unfold cval. rewrite H1, H2. unfold Rdiv. ring.
Qed.
Definition table_ok (tb : rk_table) : bool :=
  let S := stages tb in
  (Nat.eqb (List.length (tb_alphas tb)) S && Nat.eqb (List.length (tb_betas tb)) S && (1 <=? S)%nat
   && forallb entry_ok (tb_coeffs tb) && forallb (forallb entry_ok) (tb_betas tb)
   && forallb (fun i => let r := nth i (tb_betas tb) [] in (i <=? List.length r)%nat && forallb is_c0 (skipn i r)) (seq 0 S))%bool.
Lemma tables_ok : forallb table_ok all_tables = true.
Proof. vm_compute. reflexivity. Qed.

Record sound_table (tb : rk_table) : Prop := {
  st_pos : (1 <= stages tb)%nat;
  st_alphas : List.length (tb_alphas tb) = stages tb;
  st_betas : List.length (tb_betas tb) = stages tb;
  st_rows : forall i, (i < stages tb)%nat -> (i <= List.length (nth i (tb_betas tb) []))%nat;
  st_weight : forall i, good (weight tb i);
  st_coef : forall i j, good (coef tb i j);
  st_upper : forall i j, (i < stages tb)%nat -> (i <= j)%nat -> coef tb i j = 0 }.
Lemma cval_c0 : cval c0 = 0. Proof. unfold cval, c0; cbn. lra. Qed.
Lemma good_nth l i : forallb entry_ok l = true -> good (cval (nth i l c0)).
Proof.
  intro H. rewrite forallb_forall in H. destruct (nth_in_or_default i l c0) as [Hi|E]; [|rewrite E; left; apply cval_c0].
  apply entry_ok_good, H, Hi.
Qed.
Lemma table_sound tb : In tb all_tables -> sound_table tb.
Proof.
  intro H. pose proof (proj1 (forallb_forall _ _) tables_ok tb H) as E. unfold table_ok in E.
  repeat (apply andb_prop in E; destruct E as [E ?]). rename H0 into Hrow, H1 into Hb, H2 into Hw, H3 into Hp, H4 into Hl.
  apply Nat.eqb_eq in E, Hl. apply Nat.leb_le in Hp. rewrite forallb_forall in Hrow. constructor.
  - exact Hp. - exact E. - exact Hl.
  - intros i Hi. specialize (Hrow i ltac:(apply in_seq; lia)). cbv zeta in Hrow. apply andb_prop in Hrow. apply Nat.leb_le. apply Hrow.
  - intro i. apply good_nth. exact Hw.
  - intros i j. apply good_nth. rewrite forallb_forall in Hb. destruct (nth_in_or_default i (tb_betas tb) []) as [Hi| ->]; [apply Hb, Hi|reflexivity].
  - intros i j Hi Hj. specialize (Hrow i ltac:(apply in_seq; lia)). cbv zeta in Hrow. apply andb_prop in Hrow. destruct Hrow as [_ Hz].
    rewrite forallb_forall in Hz. unfold coef. set (r := nth i (tb_betas tb) []) in *.
    replace (nth j r c0) with (nth (j - i) (skipn i r) c0) by (rewrite nth_skipn'; f_equal; lia).
    destruct (nth_in_or_default (j - i) (skipn i r) c0) as [Hin| ->]; [apply is_c0_val, Hz, Hin|apply cval_c0].
Qed.
Lemma rk_choice_known rk : In (rk_choice rk) all_tables.
Proof.
  unfold rk_choice, all_tables. repeat match goal with |- context [if ?b then _ else _] => destruct b end; cbn [In]; tauto.
Qed.

(** ** one step *)
Section Step.
  Context {X : Ext R}.
  Variable gamma : R.
  Implicit Types s : solution R.

  Lemma axpy_at (r c : nat) u a K n j : good a -> shape r c u -> shape r c K -> (n < r)%nat -> (j < c)%nat ->
    at2 (axpy_mat (A:=R) u a K) n j = at2 u n j + a * at2 K n j.
  Proof.
    intros Ha Hu HK Hn Hj. unfold axpy_mat, lit. numR. Rcase (1 / 1000000000000000) (Rabs a).
    - rewrite (at2_madd r c) by (try assumption; apply shape_mscale; exact HK). rewrite (at2_mscale r c) by assumption. reflexivity.
    - destruct Ha as [->|Ha]; [ring|lra].
  Qed.
  Lemma residual_frame d s s' U s1 F : similar s s' -> residual gamma d (with_u s' U) = Ok (s1, F) ->
    exists s2, residual gamma d (with_u s U) = Ok (s2, F).
  Proof.
    intros [t [n [sn [u [-> _]]]]] H. unfold residual in *.
    unfold apply_bc in *. cbn [s_bcl s_bcr s_NF s_u with_u with_sens with_n with_t] in *.
    change (s_NF (with_u (with_u (with_sens (with_n (with_t s t) n) sn) u) U)) with (s_NF s) in H.
    change (s_NF (with_u s U)) with (s_NF s).
    destruct (mapM (apply_bc_row (s_bcl s) (s_bcr s) (s_NF s)) U) as [V|e]; cbn [rbind] in *; [|discriminate].
    unfold collocate, evaluate_faces, interior_flux, riemann in *.
    cbn [s_basis s_u s_enh s_euler s_riemann s_minv s_NF with_u with_sens with_n with_t] in *.
    change (s_NF (with_u (with_u (with_u (with_sens (with_n (with_t s t) n) sn) u) U) V)) with (s_NF s) in H.
    change (s_NF (with_u (with_u s U) V)) with (s_NF s).
    inv_bind H. rewrite Hx. cbn [rbind]. inv_bind H. rewrite Hx0. cbn [rbind]. inv_bind H. rewrite Hx1. cbn [rbind]. inv_bind H. rewrite Hx2. cbn [rbind].
    apply Ok_inj in H. injection H as _ <-. eauto.
  Qed.

  Section Inner.
    Variables (ne : nat) (sol0 : solution R) (d : dg).
    Hypothesis W0 : wf ne sol0.
    Hypothesis D0 : wf_dg ne sol0 d.
    Let W := Wf ne sol0.
    Let WK := WfK ne sol0.
    Let r := s_Ns sol0.
    Let c := ((ne + 2) * s_NF sol0)%nat.
    Variable tb : rk_table.
    Hypothesis T : sound_table tb.
    Variable dt : R.

    Lemma W_u s : W s -> shape r c (s_u s).
    Proof. intros [H1 H2]. unfold r, c. rewrite <- (similar_Ns _ _ H2), <- (similar_NF _ _ H2). apply (wf_u _ _ H1). Qed.
    Lemma fold_axpy_at (bs : list R) : forall (Ks : list (mat R)) s, (forall b, In b bs -> good b) -> Forall WK Ks -> W s ->
      W (fold_left (fun uk bk => smart_axpy uk (fst bk) (snd bk)) (combine bs Ks) s) /\
      s_t (fold_left (fun uk bk => smart_axpy uk (fst bk) (snd bk)) (combine bs Ks) s) = s_t s /\
      forall n j, (n < r)%nat -> (j < c)%nat ->
      at2 (s_u (fold_left (fun uk bk => smart_axpy uk (fst bk) (snd bk)) (combine bs Ks) s)) n j =
      at2 (s_u s) n j + Rsum (Nat.min (List.length bs) (List.length Ks)) (fun k => nth k bs 0 * at2 (nth k Ks []) n j).
    Proof.
      induction bs as [|b bs IH]; intros Ks s Hb HK Hs.
      - cbn. split; [exact Hs|]. split; [reflexivity|]. intros. ring.
      - destruct Ks as [|K Ks]; [cbn; split; [exact Hs|]; split; [reflexivity|]; intros; ring|].
        inversion HK as [|? ? HK1 HK2]; subst. cbn [combine fold_left fst snd].
        destruct (IH Ks (smart_axpy s b K)) as [I1 [I2 I3]]; [intros; apply Hb; right; assumption|exact HK2|apply Wf_axpy; assumption|].
        split; [exact I1|]. split; [exact I2|]. intros n j Hn Hj. rewrite I3 by assumption.
        change (Nat.min (List.length (b :: bs)) (List.length (K :: Ks))) with (S (Nat.min (List.length bs) (List.length Ks))).
        rewrite Rsum_S_l. cbn [nth]. unfold smart_axpy. cbn [s_u with_u]. rewrite (axpy_at r c); try assumption; [ring|apply Hb; left; reflexivity|apply W_u; exact Hs].
    Qed.

    Definition stage_ok (u : mat R) (K : nat -> mat R) (i : nat) : Prop :=
      exists U F, shape r c U /\ shape r c F /\ (exists s1, residual gamma d (with_u sol0 U) = Ok (s1, F)) /\
       forall n j, (n < r)%nat -> (j < c)%nat ->
         at2 U n j = at2 u n j + Rsum i (fun k => coef tb i k * at2 (K k) n j) /\ at2 (K i) n j = dt * at2 F n j.

    Lemma nth_lset {Y} (l : list Y) i y j (df : Y) : (i < List.length l)%nat -> nth j (lset l i y) df = if Nat.eqb j i then y else nth j l df.
    Proof.
      intro Hi. unfold lset. assert (Lf : List.length (firstn i l) = i) by (rewrite firstn_length; lia). destruct (Nat.eqb_spec j i) as [->|Hne].
      - rewrite app_nth2 by lia. rewrite Lf, Nat.sub_diag. reflexivity.
      - destruct (Nat.lt_ge_cases j i).
        + rewrite app_nth1 by lia. apply nth_firstn'. assumption.
        + rewrite app_nth2 by lia. rewrite Lf. destruct (j - i)%nat as [|m] eqn:E; [lia|]. cbn [nth app]. rewrite nth_skipn'. f_equal. lia.
    Qed.
    Lemma length_lset {Y} (l : list Y) i y : (i < List.length l)%nat -> List.length (lset l i y) = List.length l.
    Proof. intro Hi. unfold lset. rewrite !app_length, firstn_length, skipn_length. cbn [List.length]. lia. Qed.

    Lemma classic_butcher cas : forall k sol sc sol' sc',
      W sol -> W (sc_us sc) -> W (sc_uk sc) -> Forall WK (sc_K sc) -> (k + List.length cas <= List.length (sc_K sc))%nat ->
      (k + List.length cas <= stages tb)%nat -> (forall x, In x cas -> good (fst x)) ->
      classic_stages gamma d None (map (map ceval) (tb_betas tb)) dt k cas sol sc = Ok (sol', sc') ->
      W sol' /\ Forall WK (sc_K sc') /\ List.length (sc_K sc') = List.length (sc_K sc) /\
      (forall i, (i < k)%nat -> nth i (sc_K sc') [] = nth i (sc_K sc) []) /\
      (forall i, (k <= i < k + List.length cas)%nat -> stage_ok (s_u (sc_us sc)) (fun i => nth i (sc_K sc') []) i) /\
      (forall n j, (n < r)%nat -> (j < c)%nat -> at2 (s_u sol') n j =
         at2 (s_u sol) n j + Rsum (List.length cas) (fun i => fst (nth i cas (0, 0)) * at2 (nth (k + i) (sc_K sc') []) n j)) /\
      s_t sol' = s_t sol /\ s_n sol' = s_n sol.
    Proof.
      induction cas as [|[co al] cas IH]; intros k sol sc sol' sc' Wsol Wus Wuk WKs HlK Hst Hg H; cbn [classic_stages] in H.
      - apply Ok_inj in H. injection H as <- <-. cbn [List.length Rsum]. split; [exact Wsol|]. split; [exact WKs|]. split; [reflexivity|]. split; [reflexivity|].
        split; [intros; lia|]. split; [intros; cbn; ring|]. split; reflexivity.
      - cbn [List.length] in *. set (bs := firstn k (row (map (map ceval) (tb_betas tb)) k)) in *.
        assert (Ebs : forall i, (i < k)%nat -> nth i bs 0 = coef tb k i).
        { intros i Hi. unfold bs, row. rewrite nth_firstn' by exact Hi. rewrite (nth_indep _ [] (map ceval [])) by (rewrite map_length, (st_betas _ T); lia).
          rewrite map_nth. unfold coef. rewrite <- cval_ceval. rewrite <- (map_nth ceval). apply nth_indep. rewrite map_length. pose proof (st_rows _ T k ltac:(lia)). lia. }
        assert (Lbs : List.length bs = k).
        { unfold bs, row. rewrite firstn_length, (nth_indep _ [] (map ceval [])) by (rewrite map_length, (st_betas _ T); lia).
          rewrite map_nth, map_length. pose proof (st_rows _ T k ltac:(lia)). lia. }
        assert (Gbs : forall b, In b bs -> good b).
        { intros b Hb. apply (In_nth _ _ 0) in Hb. destruct Hb as [i [Hi <-]]. rewrite Ebs by lia. apply (st_coef _ T). }
        destruct (fold_axpy_at bs (sc_K sc) (copy_data_only (sc_uk sc) (sc_us sc)) Gbs WKs (Wf_copy ne sol0 _ _ Wuk Wus)) as [G1 [G2 G3]].
        set (uk1 := fold_left _ (combine bs (sc_K sc)) (copy_data_only (sc_uk sc) (sc_us sc))) in *.
        assert (Wt : W (with_t uk1 (nadd (s_t uk1) (nmul al dt)))) by (apply Wf_t; exact G1).
        assert (E3 : (if (0 <? k)%nat then limit gamma None (with_t uk1 (nadd (s_t uk1) (nmul al dt))) else Ok (with_t uk1 (nadd (s_t uk1) (nmul al dt)))) = Ok (with_t uk1 (nadd (s_t uk1) (nmul al dt)))) by (destruct (0 <? k)%nat; reflexivity).
        rewrite E3 in H. cbn [rbind] in H. inv_bind H. destruct x as [uk4 F].
        destruct (Wf_res gamma ne sol0 d D0 dt _ _ _ I Wt Hx) as [W4 WKk].
        destruct (wf_residual gamma _ _ _ _ _ (proj1 Wt) (Wf_dg ne sol0 d D0 _ Wt) Hx) as [_ SF].
        rewrite (similar_Ns _ _ (proj2 Wt)), (similar_NF _ _ (proj2 Wt)) in SF. fold r c in SF.
        assert (Gc : good co) by (apply (Hg (co, al)); left; reflexivity).
        apply IH in H; cbn [sc_us sc_uk sc_K] in *.
        2: { apply Wf_axpy; assumption. }
        2: exact Wus. 2: exact W4.
        2: { apply (Forall_lset WK); assumption. }
        2: { rewrite length_lset by lia. lia. }
        2: lia.
        2: { intros x Hin. apply Hg. right. exact Hin. }
        rewrite length_lset in H by lia. destruct H as [R1 [R2 [R3 [R4 [R5 [R6 [R7 R8]]]]]]].
        assert (EK : forall i, (i < k)%nat -> nth i (sc_K sc') [] = nth i (sc_K sc) []).
        { intros i Hi. rewrite R4 by lia. rewrite nth_lset by lia. destruct (Nat.eqb_spec i k); [lia|reflexivity]. }
        assert (EKk : nth k (sc_K sc') [] = mscale dt F).
        { rewrite R4 by lia. rewrite nth_lset by lia. rewrite Nat.eqb_refl. reflexivity. }
        split; [exact R1|]. split; [exact R2|]. split; [exact R3|]. split; [exact EK|]. split; [|split; [|split; [exact R7|exact R8]]].
        + intros i Hi. destruct (Nat.eq_dec i k) as [->|Hne]; [|apply R5; lia].
          exists (s_u (with_t uk1 (nadd (s_t uk1) (nmul al dt)))), F.
          split; [apply W_u; exact Wt|]. split; [exact SF|]. split.
          * apply (residual_frame d sol0 (with_t uk1 (nadd (s_t uk1) (nmul al dt))) _ uk4); [apply (proj2 Wt)|].
            rewrite with_u_id. exact Hx.
          * intros n j Hn Hj. split.
            -- cbn [s_u with_t]. rewrite G3 by assumption. cbn [s_u with_u copy_data_only]. f_equal.
               rewrite Lbs, Nat.min_l by lia. apply Rsum_ext. intros i Hi'. rewrite Ebs, EK by lia. reflexivity.
            -- rewrite EKk. rewrite (at2_mscale r c) by assumption. reflexivity.
        + intros n j Hn Hj. rewrite R6 by assumption. unfold smart_axpy. cbn [s_u with_u]. rewrite (axpy_at r c); try assumption; [|apply W_u; exact Wsol].
          rewrite Rsum_S_l. cbn [nth fst]. rewrite Nat.add_0_r, EKk.
          rewrite (Rsum_ext (List.length cas) (fun i => fst (nth i cas (0, 0)) * at2 (nth (S k + i) (sc_K sc') []) n j)
                     (fun i => fst (nth i cas (0, 0)) * at2 (nth (k + S i) (sc_K sc') []) n j)); [ring|].
          intros i Hi. do 3 f_equal. lia.
    Qed.

    Lemma classic_step sol sc sol' sc' : W sol -> W (sc_us sc) -> W (sc_uk sc) -> Forall WK (sc_K sc) -> List.length (sc_K sc) = stages tb ->
      s_u (sc_us sc) = s_u sol ->
      classic_stages gamma d None (map (map ceval) (tb_betas tb)) dt 0 (combine (map ceval (tb_coeffs tb)) (map ceval (tb_alphas tb))) sol sc = Ok (sol', sc') ->
      butcher_step tb (rhs_of gamma d sol0) dt r c (s_u sol) (s_u sol') /\ W sol' /\ s_t sol' = s_t sol /\ s_n sol' = s_n sol /\
      List.length (sc_K sc') = stages tb.
    Proof.
      intros W1 W2 W3 W4 HK Eu H. pose proof (st_alphas _ T) as La.
      match type of H with context [classic_stages _ _ _ _ _ _ ?cas _ _] => set (CA := cas) in H end.
      assert (Lc : List.length CA = stages tb).
      { unfold CA. rewrite combine_length, !map_length, La. unfold stages. lia. }
      assert (Nc : forall i, (i < stages tb)%nat -> fst (nth i CA (0, 0)) = weight tb i).
      { intros i Hi. unfold CA. rewrite combine_nth by (rewrite !map_length; symmetry; exact La). cbn [fst]. unfold weight. rewrite <- cval_ceval, <- (map_nth ceval).
        apply nth_indep. rewrite map_length. exact Hi. }
      clearbody CA. apply classic_butcher in H; try assumption.
      2: { rewrite Lc, HK. lia. } 2: { rewrite Lc. lia. }
      2: { intros x Hx. apply (In_nth _ _ (0, 0)) in Hx. destruct Hx as [i [Hi <-]]. rewrite Nc by lia. apply (st_weight _ T). }
      rewrite Lc in H. destruct H as [R1 [R2 [R3 [_ [R5 [R6 [R7 R8]]]]]]]. split; [|split; [exact R1|split; [exact R7|split; [exact R8|rewrite R3; exact HK]]]].
      split; [apply W_u; exact R1|]. exists (fun i => nth i (sc_K sc') []). split.
      - intros i Hi. rewrite <- Eu. apply R5. lia.
      - intros n j Hn Hj. rewrite R6 by assumption. f_equal. apply Rsum_ext. intros i Hi. rewrite Nc by exact Hi. reflexivity.
    Qed.
  End Inner.

  Section Visits.
    Variables (ne : nat) (sol0 : solution R) (d : dg).
    Hypothesis W0 : wf ne sol0.
    Hypothesis D0 : wf_dg ne sol0 d.
    Variable rk : string.
    Let tb := rk_choice rk.

    Lemma rk_inner_step dt sol sc sol' sc' : Wf ne sol0 sol -> Wf_sc ne sol0 sc ->
      (String.eqb rk "low_storage_rk4" = false -> List.length (sc_K sc) = stages tb) -> s_u (sc_us sc) = s_u sol ->
      rk_inner gamma rk d None dt sol sc = Ok (sol', sc') ->
      butcher_step tb (rhs_of gamma d sol0) dt (s_Ns sol0) ((ne + 2) * s_NF sol0) (s_u sol) (s_u sol') /\ Wf ne sol0 sol' /\ s_t sol' = s_t sol /\ s_n sol' = s_n sol /\
      (String.eqb rk "low_storage_rk4" = false -> List.length (sc_K sc') = stages tb).
    Proof.
      intros Ws [Wu [Wk WK]] HK Eu H. pose proof (table_sound tb (rk_choice_known rk)) as T. unfold rk_inner in H.
      destruct (String.eqb_spec rk "low_storage_rk4") as [E|Hne].
      - assert (Etb : tb = rk4_table) by (unfold tb; rewrite E; reflexivity). rewrite Etb in *.
        set (sc1 := {| sc_us := sc_us sc; sc_uk := sc_uk sc; sc_K := repeat (zeros2 (nrows (s_u sol0)) (ncols (s_u sol0))) 4 |}).
        assert (SS : same_scratch sc1 sc) by (repeat split; reflexivity).
        pose proof (ls_inner gamma) as LS.
        assert (L1 : nltb (lit 1 1000000000000000) (nabs (n0 : R)) = false) by (unfold lit, n0; numR; rewrite Rabs_R0; Rcase (1 / 1000000000000000) 0; [lra|reflexivity]).
        assert (L2 : (lit 0 1 : R) = n0) by (unfold lit, n0; numR; lra).
        assert (L3 : (lit 1 1 : R) = n1) by (unfold lit, n1; numR; lra).
        specialize (LS L1 L2 L3 d None dt sol sc1 sc SS). rewrite H in LS. unfold same_result in LS.
        destruct (classic_stages gamma d None _ dt 0 _ sol sc1) as [[s1 sc1']|e] eqn:E1; [|contradiction]. destruct LS as [<- _].
        destruct (classic_step ne sol0 d D0 rk4_table T dt sol sc1 s1 sc1' Ws) as [B1 [B2 [B3 [B4 _]]]]; try assumption; try reflexivity.
        { apply Forall_forall. intros K HKin. apply repeat_spec in HKin. subst K. apply (WfK_0 ne sol0 W0). }
        split; [exact B1|]. split; [exact B2|]. split; [exact B3|]. split; [exact B4|]. discriminate.
      - destruct (classic_step ne sol0 d D0 tb T dt sol sc sol' sc' Ws) as [B1 [B2 [B3 [B4 B5]]]]; try assumption; [auto|].
        split; [exact B1|]. split; [exact B2|]. split; [exact B3|]. split; [exact B4|]. intros _. exact B5.
    Qed.

    Lemma step_butcher0 cfl tf tout s sc s' sc' dt o dn : Wf ne sol0 s -> Wf_sc ne sol0 sc ->
      (String.eqb rk "low_storage_rk4" = false -> List.length (sc_K sc) = stages tb) ->
      time_step gamma (rk_inner gamma rk d None) None cfl tf tout s sc = Ok (s', sc', (dt, o, dn)) ->
      (exists u', butcher_step tb (rhs_of gamma d sol0) dt (s_Ns sol0) ((ne + 2) * s_NF sol0) (s_u s) u' /\
        (forall e f n, (e < ne + 2)%nat -> (f < s_NF sol0)%nat -> (n < s_Ns sol0)%nat ->
           at2 (s_u s') n (e * s_NF sol0 + f) = at2 u' n (src_cell (s_bcl sol0) (s_bcr sol0) ne e * s_NF sol0 + f))) /\
      s_t s' = s_t s + dt /\ s_n s' = (s_n s + 1)%nat /\
      (String.eqb rk "low_storage_rk4" = false -> List.length (sc_K sc') = stages tb).
    Proof.
      intros Ws Wsc HK H. unfold time_step in H. inv_bind H. destruct x as [[dt' o'] dn']. inv_bind H. destruct x as [s1 sc1]. rename Hx0 into Hi.
      inv_bind H. rename x into s3, Hx0 into Hbc. cbn [limit] in H. cbn [rbind] in H. apply Ok_inj in H. injection H as <- <- <- <- <-.
      apply rk_inner_step in Hi; try assumption.
      2: { destruct Wsc as [A1 [A2 A3]]. split; [apply (Wf_copy ne sol0); assumption|split; assumption]. }
      2: reflexivity.
      destruct Hi as [B1 [B2 [B3 [B4 B5]]]]. set (s2 := with_n (with_t s1 (nadd (s_t s1) dt')) (s_n s1 + 1)) in *.
      assert (W2 : Wf ne sol0 s2) by (apply Wf_n, Wf_t; exact B2).
      destruct (apply_bc_modes ne s2 (proj1 W2)) as [s3' [E3 [S3 [W3 M3]]]]. rewrite Hbc in E3. apply Ok_inj in E3. subst s3'.
      split; [|split; [|split; [|exact B5]]].
      - exists (s_u s1). split; [exact B1|]. intros e f n He Hf Hn.
        pose proof (proj2 W2) as Sim. rewrite <- (similar_NF _ _ Sim) in Hf |- *. rewrite <- (similar_Ns _ _ Sim) in Hn.
        assert (Ebl : s_bcl sol0 = s_bcl s2 /\ s_bcr sol0 = s_bcr s2) by (destruct Sim as [? [? [? [? [-> _]]]]]; split; reflexivity). destruct Ebl as [-> ->].
        pose proof (M3 e f He Hf) as M. apply (f_equal (fun v => at1 v n)) in M.
        rewrite (modes_at ne s3), (modes_at ne s2) in M.
        + rewrite (similar_NF _ _ S3) in M. exact M.
        + apply W2.
        + unfold src_cell. pose proof (wf_ne _ _ (proj1 W2)). repeat match goal with |- context [if ?b then _ else _] => destruct b end; lia.
        + exact Hf. + exact Hn. + exact W3. + exact He. + rewrite (similar_NF _ _ S3). exact Hf. + rewrite (similar_Ns _ _ S3). exact Hn.
      - rewrite (apply_bc_eq ne s2 (proj1 W2)) in Hbc. apply Ok_inj in Hbc. subst s3. unfold s2 at 1. cbn [s_t with_u with_n with_t]. rewrite B3. reflexivity.
      - rewrite (apply_bc_eq ne s2 (proj1 W2)) in Hbc. apply Ok_inj in Hbc. subst s3. unfold s2 at 1. cbn [s_n with_u with_n with_t]. rewrite B4. reflexivity.
    Qed.
    Lemma visits_K cfl tf nout k tout touts s sc evs :
      visits gamma rk d None cfl tf nout sol0 k tout touts s sc evs ->
      String.eqb rk "low_storage_rk4" = false -> List.length (sc_K sc) = stages tb.
    Proof.
      intro V. induction V as [ev tout touts Hp Hs|k tout touts s sc evs s' sc' dt V IH H|k tout tout' touts s sc evs s' sc' dt ev V IH H Hp]; intro E.
      - cbn [sc_K]. unfold rk_K0. rewrite E. apply map_length.
      - destruct (Wf_visits gamma ne sol0 d None W0 D0 _ _ _ _ _ _ _ _ _ _ V) as [I1 [I2 _]].
        apply step_butcher0 in H; try assumption. apply H. exact E.
      - destruct (Wf_visits gamma ne sol0 d None W0 D0 _ _ _ _ _ _ _ _ _ _ V) as [I1 [I2 _]].
        apply step_butcher0 in H; try assumption. apply H. exact E.
    Qed.
    Lemma step_butcher cfl tf nout k tout touts s sc evs s' sc' dt o dn :
      visits gamma rk d None cfl tf nout sol0 k tout touts s sc evs ->
      time_step gamma (rk_inner gamma rk d None) None cfl tf tout s sc = Ok (s', sc', (dt, o, dn)) ->
      (exists u', butcher_step tb (rhs_of gamma d sol0) dt (s_Ns sol0) ((ne + 2) * s_NF sol0) (s_u s) u' /\
        (forall e f n, (e < ne + 2)%nat -> (f < s_NF sol0)%nat -> (n < s_Ns sol0)%nat ->
           at2 (s_u s') n (e * s_NF sol0 + f) = at2 u' n (src_cell (s_bcl sol0) (s_bcr sol0) ne e * s_NF sol0 + f))) /\
      s_t s' = s_t s + dt /\ s_n s' = (s_n s + 1)%nat.
    Proof.
      intros V H. destruct (Wf_visits gamma ne sol0 d None W0 D0 _ _ _ _ _ _ _ _ _ _ V) as [I1 [I2 _]].
      apply step_butcher0 in H; try assumption; [|apply (visits_K _ _ _ _ _ _ _ _ _ V)]. destruct H as [H1 [H2 [H3 _]]]. auto.
    Qed.
  End Visits.
End Step.
