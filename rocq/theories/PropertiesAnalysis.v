(** Properties C56 to C59: the stability analysis scripts and the solver. *)
From Coq Require Import ZArith List Bool Arith String Lia Reals Lra Ring.
From Verif Require Import Num Py PyStr Lib RealLib Constants LegNumpy Ext Basis Sensor Enhance Solution Solver RKCoeffs RK SpecDG SpecTime SpecPoly SpecRK SpecEnh SpecUniform Analysis SpecAnalysis SpecCfl
  ProofsDG ProofsCons ProofsWf ProofsSol ProofsAdv ProofsEnh ProofsEnh2 ProofsRun ProofsDet ProofsAnalysis ProofsAnalysis2 ProofsAnalysis3 ProofsAnalysis4 ProofsAnalysis5 ProofsEig ExtReal Witness.
Import ListNotations.
Open Scope list_scope.
Open Scope R_scope.

(** C56, locally: where neighbouring cells differ by the factor t, the residual is 2/dx times the matrix at T = t *)
Theorem C56_symbol : forall (X : Ext R), gauss_ok -> inv_ok -> forall gamma ne (sr si : solution R) d s1r Fr s1i Fi e t M n,
  made ne sr -> wf ne si -> similar sr si -> wf_dg ne sr d -> s_euler sr = false -> enh_sound sr -> symbol sr t = Ok M ->
  residual gamma d sr = Ok (s1r, Fr) -> residual gamma d si = Ok (s1i, Fi) ->
  t <> nofZ 0 -> (1 <= e <= ne)%nat -> (n < s_Ns sr)%nat ->
  (forall m, (m < s_Ns sr)%nat -> nmul (cmode s1r s1i (e - 1) m) t = cmode s1r s1i e m) ->
  (s_enh sr <> None -> forall m, (m < s_Ns sr)%nat -> cmode s1r s1i (e + 1) m = nmul t (cmode s1r s1i e m)) ->
  cmode (with_u s1r Fr) (with_u s1i Fi) e n = nmul (Cr (2 / s_dx sr)) (Capply (s_Ns sr) M (cmode s1r s1i e) n).
Proof. exact @symbol_residual. Qed.
(** C56, the whole periodic domain *)
Theorem C56_wave : forall (X : Ext R), gauss_ok -> inv_ok -> forall gamma ne (sr si : solution R) d s1r Fr s1i Fi t w M,
  made ne sr -> wf ne si -> similar sr si -> wf_dg ne sr d -> s_euler sr = false -> enh_sound sr ->
  is_literal (s_bcl sr) "periodic" = true -> is_literal (s_bcr sr) "periodic" = true -> Cpow t ne = nofZ 1 -> wave ne sr si t w -> symbol sr t = Ok M ->
  residual gamma d sr = Ok (s1r, Fr) -> residual gamma d si = Ok (s1i, Fi) ->
  wave ne (with_u s1r Fr) (with_u s1i Fi) t (fun n => nmul (Cr (2 / s_dx sr)) (Capply (s_Ns sr) M w n)).
Proof. exact @wave_residual. Qed.

(** C57 *)
Theorem C57_half_plane : forall (X : Ext R) p t l w, 1 <= fst t * fst t + snd t * snd t -> eigen (p + 1) (dg_FK p t) l w -> fst l <= 0.
Proof. exact @half_plane. Qed.

(** C57: the only neutral mode is a constant at T = 1 *)
Theorem C57_neutral : forall (X : Ext R) p t l w, fst t * fst t + snd t * snd t = 1 -> eigen (p + 1) (dg_FK p t) l w -> 0 <= fst l ->
  l = nofZ 0 /\ t = nofZ 1 /\ forall i, (1 <= i < p + 1)%nat -> w i = nofZ 0.
Proof. exact @neutral. Qed.
Theorem C57_constants : forall (X : Ext R) p, eigen (p + 1) (dg_FK p (nofZ 1)) (nofZ 0) (fun i => if (i =? 0)%nat then nofZ 1 else nofZ 0).
Proof. exact @constants_stay. Qed.

(** C58 *)
Theorem C58_determinant : forall det method z, det_ok det ->
  det (stability_matrix (fst (get_formatted_rk_coeffs method)) (snd (get_formatted_rk_coeffs method)) z) =
  Csum (S (stages (rk_choice method))) (fun k => nmul (Cr (growth (rk_choice method) k)) (Cpow z k)).
Proof. exact rk_determinant. Qed.

(** C59: two runs carrying the real and the imaginary part of a Fourier eigenmode *)
Theorem C59_amplification : forall (X : Ext R), gauss_ok -> inv_ok -> forall gamma ne (sol0 soli : solution R) d rk cfl tf nout t l w M det,
  made ne sol0 -> wf ne soli -> similar sol0 soli -> s_t soli = s_t sol0 -> wf_dg ne sol0 d -> s_euler sol0 = false -> enh_sound sol0 ->
  is_literal (s_bcl sol0) "periodic" = true -> is_literal (s_bcr sol0) "periodic" = true -> Cpow t ne = nofZ 1 -> symbol sol0 t = Ok M ->
  (forall i, (i < s_Ns sol0)%nat -> Capply (s_Ns sol0) M w i = nmul l (w i)) -> det_ok det -> wave ne sol0 soli t w ->
  forall fuel evs s' fueli evsi s'i, (2 <= nout)%Z -> s_t sol0 <= tf ->
  integrate gamma rk d None cfl tf nout fuel sol0 = (evs, Finished s') ->
  integrate gamma rk d None cfl tf nout fueli soli = (evsi, Finished s'i) ->
  (exists dts, total_time dts = tf - s_t sol0 /\ wave ne s' s'i t (fun n => nmul (Cprod (rk_factor det rk (s_dx sol0) l) dts) (w n)) /\
    Forall (fun dt => 0 <= dt <= full_step sol0 cfl) dts) /\
  Forall2 (fun er ei => exists dts, s_t (ev_sol er) = s_t sol0 + total_time dts /\
    wave ne (ev_sol er) (ev_sol ei) t (fun n => nmul (Cprod (rk_factor det rk (s_dx sol0) l) dts) (w n)) /\
    Forall (fun dt => 0 <= dt <= full_step sol0 cfl) dts) evs evsi.
Proof. intros; eapply run_amplification; eassumption. Qed.

(** ** witnesses *)
(** a determinant exists: expansion along the first column *)
Definition laplace_mat (A : mat C) : C := laplace C (nofZ 0) (nofZ 1) nadd nmul nopp (List.length A) (fun i j => at2 A i j).
Example C58_witness : det_ok laplace_mat.
Proof.
  intro n. pose proof (laplace_det C (nofZ 0) (nofZ 1) nadd nmul nsub nopp Cth n) as [D1 D2 D3 D4].
  assert (E : forall M, laplace_mat (tab2 n n M) = laplace C (nofZ 0) (nofZ 1) nadd nmul nopp n M).
  { intro M. unfold laplace_mat. rewrite length_tab2. apply D1. intros i j Hi Hj. apply at2_tab2; assumption. }
  constructor.
  - intros M M' H. rewrite !E. apply D1. exact H.
  - intros M i a b x y Hi. rewrite !E. apply D2. exact Hi.
  - intros M i j Hi Hj Hne H. rewrite E. apply (D3 M i j); assumption.
  - rewrite E. exact D4.
Qed.

(** order 1, t = -1: an eigenvalue (-1 + i sqrt 11)/2 *)
Definition ev1 : C := (- (1 / 2), sqrt 11 / 2).
Definition ew1 (n : nat) : C := match n with O => ev1 | _ => Cr 3 end.
Definition tm1 : C := Cr (-1).
Lemma F_1 n m : (n <= 1)%nat -> (m <= 1)%nat -> Fnm n m = if (n =? 1)%nat && (m =? 0)%nat then 2 else 0.
Proof.
  intros Hn Hm. destruct n as [|[|n]]; [| |lia]; destruct m as [|[|m]]; try lia;
  unfold Fnm, integrate_legendre_product; cbn; unfold n0, n1; cbn; field.
Qed.
Lemma ew1_eigen {X : Ext R} i : (i < 2)%nat -> Capply 2 (dg_FK 1 tm1) ew1 i = nmul ev1 (ew1 i).
Proof.
  intro Hi. change 2%nat with (1 + 1)%nat. rewrite dg_symbol by lia. unfold symbol_row. cbn [Nat.add]. rewrite !Csum_S.
  assert (S11 : sqrt 11 * sqrt 11 = 11) by (apply sqrt_sqrt; lra).
  unfold Csum. cbn [ksum]. rewrite !F_1 by lia. unfold ew1, ev1, tm1, sg.
  destruct i as [|[|i]]; [| |lia]; cbn [Nat.eqb andb INR]; rewrite ?LegP_0, ?LegP_1; cplx; cbn; try (field_simplify; nra); try nra.
Qed.
Example C57_witness : forall (X : Ext R), eigen (1 + 1) (dg_FK 1 tm1) ev1 ew1 /\ 1 <= fst tm1 * fst tm1 + snd tm1 * snd tm1.
Proof.
  intro X. split; [|cbn; lra]. split; [|intros i Hi; apply ew1_eigen; exact Hi].
  exists 1%nat. split; [lia|]. cbn. intro H. apply (f_equal fst) in H. cbn in H. lra.
Qed.

(** the two solutions whose cell e carries t^e w *)
Definition bloch (s : solution R) (ne : nat) (part : C -> R) (t : C) (w : nat -> C) : solution R :=
  with_u s (tab2 (s_Ns s) ((ne + 2) * s_NF s) (fun n j => part (nmul (Cpow t (j / s_NF s)) (w n)))).
Lemma bloch_wave ne (s : solution R) t w : wf ne s -> s_euler s = false ->
  let sr := bloch s ne fst t w in let si := bloch s ne snd t w in
  wf ne sr /\ wf ne si /\ similar s sr /\ similar sr si /\ wave ne sr si t w.
Proof.
  intros W Ha sr si. assert (Wp : forall part, wf ne (bloch s ne part t w)) by (intro part; apply wf_with_u; [exact W|apply shape_tab2]).
  split; [apply Wp|]. split; [apply Wp|]. split; [apply similar_with_u|]. split; [unfold si; change (bloch s ne snd t w) with (bloch sr ne snd t w); apply similar_with_u|].
  intros e n He Hn. unfold cmode, sr, si. rewrite !(modes_at ne _ e 0 n) by (first [apply Wp | exact Hn | lia | rewrite adv_NF by exact Ha; lia]).
  change (s_NF (bloch s ne fst t w)) with (s_NF s). change (s_NF (bloch s ne snd t w)) with (s_NF s). rewrite (adv_NF s Ha).
  cbn [bloch with_u s_u]. rewrite (adv_NF s Ha), !at2_tab2 by (first [exact Hn|lia]). rewrite Nat.div_1_r, Nat.mul_1_r, Nat.add_0_r. destruct (nmul (Cpow t e) (w n)); reflexivity.
Qed.
Definition ii : C := (0, 1).
(** sin(2 pi x)'s set-up on eight cells, any order, t = i, any w; without and with the enhancement of modes 0 and 1 *)
Example C56_witness : forall gamma p w, (1 <= p)%nat -> forall enhanced : bool, exists sr si d s1r Fr s1i Fi M,
  @made ExtReal 8 sr /\ wf 8 si /\ similar sr si /\ wf_dg 8 sr d /\ s_euler sr = false /\ @enh_sound ExtReal sr /\ b_p (s_basis sr) = p /\
  (s_enh sr <> None <-> enhanced = true) /\
  is_literal (s_bcl sr) "periodic" = true /\ is_literal (s_bcr sr) "periodic" = true /\ Cpow ii 8 = nofZ 1 /\ wave 8 sr si ii w /\ @symbol ExtReal sr ii = Ok M /\
  residual gamma d sr = Ok (s1r, Fr) /\ residual gamma d si = Ok (s1i, Fi) /\
  wave 8 (with_u s1r Fr) (with_u s1i Fi) ii (fun n => nmul (Cr (2 / s_dx sr)) (Capply (s_Ns sr) M w n)).
Proof.
  intros gamma p w Hp enhanced. destruct (sine_built p) as [s [d [B [Hd [D [E1 [E2 Ex]]]]]]].
  pose proof (bl_made _ _ _ _ _ _ _ B) as M0. pose proof (bl_p _ _ _ _ _ _ _ B) as Bp. pose proof (bl_euler _ _ _ _ _ _ _ B : s_euler s = false) as Eu.
  assert (HS : exists s', @made ExtReal 8 s' /\ wf_dg 8 s' d /\ s_euler s' = false /\ @enh_sound ExtReal s' /\ b_p (s_basis s') = p /\ (s_enh s' <> None <-> enhanced = true) /\
     s_bcl s' = s_bcl s /\ s_bcr s' = s_bcr s /\ exists M, @symbol ExtReal s' ii = Ok M).
  { destruct enhanced.
    - destruct (@Enhance_ok ExtReal ExtReal_inv p "icb 1 0" "icb" ["1"; "0"]%string [1; 0]%nat) as [e [E M]];
        [reflexivity|repeat constructor|repeat constructor; cbn; intuition lia|intros m Hm; cbn in Hm; lia|].
      change (sort_nat [1; 0]%nat) with [0; 1]%nat in M.
      assert (ND : NoDup (e_modes e)) by (rewrite M; repeat constructor; cbn; intuition lia).
      assert (HB : forall m, In m (e_modes e) -> (m <= p)%nat) by (rewrite M; intros m Hm; cbn in Hm; lia).
      destruct (@Enhance_lengths ExtReal ExtReal_inv p "icb 1 0" e E ND HB) as [L1 [L2 [L3 L4]]].
      assert (Ns : s_Ns s = (p + 1)%nat) by (unfold s_Ns, b_Ns; rewrite Bp; reflexivity). rewrite <- Ns in L1, L2, L3, L4.
      exists (with_enh s (Some e)). split; [apply made_enh; assumption|]. split; [exact D|]. split; [exact Eu|].
      split; [exists "icb 1 0"%string; cbn [with_enh s_basis]; rewrite Bp; auto|]. split; [exact Bp|]. split; [cbn; split; [reflexivity|discriminate]|].
      split; [reflexivity|]. split; [reflexivity|]. unfold symbol. cbn [with_enh s_enh s_basis]. rewrite Bp. unfold icb_FK, icb_interface_flux_matrix, enhancement_matrices.
      destruct (@Enhance_inv ExtReal p "icb 1 0" e E) as [_ [_ [_ [_ [_ [_ [Ai [Bi [HA [HBi _]]]]]]]]]].
      change (@linv R ExtReal (enhancement_A p (e_modes e) (nofZ 2))) with (@linv R ExtReal (enhancement_A p (e_modes e) 2)). rewrite HA.
      change (@linv R ExtReal (enhancement_A p (e_modes e) (nofZ (-2)))) with (@linv R ExtReal (enhancement_A p (e_modes e) (-2))). rewrite HBi. cbn [rbind]. eauto.
    - exists s. split; [exact M0|]. split; [exact D|]. split; [exact Eu|]. unfold enh_sound, symbol. rewrite (bl_enh _ _ _ _ _ _ _ B).
      split; [exact I|]. split; [exact Bp|]. split; [intuition congruence|]. split; [reflexivity|]. split; [reflexivity|]. eauto. }
  destruct HS as [s' [M' [D' [Eu' [En' [Bp' [Ee [El [Er [M HM]]]]]]]]]].
  destruct (bloch_wave 8 s' ii w (md_wf _ _ M') Eu') as [Wr [Wi [Sr [Sim Wv]]]].
  set (sr := bloch s' 8 fst ii w) in *. set (si := bloch s' 8 snd ii w) in *.
  assert (Mr : @made ExtReal 8 sr) by (eapply made_similar; [exact M'|exact Sr|exact Wr]).
  assert (Di : wf_dg 8 si d) by exact D'. assert (Dr : wf_dg 8 sr d) by exact D'.
  assert (HR : s_riemann sr <> RGodunov) by (rewrite (proj2 (wf_kind _ _ Wr) Eu'); discriminate).
  destruct (residual_total gamma 8 sr d Wr Dr HR) as [s1r [Fr Rr]]. destruct (residual_total gamma 8 si d Wi Di HR) as [s1i [Fi Ri]].
  assert (T8 : Cpow ii 8 = nofZ 1) by (apply C_eq; cbn; unfold n0; cbn; ring).
  assert (P1 : is_literal (s_bcl sr) "periodic" = true /\ is_literal (s_bcr sr) "periodic" = true).
  { change (s_bcl sr) with (s_bcl s'). change (s_bcr sr) with (s_bcr s'). rewrite El, Er, E1, E2. split; reflexivity. } destruct P1 as [P1 P2].
  exists sr, si, d, s1r, Fr, s1i, Fi, M. repeat (split; [first [exact Mr|exact Wi|exact Sim|exact Dr|exact Eu'|exact En'|exact Bp'|exact Ee|exact P1|exact P2|exact T8|exact Wv|exact HM|exact Rr|exact Ri]|]).
  apply (C56_wave ExtReal ExtReal_gauss ExtReal_inv gamma 8 sr si d s1r Fr s1i Fi ii w M); assumption.
Qed.

(** order 1 on eight cells, t = -1 and its eigenvector, every scheme: the runs complete *)
Example C59_witness : forall gamma rk, exists sol0 soli d M evs s' evsi s'i F,
  @made ExtReal 8 sol0 /\ wf 8 soli /\ similar sol0 soli /\ s_t soli = s_t sol0 /\ wf_dg 8 sol0 d /\ s_euler sol0 = false /\ @enh_sound ExtReal sol0 /\
  is_literal (s_bcl sol0) "periodic" = true /\ is_literal (s_bcr sol0) "periodic" = true /\ Cpow tm1 8 = nofZ 1 /\ @symbol ExtReal sol0 tm1 = Ok M /\
  (forall i, (i < s_Ns sol0)%nat -> Capply (s_Ns sol0) M ew1 i = nmul ev1 (ew1 i)) /\ wave 8 sol0 soli tm1 ew1 /\ s_t sol0 <= 2 /\
  integrate gamma rk d None (1 / 2) 2 3 F sol0 = (evs, Finished s') /\
  integrate gamma rk d None (1 / 2) 2 3 F soli = (evsi, Finished s'i) /\
  exists dts, total_time dts = 2 /\ wave 8 s' s'i tm1 (fun n => nmul (Cprod (rk_factor laplace_mat rk (1 / 4) ev1) dts) (ew1 n)).
Proof.
  intros gamma rk. destruct (sine_built 1) as [s [d [B [Hd [D [E1 [E2 Ex]]]]]]].
  pose proof (bl_made _ _ _ _ _ _ _ B) as M0. pose proof (bl_p _ _ _ _ _ _ _ B) as Bp. pose proof (bl_euler _ _ _ _ _ _ _ B : s_euler s = false) as Eu.
  destruct (bloch_wave 8 s tm1 ew1 (md_wf _ _ M0) Eu) as [Wr [Wi [Sr [Sim Wv]]]].
  set (sr := bloch s 8 fst tm1 ew1) in *. set (si := bloch s 8 snd tm1 ew1) in *.
  assert (Mr : @made ExtReal 8 sr) by (eapply made_similar; [exact M0|exact Sr|exact Wr]).
  assert (Di : wf_dg 8 si d) by exact D. assert (Dr : wf_dg 8 sr d) by exact D.
  assert (T8 : Cpow tm1 8 = nofZ 1) by (apply C_eq; cbn; unfold n0; cbn; ring).
  assert (En : @enh_sound ExtReal sr) by (unfold enh_sound; change (s_enh sr) with (s_enh s); rewrite (bl_enh _ _ _ _ _ _ _ B); exact I).
  assert (HM : @symbol ExtReal sr tm1 = Ok (@dg_FK R NumR ExtReal 1 tm1)) by (unfold symbol; change (s_enh sr) with (s_enh s); rewrite (bl_enh _ _ _ _ _ _ _ B); change (s_basis sr) with (s_basis s); rewrite Bp; reflexivity).
  assert (P1 : is_literal (s_bcl sr) "periodic" = true /\ is_literal (s_bcr sr) "periodic" = true).
  { change (s_bcl sr) with (s_bcl s). change (s_bcr sr) with (s_bcr s). rewrite E1, E2. split; reflexivity. } destruct P1 as [P1 P2].
  assert (Ns : s_Ns sr = 2%nat) by (change (s_Ns sr) with (s_Ns s); unfold s_Ns, b_Ns; rewrite Bp; reflexivity).
  assert (Hw : forall i, (i < s_Ns sr)%nat -> Capply (s_Ns sr) (@dg_FK R NumR ExtReal 1 tm1) ew1 i = nmul ev1 (ew1 i)) by (rewrite Ns; apply ew1_eigen).
  assert (T0 : s_t sr = 0) by exact (bl_t _ _ _ _ _ _ _ B).
  assert (Hc : 1 / 100000000000000 <= s_dx sr * (1 / 2) / INR (2 * b_p (s_basis sr) + 1)).
  { change (s_dx sr) with (s_dx s). change (s_basis sr) with (s_basis s). rewrite Bp, Ex. cbn [Nat.mul Nat.add INR]. lra. }
  destruct (advection_completes gamma 8 sr d rk (1 / 2) 2 3 Wr Dr Eu ltac:(lia) ltac:(lra) Hc) as [F1 [evs [s' [_ H1]]]].
  destruct (advection_completes gamma 8 si d rk (1 / 2) 2 3 Wi Di Eu ltac:(lia) ltac:(change (s_t si) with (s_t sr); lra) Hc) as [F2 [evsi [s'i [_ H2]]]].
  specialize (H1 (Nat.max F1 F2) ltac:(lia)). specialize (H2 (Nat.max F1 F2) ltac:(lia)).
  destruct (C59_amplification ExtReal ExtReal_gauss ExtReal_inv gamma 8 sr si d rk (1 / 2) 2 3 tm1 ev1 ew1 _ laplace_mat Mr Wi Sim eq_refl Dr Eu En P1 P2 T8 HM Hw C58_witness Wv
    _ _ _ _ _ _ ltac:(lia) ltac:(lra) H1 H2) as [[dts [T1 [A _]]] _].
  change (s_dx sr) with (s_dx s) in A. rewrite Ex in A.
  exists sr, si, d, (@dg_FK R NumR ExtReal 1 tm1), evs, s', evsi, s'i, (Nat.max F1 F2).
  repeat (split; [first [exact Mr|exact Wi|exact Sim|reflexivity|exact Dr|exact Eu|exact En|exact P1|exact P2|exact T8|exact HM|exact Hw|exact Wv|exact H1|exact H2|lra]|]).
  exists dts. split; [lra|exact A].
Qed.

Print Assumptions C56_symbol.
Print Assumptions C56_wave.
Print Assumptions C57_half_plane.
Print Assumptions C57_neutral.
Print Assumptions C57_constants.
Print Assumptions C58_determinant.
Print Assumptions C59_amplification.
