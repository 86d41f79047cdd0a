(** Riemann solvers (C26-C32). *)
From Coq Require Import ZArith List Bool Arith String Reals Lra Lia Psatz.
From Verif Require Import Num Py Lib RealLib EulerPhysics SpecEuler.
Import ListNotations.
Open Scope R_scope.

Ltac st3 := apply f_equal2; [apply f_equal2|].

Section Riemann.
  Variable g : R.
  Hypothesis Hg : 1 < g.

  Lemma sq_half rho v : 1 / 2 * rho * v * v = rho * v * v / 2. Proof. field. Qed.
  Lemma pres_of rho v p : 0 < rho -> (g - 1) * (energy g rho v p - 1 / 2 * rho * (rho * v / rho) * (rho * v / rho)) = p.
  Proof. intro. unfold energy. field. lra. Qed.
  Lemma vel_of rho v : 0 < rho -> rho * v / rho = v. Proof. intro. field. lra. Qed.
  Lemma sound_pos rho p : 0 < rho -> 0 < p -> 0 < sound_of g rho p.
  Proof. intros. unfold sound_of. apply sqrt_lt_R0. apply Rdiv_lt_0_compat; [nra|lra]. Qed.
  Lemma sound_sq rho p : 0 < rho -> 0 < p -> sound_of g rho p * sound_of g rho p = g * p / rho.
  Proof. intros. unfold sound_of. apply sqrt_sqrt. apply Rlt_le, Rdiv_lt_0_compat; [nra|lra]. Qed.

  Lemma npmaximum_R x y : npmaximum x y = Rmax x y.
  Proof. unfold npmaximum. numR. unfold Rmax. Rcase x y; destruct (Rle_dec x y); lra. Qed.

  (** the solvers in primitive variables *)
  Section Prim.
    Variables rl vl pl rr vr pr : R.
    Hypothesis Hrl : 0 < rl. Hypothesis Hpl : 0 < pl.
    Hypothesis Hrr : 0 < rr. Hypothesis Hpr : 0 < pr.
    Let aL := sound_of g rl pl.
    Let aR := sound_of g rr pr.
    Lemma rusanov_prim : rusanov1 g (cons g rl vl pl) (cons g rr vr pr) =
      st_minus (st_scale (/ 2) (st_plus (eflux g rl vl pl) (eflux g rr vr pr)))
               (st_scale (/ 2 * Rmax (Rabs vl + aL) (Rabs vr + aR)) (st_minus (cons g rr vr pr) (cons g rl vl pl))).
    Proof.
      unfold rusanov1, cons. rewrite npmaximum_R. unfold nhalf, lit. numR. rewrite !pres_of, !vel_of by assumption. fold (sound_of g rl pl) (sound_of g rr pr).
      unfold st_minus, st_scale, st_plus, eflux. fold aL aR. st3; field.
    Qed.

    Lemma flux1_prim : flux1 g (cons g rl vl pl) = eflux g rl vl pl.
    Proof.
      unfold flux1, cons. unfold nhalf, lit. numR. rewrite !pres_of, !vel_of by assumption. reflexivity.
    Qed.

    (** Roe averages *)
    Let RT := sqrt (rr / rl).
    Let vh := (vl + RT * vr) / (1 + RT).
    Let HL := enthalpy g rl vl pl.
    Let HR := enthalpy g rr vr pr.
    Let Hh := (HL + RT * HR) / (1 + RT).
    Let ah := sqrt ((g - 1) * (Hh - / 2 * vh * vh)).

    Lemma roe_average_prim : roe_average g (cons g rl vl pl) (cons g rr vr pr) =
      {| ra_rho := RT * rl; ra_v := vh; ra_H := Hh; ra_a := ah |}.
    Proof.
      unfold roe_average, cons. unfold nhalf, lit. numR. rewrite !pres_of, !vel_of by assumption.
      fold RT. fold vh. unfold ah, Hh, HL, HR, enthalpy.
      replace (1 / 2) with (/ 2) by field. reflexivity.
    Qed.

    Lemma RT_pos : 0 < RT. Proof. unfold RT. apply sqrt_lt_R0, Rdiv_lt_0_compat; assumption. Qed.
    Lemma RT_sq : RT * RT = rr / rl. Proof. unfold RT. apply sqrt_sqrt. apply Rlt_le, Rdiv_lt_0_compat; assumption. Qed.
    Lemma rr_RT : rr = RT * RT * rl. Proof. rewrite RT_sq. field. lra. Qed.

    (** H - v^2/2 = a^2/(g-1) on each side *)
    Lemma enthalpy_of rho v p : 0 < rho -> enthalpy g rho v p = g * p / rho / (g - 1) + v * v / 2.
    Proof. intro. unfold enthalpy, energy. field. lra. Qed.

    (** the Roe sound speed is real: its radicand is positive *)
    Lemma roe_radicand : 0 < (g - 1) * (Hh - / 2 * vh * vh).
    Proof.
      pose proof RT_pos as HT. apply Rmult_lt_0_compat; [lra|].
      unfold Hh, HL, HR. rewrite !enthalpy_of by assumption.
      replace ((g * pl / rl / (g - 1) + vl * vl / 2 + RT * (g * pr / rr / (g - 1) + vr * vr / 2)) / (1 + RT) - / 2 * vh * vh)
        with ((g * pl / rl / (g - 1) + RT * (g * pr / rr / (g - 1))) / (1 + RT) + RT * ((vl - vr) * (vl - vr)) / (2 * ((1 + RT) * (1 + RT)))).
      2:{ unfold vh. field. lra. }
      assert (0 < g * pl / rl / (g - 1)) by (repeat apply Rdiv_lt_0_compat; nra).
      assert (0 < g * pr / rr / (g - 1)) by (repeat apply Rdiv_lt_0_compat; nra).
      assert (0 < (g * pl / rl / (g - 1) + RT * (g * pr / rr / (g - 1))) / (1 + RT)) by (apply Rdiv_lt_0_compat; nra).
      assert (0 <= RT * ((vl - vr) * (vl - vr)) / (2 * ((1 + RT) * (1 + RT)))).
      { apply Rmult_le_pos; [pose proof (Rle_0_sqr (vl - vr)); unfold Rsqr in *; nra|]. apply Rlt_le, Rinv_0_lt_compat. nra. }
      lra.
    Qed.
    Lemma ah_pos : 0 < ah. Proof. apply sqrt_lt_R0, roe_radicand. Qed.
    Lemma ah_sq : ah * ah = (g - 1) * (Hh - / 2 * vh * vh).
    Proof. apply sqrt_sqrt, Rlt_le, roe_radicand. Qed.

    (** wave strengths and the linearisation *)
    Definition roe_dV0 := (pr - pl - RT * rl * ah * (vr - vl)) / (2 * ah * ah).
    Definition roe_dV1 := (rr - rl) - (pr - pl) / (ah * ah).
    Definition roe_dV2 := (pr - pl + RT * rl * ah * (vr - vl)) / (2 * ah * ah).
    Definition roe_combine (w0 w1 w2 : R) : st :=
      st_plus (st_plus (st_scale (w0 * roe_dV0) (1, vh - ah, Hh - vh * ah))
                       (st_scale (w1 * roe_dV1) (1, vh, / 2 * vh * vh)))
              (st_scale (w2 * roe_dV2) (1, vh + ah, Hh + vh * ah)).

    Lemma HL_p : HL = g * pl / rl / (g - 1) + vl * vl / 2. Proof. apply enthalpy_of; assumption. Qed.
    Lemma HR_p : HR = g * pr / rr / (g - 1) + vr * vr / 2. Proof. apply enthalpy_of; assumption. Qed.

    (** sum of eigenvalue * strength * eigenvector = F(uR) - F(uL) *)
    Lemma roe_linearisation : roe_combine (vh - ah) vh (vh + ah) = st_minus (eflux g rr vr pr) (eflux g rl vl pl).
    Proof.
      pose proof ah_pos as Ha. pose proof ah_sq as Hs. pose proof RT_pos as HT.
      assert (Evh : vh * (1 + RT) = vl + RT * vr) by (unfold vh; field; lra).
      assert (EHh : Hh * (1 + RT) = HL + RT * HR) by (unfold Hh; field; lra).
      unfold roe_combine, st_plus, st_scale, st_minus, eflux.
      assert (E0 : (vh - ah) * roe_dV0 + vh * roe_dV1 + (vh + ah) * roe_dV2 = rr * vr - rl * vl).
      { unfold roe_dV0, roe_dV1, roe_dV2.
        replace ((vh - ah) * ((pr - pl - RT * rl * ah * (vr - vl)) / (2 * ah * ah)) + vh * (rr - rl - (pr - pl) / (ah * ah)) +
                 (vh + ah) * ((pr - pl + RT * rl * ah * (vr - vl)) / (2 * ah * ah)))
          with (RT * rl * (vr - vl) + vh * (rr - rl)) by (field; lra).
        rewrite rr_RT. replace (vh * (RT * RT * rl - rl)) with (vh * (1 + RT) * (RT - 1) * rl) by ring. rewrite Evh. ring. }
      assert (E1 : (vh - ah) * roe_dV0 * (vh - ah) + vh * roe_dV1 * vh + (vh + ah) * roe_dV2 * (vh + ah)
                   = rr * vr * vr + pr - (rl * vl * vl + pl)).
      { unfold roe_dV0, roe_dV1, roe_dV2.
        replace ((vh - ah) * ((pr - pl - RT * rl * ah * (vr - vl)) / (2 * ah * ah)) * (vh - ah) + vh * (rr - rl - (pr - pl) / (ah * ah)) * vh +
                 (vh + ah) * ((pr - pl + RT * rl * ah * (vr - vl)) / (2 * ah * ah)) * (vh + ah))
          with (pr - pl + 2 * (RT * rl * (vr - vl)) * vh + vh * vh * (rr - rl)) by (field; lra).
        rewrite rr_RT.
        replace (2 * (RT * rl * (vr - vl)) * vh + vh * vh * (RT * RT * rl - rl)) with
                (rl * (2 * RT * (vr - vl) * vh + vh * (vh * (1 + RT)) * (RT - 1))) by ring.
        replace (pr - pl + 2 * (RT * rl * (vr - vl)) * vh + vh * vh * (RT * RT * rl - rl)) with
                (pr - pl + rl * (2 * RT * (vr - vl) * vh + vh * (vh * (1 + RT)) * (RT - 1))) by ring.
        rewrite Evh.
        replace (2 * RT * (vr - vl) * vh + vh * (vl + RT * vr) * (RT - 1)) with ((vh * (1 + RT)) * (RT * vr - vl)) by ring.
        rewrite Evh. ring. }
      assert (E2 : (vh - ah) * roe_dV0 * (Hh - vh * ah) + vh * roe_dV1 * (/ 2 * vh * vh) + (vh + ah) * roe_dV2 * (Hh + vh * ah)
                   = (energy g rr vr pr + pr) * vr - (energy g rl vl pl + pl) * vl).
      { replace (energy g rr vr pr + pr) with (rr * HR) by (unfold HR, enthalpy; field; lra).
        replace (energy g rl vl pl + pl) with (rl * HL) by (unfold HL, enthalpy; field; lra).
        unfold roe_dV0, roe_dV1, roe_dV2.
        replace ((vh - ah) * ((pr - pl - RT * rl * ah * (vr - vl)) / (2 * ah * ah)) * (Hh - vh * ah) +
                 vh * (rr - rl - (pr - pl) / (ah * ah)) * (/ 2 * vh * vh) +
                 (vh + ah) * ((pr - pl + RT * rl * ah * (vr - vl)) / (2 * ah * ah)) * (Hh + vh * ah))
          with (vh * ((Hh - / 2 * vh * vh) * ((pr - pl) / (ah * ah)) + (pr - pl) + / 2 * vh * vh * (rr - rl)) + (Hh + vh * vh) * (RT * rl * (vr - vl))).
        2:{ field. lra. }
        replace ((Hh - / 2 * vh * vh) * ((pr - pl) / (ah * ah))) with ((pr - pl) / (g - 1)).
        2:{ rewrite Hs. field. split; [|lra]. intro K. pose proof roe_radicand as Q. assert (Hh - / 2 * vh * vh = 0) by nra. nra. }
        assert (Ep : (pr - pl) / (g - 1) + (pr - pl) = rr * (HR - vr * vr / 2) - rl * (HL - vl * vl / 2)).
        { rewrite HL_p, HR_p. field. lra. }
        replace (vh * ((pr - pl) / (g - 1) + (pr - pl) + / 2 * vh * vh * (rr - rl))) with
                (vh * ((pr - pl) / (g - 1) + (pr - pl)) + / 2 * (vh * vh * vh) * (rr - rl)) by ring.
        rewrite Ep. rewrite rr_RT.
        assert (Evl : vl = vh * (1 + RT) - RT * vr) by lra. assert (EHl : HL = Hh * (1 + RT) - RT * HR) by lra.
        rewrite EHl, Evl. field. }
      apply f_equal2; [apply f_equal2|].
      - rewrite !Rmult_1_r. exact E0.
      - exact E1.
      - exact E2.
    Qed.

    (** sum of strength * eigenvector = uR - uL *)
    Lemma roe_jump : roe_combine 1 1 1 = st_minus (cons g rr vr pr) (cons g rl vl pl).
    Proof.
      pose proof ah_pos as Ha. pose proof ah_sq as Hs. pose proof RT_pos as HT.
      assert (Evh : vh * (1 + RT) = vl + RT * vr) by (unfold vh; field; lra).
      unfold roe_combine, st_plus, st_scale, st_minus, cons, roe_dV0, roe_dV1, roe_dV2.
      apply f_equal2; [apply f_equal2|].
      - field. lra.
      - replace (1 * ((pr - pl - RT * rl * ah * (vr - vl)) / (2 * ah * ah)) * (vh - ah) + 1 * (rr - rl - (pr - pl) / (ah * ah)) * vh +
                 1 * ((pr - pl + RT * rl * ah * (vr - vl)) / (2 * ah * ah)) * (vh + ah))
          with (RT * rl * (vr - vl) + vh * (rr - rl)) by (field; lra).
        rewrite rr_RT. replace (vh * (RT * RT * rl - rl)) with (vh * (1 + RT) * (RT - 1) * rl) by ring. rewrite Evh. ring.
      - replace (1 * ((pr - pl - RT * rl * ah * (vr - vl)) / (2 * ah * ah)) * (Hh - vh * ah) +
                 1 * (rr - rl - (pr - pl) / (ah * ah)) * (/ 2 * vh * vh) +
                 1 * ((pr - pl + RT * rl * ah * (vr - vl)) / (2 * ah * ah)) * (Hh + vh * ah))
          with ((Hh - / 2 * vh * vh) * ((pr - pl) / (ah * ah)) + / 2 * vh * vh * (rr - rl) + vh * (RT * rl * (vr - vl))) by (field; lra).
        replace ((Hh - / 2 * vh * vh) * ((pr - pl) / (ah * ah))) with ((pr - pl) / (g - 1)).
        2:{ rewrite Hs. field. split; [|lra]. intro K. pose proof roe_radicand as Q. assert (Hh - / 2 * vh * vh = 0) by nra. nra. }
        unfold energy. rewrite rr_RT.
        replace (/ 2 * vh * vh * (RT * RT * rl - rl)) with (/ 2 * vh * (vh * (1 + RT)) * (RT - 1) * rl) by ring. rewrite Evh.
        replace ((pr - pl) / (g - 1) + / 2 * vh * (vl + RT * vr) * (RT - 1) * rl + vh * (RT * rl * (vr - vl)))
          with ((pr - pl) / (g - 1) + / 2 * (vh * (1 + RT)) * (RT * vr - vl) * rl) by (field; lra).
        rewrite Evh. field. lra.
    Qed.

    (** the entropy-fixed wave speed *)
    Definition Efix (ws lamL lamR : R) : R :=
      let D := Rmax 0 (4 * (lamR - lamL)) in if Rlt_dec ws (D / 2) then ws * ws / D + D / 4 else ws.
    Lemma entropy_fix_R ws lamL lamR : entropy_fix ws lamL lamR = Efix ws lamL lamR.
    Proof.
      unfold entropy_fix, Efix. rewrite npmaximum_R. numR. set (D := Rmax 0 (4 * (lamR - lamL))).
      Rcase (1 / 2 * D) (1 / 2 * D); unfold Rltb; destruct (Rlt_dec ws (1 / 2 * D)), (Rlt_dec ws (D / 2)); lra.
    Qed.

    Lemma roe_prim : roe1 g (cons g rl vl pl) (cons g rr vr pr) =
      st_minus (st_scale (/ 2) (st_plus (eflux g rl vl pl) (eflux g rr vr pr)))
               (st_scale (/ 2) (roe_combine (Efix (Rabs (vh - ah)) (vl - aL) (vr - aR)) (Rabs vh)
                                            (Efix (Rabs (vh + ah)) (vl + aL) (vr + aR)))).
    Proof.
      pose proof ah_pos as Ha. pose proof roe_average_prim as HA.
      unfold roe1. unfold cons in *. cbv zeta. rewrite HA. cbn [ra_rho ra_v ra_H ra_a]. rewrite !entropy_fix_R. numR.
      rewrite !pres_of, !vel_of by assumption. fold (sound_of g rl pl) (sound_of g rr pr). fold aL aR.
      set (w0 := Efix _ _ _). set (w2 := Efix _ (vl + aL) _).
      unfold roe_combine, st_minus, st_scale, st_plus, eflux, roe_dV0, roe_dV1, roe_dV2. st3; field; lra.
    Qed.
  End Prim.

  Lemma flux_mean a : st_scale (/ 2) (st_plus a a) = a.
  Proof. destruct a as [[x y] z]. unfold st_scale, st_plus. st3; field. Qed.
  Lemma st_minus_self a : st_minus a a = (0, 0, 0).
  Proof. destruct a as [[x y] z]. unfold st_minus. st3; ring. Qed.
  Lemma st_minus_0 a k : st_minus a (st_scale k (0, 0, 0)) = a.
  Proof. destruct a as [[x y] z]. unfold st_minus, st_scale. st3; ring. Qed.

  (** C26 *)
  Lemma rusanov_consistent rho v p : 0 < rho -> rusanov1 g (cons g rho v p) (cons g rho v p) = eflux g rho v p.
  Proof. intros. rewrite rusanov_prim by assumption. rewrite flux_mean, st_minus_self. apply st_minus_0. Qed.
  Lemma roe_consistent rho v p : 0 < rho -> 0 < p -> roe1 g (cons g rho v p) (cons g rho v p) = eflux g rho v p.
  Proof.
    intros. rewrite roe_prim by assumption. rewrite flux_mean.
    match goal with |- st_minus _ (st_scale _ ?c) = _ => assert (E : c = (0, 0, 0)) end.
    { unfold roe_combine, roe_dV0, roe_dV1, roe_dV2. rewrite !Rminus_eq_0, !Rmult_0_r, Rminus_0_r, Rplus_0_r.
      unfold Rdiv. rewrite !Rmult_0_l, Rminus_0_r, !Rmult_0_r.
      unfold st_plus, st_scale. rewrite !Rmult_0_l, !Rplus_0_r. reflexivity. }
    rewrite E. apply st_minus_0.
  Qed.

  (** mirror images *)
  Lemma energy_even rho v p : energy g rho (- v) p = energy g rho v p.
  Proof. unfold energy. field. lra. Qed.
  Lemma mirror_cons rho v p : mirror (cons g rho v p) = cons g rho (- v) p.
  Proof. unfold mirror, cons. rewrite energy_even. st3; ring. Qed.
  Lemma mirror_eflux rho v p : mirror_flux (eflux g rho v p) = eflux g rho (- v) p.
  Proof. unfold mirror_flux, eflux. rewrite energy_even. st3; ring. Qed.
  Lemma mirror_flux_minus a b : mirror_flux (st_minus a b) = st_minus (mirror_flux a) (mirror_flux b).
  Proof. destruct a as [[x y] z], b as [[x1 y1] z1]. unfold mirror_flux, st_minus. st3; ring. Qed.
  Lemma mirror_flux_plus a b : mirror_flux (st_plus a b) = st_plus (mirror_flux a) (mirror_flux b).
  Proof. destruct a as [[x y] z], b as [[x1 y1] z1]. unfold mirror_flux, st_plus. st3; ring. Qed.
  Lemma mirror_flux_scale k a : mirror_flux (st_scale k a) = st_scale k (mirror_flux a).
  Proof. destruct a as [[x y] z]. unfold mirror_flux, st_scale. st3; ring. Qed.
  Lemma st_plus_comm a b : st_plus a b = st_plus b a.
  Proof. destruct a as [[x y] z], b as [[x1 y1] z1]. unfold st_plus. st3; ring. Qed.

  Lemma rusanov_mirror rl vl pl rr vr pr : 0 < rl -> 0 < rr ->
    rusanov1 g (mirror (cons g rr vr pr)) (mirror (cons g rl vl pl)) = mirror_flux (rusanov1 g (cons g rl vl pl) (cons g rr vr pr)).
  Proof.
    intros. rewrite !mirror_cons. rewrite !rusanov_prim by assumption.
    rewrite mirror_flux_minus, !mirror_flux_scale, mirror_flux_plus, !mirror_eflux.
    rewrite (st_plus_comm (eflux g rl (- vl) pl)). rewrite !Rabs_Ropp, (Rmax_comm (Rabs vr + _)).
    f_equal. f_equal. unfold st_minus, mirror_flux, cons. rewrite !energy_even. st3; ring.
  Qed.

  Lemma sqrt_div_inv x y : 0 < x -> 0 < y -> sqrt (x / y) = / sqrt (y / x).
  Proof.
    intros. replace (x / y) with (/ (y / x)) by (field; lra). apply sqrt_inv. 
  Qed.
  Lemma roe_mirror rl vl pl rr vr pr : 0 < rl -> 0 < pl -> 0 < rr -> 0 < pr ->
    roe1 g (mirror (cons g rr vr pr)) (mirror (cons g rl vl pl)) = mirror_flux (roe1 g (cons g rl vl pl) (cons g rr vr pr)).
  Proof.
    intros Hrl Hpl Hrr Hpr. rewrite !mirror_cons. rewrite !roe_prim by assumption.
    rewrite mirror_flux_minus, !mirror_flux_scale, mirror_flux_plus, !mirror_eflux.
    rewrite (st_plus_comm (eflux g rl (- vl) pl)). f_equal. f_equal.
    pose proof (ah_pos rl vl pl rr vr pr Hrl Hpl Hrr Hpr) as Ha.
    unfold roe_combine, roe_dV0, roe_dV1, roe_dV2.
    assert (HH : forall rho v p, enthalpy g rho (- v) p = enthalpy g rho v p) by (intros; unfold enthalpy; rewrite energy_even; reflexivity).
    rewrite !HH. rewrite (sqrt_div_inv rl rr) by assumption.
    pose proof (RT_pos rl rr Hrl Hrr) as HT. pose proof (rr_RT rl rr Hrl Hrr) as HRR. cbv zeta in HRR.
    set (RT := sqrt (rr / rl)) in *.
    replace ((- vr + / RT * - vl) / (1 + / RT)) with (- ((vl + RT * vr) / (1 + RT))) by (field; lra).
    set (vh := (vl + RT * vr) / (1 + RT)) in *.
    replace ((enthalpy g rr vr pr + / RT * enthalpy g rl vl pl) / (1 + / RT)) with ((enthalpy g rl vl pl + RT * enthalpy g rr vr pr) / (1 + RT)) by (field; lra).
    set (Hh := (enthalpy g rl vl pl + RT * enthalpy g rr vr pr) / (1 + RT)) in *.
    replace (/ 2 * - vh * - vh) with (/ 2 * vh * vh) by ring.
    set (ah := sqrt ((g - 1) * (Hh - / 2 * vh * vh))) in *.
    replace (/ RT * rr) with (RT * rl) by (rewrite HRR at 1; field; lra).
    rewrite Rabs_Ropp.
    replace (- vh - ah) with (- (vh + ah)) by ring. replace (- vh + ah) with (- (vh - ah)) by ring. rewrite !Rabs_Ropp.
    set (aL := sound_of g rl pl). set (aR := sound_of g rr pr).
    assert (F : forall w a b a' b', b - a = b' - a' -> Efix w a b = Efix w a' b') by (intros w a b a' b' E; unfold Efix; rewrite E; reflexivity).
    rewrite (F (Rabs (vh + ah)) (- vr - aR) (- vl - aL) (vl + aL) (vr + aR)) by ring.
    rewrite (F (Rabs (vh - ah)) (- vr + aR) (- vl + aL) (vl - aL) (vr - aR)) by ring.
    unfold st_plus, st_scale, mirror_flux. st3; field; lra.
  Qed.

  (** C28 *)
  Lemma roe_contact rl rr p : 0 < rl -> 0 < rr -> 0 < p ->
    roe1 g (cons g rl 0 p) (cons g rr 0 p) = (0, p, 0).
  Proof.
    intros. rewrite roe_prim by assumption.
    pose proof (ah_pos rl 0 p rr 0 p ltac:(assumption) ltac:(assumption) ltac:(assumption) ltac:(assumption)) as Ha.
    unfold roe_combine, roe_dV0, roe_dV1, roe_dV2.
    set (a := sqrt ((g - 1) * _)) in *.
    replace ((0 + sqrt (rr / rl) * 0) / (1 + sqrt (rr / rl))) with 0 by (unfold Rdiv; ring).
    rewrite Rabs_R0.
    unfold st_plus, st_scale, st_minus, eflux, cons, energy. clearbody a.
    match goal with |- context [Efix ?a ?b ?c] => generalize (Efix a b c); intro w0 end.
    match goal with |- context [Efix ?a ?b ?c] => generalize (Efix a b c); intro w2 end.
    assert (HT : 0 <= sqrt (rr / rl)) by apply sqrt_pos. st3; field; repeat split; lra.
  Qed.
  Lemma rusanov_contact rl rr p : 0 < rl -> 0 < rr -> 0 < p ->
    fst (fst (rusanov1 g (cons g rl 0 p) (cons g rr 0 p))) = 0 -> rl = rr.
  Proof.
    intros Hl Hr Hp. rewrite rusanov_prim by assumption. unfold st_minus, st_scale, st_plus, eflux, cons. cbn [fst].
    rewrite Rabs_R0. pose proof (sound_pos rl p Hl Hp). pose proof (sound_pos rr p Hr Hp).
    assert (0 < Rmax (0 + sound_of g rl p) (0 + sound_of g rr p)).
    { eapply Rlt_le_trans; [|apply Rmax_l]. lra. }
    intro E. assert (Rmax (0 + sound_of g rl p) (0 + sound_of g rr p) * (rr - rl) = 0) by nra. nra.
  Qed.

  (** C30 *)
  Lemma Efix_ge w a b : w <= Efix w a b.
  Proof.
    unfold Efix. set (D := Rmax 0 (4 * (b - a))). destruct (Rlt_dec w (D / 2)) as [H|]; [|lra].
    assert (0 <= D) by apply Rmax_l. destruct (Req_dec D 0) as [E|E].
    - rewrite E in *. unfold Rdiv. rewrite Rinv_0. nra.
    - assert (0 < D) by lra. assert (K : w * w / D + D / 4 - w = (w - D / 2) * (w - D / 2) / D) by (field; lra).
      assert (0 <= (w - D / 2) * (w - D / 2) / D).
      { apply Rmult_le_pos; [apply Rle_0_sqr|]. apply Rlt_le, Rinv_0_lt_compat. assumption. }
      lra.
  Qed.

  (** C29: supersonic upwinding *)
  Definition no_fix (w a b : R) : Prop := 2 * (b - a) <= w.
  Lemma Efix_none w a b : 0 <= w -> no_fix w a b -> Efix w a b = w.
  Proof.
    unfold Efix, no_fix. intros H0 H. destruct (Rlt_dec w (Rmax 0 (4 * (b - a)) / 2)) as [K|]; [|reflexivity].
    exfalso. revert K. unfold Rmax. destruct (Rle_dec 0 (4 * (b - a))); lra.
  Qed.
  Lemma roe_combine_scale rl vl pl rr vr pr w0 w1 w2 k :
    roe_combine rl vl pl rr vr pr (k * w0) (k * w1) (k * w2) = st_scale k (roe_combine rl vl pl rr vr pr w0 w1 w2).
  Proof. unfold roe_combine, st_plus, st_scale. st3; ring. Qed.

  Definition roe_v rl vl rr vr := (vl + sqrt (rr / rl) * vr) / (1 + sqrt (rr / rl)).
  Definition roe_H rl vl pl rr vr pr :=
    (enthalpy g rl vl pl + sqrt (rr / rl) * enthalpy g rr vr pr) / (1 + sqrt (rr / rl)).
  Definition roe_a rl vl pl rr vr pr :=
    sqrt ((g - 1) * (roe_H rl vl pl rr vr pr - / 2 * roe_v rl vl rr vr * roe_v rl vl rr vr)).

  Lemma st_half_up a b : st_minus (st_scale (/ 2) (st_plus a b)) (st_scale (/ 2) (st_minus b a)) = a.
  Proof. destruct a as [[x y] z], b as [[x1 y1] z1]. unfold st_plus, st_scale, st_minus. st3; field. Qed.
  Lemma st_half_down a b : st_minus (st_scale (/ 2) (st_plus a b)) (st_scale (/ 2) (st_scale (-1) (st_minus b a))) = b.
  Proof. destruct a as [[x y] z], b as [[x1 y1] z1]. unfold st_plus, st_scale, st_minus. st3; field. Qed.

  Lemma roe_upwind_right rl vl pl rr vr pr : 0 < rl -> 0 < pl -> 0 < rr -> 0 < pr ->
    let v := roe_v rl vl rr vr in let a := roe_a rl vl pl rr vr pr in
    let aL := sound_of g rl pl in let aR := sound_of g rr pr in
    0 <= v - a -> no_fix (v - a) (vl - aL) (vr - aR) -> no_fix (v + a) (vl + aL) (vr + aR) ->
    roe1 g (cons g rl vl pl) (cons g rr vr pr) = eflux g rl vl pl.
  Proof.
    intros Hrl Hpl Hrr Hpr v a aL aR H0 N1 N2. rewrite roe_prim by assumption.
    pose proof (ah_pos rl vl pl rr vr pr Hrl Hpl Hrr Hpr) as Ha. cbv zeta in Ha.
    fold (roe_v rl vl rr vr) in Ha |- *. fold (roe_H rl vl pl rr vr pr) in Ha |- *. fold (roe_a rl vl pl rr vr pr) in Ha |- *. fold v a in Ha |- *. fold aL aR.
    rewrite !Rabs_pos_eq by lra. rewrite !Efix_none by (try assumption; lra).
    pose proof (roe_linearisation rl vl pl rr vr pr Hrl Hpl Hrr Hpr) as E. cbv zeta in E.
    fold (roe_v rl vl rr vr) in E. fold (roe_H rl vl pl rr vr pr) in E. fold (roe_a rl vl pl rr vr pr) in E. fold v a in E.
    rewrite E. apply st_half_up.
  Qed.
  Lemma roe_upwind_left rl vl pl rr vr pr : 0 < rl -> 0 < pl -> 0 < rr -> 0 < pr ->
    let v := roe_v rl vl rr vr in let a := roe_a rl vl pl rr vr pr in
    let aL := sound_of g rl pl in let aR := sound_of g rr pr in
    v + a <= 0 -> no_fix (- (v - a)) (vl - aL) (vr - aR) -> no_fix (- (v + a)) (vl + aL) (vr + aR) ->
    roe1 g (cons g rl vl pl) (cons g rr vr pr) = eflux g rr vr pr.
  Proof.
    intros Hrl Hpl Hrr Hpr v a aL aR H0 N1 N2. rewrite roe_prim by assumption.
    pose proof (ah_pos rl vl pl rr vr pr Hrl Hpl Hrr Hpr) as Ha. cbv zeta in Ha.
    fold (roe_v rl vl rr vr) in Ha |- *. fold (roe_H rl vl pl rr vr pr) in Ha |- *. fold (roe_a rl vl pl rr vr pr) in Ha |- *. fold v a in Ha |- *. fold aL aR.
    rewrite !Rabs_left1 by lra. rewrite !Efix_none by (try assumption; lra).
    pose proof (roe_linearisation rl vl pl rr vr pr Hrl Hpl Hrr Hpr) as E. cbv zeta in E.
    fold (roe_v rl vl rr vr) in E. fold (roe_H rl vl pl rr vr pr) in E. fold (roe_a rl vl pl rr vr pr) in E. fold v a in E.
    replace (- (v - a)) with (-1 * (v - a)) by ring. replace (- v) with (-1 * v) by ring. replace (- (v + a)) with (-1 * (v + a)) by ring.
    rewrite roe_combine_scale, E. apply st_half_down.
  Qed.
  (** the averages in the usual form *)
  Lemma roe_v_sqrt rl vl rr vr : 0 < rl -> 0 < rr ->
    roe_v rl vl rr vr = (sqrt rl * vl + sqrt rr * vr) / (sqrt rl + sqrt rr).
  Proof.
    intros. unfold roe_v. rewrite sqrt_div by lra. pose proof (sqrt_lt_R0 rl). pose proof (sqrt_lt_R0 rr). field. repeat split; lra.
  Qed.
  Lemma roe_H_sqrt rl vl pl rr vr pr : 0 < rl -> 0 < rr ->
    roe_H rl vl pl rr vr pr = (sqrt rl * enthalpy g rl vl pl + sqrt rr * enthalpy g rr vr pr) / (sqrt rl + sqrt rr).
  Proof.
    intros. unfold roe_H. rewrite sqrt_div by lra. pose proof (sqrt_lt_R0 rl). pose proof (sqrt_lt_R0 rr). field. repeat split; lra.
  Qed.
End Riemann.
