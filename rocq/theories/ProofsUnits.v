(** C71: fluxes, wave speeds and sensors in other units. *)
From Coq Require Import ZArith List Bool Arith String Lia Reals Lra.
From Verif Require Import Num Py Lib RealLib Sensor EulerPhysics SpecUnits.
Import ListNotations.
Open Scope R_scope.

(** division by zero included: [/ 0 = 0] *)
Lemma div_unit a b x y : b <> 0 -> a * x / (b * y) = a / b * (x / y).
Proof. intro. unfold Rdiv. rewrite Rinv_mult. ring. Qed.
Lemma sqrt_unit b x : 0 < b -> sqrt (b * b * x) = b * sqrt x.
Proof. intro. rewrite sqrt_mult_alt by nra. rewrite sqrt_square by lra. reflexivity. Qed.
Lemma npmaximum_unit b x y : 0 < b -> npmaximum (b * x) (b * y) = b * npmaximum x y.
Proof. intro H. unfold npmaximum. numR. Rcase (b * x) (b * y); Rcase x y; try reflexivity; nra. Qed.
Lemma nabs_unit b x : 0 < b -> nabs (b * x) = b * nabs x.
Proof. intro H. cbn. rewrite Rabs_mult, (Rabs_pos_eq b) by lra. reflexivity. Qed.

Section Units.
  Variables (g al be : R).
  Hypothesis Ha : 0 < al.
  Hypothesis Hb : 0 < be.
  Let U := state_unit al be.
  Lemma vel_unit c : vel (U c) = be * vel c.
  Proof. destruct c as [[r m] E]. cbn. rewrite div_unit by lra. generalize (m / r). intro q. field. lra. Qed.
  Lemma pres_unit c : pres g (U c) = al * (be * be) * pres g c.
  Proof. unfold pres at 1. destruct c as [[r m] E] eqn:Ec. change (U (r, m, E)) with (al * r, al * be * m, al * (be * be) * E). cbv zeta.
    change (al * r, al * be * m, al * (be * be) * E) with (U (r, m, E)). rewrite vel_unit. unfold pres. numR. cbn. ring. Qed.
  Lemma sound_unit c : sound g (U c) = be * sound g c.
  Proof. unfold sound at 1. destruct c as [[r m] E] eqn:Ec. change (U (r, m, E)) with (al * r, al * be * m, al * (be * be) * E). cbv zeta.
    change (al * r, al * be * m, al * (be * be) * E) with (U (r, m, E)). rewrite pres_unit. unfold sound. cbn -[pres]. rewrite <- sqrt_unit by exact Hb. f_equal.
    replace (g * (al * (be * be) * pres g (r, m, E))) with (al * (be * be) * (g * pres g (r, m, E))) by ring. rewrite div_unit by lra. generalize (g * pres g (r, m, E) / r). intro q. field. lra. Qed.
  Lemma speed_unit c : wave_speed g (U c) = be * wave_speed g c.
  Proof. unfold wave_speed. rewrite vel_unit, sound_unit, nabs_unit by exact Hb. cbn. ring. Qed.
  (** the fluxes in terms of velocity, pressure, sound speed *)
  Definition flux_unit (c : R * R * R) : R * R * R := let '(a, b, e) := c in (al * be * a, al * (be * be) * b, al * (be * be * be) * e).
  Lemma flux1_eq (c : R * R * R) : flux1 g c = let '(r, m, E) := c in (m, r * vel c * vel c + pres g c, (E + pres g c) * vel c).
  Proof. destruct c as [[r m] E]. reflexivity. Qed.
  Lemma flux1_unit c : flux1 g (U c) = flux_unit (flux1 g c).
  Proof.
    rewrite !flux1_eq, vel_unit, pres_unit. destruct c as [[r m] E]. unfold U, state_unit. generalize (vel (r, m, E)) (pres g (r, m, E)). intros v p.
    cbn. f_equal; [f_equal|]; ring.
  Qed.
  Definition rus_of (rhoL vL pL EL rhoR vR pR ER mx : R) : R * R * R :=
    (1 / 2 * (rhoL * vL + rhoR * vR - mx * (rhoR - rhoL)),
     1 / 2 * (rhoL * vL * vL + pL + rhoR * vR * vR + pR - mx * (rhoR * vR - rhoL * vL)),
     1 / 2 * ((EL + pL) * vL + (ER + pR) * vR - mx * (ER - EL))).
  Lemma rus_eq rL mL EL rR mR ER : let l := (rL, mL, EL) in let r := (rR, mR, ER) in
    rusanov1 g l r = rus_of rL (vel l) (pres g l) EL rR (vel r) (pres g r) ER (npmaximum (wave_speed g l) (wave_speed g r)).
  Proof. reflexivity. Qed.
  Lemma rusanov_unit l r : rusanov1 g (U l) (U r) = flux_unit (rusanov1 g l r).
  Proof.
    destruct l as [[rL mL] EL], r as [[rR mR] ER]. rewrite rus_eq. change (U (rL, mL, EL)) with (al * rL, al * be * mL, al * (be * be) * EL). change (U (rR, mR, ER)) with (al * rR, al * be * mR, al * (be * be) * ER). rewrite rus_eq.
    change (al * rL, al * be * mL, al * (be * be) * EL) with (U (rL, mL, EL)). change (al * rR, al * be * mR, al * (be * be) * ER) with (U (rR, mR, ER)).
    rewrite !vel_unit, !pres_unit, !speed_unit, npmaximum_unit by exact Hb.
    generalize (vel (rL, mL, EL)) (vel (rR, mR, ER)) (pres g (rL, mL, EL)) (pres g (rR, mR, ER)) (npmaximum (wave_speed g (rL, mL, EL)) (wave_speed g (rR, mR, ER))).
    intros. unfold rus_of, flux_unit. f_equal; [f_equal|]; ring.
  Qed.
  (** Roe averages *)
  Lemma roe_eq rL mL EL rR mR ER : let l := (rL, mL, EL) in let r := (rR, mR, ER) in
    let RT := sqrt (rR / rL) in let v := (vel l + RT * vel r) / (1 + RT) in
    let H := ((EL + pres g l) / rL + RT * ((ER + pres g r) / rR)) / (1 + RT) in
    roe_average g l r = {| ra_rho := RT * rL; ra_v := v; ra_H := H; ra_a := sqrt ((g - 1) * (H - nhalf * v * v)) |}.
  Proof. reflexivity. Qed.
  Lemma roe_unit l r : let q := roe_average g l r in roe_average g (U l) (U r) = {| ra_rho := al * ra_rho q; ra_v := be * ra_v q; ra_H := be * be * ra_H q; ra_a := be * ra_a q |}.
  Proof.
    destruct l as [[rL mL] EL], r as [[rR mR] ER]. cbv zeta. rewrite roe_eq. cbv zeta. change (U (rL, mL, EL)) with (al * rL, al * be * mL, al * (be * be) * EL). change (U (rR, mR, ER)) with (al * rR, al * be * mR, al * (be * be) * ER). rewrite roe_eq.
    change (al * rL, al * be * mL, al * (be * be) * EL) with (U (rL, mL, EL)). change (al * rR, al * be * mR, al * (be * be) * ER) with (U (rR, mR, ER)). cbv zeta.
    rewrite !vel_unit, !pres_unit. generalize (vel (rL, mL, EL)) (vel (rR, mR, ER)) (pres g (rL, mL, EL)) (pres g (rR, mR, ER)). intros vL vR pL pR. cbn [ra_rho ra_v ra_H ra_a].
    replace (al * rR / (al * rL)) with (rR / rL) by (rewrite div_unit by lra; generalize (rR / rL); intro; field; lra).
    set (RT := sqrt (rR / rL)).
    assert (E1 : (be * vL + RT * (be * vR)) / (1 + RT) = be * ((vL + RT * vR) / (1 + RT))) by (unfold Rdiv; ring).
    rewrite E1. set (v := (vL + RT * vR) / (1 + RT)).
    assert (E2 : forall x y z, (al * (be * be) * x + al * (be * be) * y) / (al * z) = be * be * ((x + y) / z)).
    { intros x y z. rewrite <- Rmult_plus_distr_l. rewrite div_unit by lra. generalize ((x + y) / z). intro. field. lra. }
    rewrite !E2. set (hL := (EL + pL) / rL). set (hR := (ER + pR) / rR).
    assert (E3 : (be * be * hL + RT * (be * be * hR)) / (1 + RT) = be * be * ((hL + RT * hR) / (1 + RT))) by (unfold Rdiv; ring).
    rewrite E3. set (H := (hL + RT * hR) / (1 + RT)). f_equal; [ring|]. rewrite <- sqrt_unit by exact Hb. f_equal. ring.
  Qed.
  Lemma fix_unit ws x y : entropy_fix (be * ws) (be * x) (be * y) = be * entropy_fix ws x y.
  Proof.
    unfold entropy_fix. replace (nmul (nofZ 4) (nsub (be * y) (be * x))) with (be * (4 * (y - x))) by (cbn; ring).
    replace (npmaximum n0 (be * (4 * (y - x)))) with (be * npmaximum n0 (4 * (y - x))) by (rewrite <- npmaximum_unit by exact Hb; f_equal; cbn; ring).
    change (nmul (nofZ 4) (nsub y x)) with (4 * (y - x)). set (D := npmaximum n0 (4 * (y - x))). numR.
    replace (1 / 2 * (be * D)) with (be * (1 / 2 * D)) by ring.
    Rcase (be * ws) (be * (1 / 2 * D)); Rcase ws (1 / 2 * D); try nra.
    replace (be * ws * (be * ws)) with (be * be * (ws * ws)) by ring. rewrite div_unit by lra. generalize (ws * ws / D). intro. field. lra.
  Qed.
  Definition roe_of (rhoL vL pL aL EL rhoR vR pR aR ER rho v H a ws0 ws1 ws2 : R) : R * R * R :=
    let dp := pR - pL in
    let w0 := ws0 * (dp - rho * a * (vR - vL)) / (2 * a * a) in
    let w1 := ws1 * ((rhoR - rhoL) - dp / (a * a)) in
    let w2 := ws2 * (dp + rho * a * (vR - vL)) / (2 * a * a) in
    (1 / 2 * (rhoL * vL + rhoR * vR) - 1 / 2 * (w0 * 1 + w1 * 1 + w2 * 1),
     1 / 2 * (rhoL * vL * vL + pL + rhoR * vR * vR + pR) - 1 / 2 * (w0 * (v - a) + w1 * v + w2 * (v + a)),
     1 / 2 * ((EL + pL) * vL + (ER + pR) * vR) - 1 / 2 * (w0 * (H - v * a) + w1 * (1 / 2 * v * v) + w2 * (H + v * a))).
  Lemma roe1_eq rL mL EL rR mR ER : let l := (rL, mL, EL) in let r := (rR, mR, ER) in let q := roe_average g l r in
    roe1 g l r = roe_of rL (vel l) (pres g l) (sound g l) EL rR (vel r) (pres g r) (sound g r) ER (ra_rho q) (ra_v q) (ra_H q) (ra_a q)
      (entropy_fix (nabs (ra_v q - ra_a q)) (vel l - sound g l) (vel r - sound g r)) (nabs (ra_v q))
      (entropy_fix (nabs (ra_v q + ra_a q)) (vel l + sound g l) (vel r + sound g r)).
  Proof. reflexivity. Qed.
  Lemma roe1_unit l r : roe1 g (U l) (U r) = flux_unit (roe1 g l r).
  Proof.
    pose proof (roe_unit l r) as Q. destruct l as [[rL mL] EL], r as [[rR mR] ER]. rewrite roe1_eq. change (U (rL, mL, EL)) with (al * rL, al * be * mL, al * (be * be) * EL) in *. change (U (rR, mR, ER)) with (al * rR, al * be * mR, al * (be * be) * ER) in *. rewrite roe1_eq.
    rewrite Q. cbn [ra_rho ra_v ra_H ra_a].
    change (al * rL, al * be * mL, al * (be * be) * EL) with (U (rL, mL, EL)). change (al * rR, al * be * mR, al * (be * be) * ER) with (U (rR, mR, ER)).
    rewrite !vel_unit, !pres_unit, !sound_unit. destruct (roe_average g (rL, mL, EL) (rR, mR, ER)) as [rho v H a]. cbn [ra_rho ra_v ra_H ra_a].
    rewrite <- !Rmult_minus_distr_l, <- !Rmult_plus_distr_l, !nabs_unit, !fix_unit by exact Hb.
    set (w0 := entropy_fix (nabs (v - a)) _ _). set (w2 := entropy_fix (nabs (v + a)) _ _). set (w1 := nabs v). clearbody w0 w1 w2.
    generalize (vel (rL, mL, EL)) (vel (rR, mR, ER)) (pres g (rL, mL, EL)) (pres g (rR, mR, ER)) (sound g (rL, mL, EL)) (sound g (rR, mR, ER)). intros vL vR pL pR aL aR.
    unfold roe_of, flux_unit. cbv zeta.
    assert (E0 : be * w0 * (al * (be * be) * pR - al * (be * be) * pL - al * rho * (be * a) * (be * vR - be * vL)) / (2 * (be * a) * (be * a)) = al * be * (w0 * (pR - pL - rho * a * (vR - vL)) / (2 * a * a))).
    { replace (be * w0 * (al * (be * be) * pR - al * (be * be) * pL - al * rho * (be * a) * (be * vR - be * vL))) with (al * be * (be * be) * (w0 * (pR - pL - rho * a * (vR - vL)))) by ring.
      replace (2 * (be * a) * (be * a)) with (be * be * (2 * a * a)) by ring. rewrite div_unit by nra. generalize (w0 * (pR - pL - rho * a * (vR - vL)) / (2 * a * a)). intro. field. lra. }
    assert (E2 : be * w2 * (al * (be * be) * pR - al * (be * be) * pL + al * rho * (be * a) * (be * vR - be * vL)) / (2 * (be * a) * (be * a)) = al * be * (w2 * (pR - pL + rho * a * (vR - vL)) / (2 * a * a))).
    { replace (be * w2 * (al * (be * be) * pR - al * (be * be) * pL + al * rho * (be * a) * (be * vR - be * vL))) with (al * be * (be * be) * (w2 * (pR - pL + rho * a * (vR - vL)))) by ring.
      replace (2 * (be * a) * (be * a)) with (be * be * (2 * a * a)) by ring. rewrite div_unit by nra. generalize (w2 * (pR - pL + rho * a * (vR - vL)) / (2 * a * a)). intro. field. lra. }
    assert (E1 : (al * (be * be) * pR - al * (be * be) * pL) / (be * a * (be * a)) = al * ((pR - pL) / (a * a))).
    { replace (al * (be * be) * pR - al * (be * be) * pL) with (al * (be * be) * (pR - pL)) by ring. replace (be * a * (be * a)) with (be * be * (a * a)) by ring.
      rewrite div_unit by nra. generalize ((pR - pL) / (a * a)). intro. field. lra. }
    rewrite <- ?Rmult_minus_distr_l, <- ?Rmult_plus_distr_l in *.
    rewrite E0, E2, E1.
    generalize (w0 * (pR - pL - rho * a * (vR - vL)) / (2 * a * a)) (w2 * (pR - pL + rho * a * (vR - vL)) / (2 * a * a)) ((pR - pL) / (a * a)). intros.
    f_equal; [f_equal|]; ring.
  Qed.
  (** the sensors have no units *)
  Lemma contact_unit l r : contact_value g (U l) (U r) = contact_value g l r.
  Proof.
    unfold contact_value. rewrite !pres_unit, (roe_unit l r). destruct l as [[rL mL] EL] eqn:El, r as [[rR mR] ER] eqn:Er. cbv beta iota zeta delta [U state_unit].
    rewrite <- El, <- Er in *. cbn [ra_a]. set (a := ra_a (roe_average g l r)). generalize (pres g l) (pres g r). intros pL pR. cbv zeta. f_equal.
    numR. replace (al * (be * be) * pR - al * (be * be) * pL) with (al * (be * be) * (pR - pL)) by ring. replace (be * a * (be * a)) with (be * be * (a * a)) by ring.
    rewrite div_unit by nra. set (D := (pR - pL) / (a * a)). clearbody D.
    replace (al * rR - al * rL - al * (be * be) / (be * be) * D) with (al * (rR - rL - D)) by (field; lra).
    rewrite Rabs_mult, (Rabs_pos_eq al) by lra. rewrite <- Rmult_plus_distr_l. rewrite div_unit by lra. generalize (Rabs (rR - rL - D) / (rL + rR)). intro. field. lra.
  Qed.
  Lemma shock_unit l r : shock_value g (U l) (U r) = shock_value g l r.
  Proof.
    unfold shock_value. rewrite !pres_unit. generalize (pres g l) (pres g r). intros pL pR. f_equal. numR.
    rewrite <- Rmult_minus_distr_l, <- Rmult_plus_distr_l, Rabs_mult, (Rabs_pos_eq (al * (be * be))) by (left; repeat apply Rmult_lt_0_compat; assumption). rewrite div_unit by (apply Rgt_not_eq; repeat apply Rmult_lt_0_compat; assumption).
    generalize (Rabs (pR - pL) / (pL + pR)). intro. field. lra.
  Qed.
  Lemma ltb_unit x y : Rltb (be * x) (be * y) = Rltb x y.
  Proof. Rcase (be * x) (be * y); Rcase x y; try reflexivity; nra. Qed.
  Lemma compressive_unit l r : shock_compressive g (U l) (U r) = shock_compressive g l r.
  Proof.
    unfold shock_compressive. rewrite !vel_unit, !sound_unit, (roe_unit l r). cbn [ra_v ra_a]. numR. rewrite <- !Rmult_minus_distr_l, !ltb_unit. reflexivity.
  Qed.
End Units.

(** the limiter is homogeneous *)
From Verif Require Import LegNumpy Ext Basis Limiting SpecLimit ProofsLim ProofsDG.
Open Scope R_scope.
Section Homogeneous.
  Variable k : R.
  Let sc := map (Rmult k).
  Lemma at1_sc v n : at1 (sc v) n = k * at1 v n.
  Proof. unfold at1, sc. change (n0 : R) with 0. replace 0 with (k * 0) at 1 by ring. apply (map_nth (Rmult k)). Qed.
  Lemma length_sc v : List.length (sc v) = List.length v. Proof. apply map_length. Qed.
  Lemma nsum_sc l (f f' : nat -> R) : (forall n, f' n = k * f n) -> nsum (map f' l) = k * nsum (map f l).
  Proof.
    intro H. rewrite !nsum_R, !map_length, <- Rsum_scale. apply Rsum_ext. intros i Hi.
    rewrite (nth_indep (map f' l) 0 (f' O)), (nth_indep (map f l) 0 (f O)) by (rewrite map_length; exact Hi). rewrite !map_nth. apply H.
  Qed.
  Lemma dotv_sc M v : dotv M (sc v) = sc (dotv M v).
  Proof.
    unfold dotv. unfold sc at 2. rewrite map_map. apply map_ext. intro r. unfold vdot. rewrite !nsum_R.
    assert (G : forall (r v : list R), map2 nmul r (map (Rmult k) v) = map (Rmult k) (map2 nmul r v)).
    { clear. induction r as [|x r IH]; intros [|y v]; try reflexivity. cbn [map map2]. rewrite IH. f_equal. cbn. ring. }
    unfold sc. rewrite G, map_length, <- Rsum_scale. apply Rsum_ext. intros i Hi. change 0 with (n0 : R). apply at1_sc.
  Qed.
  Lemma vset_sc v i x : vset (sc v) i (k * x) = sc (vset v i x).
  Proof. unfold vset. rewrite length_sc. destruct (i <? List.length v)%nat; [|reflexivity]. unfold sc. rewrite !map_app, firstn_map, skipn_map. reflexivity. Qed.
  Lemma candidates_sc ac al ar v m : hr_candidates (sc ac) (sc al) (sc ar) (sc v) m = let '(c, a) := hr_candidates ac al ar v m in (k * c, k * a).
  Proof.
    unfold hr_candidates. rewrite length_sc. cbv zeta.
    rewrite !(nsum_sc _ (fun n => nmul (at1 v n) (integrate_monomial_derivative_bounds (m - 1) n (-3) (-1))) (fun n => nmul (at1 (sc v) n) (integrate_monomial_derivative_bounds (m - 1) n (-3) (-1)))) by (intro; rewrite at1_sc; apply Rmult_assoc).
    rewrite !(nsum_sc _ (fun n => nmul (at1 v n) (integrate_monomial_derivative (m - 1) n)) (fun n => nmul (at1 (sc v) n) (integrate_monomial_derivative (m - 1) n))) by (intro; rewrite at1_sc; apply Rmult_assoc).
    rewrite !(nsum_sc _ (fun n => nmul (at1 v n) (integrate_monomial_derivative_bounds (m - 1) n 1 3)) (fun n => nmul (at1 (sc v) n) (integrate_monomial_derivative_bounds (m - 1) n 1 3))) by (intro; rewrite at1_sc; apply Rmult_assoc).
    rewrite !(nsum_sc _ (fun n => nmul (at1 ac n) (integrate_monomial_derivative (m - 1) n)) (fun n => nmul (at1 (sc ac) n) (integrate_monomial_derivative (m - 1) n))) by (intro; rewrite at1_sc; apply Rmult_assoc).
    rewrite !(nsum_sc _ (fun n => nmul (at1 al n) (integrate_monomial_derivative (m - 1) n)) (fun n => nmul (at1 (sc al) n) (integrate_monomial_derivative (m - 1) n))) by (intro; rewrite at1_sc; apply Rmult_assoc).
    rewrite !(nsum_sc _ (fun n => nmul (at1 ar n) (integrate_monomial_derivative (m - 1) n)) (fun n => nmul (at1 (sc ar) n) (integrate_monomial_derivative (m - 1) n))) by (intro; rewrite at1_sc; apply Rmult_assoc).
    rewrite !scalar_minmod_ok, <- minmod_scale. f_equal; [f_equal|]; numR; ring.
  Qed.
  Lemma loop_sc ac al ar m : forall v o, hr_loop (sc ac) (sc al) (sc ar) m (sc v) (option_map (Rmult k) o) = let '(w, o') := hr_loop ac al ar m v o in (sc w, option_map (Rmult k) o').
  Proof.
    induction m as [|m IH]; intros v o; [reflexivity|]. cbn [hr_loop]. rewrite candidates_sc. destruct (hr_candidates ac al ar v (S m)) as [c a]. rewrite vset_sc. apply (IH _ (Some a)).
  Qed.
  Lemma monomial_sc ac al ar : limit_monomial (sc ac) (sc al) (sc ar) = match limit_monomial ac al ar with Ok v => Ok (sc v) | Raise e => Raise e end.
  Proof.
    unfold limit_monomial. rewrite length_sc. pose proof (loop_sc ac al ar (List.length ac - 1) (zeros (List.length ac)) None) as H.
    replace (sc (zeros (List.length ac))) with (zeros (List.length ac) : vec R) in H.
    2:{ unfold sc, zeros. induction (List.length ac) as [|n IH]; [reflexivity|]. rewrite map_tab. apply tab_ext. intros. cbn. ring. }
    cbn [option_map] in H. rewrite H. destruct (hr_loop ac al ar (List.length ac - 1) (zeros (List.length ac)) None) as [w [a|]]; cbn [option_map]; [|reflexivity]. rewrite vset_sc. reflexivity.
  Qed.
  Lemma hr_sc h uc ul ur : hr h (sc uc) (sc ul) (sc ur) = match hr h uc ul ur with Ok v => Ok (sc v) | Raise e => Raise e end.
  Proof.
    unfold hr. rewrite !dotv_sc, monomial_sc. destruct (limit_monomial _ _ _) as [v|e]; [|reflexivity]. cbn [rbind]. rewrite dotv_sc. reflexivity.
  Qed.
End Homogeneous.
