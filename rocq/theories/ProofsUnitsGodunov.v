(** C71: the exact solver in other units. *)
From Coq Require Import ZArith List Bool Arith String Lia Reals Lra.
From Verif Require Import Num Py Lib RealLib EulerPhysics SpecEuler SpecUnits ProofsRiemann ProofsGodunov ProofsUnits.
Import ListNotations.
Open Scope R_scope.

(** units that keep the unit of pressure *)
Section Same.
  Variables (g al be : R).
  Hypothesis Ha : 0 < al.
  Hypothesis Hb : 0 < be.
  Hypothesis H1 : al * (be * be) = 1.
  Let U := state_unit al be.
  Let k := al * be.
  Lemma Hk : 0 < k. Proof. apply Rmult_lt_0_compat; assumption. Qed.
  Lemma kb : k * be = 1. Proof. unfold k. lra. Qed.
  Lemma inv_al : / al = be * be. Proof. apply Rmult_eq_reg_l with al; [|lra]. rewrite Rinv_r by lra. lra. Qed.
  Lemma same_ratio b x y : b <> 0 -> b * x / (b * y) = x / y.
  Proof. intro Hn. rewrite div_unit by exact Hn. generalize (x / y). intro q. field. exact Hn. Qed.
  Lemma massflux_same r c pQ pm : massflux g (al * r) (be * c) pQ pm = k * massflux g r c pQ pm.
  Proof. unfold massflux, k. numR. destruct (Rleb _ _); [ring|]. unfold Rdiv. ring. Qed.
  Lemma pm2_same rl vl pl cl rr vr pr cr x : godunov_pm2 g (al * rl) (be * vl) pl (be * cl) (al * rr) (be * vr) pr (be * cr) x = godunov_pm2 g rl vl pl cl rr vr pr cr x.
  Proof.
    unfold godunov_pm2. rewrite !massflux_same. generalize (massflux g rl cl pl x) (massflux g rr cr pr x). intros p q. numR.
    replace (k * p * pr + k * q * pl - k * p * (k * q) * (be * vr - be * vl)) with (k * (p * pr + q * pl - p * q * (k * be) * (vr - vl))) by ring.
    rewrite kb, <- Rmult_plus_distr_l, same_ratio by (pose proof Hk; lra). f_equal. ring.
  Qed.
  Lemma guess_same vl pl cl vr pr cr : godunov_guess g (be * vl) pl (be * cl) (be * vr) pr (be * cr) = godunov_guess g vl pl cl vr pr cr.
  Proof.
    unfold godunov_guess. numR. f_equal. generalize (npow pl ((1 - g) / g * (1 / 2))) (npow pr ((1 - g) / g * (1 / 2))). intros p q.
    replace (1 / 2 * (be * vl - be * vr) * (g - 1) + be * cl + be * cr) with (be * (1 / 2 * (vl - vr) * (g - 1) + cl + cr)) by ring.
    replace (be * cl * p + be * cr * q) with (be * (cl * p + cr * q)) by ring. apply same_ratio. lra.
  Qed.
  Lemma rm_same r P pm : godunov_rm g (al * r) P pm = al * godunov_rm g r P pm.
  Proof. unfold godunov_rm. numR. destruct (Rleb _ _); unfold Rdiv; ring. Qed.
  Lemma a_same x r : sqrt (x / (al * r)) = be * sqrt (x / r).
  Proof. rewrite <- sqrt_unit by exact Hb. f_equal. unfold Rdiv. rewrite Rinv_mult, inv_al. ring. Qed.
  Definition full (x : R * R * R) : R * R * R := let '(r, U2, U3) := x in (al * r, k * U2, U3).
  Lemma sonic_same u1 c1 P1 u2 c2 a1 a2 : sonic g (be * u1) (be * c1) P1 (be * u2) (be * c2) (be * a1) (be * a2) = full (sonic g u1 c1 P1 u2 c2 a1 a2).
  Proof.
    unfold sonic, full. numR. rewrite <- !Rmult_minus_distr_l. replace (- (be * a1)) with (be * (- a1)) by ring. rewrite !same_ratio by lra.
    set (x := a2 / (a2 - a1)). set (y := - a1 / (a2 - a1)). replace (x * (be * c1) + y * (be * c2)) with (be * (x * c1 + y * c2)) by ring. rewrite same_ratio by lra.
    replace (x * (be * u1) + y * (be * u2)) with (be * (x * u1 + y * u2)) by ring. generalize (x * u1 + y * u2). intro u. set (c := x * c1 + y * c2).
    generalize (npow (c / c1) (2 * g / (g - 1)) * P1). intro P.
    replace (g * P / (be * c * (be * c))) with (al * (g * P / (c * c))).
    2:{ unfold Rdiv. replace (be * c * (be * c)) with (be * be * (c * c)) by ring. rewrite (Rinv_mult (be * be)). replace (/ (be * be)) with al; [ring|]. rewrite <- inv_al, Rinv_inv. reflexivity. }
    generalize (g * P / (c * c)). intro r. unfold k. f_equal; [f_equal; ring|]. f_equal. replace (1 / 2 * (al * r) * (be * u) * (be * u)) with (al * (be * be) * (1 / 2 * r * u * u)) by ring. rewrite H1. ring.
  Qed.
  Lemma flux_same x : (let '(r, U2, U3) := full x in godunov_flux g r U2 U3) = flux_unit al be (let '(r, U2, U3) := x in godunov_flux g r U2 U3).
  Proof.
    destruct x as [[r U2] U3]. unfold full, godunov_flux, flux_unit. numR.
    assert (E : k * U2 * (k * U2) / (al * r) = U2 * U2 / r).
    { unfold k, Rdiv. rewrite Rinv_mult. replace (al * be * U2 * (al * be * U2) * (/ al * / r)) with (al * / al * (al * (be * be)) * (U2 * U2 * / r)) by ring. rewrite Rinv_r, H1 by lra. ring. }
    assert (E' : 1 / 2 * (k * U2) * (k * U2) / (al * r) = 1 / 2 * U2 * U2 / r).
    { replace (1 / 2 * (k * U2) * (k * U2) / (al * r)) with (1 / 2 * (k * U2 * (k * U2) / (al * r))) by (unfold Rdiv; ring). rewrite E. unfold Rdiv. ring. }
    rewrite E, E'. generalize (1 / 2 * U2 * U2 / r). intro w.
    f_equal; [f_equal; rewrite H1; ring|]. replace (al * (be * be * be)) with (al * (be * be) * be) by ring. rewrite H1.
    unfold k, Rdiv. rewrite Rinv_mult. replace ((U3 + (g - 1) * (U3 - w)) * (al * be * U2) * (/ al * / r)) with (al * / al * be * ((U3 + (g - 1) * (U3 - w)) * U2 * / r)) by ring. rewrite Rinv_r by lra. ring.
  Qed.
  Lemma iter_ext (f h : R -> R) n : (forall x, f x = h x) -> forall p, godunov_iter f n p = godunov_iter h n p.
  Proof. intro E. induction n as [|n IH]; intro p; [reflexivity|]. cbn [godunov_iter]. rewrite E. destruct (nltb _ _); [reflexivity|apply IH]. Qed.
  Definition god (rhoL vL pL aL EL rhoR vR pR aR ER : R) : res (R * R * R) :=
    if Rleb 1 (vL / aL) then Ok (rhoL * vL, rhoL * vL * vL + pL, (EL + pL) * vL)
    else if Rleb (vR / aR) (-1) then Ok (rhoR * vR, rhoR * vR * vR + pR, (ER + pR) * vR)
    else
      rbind (godunov_iter (godunov_pm2 g rhoL vL pL aL rhoR vR pR aR) 101 (godunov_guess g vL pL aL vR pR aR)) (fun it =>
      let pm2 := snd it in
      let mL := massflux g rhoL aL pL pm2 in
      let mR := massflux g rhoR aR pR pm2 in
      let vm := (mL * vL + mR * vR - (pR - pL)) / (mL + mR) in
      let rm0 := godunov_rm g rhoL pL pm2 in
      let rm1 := godunov_rm g rhoR pR pm2 in
      let rmI := if Rleb 0 vm then rm0 else rm1 in
      let amL := sqrt (g * pm2 / rm0) in
      let amR := sqrt (g * pm2 / rm1) in
      let SmL := vm - amL in
      let SmR := vm + amR in
      if (Rleb SmL 0 && Rleb 0 SmR)%bool then
        Ok (let '(r, U2, U3) := (rmI, rmI * vm, pm2 / (g - 1) + 1 / 2 * rmI * vm * vm) in godunov_flux g r U2 U3)
      else if (Rltb 0 SmL && Rltb (vL - aL) 0)%bool then
        Ok (let '(r, U2, U3) := sonic g vL aL pL vm amL (vL - aL) SmL in godunov_flux g r U2 U3)
      else if (Rltb SmR 0 && Rltb 0 (vR + aR))%bool then
        Ok (let '(r, U2, U3) := sonic g vR aR pR vm amR (vR + aR) SmR in godunov_flux g r U2 U3)
      else Raise UnboundLocalError).
  Lemma god_eq rL mL EL rR mR ER : let l := (rL, mL, EL) in let r := (rR, mR, ER) in
    godunov1 g l r = god rL (vel l) (pres g l) (sound g l) EL rR (vel r) (pres g r) (sound g r) ER.
  Proof. reflexivity. Qed.
  Definition rmap (r : res (R * R * R)) : res (R * R * R) := match r with Ok q => Ok (flux_unit al be q) | Raise x => Raise x end.
  Lemma leb0_l x : Rleb 0 (be * x) = Rleb 0 x. Proof. unfold Rleb. destruct (Rle_dec 0 (be * x)), (Rle_dec 0 x); try reflexivity; exfalso; nra. Qed.
  Lemma leb0_r x : Rleb (be * x) 0 = Rleb x 0. Proof. unfold Rleb. destruct (Rle_dec (be * x) 0), (Rle_dec x 0); try reflexivity; exfalso; nra. Qed.
  Lemma ltb0_l x : Rltb 0 (be * x) = Rltb 0 x. Proof. unfold Rltb. destruct (Rlt_dec 0 (be * x)), (Rlt_dec 0 x); try reflexivity; exfalso; nra. Qed.
  Lemma ltb0_r x : Rltb (be * x) 0 = Rltb x 0. Proof. unfold Rltb. destruct (Rlt_dec (be * x) 0), (Rlt_dec x 0); try reflexivity; exfalso; nra. Qed.
  Lemma god_same rL vL pL aL EL rR vR pR aR ER : god (al * rL) (be * vL) pL (be * aL) EL (al * rR) (be * vR) pR (be * aR) ER = rmap (god rL vL pL aL EL rR vR pR aR ER).
  Proof.
    assert (F : forall r v p E, (al * r * (be * v), al * r * (be * v) * (be * v) + p, (E + p) * (be * v)) = flux_unit al be (r * v, r * v * v + p, (E + p) * v)).
    { intros. unfold flux_unit. rewrite H1. replace (al * (be * be * be)) with (al * (be * be) * be) by ring. rewrite H1. f_equal; [f_equal; [ring|]|ring].
      replace (al * r * (be * v) * (be * v)) with (al * (be * be) * (r * v * v)) by ring. rewrite H1. ring. }
    unfold god. rewrite !same_ratio by lra. destruct (Rleb 1 (vL / aL)); [cbn [rmap]; f_equal; apply F|]. destruct (Rleb (vR / aR) (-1)); [cbn [rmap]; f_equal; apply F|].
    rewrite guess_same, (iter_ext _ (godunov_pm2 g rL vL pL aL rR vR pR aR)) by (intro; apply pm2_same). destruct (godunov_iter _ _ _) as [[p1 pm]|e]; [|reflexivity]. cbn [rbind snd].
    rewrite !massflux_same, !rm_same, !a_same. generalize (massflux g rL aL pL pm) (massflux g rR aR pR pm) (godunov_rm g rL pL pm) (godunov_rm g rR pR pm). intros mL mR rm0 rm1.
    replace ((k * mL * (be * vL) + k * mR * (be * vR) - (pR - pL)) / (k * mL + k * mR)) with (be * ((mL * vL + mR * vR - (pR - pL)) / (mL + mR))).
    2:{ replace (k * mL * (be * vL) + k * mR * (be * vR) - (pR - pL)) with (k * be * (mL * vL + mR * vR) - (pR - pL)) by ring. rewrite kb, <- Rmult_plus_distr_l. unfold Rdiv. rewrite Rinv_mult.
        replace (/ k) with be; [ring|]. apply Rmult_eq_reg_l with k; [|pose proof Hk; lra]. rewrite kb, Rinv_r by (pose proof Hk; lra). reflexivity. }
    generalize ((mL * vL + mR * vR - (pR - pL)) / (mL + mR)) (sqrt (g * pm / rm0)) (sqrt (g * pm / rm1)). intros vm c0 c1. cbv zeta.
    rewrite <- !Rmult_minus_distr_l, <- !Rmult_plus_distr_l, !leb0_l, !leb0_r, !ltb0_l, !ltb0_r.
    destruct (Rleb (vm - c0) 0 && Rleb 0 (vm + c1))%bool.
    - cbn [rmap]. f_equal. replace (if Rleb 0 vm then al * rm0 else al * rm1) with (al * (if Rleb 0 vm then rm0 else rm1)) by (destruct (Rleb 0 vm); reflexivity).
      generalize (if Rleb 0 vm then rm0 else rm1). intro r. etransitivity; [|exact (flux_same (r, r * vm, pm / (g - 1) + 1 / 2 * r * vm * vm))]. unfold full, k. f_equal; [ring|].
      f_equal. replace (1 / 2 * (al * r) * (be * vm) * (be * vm)) with (al * (be * be) * (1 / 2 * r * vm * vm)) by ring. rewrite H1. ring.
    - destruct (Rltb 0 (vm - c0) && Rltb (vL - aL) 0)%bool; [cbn [rmap]; f_equal; rewrite sonic_same; apply flux_same|].
      destruct (Rltb (vm + c1) 0 && Rltb 0 (vR + aR))%bool; [cbn [rmap]; f_equal; rewrite sonic_same; apply flux_same|]. reflexivity.
  Qed.
  Lemma godunov_unit l r : godunov1 g (U l) (U r) = rmap (godunov1 g l r).
  Proof.
    destruct l as [[rL mL] EL], r as [[rR mR] ER]. rewrite god_eq. change (U (rL, mL, EL)) with (al * rL, al * be * mL, al * (be * be) * EL). change (U (rR, mR, ER)) with (al * rR, al * be * mR, al * (be * be) * ER). rewrite god_eq.
    change (al * rL, al * be * mL, al * (be * be) * EL) with (state_unit al be (rL, mL, EL)). change (al * rR, al * be * mR, al * (be * be) * ER) with (state_unit al be (rR, mR, ER)).
    rewrite !vel_unit, !pres_unit, !sound_unit by assumption. rewrite H1, !Rmult_1_l. apply god_same.
  Qed.
End Same.

(** other changes of units change the accepted iterate: gas of density lam and pressure lam/3 colliding at half the speed of sound, gamma = 3 *)
Definition Fc (y : R) : R := 1 + 3 / 2 * sqrt (1 + 2 / 3 * (y - 1)).
Lemma Fc_lip y z : 1 <= y -> y <= z -> 0 <= Fc z - Fc y <= (z - y) / 2.
Proof.
  intros Hy Hz. unfold Fc. set (A := 1 + 2 / 3 * (y - 1)). set (B := 1 + 2 / 3 * (z - 1)). assert (A1 : 1 <= A) by (unfold A; lra). assert (B1 : A <= B) by (unfold A, B; lra).
  pose proof (sqrt_sqrt A ltac:(lra)) as SA. pose proof (sqrt_sqrt B ltac:(lra)) as SB.
  assert (L : 1 <= sqrt A) by (rewrite <- sqrt_1; apply sqrt_le_1; lra). assert (M : sqrt A <= sqrt B) by (apply sqrt_le_1; lra).
  assert (D : (sqrt B - sqrt A) * (sqrt B + sqrt A) = B - A) by (ring_simplify; rewrite <- !Rsqr_pow2; unfold Rsqr; lra). assert (BA : B - A = 2 / 3 * (z - y)) by (unfold A, B; ring). split; nra.
Qed.
Lemma Fc_lt y z : 1 <= y -> y < z -> Fc y < Fc z.
Proof. intros. unfold Fc. apply Rplus_lt_compat_l, Rmult_lt_compat_l; [lra|]. apply sqrt_lt_1; lra. Qed.
Lemma Fc_guess : 3 / 100 < Fc (27 / 8) - 27 / 8 < 1 / 20.
Proof.
  unfold Fc. replace (1 + 2 / 3 * (27 / 8 - 1)) with (31 / 12) by field. split.
  - assert (241 / 150 < sqrt (31 / 12)); [|lra]. rewrite <- (sqrt_square (241 / 150)) by lra. apply sqrt_lt_1; lra.
  - assert (sqrt (31 / 12) < 97 / 60); [|lra]. rewrite <- (sqrt_square (97 / 60)) by lra. apply sqrt_lt_1; lra.
Qed.
Section Collide.
  Variable lam : R.
  Hypothesis Hlam : 0 < lam.
  Lemma c_sound : sound_of 3 lam (lam / 3) = 1.
  Proof. unfold sound_of. replace (3 * (lam / 3) / lam) with 1 by (field; lra). apply sqrt_1. Qed.
  Lemma c_mass y : 1 <= y -> massflux 3 lam 1 (lam / 3) (lam / 3 * y) = lam * sqrt (1 + 2 / 3 * (y - 1)).
  Proof.
    intro Hy. rewrite massflux_R by lra. replace (lam / 3 * y / (lam / 3)) with y by (field; lra). destruct (Rle_dec _ y); [|lra]. replace ((3 + 1) / (2 * 3)) with (2 / 3) by field. ring.
  Qed.
  Lemma c_step y : 1 <= y -> gstep 3 lam (1 / 2) (lam / 3) lam (- (1 / 2)) (lam / 3) (lam / 3 * y) = lam / 3 * Fc y.
  Proof.
    intro Hy. unfold gstep, godunov_pm2. rewrite c_sound, c_mass by exact Hy. unfold Fc. assert (P : 0 < sqrt (1 + 2 / 3 * (y - 1))) by (apply sqrt_lt_R0; lra).
    set (q := sqrt _) in *. numR. field. nra.
  Qed.
  Lemma c_guess : gguess 3 lam (1 / 2) (lam / 3) lam (- (1 / 2)) (lam / 3) = lam / 3 * (27 / 8).
  Proof.
    unfold gguess, godunov_guess. rewrite c_sound. numR. cbn [npow LibmR]. assert (P : 0 < lam / 3) by lra. rewrite !(Rpow_pos (lam / 3)) by exact P. set (e := (1 - 3) / 3 * (1 / 2)). pose proof (Rpower_pos (lam / 3) e) as E0.
    replace ((1 / 2 * (1 / 2 - - (1 / 2)) * (3 - 1) + 1 + 1) / (1 * Rpower (lam / 3) e + 1 * Rpower (lam / 3) e)) with (3 / 2 * Rpower (lam / 3) (- e)) by (rewrite Rpower_Ropp; field; lra).
    rewrite Rpow_pos by (apply Rmult_lt_0_compat; [lra|apply Rpower_pos]). rewrite Rpower_mult_base, Rpower_mult by (first [lra|apply Rpower_pos]).
    replace (- e * (2 * 3 / (3 - 1))) with 1 by (unfold e; field). rewrite Rpower_1 by exact P. replace (2 * 3 / (3 - 1)) with (INR 3) by (cbn; field). rewrite Rpower_pow by lra. field.
  Qed.
  Lemma c_tail pm : 0 < pm -> gtail 3 lam (1 / 2) (lam / 3) lam (- (1 / 2)) (lam / 3) pm = Ok (0, pm, 0).
  Proof.
    intro Hp. unfold gtail. rewrite c_sound. assert (M : 0 < massflux 3 lam 1 (lam / 3) pm) by (apply massflux_pos; lra). set (m := massflux _ _ _ _ _) in *.
    replace ((m * (1 / 2) + m * - (1 / 2) - (lam / 3 - lam / 3)) / (m + m)) with 0 by (field; lra).
    pose proof (godunov_rm_pos 3 ltac:(lra) lam (lam / 3) pm Hlam ltac:(lra) Hp) as Rm. set (rm := godunov_rm 3 lam (lam / 3) pm) in *.
    pose proof (sqrt_pos (3 * pm / rm)) as Sp. fold (sound_of 3 rm pm) in Sp. destruct (Rle_dec (0 - sound_of 3 rm pm) 0); [|lra]. destruct (Rle_dec 0 (0 + sound_of 3 rm pm)); [|lra].
    destruct (Rle_dec 0 0); [|lra]. rewrite godunov_flux_eflux by lra. unfold eflux, energy. f_equal. f_equal; [f_equal|]; field; lra.
  Qed.
  Lemma c_flux : godunov1 3 (cons 3 lam (1 / 2) (lam / 3)) (cons 3 lam (- (1 / 2)) (lam / 3)) =
    rbind (godunov_iter (gstep 3 lam (1 / 2) (lam / 3) lam (- (1 / 2)) (lam / 3)) 101 (lam / 3 * (27 / 8))) (fun it => gtail 3 lam (1 / 2) (lam / 3) lam (- (1 / 2)) (lam / 3) (snd it)).
  Proof.
    rewrite godunov_prim by lra. rewrite c_guess, c_sound. destruct (Rle_dec 1 (1 / 2)); [lra|]. destruct (Rle_dec (- (1 / 2)) (- (1))); [lra|]. reflexivity.
  Qed.
  Lemma c_iter n : forall fuel y, (n < fuel)%nat -> 1 <= y -> 0 <= Fc y - y -> lam / 3 * (Fc y - y) < 1 / 1000000 * 2 ^ n ->
    exists z, y <= z /\ godunov_iter (gstep 3 lam (1 / 2) (lam / 3) lam (- (1 / 2)) (lam / 3)) fuel (lam / 3 * y) = Ok (lam / 3 * z, lam / 3 * Fc z).
  Proof.
    induction n as [|n IH]; intros fuel y Hf Hy H0 H; (destruct fuel as [|fuel]; [lia|]); cbn [godunov_iter]; rewrite (c_step y Hy); numR; rewrite <- Rmult_minus_distr_l, Rabs_pos_eq by (apply Rmult_le_pos; lra).
    - exists y. split; [lra|]. cbn [pow] in H. Rcase (lam / 3 * (Fc y - y)) (1 / 1000000); [reflexivity|lra].
    - Rcase (lam / 3 * (Fc y - y)) (1 / 1000000); [exists y; split; [lra|reflexivity]|].
      destruct (Fc_lip y (Fc y) Hy ltac:(lra)) as [L0 L1]. destruct (IH fuel (Fc y) ltac:(lia) ltac:(lra) L0) as [z [Hz Ez]]; [|exists z; split; [lra|exact Ez]].
      cbn [pow] in H. assert (lam / 3 * (Fc (Fc y) - Fc y) <= lam / 3 * ((Fc y - y) / 2)) by (apply Rmult_le_compat_l; lra). lra.
  Qed.
End Collide.

Lemma iter_S (step : R -> R) n p : godunov_iter step (S n) p = if Rltb (Rabs (step p - p)) (1 / 1000000) then Ok (p, step p) else godunov_iter step n (step p).
Proof. reflexivity. Qed.
Lemma godunov_units : exists f1 f2 : R, 
  godunov1 3 (cons 3 1 (1 / 2) (1 / 3)) (cons 3 1 (- (1 / 2)) (1 / 3)) = Ok (0, f1, 0) /\
  godunov1 3 (state_unit (1 / 100000) 1 (cons 3 1 (1 / 2) (1 / 3))) (state_unit (1 / 100000) 1 (cons 3 1 (- (1 / 2)) (1 / 3))) = Ok (0, f2, 0) /\ f2 < 1 / 100000 * f1.
Proof.
  pose proof Fc_guess as G.
  destruct (c_iter 1 ltac:(lra) 20 100 (Fc (27 / 8)) ltac:(lia) ltac:(lra)) as [z [Hz E]].
  { apply Fc_lip; lra. }
  { destruct (Fc_lip (27 / 8) (Fc (27 / 8)) ltac:(lra) ltac:(lra)) as [_ L]. cbn [pow]. lra. }
  exists (1 / 3 * Fc z), (1 / 100000 / 3 * Fc (27 / 8)). pose proof (Fc_lt (27 / 8) z ltac:(lra) ltac:(lra)) as LT.
  assert (Sv : forall v, state_unit (1 / 100000) 1 (cons 3 1 v (1 / 3)) = cons 3 (1 / 100000) v (1 / 100000 / 3)) by (intro v; unfold state_unit, cons, energy; f_equal; [f_equal|]; field).
  rewrite !Sv, !c_flux by lra. split; [|split; [|lra]].
  - change 101%nat with (S 100). rewrite iter_S, (c_step 1 ltac:(lra) (27 / 8) ltac:(lra)). numR. rewrite <- Rmult_minus_distr_l, Rabs_pos_eq by lra.
    Rcase (1 / 3 * (Fc (27 / 8) - 27 / 8)) (1 / 1000000); [lra|]. rewrite E. cbn [rbind snd]. apply c_tail; lra.
  - change 101%nat with (S 100). rewrite iter_S, (c_step (1 / 100000) ltac:(lra) (27 / 8) ltac:(lra)). numR. rewrite <- Rmult_minus_distr_l, Rabs_pos_eq by lra.
    Rcase (1 / 100000 / 3 * (Fc (27 / 8) - 27 / 8)) (1 / 1000000); [|lra]. cbn [rbind snd]. apply c_tail; lra.
Qed.
