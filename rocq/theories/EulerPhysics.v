(** dg1d/euler_physics.py (sensing is in Sensor.v).

    NumPy evaluates these functions on interleaved arrays [rho0, rhou0, E0, rho1, ...]; every
    operation is element-wise on the strided views x[0::3], x[1::3], x[2::3].  The model computes
    one interface at a time with a scalar function and maps it over the de-interleaved arrays.
    [gamma] is the module global constants.gamma. *)
From Coq Require Import ZArith List Bool Arith String.
From Verif Require Import Num Py.
Import ListNotations.
Open Scope num_scope.

Section Euler.
  Context {A : Type} {N : Num A} {L : Libm A}.
  Variable gamma : A.

  Definition cons3 : Type := (A * A * A)%type.      (* rho, rho*v, E *)

  (** x[0::3], x[1::3], x[2::3] side by side *)
  Definition split3 (x : vec A) : list cons3 :=
    map2 (fun ab c => (fst ab, snd ab, c))
         (map2 (fun a b => (a, b)) (stride x 0 3) (stride x 1 3)) (stride x 2 3).
  (** F[0::3] = .., F[1::3] = .., F[2::3] = .. *)
  Definition join3 (l : list cons3) : vec A :=
    flat_map (fun t => match t with (a, b, c) => [a; b; c] end) l.

  (** v = u[1::3]/rho; p = (gamma-1)*(E - 0.5*rho*v*v); a = sqrt(gamma*p/rho)
      (euler_physics.py:23-26, 49-59, 91-101, 264-275, 346-349, 372-383) *)
  Definition vel (s : cons3) : A := let '(rho, m, E) := s in m / rho.
  Definition pres (s : cons3) : A :=
    let '(rho, m, E) := s in (gamma - n1) * (E - nhalf * rho * vel s * vel s).
  Definition sound (s : cons3) : A := let '(rho, m, E) := s in nsqrt (gamma * pres s / rho).

  (** max_wave_speed, euler_physics.py:19-31 (reads u[0, :], ghost cells included) *)
  Definition wave_speed (s : cons3) : A := nabs (vel s) + sound s.
  Definition euler_max_wave_speed (u : mat A) : res A :=
    match npmax (map wave_speed (split3 (row u 0))) with
    | Some m => Ok m
    | None => Raise ValueError         (* np.max of an empty array *)
    end.

  (** interior_flux, euler_physics.py:339-356, one column *)
  Definition flux1 (s : cons3) : cons3 :=
    let '(rho, m, E) := s in
    let v := m / rho in
    let p := (gamma - n1) * (E - nhalf * rho * v * v) in
    (m, rho * v * v + p, (E + p) * v).
  Definition euler_interior_flux (ug : mat A) : mat A :=
    map (fun r => join3 (map flux1 (split3 r))) ug.

  (** riemann_rusanov, euler_physics.py:36-74, one interface *)
  Definition rusanov1 (sl sr : cons3) : cons3 :=
    let '(rhoL, mL, EL) := sl in
    let '(rhoR, mR, ER) := sr in
    let vL := mL / rhoL in
    let pL := (gamma - n1) * (EL - nhalf * rhoL * vL * vL) in
    let aL := nsqrt (gamma * pL / rhoL) in
    let vR := mR / rhoR in
    let pR := (gamma - n1) * (ER - nhalf * rhoR * vR * vR) in
    let aR := nsqrt (gamma * pR / rhoR) in
    let maxvap := npmaximum (nabs vL + aL) (nabs vR + aR) in
    (nhalf * (rhoL * vL + rhoR * vR - maxvap * (rhoR - rhoL)),
     nhalf * (rhoL * vL * vL + pL + rhoR * vR * vR + pR - maxvap * (rhoR * vR - rhoL * vL)),
     nhalf * ((EL + pL) * vL + (ER + pR) * vR - maxvap * (ER - EL))).
  Definition riemann_rusanov (ul ur : vec A) : res (vec A) :=
    Ok (join3 (map2 rusanov1 (split3 ul) (split3 ur))).

  (** Roe averages, euler_physics.py:264-283 (also 372-390) *)
  Record roe_avg := { ra_rho : A; ra_v : A; ra_H : A; ra_a : A }.
  Definition roe_average (sl sr : cons3) : roe_avg :=
    let '(rhoL, mL, EL) := sl in
    let '(rhoR, mR, ER) := sr in
    let vL := mL / rhoL in
    let pL := (gamma - n1) * (EL - nhalf * rhoL * vL * vL) in
    let HL := (EL + pL) / rhoL in
    let vR := mR / rhoR in
    let pR := (gamma - n1) * (ER - nhalf * rhoR * vR * vR) in
    let HR := (ER + pR) / rhoR in
    let RT := nsqrt (rhoR / rhoL) in
    let v := (vL + RT * vR) / (n1 + RT) in
    let H := (HL + RT * HR) / (n1 + RT) in
    {| ra_rho := RT * rhoL; ra_v := v; ra_H := H;
       ra_a := nsqrt ((gamma - n1) * (H - nhalf * v * v)) |}.

  (** entropy fix of one wave speed, euler_physics.py:292-297:
      Da = max(0, 4*(lamR - lamL)); where ws < 0.5*Da: ws = ws*ws/Da + 0.25*Da *)
  Definition entropy_fix (ws lamL lamR : A) : A :=
    let Da := npmaximum n0 (nofZ 4 * (lamR - lamL)) in
    if ws <? nhalf * Da then ws * ws / Da + lit 1 4 * Da else ws.

  (** riemann_roe, euler_physics.py:251-335, one interface *)
  Definition roe1 (sl sr : cons3) : cons3 :=
    let '(rhoL, mL, EL) := sl in
    let '(rhoR, mR, ER) := sr in
    let vL := mL / rhoL in
    let pL := (gamma - n1) * (EL - nhalf * rhoL * vL * vL) in
    let aL := nsqrt (gamma * pL / rhoL) in
    let vR := mR / rhoR in
    let pR := (gamma - n1) * (ER - nhalf * rhoR * vR * vR) in
    let aR := nsqrt (gamma * pR / rhoR) in
    let ra := roe_average sl sr in
    let rho := ra_rho ra in let v := ra_v ra in let H := ra_H ra in let a := ra_a ra in
    let dp := pR - pL in
    let ws0 := entropy_fix (nabs (v - a)) (vL - aL) (vR - aR) in
    let ws1 := nabs v in
    let ws2 := entropy_fix (nabs (v + a)) (vL + aL) (vR + aR) in
    let ws0_dV0 := ws0 * (dp - rho * a * (vR - vL)) / (nofZ 2 * a * a) in
    let ws1_dV1 := ws1 * ((rhoR - rhoL) - dp / (a * a)) in
    let ws2_dV2 := ws2 * (dp + rho * a * (vR - vL)) / (nofZ 2 * a * a) in
    let R00 := n1 in let R01 := v - a in let R02 := H - v * a in
    let R10 := n1 in let R11 := v in let R12 := nhalf * v * v in
    let R20 := n1 in let R21 := v + a in let R22 := H + v * a in
    (nhalf * (rhoL * vL + rhoR * vR)
       - nhalf * (ws0_dV0 * R00 + ws1_dV1 * R10 + ws2_dV2 * R20),
     nhalf * (rhoL * vL * vL + pL + rhoR * vR * vR + pR)
       - nhalf * (ws0_dV0 * R01 + ws1_dV1 * R11 + ws2_dV2 * R21),
     nhalf * ((EL + pL) * vL + (ER + pR) * vR)
       - nhalf * (ws0_dV0 * R02 + ws1_dV1 * R12 + ws2_dV2 * R22)).
  Definition riemann_roe (ul ur : vec A) : res (vec A) :=
    Ok (join3 (map2 roe1 (split3 ul) (split3 ur))).

  (** massflux(r, c, pQ, pm), euler_physics.py:209-226 *)
  Definition massflux (r c pQ pm : A) : A :=
    let eps := lit 1 1000000000000000 in
    let gam1 := nhalf * (gamma + n1) / gamma in
    let gam2 := nhalf * (gamma - n1) / gamma in
    if (n1 - eps <=? pm / pQ) then r * c * nsqrt (n1 + gam1 * (pm / pQ - n1))
    else r * c * gam2 * (n1 - pm / pQ) / (n1 - npow (pm / pQ) gam2).

  (** sonic(u1, c1, P1, u2, c2, a1, a2), euler_physics.py:230-247 *)
  Definition sonic (u1 c1 P1 u2 c2 a1 a2 : A) : cons3 :=
    let R1 := a2 / (a2 - a1) in
    let R2 := - a1 / (a2 - a1) in
    let us := R1 * u1 + R2 * u2 in
    let cs := R1 * c1 + R2 * c2 in
    let Ps := npow (cs / c1) (nofZ 2 * gamma / (gamma - n1)) * P1 in
    let rs := gamma * Ps / (cs * cs) in
    (rs, rs * us, Ps / (gamma - n1) + nhalf * rs * us * us).

  (** one pass of the fixed-point iteration, euler_physics.py:141-145 *)
  Definition godunov_pm2 (rhoL vL pL aL rhoR vR pR aR pm1 : A) : A :=
    let mL := massflux rhoL aL pL pm1 in
    let mR := massflux rhoR aR pR pm1 in
    (mL * pR + mR * pL - mL * mR * (vR - vL)) / (mL + mR).

  (** the loop, euler_physics.py:136-157: k counts from 0; converged -> Some pm2;
      after kmax = 100 unsuccessful updates (k+1 > 100) sys.exit.  [fuel] = number of
      iterations left before the exit (the for-loop's 102 are never exhausted). *)
  Fixpoint godunov_iter (step : A -> A) (fuel : nat) (pm1 : A) : res (A * A) :=
    match fuel with
    | O => Raise (SysExit "Godunov fixed-point iteration did not converge. Exiting.")
    | S f =>
        let pm2 := step pm1 in
        if nabs (pm2 - pm1) <? lit 1 1000000 then Ok (pm1, pm2)
        else godunov_iter step f pm2
    end.

  (** initial guess, euler_physics.py:129-131 *)
  Definition godunov_guess (vL pL aL vR pR aR : A) : A :=
    npow ((nhalf * (vL - vR) * (gamma - n1) + aL + aR) /
          (aL * npow pL ((n1 - gamma) / gamma * nhalf) +
           aR * npow pR ((n1 - gamma) / gamma * nhalf)))
         (nofZ 2 * gamma / (gamma - n1)).

  (** density in the middle, euler_physics.py:164-173 *)
  Definition godunov_rm (r P pm2 : A) : A :=
    let gam := (gamma + n1) / (gamma - n1) in
    if n1 <=? pm2 / P then r * (n1 + gam * pm2 / P) / (gam + pm2 / P)
    else r * npow (pm2 / P) (n1 / gamma).

  (** physical flux of the interface state, euler_physics.py:198-203 *)
  Definition godunov_flux (rmI Um2 Um3 : A) : cons3 :=
    let pm := (gamma - n1) * (Um3 - nhalf * Um2 * Um2 / rmI) in
    (Um2, Um2 * Um2 / rmI + pm, (Um3 + pm) * Um2 / rmI).

  (** riemann_godunov, euler_physics.py:78-205, one interface *)
  Definition godunov1 (sl sr : cons3) : res cons3 :=
    let '(rhoL, mL, EL) := sl in
    let '(rhoR, mR, ER) := sr in
    let vL := mL / rhoL in
    let pL := (gamma - n1) * (EL - nhalf * rhoL * vL * vL) in
    let aL := nsqrt (gamma * pL / rhoL) in
    let vR := mR / rhoR in
    let pR := (gamma - n1) * (ER - nhalf * rhoR * vR * vR) in
    let aR := nsqrt (gamma * pR / rhoR) in
    if n1 <=? vL / aL then Ok (rhoL * vL, rhoL * vL * vL + pL, (EL + pL) * vL)
    else if vR / aR <=? nofZ (-1) then Ok (rhoR * vR, rhoR * vR * vR + pR, (ER + pR) * vR)
    else
      let! it := godunov_iter (godunov_pm2 rhoL vL pL aL rhoR vR pR aR) 101
                   (godunov_guess vL pL aL vR pR aR) in
      let pm2 := snd it in
      let mL := massflux rhoL aL pL pm2 in
      let mR := massflux rhoR aR pR pm2 in
      let vm := (mL * vL + mR * vR - (pR - pL)) / (mL + mR) in
      let rm0 := godunov_rm rhoL pL pm2 in
      let rm1 := godunov_rm rhoR pR pm2 in
      let rmI := if n0 <=? vm then rm0 else rm1 in
      let amL := nsqrt (gamma * pm2 / rm0) in
      let amR := nsqrt (gamma * pm2 / rm1) in
      let SmL := vm - amL in
      let SmR := vm + amR in
      if ((SmL <=? n0) && (n0 <=? SmR))%bool then
        Ok (godunov_flux rmI (rmI * vm) (pm2 / (gamma - n1) + nhalf * rmI * vm * vm))
      else if ((n0 <? SmL) && (vL - aL <? n0))%bool then
        let '(r, U2, U3) := sonic vL aL pL vm amL (vL - aL) SmL in Ok (godunov_flux r U2 U3)
      else if ((SmR <? n0) && (n0 <? vR + aR))%bool then
        let '(r, U2, U3) := sonic vR aR pR vm amR (vR + aR) SmR in Ok (godunov_flux r U2 U3)
      else Raise UnboundLocalError.     (* Um2, Um3 not assigned *)
  Definition riemann_godunov (ul ur : vec A) : res (vec A) :=
    let! l := mapM (fun p => godunov1 (fst p) (snd p)) (combine (split3 ul) (split3 ur)) in
    Ok (join3 l).
End Euler.
