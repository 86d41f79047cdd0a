(** dg1d/sensor.py and the [sensing] functions of advection_physics.py / euler_physics.py *)
From Coq Require Import ZArith List Bool Arith.
From Verif Require Import Num Py EulerPhysics.
Import ListNotations.
Open Scope num_scope.

Section Sensor.
  Context {A : Type} {N : Num A}.

  (** class Sensor, sensor.py:15-27 *)
  Record sensor := { sn_thresholds : list A; sn_sensors : list Z }.
  Definition Sensor (thr : list A) (len : nat) : sensor :=
    {| sn_thresholds := thr; sn_sensors := tab len (fun _ => 0%Z) |}.

  (** idx = where(mask); sensors[idx] = v; sensors[idx+1] = v
      (advection_physics.py:52-54, euler_physics.py:400-402, 407-410);
      IndexError when idx+1 falls outside the array *)
  Definition mark (v : Z) (mask : list bool) (s : list Z) : res (list Z) :=
    if existsb (fun i => nth i mask false && (length s <=? i + 1)%nat)%bool (seq 0 (length mask))
    then Raise IndexError
    else Ok (tab (length s) (fun e =>
               if (nth e mask false
                   || match e with O => false | S e' => nth e' mask false end)%bool
               then v else nth e s 0%Z)).

  Definition threshold (thr : list A) (i : nat) : res A :=
    match nth_error thr i with Some t => Ok t | None => Raise IndexError end.

  (** 2*x/((1+x)*(1+x)) *)
  Definition sensor_fn (x : A) : A := nofZ 2 * x / ((n1 + x) * (n1 + x)).

  (** advection_physics.sensing, advection_physics.py:38-54 *)
  Definition adv_sensor_value (l r : A) : A := sensor_fn (nabs (r - l)).
  Definition adv_sensing (s : list Z) (thr : list A) (u : mat A) (NF : nat) : res (list Z) :=
    let ul := slice_to (row u 0) (- Z.of_nat NF) in
    let ur := slice_from (row u 0) (Z.of_nat NF) in
    let! t0 := threshold thr 0 in
    mark 1 (map2 (fun l r => (t0 <? adv_sensor_value l r)) ul ur) s.

  (** euler_physics.sensing, euler_physics.py:361-410, one interface *)
  Variable gamma : A.
  Definition contact_value (sl sr : cons3) : A :=
    let '(rhoL, mL, EL) := sl in
    let '(rhoR, mR, ER) := sr in
    let a := ra_a (roe_average gamma sl sr) in
    let drho := rhoR - rhoL in
    let dp := pres gamma sr - pres gamma sl in
    let dV2 := drho - dp / (a * a) in
    sensor_fn (nabs dV2 / (rhoL + rhoR)).
  Definition shock_value (sl sr : cons3) : A :=
    let pL := pres gamma sl in
    let pR := pres gamma sr in
    sensor_fn (nabs (pR - pL) / (pL + pR)).
  Definition shock_compressive (sl sr : cons3) : bool :=
    let ra := roe_average gamma sl sr in
    let lam := ra_v ra - ra_a ra in
    ((lam <? vel sl - sound gamma sl) && (vel sr - sound gamma sr <? lam))%bool.
  Definition euler_sensing (s : list Z) (thr : list A) (u : mat A) (NF : nat) : res (list Z) :=
    let ul := split3 (slice_to (row u 0) (- Z.of_nat NF)) in
    let ur := split3 (slice_from (row u 0) (Z.of_nat NF)) in
    let! t0 := threshold thr 0 in
    let! s1 := mark 1 (map2 (fun l r => (t0 <? contact_value l r)) ul ur) s in
    let! t1 := threshold thr 1 in
    mark 2 (map2 (fun l r => ((t1 <? shock_value l r) && shock_compressive l r)%bool) ul ur) s1.

  (** Sensor.sensing, sensor.py:30-37: clear, then call the system's function *)
  Definition sensing (is_euler : bool) (sn : sensor) (u : mat A) (NF : nat) : res sensor :=
    let clean := map (fun _ => 0%Z) (sn_sensors sn) in
    let! s := (if is_euler then euler_sensing else adv_sensing) clean (sn_thresholds sn) u NF in
    Ok {| sn_thresholds := sn_thresholds sn; sn_sensors := s |}.
End Sensor.
Arguments sensor : clear implicits.
