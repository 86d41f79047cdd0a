(** dg1d/advection_physics.py (sensing is in Sensor.v) *)
From Coq Require Import ZArith List.
From Verif Require Import Num Py.
Section Adv.
  Context {A : Type} {N : Num A}.
  (** max_wave_speed, advection_physics.py:17-19 *)
  Definition adv_max_wave_speed (u : mat A) : res A := Ok n1.
  (** riemann_upwinding, advection_physics.py:24-26 *)
  Definition riemann_upwinding (ul ur : vec A) : res (vec A) := Ok ul.
  (** interior_flux, advection_physics.py:31-33 *)
  Definition adv_interior_flux (ug : mat A) : mat A := ug.
End Adv.
