(** Vocabulary for statements about the Euler equations: primitive variables, flux, admissibility,
    mirror images, Rankine-Hugoniot conditions.  Real arithmetic. *)
From Coq Require Import ZArith List Bool Arith Reals.
From Verif Require Import Num Py.
Import ListNotations.
Open Scope R_scope.

(** (density, momentum, total energy) *)
Definition st : Type := (R * R * R)%type.

(** total energy, sound speed, total enthalpy of (density, velocity, pressure) *)
Definition energy (g rho v p : R) : R := p / (g - 1) + rho * v * v / 2.
Definition sound_of (g rho p : R) : R := sqrt (g * p / rho).
Definition enthalpy (g rho v p : R) : R := (energy g rho v p + p) / rho.

(** conserved variables and Euler flux *)
Definition cons (g rho v p : R) : st := (rho, rho * v, energy g rho v p).
Definition eflux (g rho v p : R) : st := (rho * v, rho * v * v + p, (energy g rho v p + p) * v).

(** positive density and pressure *)
Definition admissible (g : R) (s : st) : Prop :=
  exists rho v p, 0 < rho /\ 0 < p /\ s = cons g rho v p.

(** the image of a state / a flux under x -> -x *)
Definition mirror (s : st) : st := let '(a, b, c) := s in (a, - b, c).
Definition mirror_flux (f : st) : st := let '(a, b, c) := f in (- a, b, - c).

Definition st_plus (a b : st) : st := let '(a1, a2, a3) := a in let '(b1, b2, b3) := b in (a1 + b1, a2 + b2, a3 + b3).
Definition st_minus (a b : st) : st := let '(a1, a2, a3) := a in let '(b1, b2, b3) := b in (a1 - b1, a2 - b2, a3 - b3).
Definition st_scale (k : R) (a : st) : st := let '(a1, a2, a3) := a in (k * a1, k * a2, k * a3).

(** a discontinuity of speed S between (rho0,v0,p0) and (rho1,v1,p1) satisfies the
    Rankine-Hugoniot conditions F(u1) - F(u0) = S (u1 - u0) *)
Definition rankine_hugoniot (g S rho0 v0 p0 rho1 v1 p1 : R) : Prop :=
  st_minus (eflux g rho1 v1 p1) (eflux g rho0 v0 p0) = st_scale S (st_minus (cons g rho1 v1 p1) (cons g rho0 v0 p0)).

(** Waves of the first family joining the state (r,v,p) on their left to the state (rs,vs,ps) on
    their right: an admissible shock of speed S (compressive, Rankine-Hugoniot, Lax), or a
    rarefaction (expansive, constant entropy, constant Riemann invariant). *)
Definition left_shock (g r v p rs vs ps S : R) : Prop :=
  p <= ps /\ rankine_hugoniot g S r v p rs vs ps /\ S <= v - sound_of g r p /\ vs - sound_of g rs ps <= S.
Definition same_isentrope (g r p rs ps : R) : Prop := ps / Rpower rs g = p / Rpower r g.
Definition same_invariant (g r v p rs vs ps : R) : Prop :=
  vs + 2 * sound_of g rs ps / (g - 1) = v + 2 * sound_of g r p / (g - 1).
Definition left_rarefaction (g r v p rs vs ps : R) : Prop :=
  ps < p /\ same_isentrope g r p rs ps /\ same_invariant g r v p rs vs ps.
Definition left_wave (g r v p rs vs ps : R) : Prop :=
  (exists S, left_shock g r v p rs vs ps S) \/ left_rarefaction g r v p rs vs ps.
(** the state (r0,v0,p0) on the ray x/t = 0 when the contact moves to the right (vs >= 0) *)
Definition left_at0 (g r v p rs vs ps r0 v0 p0 : R) : Prop :=
  (exists S, left_shock g r v p rs vs ps S /\
     ((0 <= S /\ (r0, v0, p0) = (r, v, p)) \/ (S <= 0 /\ (r0, v0, p0) = (rs, vs, ps))))
  \/ (left_rarefaction g r v p rs vs ps /\
     ((0 <= v - sound_of g r p /\ (r0, v0, p0) = (r, v, p))
      \/ (vs - sound_of g rs ps <= 0 /\ (r0, v0, p0) = (rs, vs, ps))
      \/ (v - sound_of g r p <= 0 /\ 0 <= vs - sound_of g rs ps /\
          0 < r0 /\ 0 < p0 /\ v0 = sound_of g r0 p0 /\ same_isentrope g r p r0 p0 /\ same_invariant g r v p r0 v0 p0))).
(** (r0,v0,p0) is the value at x/t = 0 of the self-similar solution of the Riemann problem with left
    state (rl,vl,pl) and right state (rr,vr,pr): star pressure ps and velocity vs, star densities
    rsl, rsr; right waves are mirror images of left waves *)
Definition riemann_at0 (g rl vl pl rr vr pr r0 v0 p0 : R) : Prop :=
  exists ps vs rsl rsr, 0 < ps /\ 0 < rsl /\ 0 < rsr /\
    left_wave g rl vl pl rsl vs ps /\ left_wave g rr (- vr) pr rsr (- vs) ps /\
    ((0 <= vs /\ left_at0 g rl vl pl rsl vs ps r0 v0 p0)
     \/ (vs <= 0 /\ left_at0 g rr (- vr) pr rsr (- vs) ps r0 (- v0) p0)).
