(** The sensor functions in physical variables, and their behaviour under reflection (C42, C43, C54). *)
From Coq Require Import ZArith List Bool Arith Reals Lra Lia.
From Verif Require Import Num Py Lib RealLib EulerPhysics Sensor SpecEuler ProofsRiemann ProofsLimRun.
Import ListNotations.
Open Scope R_scope.

(** 2x/(1+x)^2 *)
Definition bump (x : R) : R := 2 * x / ((1 + x) * (1 + x)).

Section Sensors.
  Variable g : R.
  Hypothesis Hg : 1 < g.
  Lemma pres_c rho v p : 0 < rho -> pres g (cons g rho v p) = p.
  Proof. intro. unfold pres, vel, cons, nhalf, lit. numR. apply (pres_of g Hg). assumption. Qed.
  Lemma vel_c rho v p : 0 < rho -> vel (cons g rho v p) = v.
  Proof. intro. unfold vel, cons. numR. field. lra. Qed.
  Lemma sound_c rho v p : 0 < rho -> sound g (cons g rho v p) = sound_of g rho p.
  Proof. intro. unfold sound, sound_of. pose proof (pres_c rho v p) as E. unfold cons in *. rewrite E by assumption. reflexivity. Qed.
  Section Pair.
    Variables rl vl pl rr vr pr : R.
    Hypotheses (Hrl : 0 < rl) (Hpl : 0 < pl) (Hrr : 0 < rr) (Hpr : 0 < pr).
    Notation uL := (cons g rl vl pl).
    Notation uR := (cons g rr vr pr).
    Let v := roe_v rl vl rr vr.
    Let a := roe_a g rl vl pl rr vr pr.
    Lemma roe_avg : ra_v (roe_average g uL uR) = v /\ ra_a (roe_average g uL uR) = a.
    Proof. rewrite (roe_average_prim g Hg) by assumption. split; reflexivity. Qed.
    Lemma contact_value_prim : contact_value g uL uR = bump (Rabs (rr - rl - (pr - pl) / (a * a)) / (rl + rr)).
    Proof.
      unfold contact_value. pose proof (proj2 roe_avg) as Ea. pose proof (pres_c rl vl pl Hrl) as P1. pose proof (pres_c rr vr pr Hrr) as P2.
      unfold cons in *. rewrite Ea, P1, P2. rewrite sensor_fn_R. numR. reflexivity.
    Qed.
    Lemma shock_value_prim : shock_value g uL uR = bump (Rabs (pr - pl) / (pl + pr)).
    Proof. unfold shock_value. rewrite !pres_c by assumption. rewrite sensor_fn_R. numR. reflexivity. Qed.
    Lemma shock_compressive_prim : shock_compressive g uL uR = true <->
      vr - sound_of g rr pr < v - a < vl - sound_of g rl pl.
    Proof.
      unfold shock_compressive. destruct roe_avg as [-> ->].
      rewrite andb_true_iff. rewrite !vel_c, !sound_c by assumption. numR.
      rewrite !Rltb_true. tauto.
    Qed.
  End Pair.
  (** reflection *)
  Lemma roe_v_mirror rl vl rr vr : 0 < rl -> 0 < rr -> roe_v rr (- vr) rl (- vl) = - roe_v rl vl rr vr.
  Proof.
    intros. unfold roe_v. rewrite (sqrt_div_inv rl rr) by assumption. pose proof (RT_pos rl rr ltac:(assumption) ltac:(assumption)).
    set (RT := sqrt (rr / rl)) in *. field. lra.
  Qed.
  Lemma roe_H_mirror rl vl pl rr vr pr : 0 < rl -> 0 < rr -> roe_H g rr (- vr) pr rl (- vl) pl = roe_H g rl vl pl rr vr pr.
  Proof.
    intros. unfold roe_H. rewrite (sqrt_div_inv rl rr) by assumption. pose proof (RT_pos rl rr ltac:(assumption) ltac:(assumption)).
    unfold enthalpy. rewrite !(energy_even g Hg). set (RT := sqrt (rr / rl)) in *. field. lra.
  Qed.
  Lemma roe_a_mirror rl vl pl rr vr pr : 0 < rl -> 0 < rr -> roe_a g rr (- vr) pr rl (- vl) pl = roe_a g rl vl pl rr vr pr.
  Proof. intros. unfold roe_a. rewrite roe_v_mirror, roe_H_mirror by assumption. f_equal. ring. Qed.
  Lemma contact_mirror sl sr : admissible g sl -> admissible g sr -> contact_value g (mirror sr) (mirror sl) = contact_value g sl sr.
  Proof.
    intros [rl [vl [pl [Hrl [Hpl ->]]]]] [rr [vr [pr [Hrr [Hpr ->]]]]]. rewrite !(mirror_cons g Hg), !contact_value_prim, roe_a_mirror by assumption.
    set (a := roe_a _ _ _ _ _ _ _). f_equal. rewrite (Rplus_comm rl rr). f_equal.
    replace (rl - rr - (pl - pr) / (a * a)) with (- (rr - rl - (pr - pl) / (a * a))) by (unfold Rdiv; ring). apply Rabs_Ropp.
  Qed.
  Lemma shock_mirror sl sr : admissible g sl -> admissible g sr -> shock_value g (mirror sr) (mirror sl) = shock_value g sl sr.
  Proof.
    intros [rl [vl [pl [Hrl [Hpl ->]]]]] [rr [vr [pr [Hrr [Hpr ->]]]]]. rewrite !(mirror_cons g Hg), !shock_value_prim by assumption.
    rewrite (Rplus_comm pl pr), (Rabs_minus_sym pl pr). reflexivity.
  Qed.
  (** the compression test reads the slow acoustic wave only: its mirror image reads the fast one *)
  Lemma compressive_mirror rl vl pl rr vr pr : 0 < rl -> 0 < pl -> 0 < rr -> 0 < pr ->
    (shock_compressive g (mirror (cons g rr vr pr)) (mirror (cons g rl vl pl)) = true <->
     vr + sound_of g rr pr < roe_v rl vl rr vr + roe_a g rl vl pl rr vr pr < vl + sound_of g rl pl).
  Proof.
    intros. rewrite !(mirror_cons g Hg), shock_compressive_prim, roe_v_mirror, roe_a_mirror by assumption. lra.
  Qed.
  (** gas at rest, pressure jump 1 : 10 *)
  Lemma shock_not_mirror : shock_compressive g (cons g 1 0 1) (cons g 1 0 10) = true /\
    shock_compressive g (mirror (cons g 1 0 10)) (mirror (cons g 1 0 1)) = false /\
    1 / 3 < shock_value g (cons g 1 0 1) (cons g 1 0 10).
  Proof.
    assert (Ev : roe_v 1 0 1 0 = 0) by (unfold roe_v; replace (1 / 1) with 1 by field; rewrite sqrt_1; field).
    assert (Ea : roe_a g 1 0 1 1 0 10 = sqrt (g * (11 / 2))).
    { unfold roe_a. rewrite Ev. f_equal. unfold roe_H, enthalpy, energy. replace (1 / 1) with 1 by field. rewrite sqrt_1. field. lra. }
    assert (L1 : sqrt (g * 1 / 1) < sqrt (g * (11 / 2))) by (apply sqrt_lt_1; lra).
    assert (L2 : sqrt (g * (11 / 2)) < sqrt (g * 10 / 1)) by (apply sqrt_lt_1; lra).
    split; [|split].
    - apply shock_compressive_prim; try lra. rewrite Ev, Ea. unfold sound_of. lra.
    - destruct (shock_compressive _ _ _) eqn:E; [|reflexivity]. apply compressive_mirror in E; try lra.
      rewrite Ev, Ea in E. unfold sound_of in E. lra.
    - rewrite shock_value_prim by lra. unfold bump. rewrite Rabs_right by lra. lra.
  Qed.
End Sensors.
