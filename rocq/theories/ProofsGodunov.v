(** Godunov solver (C26-C28, C33-C35). *)
From Coq Require Import ZArith List Bool Arith String Reals Lra Lia Psatz.
From Verif Require Import Num Py Lib RealLib EulerPhysics SpecEuler ProofsRiemann.
Import ListNotations.
Open Scope R_scope.

Lemma Rpow_pos x y : 0 < x -> Rpow x y = Rpower x y.
Proof. intro. unfold Rpow. destruct (Rlt_dec 0 x); [reflexivity|contradiction]. Qed.
Lemma Rpower_pos x y : 0 < Rpower x y.
Proof. unfold Rpower. apply exp_pos. Qed.
Lemma Rpower_base_1 y : Rpower 1 y = 1.
Proof. unfold Rpower. rewrite ln_1, Rmult_0_r. apply exp_0. Qed.
Lemma Rpower_lt_1 x y : 0 < x < 1 -> 0 < y -> Rpower x y < 1.
Proof.
  intros [H0 H1] Hy. unfold Rpower. rewrite <- exp_0. apply exp_increasing.
  assert (ln x < 0) by (rewrite <- ln_1; apply ln_increasing; lra). nra.
Qed.
Lemma Rpower_mult_base x y z : 0 < x -> 0 < y -> Rpower (x * y) z = Rpower x z * Rpower y z.
Proof. intros. unfold Rpower. rewrite ln_mult by assumption. rewrite <- exp_plus. f_equal. ring. Qed.

Section Godunov.
  Variable g : R.
  Hypothesis Hg : 1 < g.

  (** the code after convergence *)
  Definition gtail (rl vl pl rr vr pr pm : R) : res st :=
    let aL := sound_of g rl pl in let aR := sound_of g rr pr in
    let mL := massflux g rl aL pl pm in
    let mR := massflux g rr aR pr pm in
    let vm := (mL * vl + mR * vr - (pr - pl)) / (mL + mR) in
    let rm0 := godunov_rm g rl pl pm in
    let rm1 := godunov_rm g rr pr pm in
    let rmI := if Rle_dec 0 vm then rm0 else rm1 in
    let amL := sound_of g rm0 pm in
    let amR := sound_of g rm1 pm in
    if Rle_dec (vm - amL) 0 then
      if Rle_dec 0 (vm + amR) then Ok (godunov_flux g rmI (rmI * vm) (pm / (g - 1) + / 2 * rmI * vm * vm))
      else if Rlt_dec 0 (vr + aR) then
        let '(r, U2, U3) := sonic g vr aR pr vm amR (vr + aR) (vm + amR) in Ok (godunov_flux g r U2 U3)
      else Raise UnboundLocalError
    else if Rlt_dec (vl - aL) 0 then
      let '(r, U2, U3) := sonic g vl aL pl vm amL (vl - aL) (vm - amL) in Ok (godunov_flux g r U2 U3)
    else if Rle_dec 0 (vm + amR) then Raise UnboundLocalError
    else if Rlt_dec 0 (vr + aR) then
      let '(r, U2, U3) := sonic g vr aR pr vm amR (vr + aR) (vm + amR) in Ok (godunov_flux g r U2 U3)
    else Raise UnboundLocalError.

  Definition gstep (rl vl pl rr vr pr : R) : R -> R :=
    godunov_pm2 g rl vl pl (sound_of g rl pl) rr vr pr (sound_of g rr pr).
  Definition gguess (rl vl pl rr vr pr : R) : R :=
    godunov_guess g vl pl (sound_of g rl pl) vr pr (sound_of g rr pr).

  Lemma godunov_prim rl vl pl rr vr pr : 0 < rl -> 0 < pl -> 0 < rr -> 0 < pr ->
    godunov1 g (cons g rl vl pl) (cons g rr vr pr) =
    if Rle_dec (sound_of g rl pl) vl then Ok (eflux g rl vl pl)
    else if Rle_dec vr (- sound_of g rr pr) then Ok (eflux g rr vr pr)
    else rbind (godunov_iter (gstep rl vl pl rr vr pr) 101 (gguess rl vl pl rr vr pr))
               (fun it => gtail rl vl pl rr vr pr (snd it)).
  Proof.
    intros Hrl Hpl Hrr Hpr.
    pose proof (sound_pos g Hg rl pl Hrl Hpl) as HaL. pose proof (sound_pos g Hg rr pr Hrr Hpr) as HaR.
    unfold godunov1, cons. unfold nhalf, lit. numR. rewrite !pres_of, !vel_of by assumption.
    fold (sound_of g rl pl) (sound_of g rr pr).
    set (aL := sound_of g rl pl) in *. set (aR := sound_of g rr pr) in *.
    assert (E1 : Rleb 1 (vl / aL) = if Rle_dec aL vl then true else false).
    { destruct (Rle_dec aL vl).
      - apply Rleb_true. apply Rmult_le_reg_r with aL; [assumption|]. unfold Rdiv. rewrite Rmult_assoc, Rinv_l by lra. lra.
      - apply Rleb_false. apply Rmult_lt_reg_r with aL; [assumption|]. unfold Rdiv. rewrite Rmult_assoc, Rinv_l by lra. lra. }
    assert (E2 : Rleb (vr / aR) (-1) = if Rle_dec vr (- aR) then true else false).
    { destruct (Rle_dec vr (- aR)).
      - apply Rleb_true. apply Rmult_le_reg_r with aR; [assumption|]. unfold Rdiv. rewrite Rmult_assoc, Rinv_l by lra. lra.
      - apply Rleb_false. apply Rmult_lt_reg_r with aR; [assumption|]. unfold Rdiv. rewrite Rmult_assoc, Rinv_l by lra. lra. }
    change (IZR (-1)) with (-1). rewrite E1, E2. destruct (Rle_dec aL vl); [reflexivity|]. destruct (Rle_dec vr (- aR)); [reflexivity|].
    unfold gstep, gguess. fold aL aR.
    match goal with |- rbind ?x _ = rbind ?y _ => change y with x; destruct x as [[pm1 pm2]|ex]; [|reflexivity] end. cbn [rbind snd].
    unfold gtail. fold aL aR.
    set (mL := massflux g rl aL pl pm2). set (mR := massflux g rr aR pr pm2).
    set (vm := (mL * vl + mR * vr - (pr - pl)) / (mL + mR)).
    set (rm0 := godunov_rm g rl pl pm2). set (rm1 := godunov_rm g rr pr pm2).
    fold (sound_of g rm0 pm2) (sound_of g rm1 pm2). set (amL := sound_of g rm0 pm2). set (amR := sound_of g rm1 pm2).
    unfold Rleb, Rltb. replace (1 / 2) with (/ 2) by field.
    destruct (Rle_dec (vm - amL) 0), (Rle_dec 0 (vm + amR)), (Rlt_dec 0 (vm - amL)), (Rlt_dec (vl - aL) 0), (Rlt_dec (vm + amR) 0), (Rlt_dec 0 (vr + aR)), (Rle_dec 0 vm); cbn [andb]; try lra; reflexivity.
  Qed.

  Lemma massflux_R r c pQ pm : massflux g r c pQ pm =
    if Rle_dec (1 - 1 / 1000000000000000) (pm / pQ) then r * c * sqrt (1 + (g + 1) / (2 * g) * (pm / pQ - 1))
    else r * c * ((g - 1) / (2 * g)) * (1 - pm / pQ) / (1 - Rpow (pm / pQ) ((g - 1) / (2 * g))).
  Proof.
    unfold massflux. numR. cbn [npow LibmR].
    replace (1 / 2 * (g + 1) / g) with ((g + 1) / (2 * g)) by (field; lra).
    replace (1 / 2 * (g - 1) / g) with ((g - 1) / (2 * g)) by (field; lra).
    unfold Rleb. destruct (Rle_dec _ _); reflexivity.
  Qed.
  Lemma godunov_rm_R r P pm : godunov_rm g r P pm =
    if Rle_dec 1 (pm / P) then r * (1 + (g + 1) / (g - 1) * pm / P) / ((g + 1) / (g - 1) + pm / P)
    else r * Rpow (pm / P) (1 / g).
  Proof. unfold godunov_rm. numR. cbn [npow LibmR]. unfold Rleb. destruct (Rle_dec _ _); reflexivity. Qed.

  Lemma massflux_self r c p : 0 < p -> massflux g r c p p = r * c.
  Proof.
    intro. rewrite massflux_R. replace (p / p) with 1 by (field; lra). destruct (Rle_dec _ 1); [|lra].
    replace (1 + (g + 1) / (2 * g) * (1 - 1)) with 1 by ring. rewrite sqrt_1. ring.
  Qed.
  Lemma godunov_rm_self r p : 0 < p -> godunov_rm g r p p = r.
  Proof.
    intro. rewrite godunov_rm_R. replace (p / p) with 1 by (field; lra). destruct (Rle_dec 1 1); [|lra]. field. repeat split; lra.
  Qed.

  Lemma gam1_lt : 0 < (g + 1) / (2 * g) < 1.
  Proof.
    split; [apply Rdiv_lt_0_compat; lra|]. apply Rmult_lt_reg_r with (2 * g); [lra|]. unfold Rdiv. rewrite Rmult_assoc, Rinv_l by lra. lra.
  Qed.
  Lemma gam2_lt : 0 < (g - 1) / (2 * g) < 1.
  Proof.
    split; [apply Rdiv_lt_0_compat; lra|]. apply Rmult_lt_reg_r with (2 * g); [lra|]. unfold Rdiv. rewrite Rmult_assoc, Rinv_l by lra. lra.
  Qed.
  Lemma massflux_pos r c pQ pm : 0 < r -> 0 < c -> 0 < pQ -> 0 < pm -> 0 < massflux g r c pQ pm.
  Proof.
    intros. rewrite massflux_R. pose proof gam1_lt as G1. pose proof gam2_lt as G2.
    assert (0 < pm / pQ) by (apply Rdiv_lt_0_compat; assumption). set (x := pm / pQ) in *.
    assert (0 < r * c) by (apply Rmult_lt_0_compat; assumption).
    destruct (Rle_dec _ x) as [Hx|Hx].
    - apply Rmult_lt_0_compat; [assumption|]. apply sqrt_lt_R0. nra.
    - rewrite Rpow_pos by assumption. assert (Rpower x ((g - 1) / (2 * g)) < 1) by (apply Rpower_lt_1; lra).
      apply Rdiv_lt_0_compat; [|lra]. apply Rmult_lt_0_compat; [|lra]. apply Rmult_lt_0_compat; lra.
  Qed.
  Lemma godunov_rm_pos r P pm : 0 < r -> 0 < P -> 0 < pm -> 0 < godunov_rm g r P pm.
  Proof.
    intros. rewrite godunov_rm_R. assert (0 < pm / P) by (apply Rdiv_lt_0_compat; assumption).
    assert (0 < (g + 1) / (g - 1)) by (apply Rdiv_lt_0_compat; lra).
    destruct (Rle_dec 1 (pm / P)).
    - apply Rdiv_lt_0_compat; [|lra]. apply Rmult_lt_0_compat; [assumption|].
      replace ((g + 1) / (g - 1) * pm / P) with ((g + 1) / (g - 1) * (pm / P)) by (unfold Rdiv; ring). nra.
    - rewrite Rpow_pos by assumption. apply Rmult_lt_0_compat; [assumption|apply Rpower_pos].
  Qed.

  Lemma godunov_flux_eflux rm v p : rm <> 0 ->
    godunov_flux g rm (rm * v) (p / (g - 1) + / 2 * rm * v * v) = eflux g rm v p.
  Proof.
    intro. unfold godunov_flux, eflux, energy. numR. st3; field; lra.
  Qed.

  (** equal velocities and pressures *)
  Lemma guess_equal rl rr v p : 0 < rl -> 0 < rr -> 0 < p -> gguess rl v p rr v p = p.
  Proof.
    intros Hrl Hrr Hp. unfold gguess, godunov_guess. numR. cbn [npow LibmR]. rewrite !(Rpow_pos p) by assumption.
    pose proof (sound_pos g Hg rl p Hrl Hp) as HaL. pose proof (sound_pos g Hg rr p Hrr Hp) as HaR.
    set (aL := sound_of g rl p) in *. set (aR := sound_of g rr p) in *. set (e := (1 - g) / g * (1 / 2)).
    pose proof (Rpower_pos p e).
    replace ((1 / 2 * (v - v) * (g - 1) + aL + aR) / (aL * Rpower p e + aR * Rpower p e)) with (/ Rpower p e) by (field; split; nra).
    rewrite <- Rpower_Ropp. rewrite Rpow_pos by apply Rpower_pos. rewrite Rpower_mult.
    replace (- e * (2 * g / (g - 1))) with 1 by (unfold e; field; lra). apply Rpower_1. assumption.
  Qed.
  Lemma step_equal rl rr v p : 0 < rl -> 0 < rr -> 0 < p -> gstep rl v p rr v p p = p.
  Proof.
    intros Hrl Hrr Hp. unfold gstep, godunov_pm2. numR.
    pose proof (sound_pos g Hg rl p Hrl Hp) as HaL. pose proof (sound_pos g Hg rr p Hrr Hp) as HaR.
    rewrite !massflux_self by assumption.
    assert (0 < rl * sound_of g rl p) by (apply Rmult_lt_0_compat; assumption).
    assert (0 < rr * sound_of g rr p) by (apply Rmult_lt_0_compat; assumption). field. lra.
  Qed.
  Lemma iter_fixed (step : R -> R) (p : R) n : step p = p -> godunov_iter step (S n) p = Ok (p, p).
  Proof.
    intro H. cbn [godunov_iter]. rewrite H. numR. unfold Rltb. rewrite Rminus_eq_0, Rabs_R0.
    destruct (Rlt_dec 0 (1 / 1000000)); [reflexivity|lra].
  Qed.
  (** a contact moving with the flow *)
  Lemma godunov_contact_any rl rr v p : 0 < rl -> 0 < rr -> 0 < p ->
    v < sound_of g rl p -> - sound_of g rr p < v -> - sound_of g rr p <= v <= sound_of g rl p ->
    godunov1 g (cons g rl v p) (cons g rr v p) = Ok (if Rle_dec 0 v then eflux g rl v p else eflux g rr v p).
  Proof.
    intros Hrl Hrr Hp H1 H2 H3. rewrite godunov_prim by assumption.
    pose proof (sound_pos g Hg rl p Hrl Hp) as HaL. pose proof (sound_pos g Hg rr p Hrr Hp) as HaR.
    destruct (Rle_dec _ v); [lra|]. destruct (Rle_dec v _); [lra|].
    rewrite guess_equal by assumption. rewrite iter_fixed by (apply step_equal; assumption). cbn [rbind snd].
    unfold gtail. rewrite !massflux_self, !godunov_rm_self by assumption.
    set (aL := sound_of g rl p) in *. set (aR := sound_of g rr p) in *.
    assert (0 < rl * aL) by (apply Rmult_lt_0_compat; assumption). assert (0 < rr * aR) by (apply Rmult_lt_0_compat; assumption).
    replace ((rl * aL * v + rr * aR * v - (p - p)) / (rl * aL + rr * aR)) with v by (field; lra).
    destruct (Rle_dec (v - aL) 0); [|lra]. destruct (Rle_dec 0 (v + aR)); [|lra].
    destruct (Rle_dec 0 v); rewrite godunov_flux_eflux by lra; reflexivity.
  Qed.
  Lemma godunov_consistent rho v p : 0 < rho -> 0 < p -> godunov1 g (cons g rho v p) (cons g rho v p) = Ok (eflux g rho v p).
  Proof.
    intros Hr Hp. pose proof (sound_pos g Hg rho p Hr Hp) as Ha.
    destruct (Rle_lt_dec (sound_of g rho p) v) as [K|K].
    - rewrite godunov_prim by assumption. destruct (Rle_dec _ v); [reflexivity|lra].
    - destruct (Rle_lt_dec v (- sound_of g rho p)) as [K'|K'].
      + rewrite godunov_prim by assumption. destruct (Rle_dec _ v); [reflexivity|]. destruct (Rle_dec v _); [reflexivity|lra].
      + rewrite godunov_contact_any by (try assumption; lra). destruct (Rle_dec 0 v); reflexivity.
  Qed.
  Lemma godunov_contact rl rr p : 0 < rl -> 0 < rr -> 0 < p ->
    godunov1 g (cons g rl 0 p) (cons g rr 0 p) = Ok (0, p, 0).
  Proof.
    intros Hrl Hrr Hp.
    pose proof (sound_pos g Hg rl p Hrl Hp) as HaL. pose proof (sound_pos g Hg rr p Hrr Hp) as HaR.
    rewrite godunov_contact_any by (try assumption; lra). f_equal. unfold eflux, energy. destruct (Rle_dec 0 0); st3; field; lra.
  Qed.

  (** C34: outcomes *)
  Definition not_converged : exn := SysExit "Godunov fixed-point iteration did not converge. Exiting.".
  Fixpoint iterate (f : R -> R) (n : nat) (x : R) : R := match n with O => x | S k => iterate f k (f x) end.
  Lemma iter_outcome (step : R -> R) fuel (p : R) : (exists k p1 p2, (k < fuel)%nat /\ godunov_iter step fuel p = Ok (p1, p2) /\ p1 = iterate step k p
       /\ p2 = step p1 /\ Rabs (p2 - p1) < / 1000000) \/ godunov_iter step fuel p = Raise not_converged.
  Proof.
    revert p. induction fuel as [|n IH]; intro p; [right; reflexivity|]. cbn [godunov_iter]. numR. unfold Rltb.
    destruct (Rlt_dec _ _) as [H|H].
    - left. exists 0%nat, p, (step p). repeat split; [lia|]. lra.
    - destruct (IH (step p)) as [[k [p1 [p2 [H1 [H2 [H3 H4]]]]]]|E]; [left|right; exact E].
      exists (S k), p1, p2. repeat split; try lia; try assumption; apply H4.
  Qed.
  Lemma gtail_total rl vl pl rr vr pr pm : vl < sound_of g rl pl -> - sound_of g rr pr < vr ->
    exists f, gtail rl vl pl rr vr pr pm = Ok f.
  Proof.
    intros H1 H2. unfold gtail. cbv zeta.
    repeat match goal with
    | |- context [Rle_dec ?a ?b] => destruct (Rle_dec a b)
    | |- context [Rlt_dec ?a ?b] => destruct (Rlt_dec a b)
    end; try (eexists; reflexivity); try lra;
    match goal with |- context [sonic ?a ?b ?c ?d ?e ?f ?h ?i] => destruct (sonic a b c d e f h i) as [[x y] z] end; eexists; reflexivity.
  Qed.

  (** C27: mirror symmetry *)
  Lemma godunov_iter_ext (f h : R -> R) n p : (forall x, f x = h x) -> godunov_iter f n p = godunov_iter h n p.
  Proof.
    intro H. revert p. induction n as [|n IH]; intro p; [reflexivity|]. cbn [godunov_iter]. rewrite !H. 
    destruct (_ <? _)%num; [reflexivity|]. apply IH.
  Qed.
  Lemma gguess_mirror rl vl pl rr vr pr : gguess rr (- vr) pr rl (- vl) pl = gguess rl vl pl rr vr pr.
  Proof.
    unfold gguess, godunov_guess. numR. f_equal. unfold Rdiv. apply f_equal2; [ring|]. apply f_equal. ring.
  Qed.
  Lemma gstep_mirror rl vl pl rr vr pr x : gstep rr (- vr) pr rl (- vl) pl x = gstep rl vl pl rr vr pr x.
  Proof.
    unfold gstep, godunov_pm2. numR. unfold Rdiv. f_equal; [ring|]. f_equal. ring.
  Qed.
  Lemma godunov_flux_mirror r U2 U3 : godunov_flux g r (- U2) U3 = mirror_flux (godunov_flux g r U2 U3).
  Proof. unfold godunov_flux, mirror_flux. numR. unfold Rdiv. st3; ring. Qed.
  Lemma sonic_mirror u1 c1 P1 u2 c2 a1 a2 : a2 - a1 <> 0 ->
    sonic g (- u1) c1 P1 (- u2) c2 (- a1) (- a2) = mirror (sonic g u1 c1 P1 u2 c2 a1 a2).
  Proof.
    intro H. unfold sonic, mirror. numR. cbn [npow LibmR].
    replace (- a2 / (- a2 - - a1)) with (a2 / (a2 - a1)) by (field; split; lra).
    replace (- - a1 / (- a2 - - a1)) with (- a1 / (a2 - a1)) by (field; split; lra).
    st3; ring.
  Qed.
  Lemma gtail_mirror rl vl pl rr vr pr pm : vl < sound_of g rl pl -> - sound_of g rr pr < vr ->
    0 < rl -> 0 < pl -> 0 < rr -> 0 < pr -> 
    gtail rr (- vr) pr rl (- vl) pl pm = rbind (gtail rl vl pl rr vr pr pm) (fun f => Ok (mirror_flux f)).
  Proof.
    intros HL HR Hrl Hpl Hrr Hpr. unfold gtail. cbv zeta.
    set (aL := sound_of g rl pl) in *. set (aR := sound_of g rr pr) in *.
    set (mL := massflux g rl aL pl pm). set (mR := massflux g rr aR pr pm).
    set (rm0 := godunov_rm g rl pl pm). set (rm1 := godunov_rm g rr pr pm).
    assert (0 <= sound_of g rm0 pm) by apply sqrt_pos. assert (0 <= sound_of g rm1 pm) by apply sqrt_pos.
    set (amL := sound_of g rm0 pm) in *. set (amR := sound_of g rm1 pm) in *.
    replace ((mR * - vr + mL * - vl - (pl - pr)) / (mR + mL)) with (- ((mL * vl + mR * vr - (pr - pl)) / (mL + mR))).
    2:{ unfold Rdiv. rewrite (Rplus_comm mR mL). ring. }
    set (vm := (mL * vl + mR * vr - (pr - pl)) / (mL + mR)).
    replace (- vm + amL) with (- (vm - amL)) by ring. replace (- vm - amR) with (- (vm + amR)) by ring.
    replace (- vl + aL) with (- (vl - aL)) by ring. replace (- vr - aR) with (- (vr + aR)) by ring.
    destruct (Rle_dec (- (vm + amR)) 0), (Rle_dec 0 (vm + amR)); try lra.
    - destruct (Rle_dec 0 (- (vm - amL))), (Rle_dec (vm - amL) 0); try lra.
      + cbn [rbind]. f_equal. destruct (Rle_dec 0 (- vm)), (Rle_dec 0 vm); try lra.
        * assert (Ev : vm = 0) by lra. rewrite Ev. unfold godunov_flux, mirror_flux. numR. unfold Rdiv. st3; ring.
        * rewrite <- godunov_flux_mirror. f_equal; ring.
        * rewrite <- godunov_flux_mirror. f_equal; ring.
      + destruct (Rlt_dec 0 (- (vl - aL))), (Rlt_dec (vl - aL) 0); try lra.
        rewrite sonic_mirror by lra. destruct (sonic g vl aL pl vm amL (vl - aL) (vm - amL)) as [[x y] z]. cbn [mirror rbind].
        f_equal. apply godunov_flux_mirror.
    - destruct (Rle_dec (vm - amL) 0); [|lra].
      destruct (Rlt_dec (- (vr + aR)) 0), (Rlt_dec 0 (vr + aR)); try lra.
      rewrite sonic_mirror by lra. destruct (sonic g vr aR pr vm amR (vr + aR) (vm + amR)) as [[x y] z]. cbn [mirror rbind].
      f_equal. apply godunov_flux_mirror.
  Qed.
  Lemma godunov_mirror rl vl pl rr vr pr : 0 < rl -> 0 < pl -> 0 < rr -> 0 < pr ->
    vl < sound_of g rl pl \/ - sound_of g rr pr < vr ->
    godunov1 g (mirror (cons g rr vr pr)) (mirror (cons g rl vl pl)) =
    rbind (godunov1 g (cons g rl vl pl) (cons g rr vr pr)) (fun f => Ok (mirror_flux f)).
  Proof.
    intros Hrl Hpl Hrr Hpr H. rewrite !mirror_cons by assumption. rewrite !godunov_prim by assumption.
    destruct (Rle_dec (sound_of g rl pl) vl) as [K1|K1].
    - destruct (Rle_dec (sound_of g rr pr) (- vr)); [exfalso; destruct H; lra|].
      destruct (Rle_dec (- vl) (- sound_of g rl pl)); [|lra]. cbn [rbind]. rewrite mirror_eflux by assumption. reflexivity.
    - destruct (Rle_dec vr (- sound_of g rr pr)) as [K2|K2].
      + destruct (Rle_dec (sound_of g rr pr) (- vr)); [|lra]. cbn [rbind]. rewrite mirror_eflux by assumption. reflexivity.
      + destruct (Rle_dec (sound_of g rr pr) (- vr)); [lra|]. destruct (Rle_dec (- vl) (- sound_of g rl pl)); [lra|].
        rewrite gguess_mirror. rewrite (godunov_iter_ext _ (gstep rl vl pl rr vr pr)) by (intro; apply gstep_mirror).
        destruct (godunov_iter _ _ _) as [[p1 p2]|e]; [|reflexivity]. cbn [rbind snd].
        apply gtail_mirror; try assumption; lra.
  Qed.

  (** C33: at a fixed point both wave curves pass through (vm, p) *)
  Definition star_v (rl vl pl rr vr pr p : R) : R :=
    let mL := massflux g rl (sound_of g rl pl) pl p in
    let mR := massflux g rr (sound_of g rr pr) pr p in
    (mL * vl + mR * vr - (pr - pl)) / (mL + mR).
  Lemma star_curves rl vl pl rr vr pr p : 0 < rl -> 0 < pl -> 0 < rr -> 0 < pr -> 0 < p ->
    gstep rl vl pl rr vr pr p = p ->
    let mL := massflux g rl (sound_of g rl pl) pl p in
    let mR := massflux g rr (sound_of g rr pr) pr p in
    star_v rl vl pl rr vr pr p = vl - (p - pl) / mL /\ star_v rl vl pl rr vr pr p = vr - (p - pr) / (- mR).
  Proof.
    intros Hrl Hpl Hrr Hpr Hp H mL mR.
    pose proof (sound_pos g Hg rl pl Hrl Hpl) as HaL. pose proof (sound_pos g Hg rr pr Hrr Hpr) as HaR.
    assert (HmL : 0 < mL) by (apply massflux_pos; assumption). assert (HmR : 0 < mR) by (apply massflux_pos; assumption).
    unfold gstep, godunov_pm2 in H. numR. fold mL mR in H. unfold star_v. fold mL mR.
    assert (E : p * (mL + mR) = mL * pr + mR * pl - mL * mR * (vr - vl)) by (rewrite <- H at 1; field; lra).
    split.
    - apply Rmult_eq_reg_r with ((mL + mR) * mL); [|apply Rgt_not_eq; nra]. 
      replace ((mL * vl + mR * vr - (pr - pl)) / (mL + mR) * ((mL + mR) * mL)) with ((mL * vl + mR * vr - (pr - pl)) * mL) by (field; lra).
      replace ((vl - (p - pl) / mL) * ((mL + mR) * mL)) with (vl * (mL + mR) * mL - (p * (mL + mR) - pl * (mL + mR))) by (field; lra).
      rewrite E. ring.
    - apply Rmult_eq_reg_r with ((mL + mR) * mR); [|apply Rgt_not_eq; nra]. 
      replace ((mL * vl + mR * vr - (pr - pl)) / (mL + mR) * ((mL + mR) * mR)) with ((mL * vl + mR * vr - (pr - pl)) * mR) by (field; lra).
      replace ((vr - (p - pr) / - mR) * ((mL + mR) * mR)) with (vr * (mL + mR) * mR + (p * (mL + mR) - pr * (mL + mR))) by (field; lra).
      rewrite E. ring.
  Qed.

  (** one shock: m = signed mass flux *)
  Lemma massflux_shock_sq r pQ pm : 0 < r -> 0 < pQ -> pQ <= pm ->
    massflux g r (sound_of g r pQ) pQ pm * massflux g r (sound_of g r pQ) pQ pm = r * ((g + 1) * pm + (g - 1) * pQ) / 2.
  Proof.
    intros Hr HQ Hm. rewrite massflux_R.
    assert (1 <= pm / pQ). { apply Rmult_le_reg_r with pQ; [assumption|]. unfold Rdiv. rewrite Rmult_assoc, Rinv_l by lra. lra. }
    destruct (Rle_dec _ (pm / pQ)); [|lra]. pose proof gam1_lt as G.
    set (w := sqrt _). assert (Hw : w * w = 1 + (g + 1) / (2 * g) * (pm / pQ - 1)) by (apply sqrt_sqrt; nra).
    replace (r * sound_of g r pQ * w * (r * sound_of g r pQ * w)) with (r * r * (sound_of g r pQ * sound_of g r pQ) * (w * w)) by ring.
    rewrite Hw, sound_sq by assumption. field. repeat split; lra.
  Qed.
  Lemma shock_relations r v pQ pm m vm : 0 < r -> 0 < pQ -> pQ <= pm -> m <> 0 ->
    m * m = r * ((g + 1) * pm + (g - 1) * pQ) / 2 -> vm = v - (pm - pQ) / m ->
    rankine_hugoniot g (v - m / r) r v pQ (godunov_rm g r pQ pm) vm pm.
  Proof.
    intros Hr HQ Hm Hm0 Hmm Hvm.
    assert (Hx : 1 <= pm / pQ). { apply Rmult_le_reg_r with pQ; [assumption|]. unfold Rdiv. rewrite Rmult_assoc, Rinv_l by lra. lra. }
    set (D := m / r - (pm - pQ) / m).
    assert (HD : D * (r * m) = r * ((g - 1) * pm + (g + 1) * pQ) / 2).
    { unfold D. replace ((m / r - (pm - pQ) / m) * (r * m)) with (m * m - r * (pm - pQ)) by (field; split; lra). rewrite Hmm. field. }
    assert (HDp : 0 < r * ((g - 1) * pm + (g + 1) * pQ) / 2) by (apply Rdiv_lt_0_compat; [apply Rmult_lt_0_compat; nra|lra]).
    assert (HD0 : D <> 0) by (intro Z; rewrite Z in HD; lra).
    assert (Hrm : godunov_rm g r pQ pm = m / D).
    { rewrite godunov_rm_R. destruct (Rle_dec 1 (pm / pQ)); [|lra].
      apply Rmult_eq_reg_r with (D * (r * m)); [|lra].
      replace (m / D * (D * (r * m))) with (r * (m * m)) by (field; assumption). rewrite HD, Hmm.
      assert (0 < (g + 1) * pQ + (g - 1) * pm) by nra.
      field. repeat split; lra. }
    assert (Evm : vm = v - m / r + D) by (rewrite Hvm; unfold D; ring).
    assert (EE : energy g (m / D) vm pm * D = pm * D / (g - 1) + m * vm * vm / 2) by (unfold energy; field; lra).
    rewrite Hrm. unfold rankine_hugoniot, st_minus, st_scale, eflux, cons.
    set (S := v - m / r) in *.
    st3.
    - rewrite Evm. unfold S. field. split; lra.
    - assert (Q : m * (vm - v) + pm - pQ = 0) by (rewrite Hvm; field; assumption).
      assert (P1 : m / D * vm * (vm - S) = m * vm) by (rewrite Evm; field; assumption).
      assert (P2 : r * v * (v - S) = m * v) by (unfold S; field; lra).
      lra.
    - assert (P1 : energy g (m / D) vm pm * (vm - S) = pm * D / (g - 1) + m * vm * vm / 2) by (rewrite <- EE; rewrite Evm; ring).
      assert (P2 : energy g r v pQ * (v - S) = pQ * (m / r) / (g - 1) + m * v * v / 2) by (unfold energy, S; field; lra).
      assert (Q : (pm * D - pQ * (m / r)) / (g - 1) = (pm + pQ) * (pm - pQ) / (2 * m)).
      { unfold D. apply Rmult_eq_reg_r with (2 * (g - 1) * (r * m)); [|apply Rmult_integral_contrapositive_currified; [lra|apply Rmult_integral_contrapositive_currified; lra]].
        replace ((pm * (m / r - (pm - pQ) / m) - pQ * (m / r)) / (g - 1) * (2 * (g - 1) * (r * m))) with
                (2 * ((pm - pQ) * (m * m) - r * pm * (pm - pQ))) by (field; lra).
        rewrite Hmm. field. lra. }
      assert (Q2 : m * vm * vm / 2 - m * v * v / 2 = - (pm - pQ) * (vm + v) / 2).
      { replace (m * vm * vm / 2 - m * v * v / 2) with (m * (vm - v) * (vm + v) / 2) by field.
        assert (Z : m * (vm - v) = - (pm - pQ)) by (rewrite Hvm; field; assumption). rewrite Z. reflexivity. }
      assert (Q3 : pm * vm - pQ * v - (pm - pQ) * (vm + v) / 2 = - ((pm + pQ) * (pm - pQ) / (2 * m))).
      { rewrite Hvm. field. assumption. }
      replace ((pm * D - pQ * (m / r)) / (g - 1)) with (pm * D / (g - 1) - pQ * (m / r) / (g - 1)) in Q by (field; lra).
      lra.
  Qed.

  (** one rarefaction *)
  Lemma div_gt0 a b : 0 < a -> 0 < b -> 0 < a / b. Proof. apply Rdiv_lt_0_compat. Qed.
  Lemma ratio_lt pm pQ c : 0 < pQ -> pm / pQ < c <-> pm < c * pQ.
  Proof.
    intro H. split; intro K.
    - apply Rmult_lt_compat_r with (r := pQ) in K; [|assumption]. unfold Rdiv in K. rewrite Rmult_assoc, Rinv_l in K by lra. lra.
    - apply Rmult_lt_reg_r with pQ; [assumption|]. unfold Rdiv. rewrite Rmult_assoc, Rinv_l by lra. lra.
  Qed.
  Lemma rm_isentrope r pQ pm : 0 < r -> 0 < pQ -> 0 < pm -> pm < pQ -> same_isentrope g r pQ (godunov_rm g r pQ pm) pm.
  Proof.
    intros Hr HQ Hm H. rewrite godunov_rm_R. assert (0 < pm / pQ) by (apply div_gt0; assumption).
    assert (pm / pQ < 1) by (apply ratio_lt; lra). destruct (Rle_dec 1 (pm / pQ)); [lra|].
    rewrite Rpow_pos by assumption. unfold same_isentrope.
    rewrite Rpower_mult_base by (try assumption; apply Rpower_pos). rewrite Rpower_mult.
    replace (1 / g * g) with 1 by (field; lra). rewrite Rpower_1 by assumption. pose proof (Rpower_pos r g). field. repeat split; lra.
  Qed.
  Lemma rm_sound r pQ pm : 0 < r -> 0 < pQ -> 0 < pm -> pm < pQ ->
    sound_of g (godunov_rm g r pQ pm) pm = sound_of g r pQ * Rpower (pm / pQ) ((g - 1) / (2 * g)).
  Proof.
    intros Hr HQ Hm H. assert (0 < pm / pQ) by (apply div_gt0; assumption).
    assert (pm / pQ < 1) by (apply ratio_lt; lra).
    pose proof (sound_pos g Hg r pQ Hr HQ) as Ha. pose proof (Rpower_pos (pm / pQ) ((g - 1) / (2 * g))) as HX.
    assert (0 < sound_of g r pQ * Rpower (pm / pQ) ((g - 1) / (2 * g))) by nra.
    unfold sound_of at 1. apply sqrt_lem_1; [|lra|].
    - apply Rlt_le, div_gt0; [nra|apply godunov_rm_pos; assumption].
    - replace (sound_of g r pQ * Rpower (pm / pQ) ((g - 1) / (2 * g)) * (sound_of g r pQ * Rpower (pm / pQ) ((g - 1) / (2 * g))))
        with (sound_of g r pQ * sound_of g r pQ * (Rpower (pm / pQ) ((g - 1) / (2 * g)) * Rpower (pm / pQ) ((g - 1) / (2 * g)))) by ring.
      rewrite sound_sq by assumption. rewrite <- Rpower_plus.
      replace ((g - 1) / (2 * g) + (g - 1) / (2 * g)) with (1 + - (1 / g)) by (field; lra).
      rewrite Rpower_plus, Rpower_1, Rpower_Ropp by assumption.
      rewrite godunov_rm_R. destruct (Rle_dec 1 (pm / pQ)); [lra|]. rewrite Rpow_pos by assumption.
      pose proof (Rpower_pos (pm / pQ) (1 / g)). field. repeat split; lra.
  Qed.
  Lemma rarefaction_relations r v pQ pm vm : 0 < r -> 0 < pQ -> 0 < pm -> pm / pQ < 1 - 1 / 1000000000000000 ->
    vm = v - (pm - pQ) / massflux g r (sound_of g r pQ) pQ pm ->
    left_rarefaction g r v pQ (godunov_rm g r pQ pm) vm pm.
  Proof.
    intros Hr HQ Hm H Hvm. assert (Hlt : pm < pQ) by (apply ratio_lt in H; lra).
    assert (H0 : 0 < pm / pQ) by (apply div_gt0; assumption).
    split; [assumption|]. split; [apply rm_isentrope; assumption|]. unfold same_invariant. rewrite rm_sound by assumption.
    rewrite Hvm, massflux_R. destruct (Rle_dec _ (pm / pQ)); [lra|]. rewrite Rpow_pos by assumption.
    pose proof gam2_lt as G2.
    assert (HX : Rpower (pm / pQ) ((g - 1) / (2 * g)) < 1) by (apply Rpower_lt_1; lra).
    set (X := Rpower (pm / pQ) ((g - 1) / (2 * g))) in *.
    pose proof (sound_pos g Hg r pQ Hr HQ) as Ha. pose proof (sound_sq g Hg r pQ Hr HQ) as Hs. set (a := sound_of g r pQ) in *.
    assert (HpQ : pQ = a * a * r / g) by (rewrite Hs; field; lra).
    replace ((pm - pQ) / (r * a * ((g - 1) / (2 * g)) * (1 - pm / pQ) / (1 - X))) with
            (- (pQ * (1 - X) / (r * a * ((g - 1) / (2 * g))))) by (field; repeat split; lra).
    rewrite HpQ. field. repeat split; lra.
  Qed.

  (** in the band the code treats a very weak rarefaction with the shock mass flux *)
  Lemma weak_rarefaction r v pQ pm vm : 0 < r -> 0 < pQ -> 0 < pm -> 1 - 1 / 1000000000000000 <= pm / pQ -> pm < pQ ->
    vm = v - (pm - pQ) / massflux g r (sound_of g r pQ) pQ pm ->
    same_isentrope g r pQ (godunov_rm g r pQ pm) pm /\
    Rabs (vm + 2 * sound_of g (godunov_rm g r pQ pm) pm / (g - 1) - (v + 2 * sound_of g r pQ / (g - 1)))
      <= 2 / 1000000000000000 * sound_of g r pQ.
  Proof.
    intros Hr HQ Hm Hx Hlt Hvm. split; [apply rm_isentrope; assumption|]. rewrite rm_sound by assumption.
    rewrite Hvm, massflux_R. destruct (Rle_dec _ (pm / pQ)) as [_|]; [|contradiction].
    assert (H0 : 0 < pm / pQ) by (apply div_gt0; assumption). assert (H1 : pm / pQ < 1) by (apply ratio_lt; lra).
    pose proof (sound_pos g Hg r pQ Hr HQ) as Ha. pose proof (sound_sq g Hg r pQ Hr HQ) as Hs. set (a := sound_of g r pQ) in *.
    assert (HpQ : pQ = a * a * r / g) by (rewrite Hs; field; lra).
    assert (Epm : pm = pQ * (pm / pQ)) by (field; lra). set (x := pm / pQ) in *.
    pose proof gam1_lt as G1. pose proof gam2_lt as G2. set (gam1 := (g + 1) / (2 * g)) in *. set (gam2 := (g - 1) / (2 * g)) in *.
    set (d := 1 - x). assert (Hd : 0 < d <= 1 / 1000000000000000) by (unfold d; lra).
    replace (x - 1) with (- d) by (unfold d; ring).
    set (w := sqrt (1 + gam1 * - d)).
    assert (Hw2 : w * w = 1 + gam1 * - d) by (apply sqrt_sqrt; nra).
    assert (Hw0 : 0 < w) by (apply sqrt_lt_R0; nra). assert (Hw1 : 1 / 2 < w) by nra. assert (Hw3 : w < 1) by nra.
    (* first term *)
    assert (E1 : - ((pm - pQ) / (r * a * w)) = a * (d / (g * w))).
    { rewrite Epm, HpQ. unfold d. field. repeat split; lra. }
    assert (B1 : 0 <= d / (g * w) <= 2 * d).
    { assert (Hgw : 1 / 2 < g * w) by nra. split; [apply Rlt_le, div_gt0; lra|]. apply Rmult_le_reg_r with (g * w); [lra|]. unfold Rdiv. rewrite Rmult_assoc, Rinv_l by lra. rewrite Rmult_1_r. generalize dependent (g * w). intros q Hq1 Hq2. assert (0 < d) by lra. clear - Hq2 H. nra. }
    (* second term *)
    assert (HX : Rpower x gam2 < 1) by (apply Rpower_lt_1; lra).
    assert (B2 : 1 - Rpower x gam2 <= gam2 * (2 * d)).
    { unfold Rpower. set (y := - (gam2 * ln x)). replace (gam2 * ln x) with (- y) by (unfold y; ring).
      assert (1 + - y <= exp (- y)).
      { destruct (Req_dec y 0) as [->|Hy]; [rewrite Ropp_0, exp_0; lra|]. apply Rlt_le, exp_ineq1. lra. }
      assert (y <= gam2 * (2 * d)); [|lra]. unfold y.
      assert (- ln x <= 2 * d); [|nra].
      rewrite <- ln_Rinv by assumption.
      assert (K : forall z, 0 < z -> ln z <= z - 1).
      { intros z Hz. rewrite <- (ln_exp (z - 1)). destruct (Req_dec z 1) as [->|Hz1]; [rewrite Rminus_eq_0, ln_exp, ln_1; lra|].
        apply Rlt_le, ln_increasing; [assumption|]. pose proof (exp_ineq1 (z - 1)). lra. }
      eapply Rle_trans; [apply K, Rinv_0_lt_compat; assumption|].
      assert (/ x <= 1 + 2 * d); [|lra]. apply Rmult_le_reg_r with x; [assumption|]. rewrite Rinv_l by lra. unfold d in *. nra. }
    assert (E2 : 2 * a / (g - 1) - 2 * (a * Rpower x gam2) / (g - 1) = a * (2 / (g - 1) * (1 - Rpower x gam2))) by (field; lra).
    assert (B3 : 2 / (g - 1) * (1 - Rpower x gam2) <= 2 * d).
    { assert (0 < 2 / (g - 1)) by (apply div_gt0; lra).
      apply Rle_trans with (2 / (g - 1) * (gam2 * (2 * d))); [apply Rmult_le_compat_l; lra|].
      replace (2 / (g - 1) * (gam2 * (2 * d))) with (2 * d / g) by (unfold gam2; field; lra).
      apply Rmult_le_reg_r with g; [lra|]. unfold Rdiv. rewrite Rmult_assoc, Rinv_l by lra. nra. }
    assert (B4 : 0 <= 2 / (g - 1) * (1 - Rpower x gam2)).
    { apply Rmult_le_pos; [|lra]. apply Rlt_le, div_gt0; lra. }
    replace (v - (pm - pQ) / (r * a * w) + 2 * (a * Rpower x gam2) / (g - 1) - (v + 2 * a / (g - 1)))
      with (a * (d / (g * w)) - a * (2 / (g - 1) * (1 - Rpower x gam2))) by (rewrite <- E1, <- E2; ring).
    apply Rabs_le. split; nra.
  Qed.

  (** the sonic state *)
  Lemma sonic_state r u1 c1 P1 u2 c2 : 0 < r -> 0 < P1 -> c1 = sound_of g r P1 -> 0 < c2 ->
    u1 - c1 < 0 -> 0 < u2 - c2 -> u2 + 2 * c2 / (g - 1) = u1 + 2 * c1 / (g - 1) ->
    exists rs us Ps, 0 < rs /\ 0 < Ps /\ sonic g u1 c1 P1 u2 c2 (u1 - c1) (u2 - c2) = (rs, rs * us, Ps / (g - 1) + / 2 * rs * us * us) /\
      us = sound_of g rs Ps /\ same_isentrope g r P1 rs Ps /\ same_invariant g r u1 P1 rs us Ps.
  Proof.
    intros Hr HP Hc1 Hc2 H1 H2 HI. pose proof (sound_pos g Hg r P1 Hr HP) as Ha. rewrite <- Hc1 in Ha.
    unfold sonic. numR. cbn [npow LibmR].
    set (a1 := u1 - c1) in *. set (a2 := u2 - c2) in *.
    set (R1 := a2 / (a2 - a1)). set (R2 := - a1 / (a2 - a1)).
    assert (HR1 : 0 < R1) by (apply div_gt0; lra). assert (HR2 : 0 < R2) by (apply div_gt0; lra).
    assert (HR : R1 + R2 = 1) by (unfold R1, R2; field; lra).
    set (us := R1 * u1 + R2 * u2). set (cs := R1 * c1 + R2 * c2).
    assert (Hcs : 0 < cs) by (unfold cs; nra).
    assert (Euc : us = cs).
    { assert (us - cs = R1 * a1 + R2 * a2) by (unfold us, cs, a1, a2; ring).
      assert (R1 * a1 + R2 * a2 = 0) by (unfold R1, R2; field; lra). lra. }
    set (k := 2 * g / (g - 1)).
    assert (Hq : 0 < cs / c1) by (apply div_gt0; assumption). rewrite Rpow_pos by assumption.
    set (Ps := Rpower (cs / c1) k * P1). pose proof (Rpower_pos (cs / c1) k) as HX.
    assert (HPs : 0 < Ps) by (unfold Ps; nra).
    set (rs := g * Ps / (cs * cs)). assert (Hrs : 0 < rs) by (apply div_gt0; nra).
    assert (Hss : sound_of g rs Ps = cs).
    { unfold sound_of. apply sqrt_lem_1; [apply Rlt_le, div_gt0; nra|lra|]. unfold rs. field. repeat split; lra. }
    exists rs, us, Ps. split; [assumption|]. split; [assumption|]. split; [|split; [|split]].
    - st3; field; lra.
    - lra.
    - (* isentrope *)
      unfold same_isentrope.
      assert (Hrr : r = g * P1 / (c1 * c1)).
      { pose proof (sound_sq g Hg r P1 Hr HP) as Q. rewrite <- Hc1 in Q. rewrite Q. field. lra. }
      assert (Ers : rs = Rpower (cs / c1) (k - 2) * r).
      { unfold rs, Ps. rewrite Hrr. unfold Rminus. rewrite Rpower_plus, Rpower_Ropp. change 2 with (INR 2). rewrite Rpower_pow by assumption.
        cbn [pow]. field. lra. }
      rewrite Ers. rewrite Rpower_mult_base by (try assumption; apply Rpower_pos). rewrite Rpower_mult.
      replace ((k - 2) * g) with k by (unfold k; field; lra). unfold Ps. pose proof (Rpower_pos r g). field. split; lra.
    - unfold same_invariant. rewrite Hss, <- Hc1. unfold us, cs.
      replace (R1 * u1 + R2 * u2 + 2 * (R1 * c1 + R2 * c2) / (g - 1)) with (R1 * (u1 + 2 * c1 / (g - 1)) + R2 * (u2 + 2 * c2 / (g - 1))) by (field; lra).
      rewrite HI. replace R1 with (1 - R2) by lra. ring.
  Qed.

  (** the shock satisfies Lax' conditions *)
  Lemma left_shock_of r v pQ pm vm : 0 < r -> 0 < pQ -> pQ <= pm ->
    let m := massflux g r (sound_of g r pQ) pQ pm in
    vm = v - (pm - pQ) / m -> left_shock g r v pQ (godunov_rm g r pQ pm) vm pm (v - m / r).
  Proof.
    intros Hr HQ Hle m Hvm. pose proof (sound_pos g Hg r pQ Hr HQ) as Ha. pose proof (sound_sq g Hg r pQ Hr HQ) as Hs.
    assert (Hm : 0 < m) by (apply massflux_pos; lra).
    assert (Hmm : m * m = r * ((g + 1) * pm + (g - 1) * pQ) / 2) by (apply massflux_shock_sq; assumption).
    assert (RH : rankine_hugoniot g (v - m / r) r v pQ (godunov_rm g r pQ pm) vm pm) by (apply shock_relations; lra).
    assert (Hrm : 0 < godunov_rm g r pQ pm) by (apply godunov_rm_pos; lra).
    split; [assumption|]. split; [exact RH|].
    set (a := sound_of g r pQ) in *. set (rm := godunov_rm g r pQ pm) in *.
    assert (Hra : r * a <= m).
    { apply Rsqr_incr_0; [|nra|lra]. unfold Rsqr. rewrite Hmm. replace (r * a * (r * a)) with (r * r * (a * a)) by ring. rewrite Hs.
      replace (r * r * (g * pQ / r)) with (r * (g * pQ)) by (field; lra).
      apply Rmult_le_reg_r with (2 / r); [apply div_gt0; lra|].
      replace (r * (g * pQ) * (2 / r)) with (2 * g * pQ) by (field; lra).
      replace (r * ((g + 1) * pm + (g - 1) * pQ) / 2 * (2 / r)) with ((g + 1) * pm + (g - 1) * pQ) by (field; lra). nra. }
    split.
    - assert (a <= m / r); [|lra]. apply Rmult_le_reg_r with r; [assumption|]. unfold Rdiv. rewrite Rmult_assoc, Rinv_l by lra. lra.
    - (* mass: rm (vm - S) = m *)
      unfold rankine_hugoniot, st_minus, st_scale, eflux, cons in RH. injection RH as RH1 _ _.
      assert (EM : rm * (vm - (v - m / r)) = m).
      { assert (r * (v - (v - m / r)) = m) by (field; lra). lra. }
      assert (Hmr : m * m <= g * pm * rm).
      { rewrite Hmm. unfold rm. rewrite godunov_rm_R.
        assert (Hx : 1 <= pm / pQ). { apply Rmult_le_reg_r with pQ; [assumption|]. unfold Rdiv. rewrite Rmult_assoc, Rinv_l by lra. lra. }
        destruct (Rle_dec 1 (pm / pQ)); [|lra].
        assert (HK : 0 < (g + 1) * pQ + (g - 1) * pm) by nra.
        replace (g * pm * (r * (1 + (g + 1) / (g - 1) * pm / pQ) / ((g + 1) / (g - 1) + pm / pQ)))
          with (r * ((g + 1) * pm + (g - 1) * pQ) / 2 * (2 * g * pm / ((g + 1) * pQ + (g - 1) * pm))) by (field; repeat split; lra).
        assert (HH : 0 < r * ((g + 1) * pm + (g - 1) * pQ) / 2) by (apply div_gt0; [apply Rmult_lt_0_compat; nra|lra]).
        assert (1 <= 2 * g * pm / ((g + 1) * pQ + (g - 1) * pm)).
        { apply Rmult_le_reg_r with ((g + 1) * pQ + (g - 1) * pm); [assumption|]. unfold Rdiv. rewrite Rmult_assoc, Rinv_l by lra. nra. }
        nra. }
      assert (vm - (v - m / r) <= sound_of g rm pm); [|lra].
      apply Rsqr_incr_0_var; [|apply sqrt_pos]. unfold Rsqr. rewrite sound_sq by lra.
      set (D := vm - (v - m / r)) in *. apply Rmult_le_reg_r with (rm * rm); [nra|].
      replace (g * pm / rm * (rm * rm)) with (g * pm * rm) by (field; lra).
      replace (D * D * (rm * rm)) with (rm * D * (rm * D)) by ring. rewrite EM. exact Hmr.
  Qed.

  Definition off_band (p pQ : R) : Prop := pQ <= p \/ p / pQ < 1 - 1 / 1000000000000000.
  Lemma left_side r v pQ pm vm : 0 < r -> 0 < pQ -> 0 < pm -> off_band pm pQ -> v < sound_of g r pQ ->
    vm = v - (pm - pQ) / massflux g r (sound_of g r pQ) pQ pm ->
    let rm := godunov_rm g r pQ pm in let am := sound_of g rm pm in let a := sound_of g r pQ in
    left_wave g r v pQ rm vm pm /\
    (vm - am <= 0 -> left_at0 g r v pQ rm vm pm rm vm pm) /\
    (0 < vm - am -> exists r0 v0 p0, 0 < r0 /\ left_at0 g r v pQ rm vm pm r0 v0 p0 /\
        sonic g v a pQ vm am (v - a) (vm - am) = (r0, r0 * v0, p0 / (g - 1) + / 2 * r0 * v0 * v0)).
  Proof.
    intros Hr HQ Hm HB Hv Hvm rm am a. pose proof (sound_pos g Hg r pQ Hr HQ) as Ha. fold a in Ha, Hv.
    assert (Hrm : 0 < rm) by (apply godunov_rm_pos; assumption). pose proof (sound_pos g Hg rm pm Hrm Hm) as Ham. fold am in Ham.
    destruct HB as [HB|HB].
    - pose proof (left_shock_of r v pQ pm vm Hr HQ HB Hvm) as SH. cbv zeta in SH. fold rm in SH. fold a in SH.
      set (S := v - massflux g r a pQ pm / r) in *.
      assert (HS : S <= v - a) by (destruct SH as [_ [_ [SH _]]]; exact SH).
      assert (HS2 : vm - am <= S) by (destruct SH as [_ [_ [_ SH]]]; exact SH).
      split; [left; exists S; exact SH|]. split.
      + intro K. left. exists S. split; [exact SH|]. right. split; [lra|reflexivity].
      + intro K. lra.
    - pose proof (rarefaction_relations r v pQ pm vm Hr HQ Hm HB Hvm) as RF. fold rm in RF.
      split; [right; exact RF|]. split.
      + intro K. right. split; [exact RF|]. right. left. split; [exact K|reflexivity].
      + intro K. assert (HI : vm + 2 * am / (g - 1) = v + 2 * a / (g - 1)) by (destruct RF as [_ [_ RF]]; exact RF).
        destruct (sonic_state r v a pQ vm am Hr HQ eq_refl Ham ltac:(lra) K HI) as [r0 [v0 [p0 [H1 [H2 [H3 [H4 [H5 H6]]]]]]]].
        exists r0, v0, p0. split; [exact H1|]. split; [|exact H3]. right. split; [exact RF|]. right. right. fold a am. repeat split; try assumption; lra.
  Qed.

  (** C33: at a fixed point the flux is the flux of the exact solution on x/t = 0 *)
  Lemma gtail_exact rl vl pl rr vr pr p : 0 < rl -> 0 < pl -> 0 < rr -> 0 < pr -> 0 < p ->
    vl < sound_of g rl pl -> - sound_of g rr pr < vr ->
    gstep rl vl pl rr vr pr p = p -> off_band p pl -> off_band p pr ->
    exists r0 v0 p0, gtail rl vl pl rr vr pr p = Ok (eflux g r0 v0 p0) /\ riemann_at0 g rl vl pl rr vr pr r0 v0 p0.
  Proof.
    intros Hrl Hpl Hrr Hpr Hp HvL HvR Hfix BL BR.
    destruct (star_curves rl vl pl rr vr pr p Hrl Hpl Hrr Hpr Hp Hfix) as [CL CR]. cbv zeta in CL, CR.
    pose proof (sound_pos g Hg rr pr Hrr Hpr) as HaR.
    assert (HmR : 0 < massflux g rr (sound_of g rr pr) pr p) by (apply massflux_pos; assumption).
    assert (CR' : - star_v rl vl pl rr vr pr p = - vr - (p - pr) / massflux g rr (sound_of g rr pr) pr p).
    { rewrite CR. field. lra. }
    destruct (left_side rl vl pl p _ Hrl Hpl Hp BL HvL CL) as [WL [L1 L2]].
    destruct (left_side rr (- vr) pr p _ Hrr Hpr Hp BR ltac:(lra) CR') as [WR [R1 R2]].
    assert (Hr0 : 0 < godunov_rm g rl pl p) by (apply godunov_rm_pos; assumption).
    assert (Hr1 : 0 < godunov_rm g rr pr p) by (apply godunov_rm_pos; assumption).
    pose proof (sound_pos g Hg _ p Hr0 Hp) as Ham0. pose proof (sound_pos g Hg _ p Hr1 Hp) as Ham1.
    assert (KEY : forall r0 v0 p0, ((0 <= star_v rl vl pl rr vr pr p /\ left_at0 g rl vl pl (godunov_rm g rl pl p) (star_v rl vl pl rr vr pr p) p r0 v0 p0)
              \/ (star_v rl vl pl rr vr pr p <= 0 /\ left_at0 g rr (- vr) pr (godunov_rm g rr pr p) (- star_v rl vl pl rr vr pr p) p r0 (- v0) p0)) ->
              riemann_at0 g rl vl pl rr vr pr r0 v0 p0).
    { intros r0 v0 p0 H. exists p, (star_v rl vl pl rr vr pr p), (godunov_rm g rl pl p), (godunov_rm g rr pr p).
      repeat split; assumption. }
    unfold gtail. cbv zeta. fold (star_v rl vl pl rr vr pr p).
    set (vm := star_v rl vl pl rr vr pr p) in *. set (rm0 := godunov_rm g rl pl p) in *. set (rm1 := godunov_rm g rr pr p) in *.
    set (amL := sound_of g rm0 p) in *. set (amR := sound_of g rm1 p) in *. set (aL := sound_of g rl pl) in *. set (aR := sound_of g rr pr) in *.
    destruct (Rle_dec (vm - amL) 0) as [A1|A1].
    - destruct (Rle_dec 0 (vm + amR)) as [A2|A2].
      + destruct (Rle_dec 0 vm) as [A3|A3]; rewrite godunov_flux_eflux by lra.
        * exists rm0, vm, p. split; [reflexivity|]. apply KEY. left. split; [assumption|]. apply L1. exact A1.
        * exists rm1, vm, p. split; [reflexivity|]. apply KEY. right. split; [lra|]. apply R1. lra.
      + destruct (Rlt_dec 0 (vr + aR)); [|lra].
        destruct (R2 ltac:(lra)) as [r0 [v0 [p0 [K1 [K2 K3]]]]].
        pose proof (sonic_mirror (- vr) aR pr (- vm) amR (- vr - aR) (- vm - amR) ltac:(lra)) as SM.
        rewrite !Ropp_involutive in SM. replace (- (- vr - aR)) with (vr + aR) in SM by ring. replace (- (- vm - amR)) with (vm + amR) in SM by ring.
        rewrite SM, K3. cbn [mirror].
        exists r0, (- v0), p0. split.
        * f_equal. replace (- (r0 * v0)) with (r0 * - v0) by ring. replace (/ 2 * r0 * v0 * v0) with (/ 2 * r0 * - v0 * - v0) by ring.
          apply godunov_flux_eflux. lra.
        * apply KEY. right. split; [lra|]. rewrite Ropp_involutive. exact K2.
    - destruct (Rlt_dec (vl - aL) 0); [|lra].
      destruct (L2 ltac:(lra)) as [r0 [v0 [p0 [K1 [K2 K3]]]]]. rewrite K3.
      exists r0, v0, p0. split; [f_equal; apply godunov_flux_eflux; lra|]. apply KEY. left. split; [lra|exact K2].
  Qed.

  (** C35: single shocks *)
  (** RH across a left-facing shock determines the state behind it *)
  Lemma left_shock_unique r v pQ rs vs ps S : 0 < r -> 0 < pQ -> 0 < rs -> pQ < ps ->
    rankine_hugoniot g S r v pQ rs vs ps -> S < v ->
    let m := massflux g r (sound_of g r pQ) pQ ps in
    r * (v - S) = m /\ vs = v - (ps - pQ) / m /\ rs = godunov_rm g r pQ ps.
  Proof.
    intros Hr HQ Hrs Hp RH HS m. unfold rankine_hugoniot, st_minus, st_scale, eflux, cons in RH. injection RH as E1 E2 E3.
    set (j := r * (v - S)). assert (Hj : 0 < j) by (unfold j; nra).
    assert (M : rs * (vs - S) = j) by (unfold j; lra).
    assert (P : ps - pQ = - j * (vs - v)).
    { assert (rs * vs * (vs - S) + ps = r * v * (v - S) + pQ) by lra.
      replace (rs * vs * (vs - S)) with (rs * (vs - S) * vs) in H by ring. rewrite M in H.
      replace (r * v * (v - S)) with (j * v) in H by (unfold j; ring). lra. }
    assert (Evs : vs = v - (ps - pQ) / j) by (rewrite P; field; lra).
    assert (EN : energy g rs vs ps * (vs - S) + ps * vs = energy g r v pQ * (v - S) + pQ * v) by lra.
    (* j^2 = r ((g+1) ps + (g-1) pQ)/2 *)
    assert (Ds : vs - S = j / r - (ps - pQ) / j).
    { rewrite Evs. unfold j. field. split; nra. }
    assert (J2 : j * j = r * ((g + 1) * ps + (g - 1) * pQ) / 2).
    { unfold energy in EN.
      replace ((ps / (g - 1) + rs * vs * vs / 2) * (vs - S)) with (ps / (g - 1) * (vs - S) + rs * (vs - S) * (vs * vs) / 2) in EN by (field; lra).
      rewrite M, Ds in EN.
      replace ((pQ / (g - 1) + r * v * v / 2) * (v - S)) with (pQ / (g - 1) * (j / r) + j * v * v / 2) in EN by (unfold j; field; lra).
      rewrite Evs in EN.
      assert (Q : (ps - pQ) * (2 * (j * j) - r * ((g + 1) * ps + (g - 1) * pQ)) = 0).
      { apply (f_equal (fun z => z * (2 * (g - 1) * r * j))) in EN.
        replace ((ps / (g - 1) * (j / r - (ps - pQ) / j) + j * ((v - (ps - pQ) / j) * (v - (ps - pQ) / j)) / 2 + ps * (v - (ps - pQ) / j)) * (2 * (g - 1) * r * j))
          with (2 * ps * (j * j - r * (ps - pQ)) + (g - 1) * r * (j * v - (ps - pQ)) * (j * v - (ps - pQ)) + 2 * (g - 1) * r * ps * (j * v - (ps - pQ))) in EN by (field; lra).
        replace ((pQ / (g - 1) * (j / r) + j * v * v / 2 + pQ * v) * (2 * (g - 1) * r * j))
          with (2 * pQ * (j * j) + (g - 1) * r * (j * v) * (j * v) + 2 * (g - 1) * r * pQ * (j * v)) in EN by (field; lra).
        lra. }
      apply Rmult_integral in Q. destruct Q; lra. }
    assert (Hmm : m * m = r * ((g + 1) * ps + (g - 1) * pQ) / 2) by (apply massflux_shock_sq; lra).
    assert (Hmp : 0 < m) by (apply massflux_pos; try lra; apply sound_pos; assumption).
    assert (Ejm : j = m) by nra.
    split; [exact Ejm|]. rewrite <- Ejm. split; [exact Evs|].
    (* density *)
    assert (RH' : rankine_hugoniot g (v - m / r) r v pQ (godunov_rm g r pQ ps) vs ps) by (apply shock_relations; try lra; rewrite <- Ejm; exact Evs).
    unfold rankine_hugoniot, st_minus, st_scale, eflux, cons in RH'. injection RH' as F1 _ _.
    assert (ES : v - m / r = S) by (rewrite <- Ejm; unfold j; field; lra). rewrite ES in F1.
    assert (godunov_rm g r pQ ps * (vs - S) = j) by (unfold j; lra).
    assert (vs - S <> 0) by (intro Z; rewrite Z in M; lra).
    apply Rmult_eq_reg_r with (vs - S); [lra|assumption].
  Qed.

  (** the initial guess solves the two-rarefaction problem exactly *)
  Definition two_rarefactions (rl vl pl rr vr pr q : R) : Prop :=
    sound_of g rl pl * Rpower (q / pl) ((g - 1) / (2 * g)) + sound_of g rr pr * Rpower (q / pr) ((g - 1) / (2 * g))
    = sound_of g rl pl + sound_of g rr pr + (g - 1) / 2 * (vl - vr).
  Lemma Rpower_div x y z : 0 < x -> 0 < y -> Rpower (x / y) z = Rpower x z * Rpower y (- z).
  Proof.
    intros. unfold Rdiv. rewrite Rpower_mult_base by (try apply Rinv_0_lt_compat; assumption). f_equal.
    unfold Rpower. rewrite ln_Rinv by assumption. f_equal. ring.
  Qed.
  Lemma guess_two_rarefactions rl vl pl rr vr pr q : 0 < rl -> 0 < pl -> 0 < rr -> 0 < pr -> 0 < q ->
    two_rarefactions rl vl pl rr vr pr q -> gguess rl vl pl rr vr pr = q.
  Proof.
    intros Hrl Hpl Hrr Hpr Hq H. unfold two_rarefactions in H. unfold gguess, godunov_guess. numR. cbn [npow LibmR].
    rewrite (Rpow_pos pl), (Rpow_pos pr) by assumption.
    pose proof (sound_pos g Hg rl pl Hrl Hpl) as HaL. pose proof (sound_pos g Hg rr pr Hrr Hpr) as HaR.
    set (aL := sound_of g rl pl) in *. set (aR := sound_of g rr pr) in *.
    rewrite !Rpower_div in H by assumption. set (e := (g - 1) / (2 * g)) in *.
    replace ((1 - g) / g * (1 / 2)) with (- e) by (unfold e; field; lra).
    pose proof (Rpower_pos pl (- e)) as XL. pose proof (Rpower_pos pr (- e)) as XR. pose proof (Rpower_pos q e) as XQ.
    replace ((1 / 2 * (vl - vr) * (g - 1) + aL + aR) / (aL * Rpower pl (- e) + aR * Rpower pr (- e))) with (Rpower q e).
    2:{ apply Rmult_eq_reg_r with (aL * Rpower pl (- e) + aR * Rpower pr (- e)); [|apply Rgt_not_eq; nra].
        unfold Rdiv at 1. rewrite Rmult_assoc, Rinv_l by (apply Rgt_not_eq; nra). nra. }
    rewrite Rpow_pos by assumption. rewrite Rpower_mult. replace (e * (2 * g / (g - 1))) with 1 by (unfold e; field; lra).
    apply Rpower_1. assumption.
  Qed.
  Lemma massflux_rarefaction r pQ pm : 0 < r -> 0 < pQ -> 0 < pm -> pm / pQ < 1 - 1 / 1000000000000000 ->
    (pQ - pm) = massflux g r (sound_of g r pQ) pQ pm * (2 / (g - 1) * (sound_of g r pQ - sound_of g r pQ * Rpower (pm / pQ) ((g - 1) / (2 * g)))).
  Proof.
    intros Hr HQ Hm H. assert (H0 : 0 < pm / pQ) by (apply div_gt0; assumption).
    rewrite massflux_R. destruct (Rle_dec _ (pm / pQ)); [lra|]. rewrite Rpow_pos by assumption.
    pose proof gam2_lt as G2.
    assert (HX : Rpower (pm / pQ) ((g - 1) / (2 * g)) < 1) by (apply Rpower_lt_1; lra).
    set (X := Rpower (pm / pQ) ((g - 1) / (2 * g))) in *.
    pose proof (sound_pos g Hg r pQ Hr HQ) as Ha. pose proof (sound_sq g Hg r pQ Hr HQ) as Hs. set (a := sound_of g r pQ) in *.
    replace (r * a * ((g - 1) / (2 * g)) * (1 - pm / pQ) / (1 - X) * (2 / (g - 1) * (a - a * X)))
      with (r * (a * a) / g * (1 - pm / pQ)) by (field; repeat split; lra).
    rewrite Hs. field. repeat split; lra.
  Qed.
  Lemma step_two_rarefactions rl vl pl rr vr pr q : 0 < rl -> 0 < pl -> 0 < rr -> 0 < pr -> 0 < q ->
    q / pl < 1 - 1 / 1000000000000000 -> q / pr < 1 - 1 / 1000000000000000 ->
    two_rarefactions rl vl pl rr vr pr q -> gstep rl vl pl rr vr pr q = q.
  Proof.
    intros Hrl Hpl Hrr Hpr Hq BL BR H. unfold two_rarefactions in H.
    pose proof (massflux_rarefaction rl pl q Hrl Hpl Hq BL) as ML. pose proof (massflux_rarefaction rr pr q Hrr Hpr Hq BR) as MR.
    pose proof (sound_pos g Hg rl pl Hrl Hpl) as HaL. pose proof (sound_pos g Hg rr pr Hrr Hpr) as HaR.
    pose proof (massflux_pos rl (sound_of g rl pl) pl q Hrl HaL Hpl Hq) as PL. pose proof (massflux_pos rr (sound_of g rr pr) pr q Hrr HaR Hpr Hq) as PR.
    unfold gstep, godunov_pm2. numR.
    set (mL := massflux g rl _ pl q) in *. set (mR := massflux g rr _ pr q) in *.
    set (AL := sound_of g rl pl * Rpower (q / pl) ((g - 1) / (2 * g))) in *. set (AR := sound_of g rr pr * Rpower (q / pr) ((g - 1) / (2 * g))) in *.
    set (aL := sound_of g rl pl) in *. set (aR := sound_of g rr pr) in *.
    assert (E : vr - vl = 2 / (g - 1) * (aL - AL) + 2 / (g - 1) * (aR - AR)).
    { apply Rmult_eq_reg_r with ((g - 1) / 2); [|apply Rgt_not_eq, div_gt0; lra].
      replace ((2 / (g - 1) * (aL - AL) + 2 / (g - 1) * (aR - AR)) * ((g - 1) / 2)) with (aL + aR - (AL + AR)) by (field; lra). rewrite H. field. }
    rewrite E. replace (mL * mR * (2 / (g - 1) * (aL - AL) + 2 / (g - 1) * (aR - AR)))
      with (mR * (mL * (2 / (g - 1) * (aL - AL))) + mL * (mR * (2 / (g - 1) * (aR - AR)))) by ring.
    rewrite <- ML, <- MR. field. lra.
  Qed.
  Lemma godunov_two_rarefactions rl vl pl rr vr pr q : 0 < rl -> 0 < pl -> 0 < rr -> 0 < pr -> 0 < q ->
    vl < sound_of g rl pl -> - sound_of g rr pr < vr ->
    q / pl < 1 - 1 / 1000000000000000 -> q / pr < 1 - 1 / 1000000000000000 ->
    two_rarefactions rl vl pl rr vr pr q ->
    exists r0 v0 p0, godunov1 g (cons g rl vl pl) (cons g rr vr pr) = Ok (eflux g r0 v0 p0) /\ riemann_at0 g rl vl pl rr vr pr r0 v0 p0.
  Proof.
    intros Hrl Hpl Hrr Hpr Hq VL VR BL BR H. rewrite godunov_prim by assumption.
    destruct (Rle_dec _ vl); [lra|]. destruct (Rle_dec vr _); [lra|].
    rewrite (guess_two_rarefactions _ _ _ _ _ _ q) by assumption.
    pose proof (step_two_rarefactions _ _ _ _ _ _ _ Hrl Hpl Hrr Hpr Hq BL BR H) as F.
    rewrite iter_fixed by exact F. cbn [rbind snd]. apply gtail_exact; try assumption; right; assumption.
  Qed.
  Lemma godunov_fixed_point rl vl pl rr vr pr p1 p : 0 < rl -> 0 < pl -> 0 < rr -> 0 < pr -> 0 < p ->
    vl < sound_of g rl pl -> - sound_of g rr pr < vr ->
    godunov_iter (gstep rl vl pl rr vr pr) 101 (gguess rl vl pl rr vr pr) = Ok (p1, p) ->
    gstep rl vl pl rr vr pr p = p -> off_band p pl -> off_band p pr ->
    exists r0 v0 p0, godunov1 g (cons g rl vl pl) (cons g rr vr pr) = Ok (eflux g r0 v0 p0) /\ riemann_at0 g rl vl pl rr vr pr r0 v0 p0.
  Proof.
    intros Hrl Hpl Hrr Hpr Hp VL VR HI HF BL BR. rewrite godunov_prim by assumption.
    destruct (Rle_dec _ vl); [lra|]. destruct (Rle_dec vr _); [lra|]. rewrite HI. cbn [rbind snd]. apply gtail_exact; assumption.
  Qed.

  (** single left-facing shock *)
  Lemma left_shock_flux rl vl pl rr vr pr S : 0 < rl -> 0 < pl -> 0 < rr -> 0 < pr ->
    left_shock g rl vl pl rr vr pr S -> pl < pr ->
    (0 <= S -> godunov1 g (cons g rl vl pl) (cons g rr vr pr) = Ok (eflux g rl vl pl)) /\
    (vl < sound_of g rl pl -> vr <= - sound_of g rr pr -> godunov1 g (cons g rl vl pl) (cons g rr vr pr) = Ok (eflux g rr vr pr)) /\
    (vl < sound_of g rl pl -> - sound_of g rr pr < vr ->
       gstep rl vl pl rr vr pr pr = pr /\ gtail rl vl pl rr vr pr pr = Ok (eflux g rr vr pr)) /\
    (sound_of g rl pl <= vl -> godunov1 g (cons g rl vl pl) (cons g rr vr pr) = Ok (eflux g rl vl pl)).
  Proof.
    intros Hrl Hpl Hrr Hpr SH Hlt. destruct SH as [_ [RH [LX1 LX2]]].
    pose proof (sound_pos g Hg rl pl Hrl Hpl) as HaL. pose proof (sound_pos g Hg rr pr Hrr Hpr) as HaR.
    destruct (left_shock_unique rl vl pl rr vr pr S Hrl Hpl Hrr Hlt RH ltac:(lra)) as [U1 [U2 U3]].
    set (m := massflux g rl (sound_of g rl pl) pl pr) in *.
    assert (Hm : 0 < m) by (apply massflux_pos; assumption).
    split; [|split; [|split]].
    - intro HS. rewrite godunov_prim by assumption. destruct (Rle_dec _ vl); [reflexivity|lra].
    - intros V1 V2. rewrite godunov_prim by assumption. destruct (Rle_dec _ vl); [lra|]. destruct (Rle_dec vr _); [reflexivity|lra].
    - intros V1 V2. assert (M2 : massflux g rr (sound_of g rr pr) pr pr = rr * sound_of g rr pr) by (apply massflux_self; assumption).
      assert (0 < rr * sound_of g rr pr) by (apply Rmult_lt_0_compat; assumption).
      split.
      + unfold gstep, godunov_pm2. numR. fold m. rewrite M2. set (aR := sound_of g rr pr) in *.
        rewrite U2. field. split; lra.
      + unfold gtail. cbv zeta. fold m. rewrite M2, godunov_rm_self by assumption. rewrite <- U3. set (aR := sound_of g rr pr) in *.
        assert (EV : (m * vl + rr * aR * vr - (pr - pl)) / (m + rr * aR) = vr).
        { rewrite U2. field. split; lra. }
        rewrite EV. fold aR.
        destruct (Rle_dec (vr - aR) 0); [|lra]. destruct (Rle_dec 0 (vr + aR)); [|lra].
        destruct (Rle_dec 0 vr); rewrite godunov_flux_eflux by lra; reflexivity.
    - intro V. rewrite godunov_prim by assumption. destruct (Rle_dec _ vl); [reflexivity|lra].
  Qed.

  Lemma mirror_flux_eflux2 f r v p : rbind f (fun x => Ok (mirror_flux x)) = Ok (eflux g r (- v) p) -> f = Ok (eflux g r v p).
  Proof.
    destruct f as [[[a b] c]|e]; cbn [rbind]; intro H; [|discriminate]. apply f_equal.
    assert (E : mirror_flux (a, b, c) = eflux g r (- v) p) by congruence.
    rewrite <- mirror_eflux in E by assumption. unfold mirror_flux in E. destruct (eflux g r v p) as [[x y] z]. injection E as E1 E2 E3.
    st3; lra.
  Qed.
  (** single right-facing shock (mirror image of the above) *)
  Lemma right_shock_flux rl vl pl rr vr pr S : 0 < rl -> 0 < pl -> 0 < rr -> 0 < pr ->
    left_shock g rr (- vr) pr rl (- vl) pl S -> pr < pl ->
    (0 <= S -> godunov1 g (cons g rl vl pl) (cons g rr vr pr) = Ok (eflux g rr vr pr)) /\
    (- sound_of g rr pr < vr -> sound_of g rl pl <= vl -> godunov1 g (cons g rl vl pl) (cons g rr vr pr) = Ok (eflux g rl vl pl)) /\
    (- sound_of g rr pr < vr -> vl < sound_of g rl pl ->
       gstep rl vl pl rr vr pr pl = pl /\ gtail rl vl pl rr vr pr pl = Ok (eflux g rl vl pl)) /\
    (vr <= - sound_of g rr pr -> vl < sound_of g rl pl -> godunov1 g (cons g rl vl pl) (cons g rr vr pr) = Ok (eflux g rr vr pr)).
  Proof.
    intros Hrl Hpl Hrr Hpr SH Hlt.
    destruct (left_shock_flux rr (- vr) pr rl (- vl) pl S Hrr Hpr Hrl Hpl SH Hlt) as [_ [_ [F _]]].
    destruct SH as [_ [RH [LX1 LX2]]].
    pose proof (sound_pos g Hg rl pl Hrl Hpl) as HaL. pose proof (sound_pos g Hg rr pr Hrr Hpr) as HaR.
    destruct (left_shock_unique rr (- vr) pr rl (- vl) pl S Hrr Hpr Hrl Hlt RH ltac:(lra)) as [U1 _].
    assert (Hm : 0 < massflux g rr (sound_of g rr pr) pr pl) by (apply massflux_pos; assumption).
    split; [|split; [|split]].
    - intro HS. rewrite godunov_prim by assumption.
      assert (vl < 0).
      { unfold rankine_hugoniot, st_minus, st_scale, eflux, cons in RH. injection RH as E1 _ _.
        assert (0 < rl * (- vl - S)) by lra. nra. }
      destruct (Rle_dec _ vl); [lra|]. destruct (Rle_dec vr _); [reflexivity|lra].
    - intros V1 V2. rewrite godunov_prim by assumption. destruct (Rle_dec _ vl); [reflexivity|lra].
    - intros V1 V2. destruct (F ltac:(lra) ltac:(lra)) as [F1 F2]. split; [rewrite <- gstep_mirror; exact F1|].
      apply mirror_flux_eflux2. rewrite <- gtail_mirror by assumption. exact F2.
    - intros V1 V2. rewrite godunov_prim by assumption. destruct (Rle_dec _ vl); [lra|]. destruct (Rle_dec vr _); [reflexivity|lra].
  Qed.

  Lemma st_eq_scale S a b : S <> 0 -> st_scale S (st_minus a b) = (0, 0, 0) -> a = b.
  Proof.
    destruct a as [[x y] z], b as [[x1 y1] z1]. unfold st_scale, st_minus. intros HS H. injection H as H1 H2 H3.
    apply Rmult_integral in H1, H2, H3. st3; lra.
  Qed.
  (** a left-facing shock that moves left into supersonic flow gets the wrong flux *)
  Lemma supersonic_shock_wrong rl vl pl rr vr pr S : 0 < rl -> 0 < pl -> 0 < rr -> 0 < pr ->
    left_shock g rl vl pl rr vr pr S -> pl < pr -> S < 0 -> sound_of g rl pl <= vl ->
    godunov1 g (cons g rl vl pl) (cons g rr vr pr) = Ok (eflux g rl vl pl) /\ eflux g rl vl pl <> eflux g rr vr pr.
  Proof.
    intros Hrl Hpl Hrr Hpr SH Hlt HS V. split; [apply (left_shock_flux rl vl pl rr vr pr S); assumption|].
    intro E. destruct SH as [_ [RH _]]. unfold rankine_hugoniot in RH. rewrite E, st_minus_self in RH.
    symmetry in RH. apply st_eq_scale in RH; [|lra]. unfold cons, energy in RH. injection RH as E1 E2 E3. subst rr.
    assert (vr = vl) by nra. subst vr. assert (pr / (g - 1) = pl / (g - 1)) by lra.
    assert (pr = pl) by (apply Rmult_eq_reg_r with (/ (g - 1)); [assumption|apply Rinv_neq_0_compat; lra]). lra.
  Qed.

  Lemma admissible_iff rho m E : admissible g (rho, m, E) <-> 0 < rho /\ 0 < (g - 1) * (E - m * m / (2 * rho)).
  Proof.
    split.
    - intros [r [v [p [Hr [Hp H]]]]]. unfold cons in H. injection H as -> -> ->. split; [assumption|].
      replace ((g - 1) * (energy g r v p - r * v * (r * v) / (2 * r))) with p by (unfold energy; field; lra). assumption.
    - intros [Hr Hp]. exists rho, (m / rho), ((g - 1) * (E - m * m / (2 * rho))). repeat split; try assumption.
      unfold cons, energy. st3; field; lra.
  Qed.
End Godunov.

(** ** arrays *)
From Verif Require Import AdvectionPhysics Solution Solver SpecDG ProofsDG ProofsShift.
Open Scope R_scope.
Section Arrays.
  Variable g : R.
  Hypothesis Hg : 1 < g.
  Lemma map2_diag {X Y} (h : X -> X -> Y) l : map2 h l l = map (fun x => h x x) l.
  Proof. induction l as [|x l IH]; [reflexivity|]. cbn [map2 map]. rewrite IH. reflexivity. Qed.
  Lemma combine_diag {X} (l : list X) : combine l l = map (fun x => (x, x)) l.
  Proof. induction l as [|x l IH]; [reflexivity|]. cbn [combine map]. rewrite IH. reflexivity. Qed.
  Lemma mapM_Ok {X Y} (h : X -> res Y) (k : X -> Y) l : (forall x, In x l -> h x = Ok (k x)) -> mapM h l = Ok (map k l).
  Proof.
    intro H. induction l as [|x l IH]; [reflexivity|]. cbn [mapM map]. rewrite (H x) by (left; reflexivity). cbn [rbind].
    rewrite IH by (intros; apply H; right; assumption). reflexivity.
  Qed.
  Lemma riemann_consistent (s : solution R) (u : vec R) :
    (s_riemann s = RUpwind <-> s_euler s = false) ->
    (s_euler s = true -> forall c, In c (split3 u) -> admissible g c) ->
    exists f, riemann g s u u = Ok f /\ interior_flux g s [u] = [f].
  Proof.
    intros K H. unfold riemann, interior_flux. destruct (s_riemann s) eqn:E.
    - assert (Eu : s_euler s = false) by (apply K; reflexivity). rewrite Eu. exists u. split; reflexivity.
    - assert (Eu : s_euler s = true) by (destruct (s_euler s); [reflexivity|]; exfalso; assert (RRusanov = RUpwind) by (apply K; reflexivity); discriminate).
      rewrite Eu. eexists. split; [reflexivity|]. unfold euler_interior_flux. cbn [map]. f_equal. f_equal. rewrite map2_diag.
      apply map_ext_in. intros c Hc. destruct (H Eu c Hc) as [r [v [p [Hr [Hp ->]]]]]. rewrite flux1_prim, rusanov_consistent by assumption. reflexivity.
    - assert (Eu : s_euler s = true) by (destruct (s_euler s); [reflexivity|]; exfalso; assert (RGodunov = RUpwind) by (apply K; reflexivity); discriminate).
      rewrite Eu. unfold riemann_godunov. rewrite combine_diag.
      rewrite (mapM_Ok _ (fun c => flux1 g (fst c))).
      + cbn [rbind]. eexists. split; [reflexivity|]. unfold euler_interior_flux. cbn [map]. f_equal. f_equal. rewrite map_map. apply map_ext. reflexivity.
      + intros c Hc. apply in_map_iff in Hc. destruct Hc as [c' [<- Hc]]. cbn [fst snd].
        destruct (H Eu c' Hc) as [r [v [p [Hr [Hp ->]]]]]. rewrite flux1_prim, godunov_consistent by assumption. reflexivity.
    - assert (Eu : s_euler s = true) by (destruct (s_euler s); [reflexivity|]; exfalso; assert (RRoe = RUpwind) by (apply K; reflexivity); discriminate).
      rewrite Eu. eexists. split; [reflexivity|]. unfold euler_interior_flux. cbn [map]. f_equal. f_equal. rewrite map2_diag.
      apply map_ext_in. intros c Hc. destruct (H Eu c Hc) as [r [v [p [Hr [Hp ->]]]]]. rewrite flux1_prim, roe_consistent by assumption. reflexivity.
  Qed.

  Lemma split3_join3 (l : list st) : split3 (join3 l) = l.
  Proof.
    induction l as [|[[a b] c] l IH]; [reflexivity|].
    change (join3 ((a, b, c) :: l)) with (a :: b :: c :: join3 l). rewrite split3_cons3, IH. reflexivity.
  Qed.
  Lemma rusanov_array (l : list (st * st)) : riemann_rusanov g (join3 (map fst l)) (join3 (map snd l)) = Ok (join3 (map (fun p => rusanov1 g (fst p) (snd p)) l)).
  Proof.
    unfold riemann_rusanov. rewrite !split3_join3. do 2 f_equal. induction l as [|[a b] l IH]; [reflexivity|]. cbn [map map2 fst snd]. rewrite IH. reflexivity.
  Qed.

  (** C31 *)
  Lemma wave_speed_prim rho v p : 0 < rho -> wave_speed g (cons g rho v p) = Rabs v + sound_of g rho p.
  Proof.
    intro. unfold wave_speed, sound, pres, vel, cons. numR. rewrite pres_of, vel_of by assumption. reflexivity.
  Qed.
  Lemma max_speed_bounds ne (s : solution R) (rho v p : nat -> R) : wf ne s -> s_euler s = true ->
    (forall e, (e < ne + 2)%nat -> 0 < rho e /\ 0 < p e /\ (at1 (modes s e 0) 0, at1 (modes s e 1) 0, at1 (modes s e 2) 0) = cons g (rho e) (v e) (p e)) ->
    exists m, max_wave_speed g s = Ok m /\
      (forall e, (e < ne + 2)%nat -> Rabs (v e) <= m /\ Rabs (v e - sound_of g (rho e) (p e)) <= m /\ Rabs (v e + sound_of g (rho e) (p e)) <= m) /\
      (exists e, (e < ne + 2)%nat /\ m = Rabs (v e) + sound_of g (rho e) (p e)).
  Proof.
    intros W Eu H. rewrite (euler_speed_cells g ne s W Eu).
    rewrite (tab_ext (ne + 2) _ (fun e => Rabs (v e) + sound_of g (rho e) (p e))).
    2:{ intros e He. destruct (H e He) as [H1 [H2 ->]]. apply wave_speed_prim. assumption. }
    set (W2 := fun e => Rabs (v e) + sound_of g (rho e) (p e)).
    replace (ne + 2)%nat with (S (ne + 1)) by lia. rewrite tab_S. cbn [npmax].
    match goal with |- context [fold_left _ ?l ?x] => destruct (fold_max_spec l x) as [F1 F2]; set (m := fold_left npmaximum l x) in * end.
    rewrite <- (tab_S (ne + 1) W2) in F1, F2. exists m. split; [reflexivity|]. split.
    - intros e He. assert (Hm : W2 e <= m) by (apply F1; unfold tab; apply in_map, in_seq; lia). unfold W2 in Hm.
      assert (0 <= sound_of g (rho e) (p e)) by apply sqrt_pos.
      repeat split; [lra| |]; unfold Rabs in *; repeat destruct Rcase_abs; lra.
    - unfold tab in F2. apply in_map_iff in F2. destruct F2 as [e [E He]]. apply in_seq in He. exists e. split; [lia|]. symmetry. exact E.
  Qed.
End Arrays.
