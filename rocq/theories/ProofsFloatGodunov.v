(** C34 in binary64: near vacuum the rounded pressure update is negative, its power is NaN, no
    branch applies.  spec_float arithmetic; the values of pow are hypotheses. *)
From Coq Require Import ZArith List Bool Arith String SpecFloat.
From Verif Require Import Num Py EulerPhysics.
Import ListNotations.

Section Generic.
  Context {A : Type} {N : Num A} {L : Libm A}.
  Variables g rl ml el rr mr er vl pl al vr pr ar p1 p2 fl1 fr1 fl2 fr2 x1 x2 x3 e1 y1 y2 : A.
  Definition gam2_of (g : A) : A := ndiv (nmul nhalf (nsub g n1)) g.
  Definition mass_of (r c gam2 x w : A) : A := ndiv (nmul (nmul (nmul r c) gam2) (nsub n1 x)) (nsub n1 w).
  Lemma mass_eq r c pQ pm x gam2 w f : ndiv pm pQ = x -> nleb (nsub n1 (lit 1 1000000000000000)) x = false ->
    gam2_of g = gam2 -> npow x gam2 = w -> mass_of r c gam2 x w = f -> massflux g r c pQ pm = f.
  Proof. intros <- E2 <- <- <-. unfold massflux. rewrite E2. reflexivity. Qed.
  Lemma guess_eq : nmul (ndiv (nsub n1 g) g) nhalf = e1 -> npow pl e1 = y1 -> npow pr e1 = y2 ->
    ndiv (nadd (nadd (nmul (nmul nhalf (nsub vl vr)) (nsub g n1)) al) ar) (nadd (nmul al y1) (nmul ar y2)) = x1 ->
    ndiv (nmul (nofZ 2) g) (nsub g n1) = x2 -> npow x1 x2 = x3 -> godunov_guess g vl pl al vr pr ar = x3.
  Proof. intros E1 E2 E3 E4 E5 E6. unfold godunov_guess. rewrite E1, E2, E3, E4, E5. exact E6. Qed.
  Lemma iter_first step n p q : step p = q -> nltb (nabs (nsub q p)) (lit 1 1000000) = true -> godunov_iter step (S n) p = Ok (p, q).
  Proof. intros E1 E2. cbn [godunov_iter]. rewrite E1. cbv zeta. rewrite E2. reflexivity. Qed.
  Lemma unbound :
    ndiv ml rl = vl -> nmul (nsub g n1) (nsub el (nmul (nmul (nmul nhalf rl) vl) vl)) = pl -> nsqrt (ndiv (nmul g pl) rl) = al ->
    ndiv mr rr = vr -> nmul (nsub g n1) (nsub er (nmul (nmul (nmul nhalf rr) vr) vr)) = pr -> nsqrt (ndiv (nmul g pr) rr) = ar ->
    nleb n1 (ndiv vl al) = false -> nleb (ndiv vr ar) (nofZ (-1)) = false ->
    godunov_guess g vl pl al vr pr ar = p1 -> massflux g rl al pl p1 = fl1 -> massflux g rr ar pr p1 = fr1 ->
    ndiv (nsub (nadd (nmul fl1 pr) (nmul fr1 pl)) (nmul (nmul fl1 fr1) (nsub vr vl))) (nadd fl1 fr1) = p2 ->
    nltb (nabs (nsub p2 p1)) (lit 1 1000000) = true ->
    massflux g rl al pl p2 = fl2 -> massflux g rr ar pr p2 = fr2 ->
    (let vm := ndiv (nsub (nadd (nmul fl2 vl) (nmul fr2 vr)) (nsub pr pl)) (nadd fl2 fr2) in
     forall a, nleb (nsub vm a) n0 = false /\ nltb n0 (nsub vm a) = false /\ nltb (nadd vm a) n0 = false) ->
    godunov1 g (rl, ml, el) (rr, mr, er) = Raise UnboundLocalError.
  Proof.
    intros E1 E2 E3 E4 E5 E6 E7 E8 E9 E10 E11 E12 E13 E14 E15 E16. unfold godunov1. rewrite E1, E2, E3, E4, E5, E6, E7, E8, E9.
    assert (F : godunov_pm2 g rl vl pl al rr vr pr ar p1 = p2) by (unfold godunov_pm2; rewrite E10, E11; exact E12).
    rewrite (iter_first _ 100 p1 p2 F E13). cbv beta iota zeta delta [rbind snd].
    rewrite E14, E15. cbv zeta in E16.
    set (vm := ndiv (nsub (nadd (nmul fl2 vl) (nmul fr2 vr)) (nsub pr pl)) (nadd fl2 fr2)) in *.
    match goal with |- context [nleb (nsub vm ?a) n0] => destruct (E16 a) as [F1 [F2 _]]; rewrite F1, F2 end.
    match goal with |- context [nltb (nadd vm ?a) n0] => destruct (E16 a) as [_ [_ F3]]; rewrite F3 end. reflexivity.
  Qed.
End Generic.

Definition fl (neg : bool) (m : positive) (e : Z) : spec_float := S754_finite neg m e.
(** the values of pow the evaluation needs: correctly rounded for positive arguments, NaN for a
    negative base with a non-integer exponent (C99) *)
Definition pow_facts (L : Libm spec_float) : Prop :=
  npow (fl false 7205759403792792 (-55)) (fl true 5146971002709137 (-55)) = fl false 5667775405156691 (-52) /\
  npow (fl false 9007199254740990 (-51)) (fl true 5146971002709137 (-55)) = fl false 7388924007269683 (-53) /\
  npow (fl false 5588253809141436 (-62)) (fl false 7881299347898369 (-50)) = fl false 5099342954178371 (-120) /\
  npow (fl false 6374178692722965 (-118)) (fl false 5146971002709137 (-55)) = fl false 7032811554724694 (-62) /\
  npow (fl false 5099342954178372 (-122)) (fl false 5146971002709137 (-55)) = fl false 4584242177983083 (-62) /\
  (forall m e, npow (fl true m e) (fl false 5146971002709137 (-55)) = S754_nan).

Ltac vm := vm_compute; reflexivity.
Ltac eval_to t := let v := eval vm_compute in t in constr:(v).
Lemma w_unbound (L : Libm spec_float) : pow_facts L ->
  godunov1 (lit 7 5) (nofZ 1, nofZ (-7), nofZ 25) (nofZ 2, nofZ 8, nofZ 26) = Raise UnboundLocalError.
Proof.
  intros [H1 [H2 [H3 [H4 [H5 H6]]]]].
  set (g := lit 7 5).
  pose (pl := fl false 7205759403792792 (-55)). pose (pr := fl false 9007199254740990 (-51)).
  pose (gam2 := fl false 5146971002709137 (-55)).
  pose (p1 := fl false 5099342954178371 (-120)). pose (p2 := fl true 8125200418509456 (-106)).
  let a := eval vm_compute in (nsqrt (ndiv (nmul (lit 7 5) (fl false 7205759403792792 (-55))) (nofZ 1))) in pose (al := a).
  let a := eval vm_compute in (nsqrt (ndiv (nmul (lit 7 5) (fl false 9007199254740990 (-51))) (nofZ 2))) in pose (ar := a).
  let a := eval vm_compute in (mass_of (nofZ 1) al gam2 (fl false 6374178692722965 (-118)) (fl false 7032811554724694 (-62))) in pose (f1 := a).
  let a := eval vm_compute in (mass_of (nofZ 2) ar gam2 (fl false 5099342954178372 (-122)) (fl false 4584242177983083 (-62))) in pose (f2 := a).
  apply (unbound g (nofZ 1) (nofZ (-7)) (nofZ 25) (nofZ 2) (nofZ 8) (nofZ 26) (nofZ (-7)) pl al (nofZ 4) pr ar p1 p2 f1 f2 S754_nan S754_nan); subst g.
  - vm.
  - vm.
  - vm.
  - vm.
  - vm.
  - vm.
  - vm.
  - vm.
  - refine (guess_eq _ _ _ _ _ _ _ _ _ _ _ _ _ _ H1 H2 _ _ H3); vm.
  - refine (mass_eq _ _ _ _ _ _ _ _ _ _ _ _ H4 _); vm.
  - refine (mass_eq _ _ _ _ _ _ _ _ _ _ _ _ H5 _); vm.
  - vm.
  - vm.
  - refine (mass_eq _ _ _ _ _ (fl true 5078250261568411 (-103)) _ _ _ _ _ _ (H6 _ _) _); vm.
  - refine (mass_eq _ _ _ _ _ (fl true 8125200418509458 (-108)) _ _ _ _ _ _ (H6 _ _) _); vm.
  - intros vm0 a. assert (E : vm0 = S754_nan) by vm. rewrite E. destruct a; repeat split.
Qed.
