(** Enhanced upwind schemes have growing Fourier modes: order 3 with the modes 0 1 2 at T = -1 and with the modes 0 1 2 3 at T = i. *)
From Coq Require Import ZArith List Bool Arith String Lia Reals Lra Ring Ranalysis.
From Verif Require Import Num Py Lib RealLib LegNumpy Ext Basis Enhance SpecDG SpecPoly SpecRK SpecEnh Analysis SpecAnalysis
  ProofsPoly ProofsLeg ProofsGauss ProofsDG ProofsBasis ProofsEnh ProofsEnh2 ProofsEnhWeights ProofsAnalysis ProofsAnalysis2 ProofsAnalysis4 ProofsEig.
Import ListNotations.
Open Scope R_scope.

(** ** a quadratic factor of a quartic, from a zero of its resolvent *)
Section Quartic.
  Variables c1 c2 c3 c4 : R.
  Definition rS (s : R) : R := c2 - s * (c1 - s).
  Definition resolvent (s : R) : R := (c3 - s * rS s) * (rS s * (c1 - 2 * s) - (c3 - s * rS s)) - c4 * (c1 - 2 * s) * (c1 - 2 * s).
  Definition rt (s : R) : R := (c3 - s * rS s) / (c1 - 2 * s).
  Lemma quartic_factor s x : c1 - 2 * s <> 0 -> resolvent s = 0 -> x * x + s * x + rt s = 0 -> x * x * x * x + c1 * (x * x * x) + c2 * (x * x) + c3 * x + c4 = 0.
  Proof.
    intros Hn H0 Hx.
    assert (E : (x * x + s * x + rt s) * (x * x + (c1 - s) * x + (rS s - rt s)) = x * x * x * x + c1 * (x * x * x) + c2 * (x * x) + c3 * x + c4 + resolvent s / ((c1 - 2 * s) * (c1 - 2 * s))).
    { unfold rt, resolvent, rS. field. exact Hn. }
    rewrite Hx, H0 in E. lra.
  Qed.
  Lemma resolvent_zero a b : a < b -> resolvent b < 0 -> 0 < resolvent a -> exists s, a <= s <= b /\ resolvent s = 0.
  Proof.
    intros Hab Ha Hb. destruct (IVT (fun x => - resolvent x) a b) as [s [Hs E]].
    - unfold resolvent, rS. reg.
    - exact Hab.
    - lra.
    - lra.
    - exists s. split; [exact Hs|lra].
  Qed.
End Quartic.
(** the same for a complex number *)
Definition Cquartic (c1 c2 c3 c4 : R) (z : C) : C :=
  nadd (nadd (nadd (nadd (nmul (nmul (nmul z z) z) z) (nmul (Cr c1) (nmul (nmul z z) z))) (nmul (Cr c2) (nmul z z))) (nmul (Cr c3) z)) (Cr c4).
Lemma quartic_pair c1 c2 c3 c4 s u : c1 - 2 * s <> 0 -> resolvent c1 c2 c3 c4 s = 0 -> u * u = rt c1 c2 c3 s - s * s / 4 ->
  Cquartic c1 c2 c3 c4 (- s / 2, u) = nofZ 0.
Proof.
  intros Hn H0 Hu. set (t := rt c1 c2 c3 s) in *.
  assert (T : t * (c1 - 2 * s) = c3 - s * rS c1 c2 s) by (unfold t, rt; field; exact Hn).
  assert (N : t * (rS c1 c2 s - t) = c4).
  { unfold resolvent in H0. rewrite <- T in H0. set (k := c1 - 2 * s) in *.
    assert (K : k * k * (t * (rS c1 c2 s - t) - c4) = 0) by (rewrite <- H0; ring).
    apply Rmult_integral in K. destruct K as [K|K]; [apply Rmult_integral in K; tauto|lra]. }
  assert (Q : nadd (nadd (nmul (- s / 2, u) (- s / 2, u)) (nmul (Cr s) (- s / 2, u))) (Cr t) = nofZ 0).
  { apply C_eq; cbn; unfold n0; cbn; [|field]. replace t with (u * u + s * s / 4) by lra. field. }
  assert (E : Cquartic c1 c2 c3 c4 (- s / 2, u) =
    nmul (nadd (nadd (nmul (- s / 2, u) (- s / 2, u)) (nmul (Cr s) (- s / 2, u))) (Cr t))
         (nadd (nadd (nmul (- s / 2, u) (- s / 2, u)) (nmul (Cr (c1 - s)) (- s / 2, u))) (Cr (rS c1 c2 s - t)))).
  { assert (E3 : c3 = t * (c1 - 2 * s) + s * rS c1 c2 s) by lra. rewrite E3, <- N. unfold rS. apply C_eq; cbn; unfold n0; cbn; field. }
  rewrite E, Q. apply C_eq; cbn; unfold n0; cbn; ring.
Qed.

(** the interior matrix of order 3 *)
Lemma Fnm_3 n m : (n <= 3)%nat -> (m <= 3)%nat -> Fnm n m = if (m <? n)%nat then (if Nat.odd (n + m) then 2 else 0) else 0.
Proof.
  intros Hn Hm. destruct (Nat.ltb_spec m n) as [H|H]; [|apply Fnm_upper; exact H].
  pose proof (Fnm_parts n m) as P. rewrite (Fnm_upper m n) in P by lia. unfold sg in P. rewrite !LegP_atm1 in P. rewrite Nat.odd_add. 
  destruct (Nat.odd n), (Nat.odd m); cbn [xorb]; lra.
Qed.
Section Grow.
  Context {X : Ext R}.
  Hypothesis IV : inv_ok.
  (** ** modes 0 1 2, T = -1 *)
  Definition w012 (z : C) (n : nat) : C :=
    match n with
    | 0%nat => nmul (Cr (-1)) (nmul (nmul z z) z)
    | 1%nat => nmul (Cr (-3)) (nmul z z)
    | 2%nat => nadd (nmul (Cr (-15)) z) (nmul (Cr (-5)) (nmul (nmul z z) z))
    | _ => nadd (Cr (-105)) (nmul (Cr (-42)) (nmul z z))
    end.
  Lemma eigen012 mthd e z M : Enhance 3 mthd = Ok e -> e_modes e = [0; 1; 2]%nat -> icb_FK 3 (e_modes e) (Cr (-1)) = Ok M ->
    z <> nofZ 0 -> Cquartic (8 / 3) (117 / 8) (46 / 7) 30 z = nofZ 0 -> eigen 4 M z (w012 z).
  Proof.
    intros HE Em HM Hz Hq. split.
    { exists 1%nat. split; [lia|]. cbn [w012]. intro H. apply Hz. destruct z as [x y]. pose proof (f_equal fst H) as H1. pose proof (f_equal snd H) as H2. cbn in H1, H2.
      assert (Hs : x * x = y * y) by lra. assert (Hp : x * y = 0) by lra.
      apply Rmult_integral in Hp. destruct Hp as [->| ->]; [assert (y = 0) by nra|assert (x = 0) by nra]; subst; reflexivity. }
    assert (ND : NoDup (e_modes e)) by (rewrite Em; repeat constructor; cbn; lia).
    assert (HB : forall m, In m (e_modes e) -> (m <= 3)%nat) by (rewrite Em; cbn; lia).
    pose proof (weights012 IV mthd e HE Em) as Wt.
    intros i Hi. change 4%nat with (3 + 1)%nat. rewrite (icb_symbol 3 IV mthd e (Cr (-1)) M (w012 z) i HE ND HB HM) by lia. unfold symbol_row.
    set (g := Csum (3 + 1) (fun m => nmul (nadd (Cr (at1 (e_alphaL e) m)) (nmul (Cr (-1)) (Cr (at1 (e_alphaR e) m)))) (w012 z m))).
    assert (Eg : g = nmul (nmul (nmul z z) z) z).
    { transitivity (nsub (nmul (nmul (nmul z z) z) z) (Cquartic (8 / 3) (117 / 8) (46 / 7) 30 z)).
      - unfold g, Csum. cbn [ksum Nat.add w012].
        rewrite !(proj1 (Wt _ (le_n 3))), !(proj2 (Wt _ (le_n 3))), !(proj1 (Wt 0%nat ltac:(lia))), !(proj2 (Wt 0%nat ltac:(lia))),
          !(proj1 (Wt 1%nat ltac:(lia))), !(proj2 (Wt 1%nat ltac:(lia))), !(proj1 (Wt 2%nat ltac:(lia))), !(proj2 (Wt 2%nat ltac:(lia))).
        unfold aL012, aR012. cbn [nth]. destruct z as [x y]. unfold Cquartic. apply C_eq; cbn; unfold n0; cbn; field.
      - rewrite Hq. destruct z as [x y]. apply C_eq; cbn; unfold n0; cbn; ring. }
    rewrite Eg. unfold Csum. cbn [ksum Nat.add]. rewrite !Fnm_3 by lia. unfold sg. rewrite LegP_atm1.
    destruct z as [x y]. destruct i as [|[|[|[|i]]]]; [| | | |lia]; cbn [Nat.ltb Nat.leb Nat.odd Nat.even negb Nat.add w012]; apply C_eq; cbn; unfold n0; cbn; field.
  Qed.
  Lemma root012 : exists x y, 0.00038 <= x <= 0.00039 /\ Cquartic (8 / 3) (117 / 8) (46 / 7) 30 (x, y) = nofZ 0.
  Proof.
    destruct (resolvent_zero (8 / 3) (117 / 8) (46 / 7) 30 (- 0.00078) (- 0.00076)) as [s [Hs E]]; [lra|unfold resolvent, rS; lra|unfold resolvent, rS; lra|].
    assert (P : 0 <= rt (8 / 3) (117 / 8) (46 / 7) s - s * s / 4).
    { assert (K : 2 <= rt (8 / 3) (117 / 8) (46 / 7) s); [|nra]. unfold rt, rS.
      apply (Rmult_le_reg_r (8 / 3 - 2 * s)); [lra|]. unfold Rdiv. rewrite (Rmult_assoc _ (/ (8 * / 3 - 2 * s))), Rinv_l, Rmult_1_r by lra. nra. }
    exists (- s / 2), (sqrt (rt (8 / 3) (117 / 8) (46 / 7) s - s * s / 4)). split; [lra|].
    apply quartic_pair; [lra|exact E|apply sqrt_sqrt; exact P].
  Qed.
  (** ** modes 0 1 2 3, T = i *)
  Definition w0123 (z : C) (n : nat) : C :=
    match n with
    | 0%nat => nmul (- (1 / 2), - (1 / 2)) (nmul (nmul z z) z)
    | 1%nat => nmul (Cr (3 / 2)) (nadd (nmul (-1, -1) (nmul z z)) (nmul (-1, 1) (nmul (nmul z z) z)))
    | 2%nat => nmul (Cr (5 / 2)) (nadd (nadd (nmul (-3, -3) z) (nmul (-3, 3) (nmul z z))) (nmul (-1, -1) (nmul (nmul z z) z)))
    | _ => nmul (Cr (7 / 2)) (nadd (nadd (nadd (-15, -15) (nmul (-15, 15) z)) (nmul (-6, -6) (nmul z z))) (nmul (-1, 1) (nmul (nmul z z) z)))
    end.
  Lemma Ccube_nz (z : C) : z <> nofZ 0 -> nmul (nmul z z) z <> nofZ 0.
  Proof.
    intros Hz H. apply Hz. destruct z as [x y]. pose proof (f_equal fst H) as H1. pose proof (f_equal snd H) as H2. cbn in H1, H2.
    assert (K : (x * x + y * y) * (x * x + y * y) * (x * x + y * y) = 0).
    { transitivity (((x * x - y * y) * x - (x * y + y * x) * y) * ((x * x - y * y) * x - (x * y + y * x) * y) + ((x * x - y * y) * y + (x * y + y * x) * x) * ((x * x - y * y) * y + (x * y + y * x) * x)); [ring|]. rewrite H1, H2. unfold n0. cbn. ring. }
    assert (K0 : x * x + y * y = 0). { apply Rmult_integral in K. destruct K as [K|K]; [apply Rmult_integral in K; tauto|exact K]. }
    assert (x = 0) by nra. assert (y = 0) by nra. subst. reflexivity.
  Qed.
  Lemma eigen0123 mthd e z M : Enhance 3 mthd = Ok e -> e_modes e = [0; 1; 2; 3]%nat -> icb_FK 3 (e_modes e) (0, 1) = Ok M ->
    z <> nofZ 0 -> Cquartic (- (1 / 4)) (-12) (165 / 16) 15 (nmul (0, -1) z) = nofZ 0 -> eigen 4 M z (w0123 z).
  Proof.
    intros HE Em HM Hz Hq. split.
    { exists 0%nat. split; [lia|]. cbn [w0123]. intro H. apply (Ccube_nz z Hz). set (c := nmul (nmul z z) z) in *. destruct c as [x y].
      pose proof (f_equal fst H) as H1. pose proof (f_equal snd H) as H2. cbn in H1, H2. apply C_eq; cbn; unfold n0; cbn; lra. }
    assert (ND : NoDup (e_modes e)) by (rewrite Em; repeat constructor; cbn; lia).
    assert (HB : forall m, In m (e_modes e) -> (m <= 3)%nat) by (rewrite Em; cbn; lia).
    pose proof (weights0123 IV mthd e HE Em) as Wt.
    intros i Hi. change 4%nat with (3 + 1)%nat. rewrite (icb_symbol 3 IV mthd e (0, 1) M (w0123 z) i HE ND HB HM) by lia. unfold symbol_row.
    set (g := Csum (3 + 1) (fun m => nmul (nadd (Cr (at1 (e_alphaL e) m)) (nmul (0, 1) (Cr (at1 (e_alphaR e) m)))) (w0123 z m))).
    assert (Eg : g = nmul (nmul (nmul z z) z) z).
    { transitivity (nsub (nmul (nmul (nmul z z) z) z) (Cquartic (- (1 / 4)) (-12) (165 / 16) 15 (nmul (0, -1) z))).
      - unfold g, Csum. cbn [ksum Nat.add w0123].
        rewrite !(proj1 (Wt _ (le_n 3))), !(proj2 (Wt _ (le_n 3))), !(proj1 (Wt 0%nat ltac:(lia))), !(proj2 (Wt 0%nat ltac:(lia))),
          !(proj1 (Wt 1%nat ltac:(lia))), !(proj2 (Wt 1%nat ltac:(lia))), !(proj1 (Wt 2%nat ltac:(lia))), !(proj2 (Wt 2%nat ltac:(lia))).
        unfold aL0123, aR0123. cbn [nth]. destruct z as [x y]. unfold Cquartic. apply C_eq; cbn; unfold n0; cbn; field.
      - rewrite Hq. destruct z as [x y]. apply C_eq; cbn; unfold n0; cbn; ring. }
    rewrite Eg. unfold Csum. cbn [ksum Nat.add]. rewrite !Fnm_3 by lia. unfold sg. rewrite LegP_atm1.
    destruct z as [x y]. destruct i as [|[|[|[|i]]]]; [| | | |lia]; cbn [Nat.ltb Nat.leb Nat.odd Nat.even negb Nat.add w0123]; apply C_eq; cbn; unfold n0; cbn; field.
  Qed.
  Lemma root0123 : exists x y, 0.096 <= x <= 0.102 /\ 2.3075 <= y <= 2.3077 /\ Cquartic (- (1 / 4)) (-12) (165 / 16) 15 (nmul (0, -1) (x, y)) = nofZ 0.
  Proof.
    destruct (resolvent_zero (- (1 / 4)) (-12) (165 / 16) 15 (- 4.6154) (- 4.615)) as [s [Hs E]]; [lra|unfold resolvent, rS; lra|unfold resolvent, rS; lra|].
    set (v := rt (- (1 / 4)) (-12) (165 / 16) s - s * s / 4).
    assert (P : 0.0094 <= v <= 0.0103).
    { unfold v, rt, rS. assert (Q : (165 / 16 - s * (-12 - s * (- (1 / 4) - s))) / (- (1 / 4) - 2 * s) * (- (1 / 4) - 2 * s) = 165 / 16 - s * (-12 - s * (- (1 / 4) - s))) by (field; lra).
      set (q := (165 / 16 - s * (-12 - s * (- (1 / 4) - s))) / (- (1 / 4) - 2 * s)) in *. clearbody q. split.
      - apply Rnot_lt_le. intro H. assert (N : 0 < (s * s / 4 + 0.0094 - q) * (- (1 / 4) - 2 * s)) by (apply Rmult_lt_0_compat; lra).
        assert (N' : 0 < (s * s / 4 + 0.0094) * (- (1 / 4) - 2 * s) - (165 / 16 - s * (-12 - s * (- (1 / 4) - s)))) by lra. clear N H Q E v.
        set (d := - 4.615 - s). replace s with (- 4.615 - d) in N' by (unfold d; ring). assert (D : 0 <= d <= 0.0004) by (unfold d; lra). clearbody d.
        assert (0 <= d * d <= 0.0004 * d) by nra. assert (0 <= d * d * d <= 0.0004 * 0.0004 * d) by nra. lra.
      - apply Rnot_lt_le. intro H. assert (N : 0 < (q - (s * s / 4 + 0.0103)) * (- (1 / 4) - 2 * s)) by (apply Rmult_lt_0_compat; lra).
        assert (N' : 0 < (165 / 16 - s * (-12 - s * (- (1 / 4) - s))) - (s * s / 4 + 0.0103) * (- (1 / 4) - 2 * s)) by lra. clear N H Q E v.
        set (d := - 4.615 - s). replace s with (- 4.615 - d) in N' by (unfold d; ring). assert (D : 0 <= d <= 0.0004) by (unfold d; lra). clearbody d.
        assert (0 <= d * d <= 0.0004 * d) by nra. assert (0 <= d * d * d <= 0.0004 * 0.0004 * d) by nra. lra. }
    exists (sqrt v), (- s / 2).
    assert (S1 : 0.096 <= sqrt v) by (rewrite <- (sqrt_square 0.096) by lra; apply sqrt_le_1_alt; lra).
    assert (S2 : sqrt v <= 0.102) by (rewrite <- (sqrt_square 0.102) by lra; apply sqrt_le_1_alt; lra).
    split; [lra|]. split; [lra|].
    replace (nmul (0, -1) (sqrt v, - s / 2)) with ((- s / 2, - sqrt v) : C) by (apply C_eq; cbn; ring).
    apply quartic_pair; [lra|exact E|]. rewrite Rmult_opp_opp. rewrite sqrt_sqrt by lra. reflexivity.
  Qed.
End Grow.
