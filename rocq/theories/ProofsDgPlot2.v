(** Eigenvalues at conjugate phases, and the two reports of analysis/dg_stability.py. *)
From Coq Require Import ZArith List Bool Arith String Lia Reals Lra Ring Permutation Sorted.
From Verif Require Import Num Py Lib RealLib LegNumpy Ext Basis Enhance RKCoeffs SpecDG SpecPoly SpecRK SpecEnh Analysis SpecAnalysis AnalysisEig SpecEig
  ProofsPoly ProofsLeg ProofsDG ProofsEnh ProofsEnh2 ProofsEnhWeights ProofsAnalysis ProofsAnalysis2 ProofsEig ProofsGrow ProofsDgPlot.
Import ListNotations.
Open Scope R_scope.

(** ** conjugates *)
Lemma conj_conj z : conjugate (conjugate z) = z.
Proof. destruct z. unfold conjugate. cbn [fst snd]. rewrite Ropp_involutive. reflexivity. Qed.
Lemma conj_mul a b : conjugate (nmul a b) = nmul (conjugate a) (conjugate b).
Proof. destruct a, b. apply C_eq; cbn; ring. Qed.
Lemma conj_sub a b : conjugate (nsub a b) = nsub (conjugate a) (conjugate b).
Proof. destruct a, b. apply C_eq; cbn; ring. Qed.
Lemma conj_add a b : conjugate (nadd a b) = nadd (conjugate a) (conjugate b).
Proof. destruct a, b. apply C_eq; cbn; ring. Qed.
Lemma conj_real x : conjugate (Cr x) = Cr x.
Proof. apply C_eq; cbn; ring. Qed.
Lemma conj_1 : conjugate (nofZ 1) = nofZ 1.
Proof. apply C_eq; cbn; unfold n0; cbn; ring. Qed.
Lemma conj_inv t : conjugate (ndiv (nofZ 1) t) = ndiv (nofZ 1) (conjugate t).
Proof.
  destruct t as [a b]. unfold conjugate. cbn. unfold n0. cbn. replace (a * a + - b * - b) with (a * a + b * b) by ring. apply C_eq; cbn; unfold Rdiv; ring.
Qed.
Lemma conj_sum n f : conjugate (Csum n f) = Csum n (fun k => conjugate (f k)).
Proof. unfold Csum. induction n as [|n IH]; cbn [ksum]; [apply C_eq; cbn; unfold n0; cbn; ring|]. rewrite conj_add, IH. reflexivity. Qed.
Lemma row_conj p t gam w n : symbol_row p (conjugate t) (fun j => conjugate (gam j)) (fun j => conjugate (w j)) n = conjugate (symbol_row p t gam w n).
Proof.
  unfold symbol_row. rewrite !conj_mul, !conj_sub, !conj_mul, !conj_sub, !conj_mul, conj_inv, !conj_real, conj_1, !conj_sum. f_equal. f_equal; [|f_equal].
  - apply Csum_ext. intros. rewrite conj_mul, conj_real. reflexivity.
  - apply Csum_ext. intros. rewrite conj_mul. reflexivity.
Qed.
Lemma conj_nz z : z <> nofZ 0 -> conjugate z <> nofZ 0.
Proof. intros H E. apply H. rewrite <- (conj_conj z), E. apply C_eq; cbn; unfold n0; cbn; ring. Qed.
Section Conj.
  Context {X : Ext R}.
  Lemma eigen_conj_dg p t l w : eigen (p + 1) (dg_FK p t) l w -> eigen (p + 1) (dg_FK p (conjugate t)) (conjugate l) (fun i => conjugate (w i)).
  Proof.
    intros [[i [Hi Hz]] Hw]. split; [exists i; split; [exact Hi|apply conj_nz; exact Hz]|]. intros n Hn. rewrite dg_symbol by lia.
    rewrite <- conj_mul, <- (Hw n Hn), dg_symbol, <- row_conj by lia. unfold symbol_row. do 3 f_equal. apply Csum_ext. intros. rewrite conj_1. reflexivity.
  Qed.
  Hypothesis IV : inv_ok.
  Lemma eigen_conj_icb p mthd e t M M' l w : Enhance p mthd = Ok e -> NoDup (e_modes e) -> (forall m, In m (e_modes e) -> (m <= p)%nat) ->
    icb_FK p (e_modes e) t = Ok M -> icb_FK p (e_modes e) (conjugate t) = Ok M' -> eigen (p + 1) M l w -> eigen (p + 1) M' (conjugate l) (fun i => conjugate (w i)).
  Proof.
    intros HE ND HB HM HM' [[i [Hi Hz]] Hw]. split; [exists i; split; [exact Hi|apply conj_nz; exact Hz]|]. intros n Hn.
    rewrite (icb_symbol p IV mthd e _ M' _ n HE ND HB HM') by lia. rewrite <- conj_mul, <- (Hw n Hn), (icb_symbol p IV mthd e _ M _ n HE ND HB HM), <- row_conj by lia.
    unfold symbol_row. do 3 f_equal. apply Csum_ext. intros. rewrite conj_add, conj_mul, !conj_real. reflexivity.
  Qed.
  (** ** the standard scheme *)
  Lemma standard_left eigvals arctan2 argsort p lo hi pts : argsort_ok argsort ->
    (forall k, (k < 50)%nat -> only_eigenvalues (p + 1) (dg_FK p (phase k)) (eigvals (dg_FK p (phase k)))) ->
    dg_stability_standard eigvals arctan2 argsort p = Ok (lo, hi, pts) -> (forall q, In q pts -> fst q < 0) /\ hi < 0.
  Proof.
    intros AS HE HR. unfold dg_stability_standard in HR.
    assert (K : forall q, In q pts -> fst q < 0).
    { intros q Hq. apply (vertex_iff eigvals arctan2 argsort AS p _ lo hi pts q HR) in Hq. destruct Hq as [k [M [Hk [EM Hq]]]]. apply Ok_inj in EM. subst M.
      destruct (HE k Hk q Hq) as [w Ew]. apply Rnot_le_lt. intro L. destruct (neutral p (phase k) q w (phase_unit k) Ew L) as [_ [T _]]. exact (phase_not_1 k Hk T). }
    split; [exact K|]. destruct (report_spec eigvals arctan2 argsort AS p _ lo hi pts HR) as [_ [_ [_ [[y Hy] _]]]]. exact (K _ Hy).
  Qed.
  (** ** the matrix of the script at T = -1 *)
  Lemma C_domain (a b : C) : nmul a b = nofZ 0 -> a = nofZ 0 \/ b = nofZ 0.
  Proof.
    intro H. destruct a as [a1 a2], b as [b1 b2]. pose proof (f_equal fst H) as H1. pose proof (f_equal snd H) as H2. cbn in H1, H2. unfold n0 in *. cbn in H1, H2.
    assert (K : (a1 * a1 + a2 * a2) * (b1 * b1 + b2 * b2) = 0).
    { transitivity ((a1 * b1 - a2 * b2) * (a1 * b1 - a2 * b2) + (a1 * b2 + a2 * b1) * (a1 * b2 + a2 * b1)); [ring|]. rewrite H1, H2. ring. }
    apply Rmult_integral in K. destruct K as [K|K]; [left|right]; apply C_eq; cbn; unfold n0; cbn; nra.
  Qed.
  Lemma eigen012_inv mthd e z M w : Enhance 3 mthd = Ok e -> e_modes e = [0; 1; 2]%nat -> icb_FK 3 (e_modes e) (Cr (-1)) = Ok M ->
    eigen 4 M z w -> Cquartic (8 / 3) (117 / 8) (46 / 7) 30 z = nofZ 0.
  Proof.
    intros HE Em HM [[i [Hi Hz]] Hw].
    assert (ND : NoDup (e_modes e)) by (rewrite Em; repeat constructor; cbn; lia).
    assert (HB : forall m, In m (e_modes e) -> (m <= 3)%nat) by (rewrite Em; cbn; lia).
    pose proof (weights012 IV mthd e HE Em) as Wt.
    set (g := Csum (3 + 1) (fun m => nmul (nadd (Cr (at1 (e_alphaL e) m)) (nmul (Cr (-1)) (Cr (at1 (e_alphaR e) m)))) (w m))).
    assert (Row : forall n, (n < 4)%nat -> symbol_row 3 (Cr (-1)) (fun m => nadd (Cr (at1 (e_alphaL e) m)) (nmul (Cr (-1)) (Cr (at1 (e_alphaR e) m)))) w n = nmul z (w n)).
    { intros n Hn. rewrite <- (Hw n Hn). symmetry. change 4%nat with (3 + 1)%nat. apply (icb_symbol 3 IV mthd e (Cr (-1)) M w n HE ND HB HM). lia. }
    unfold symbol_row in Row. fold g in Row.
    assert (I1 : ndiv (nofZ 1) (Cr (-1)) = Cr (-1)) by (apply C_eq; cbn; unfold n0; cbn; field).
    pose proof (Row 0%nat ltac:(lia)) as R0. pose proof (Row 1%nat ltac:(lia)) as R1. pose proof (Row 2%nat ltac:(lia)) as R2. pose proof (Row 3%nat ltac:(lia)) as R3. clear Row.
    unfold Csum in R0, R1, R2, R3. cbn [ksum Nat.add] in R0, R1, R2, R3. rewrite !Fnm_3 in R0, R1, R2, R3 by lia. unfold sg in R0, R1, R2, R3. rewrite LegP_atm1, I1 in R0, R1, R2, R3.
    cbn [Nat.ltb Nat.leb Nat.odd Nat.even negb Nat.add] in R0, R1, R2, R3.
    assert (E0 : nmul z (w 0%nat) = nmul (Cr (-1)) g) by (rewrite <- R0; destruct (w 0%nat), (w 1%nat), (w 2%nat), (w 3%nat), g; apply C_eq; cbn; unfold n0; cbn; field).
    assert (E1 : nmul z (w 1%nat) = nmul (Cr 3) (w 0%nat)) by (rewrite <- R1; destruct (w 0%nat), (w 1%nat), (w 2%nat), (w 3%nat), g; apply C_eq; cbn; unfold n0; cbn; field).
    assert (E2 : nmul z (w 2%nat) = nmul (Cr 5) (nsub (w 1%nat) g)) by (rewrite <- R2; destruct (w 0%nat), (w 1%nat), (w 2%nat), (w 3%nat), g; apply C_eq; cbn; unfold n0; cbn; field).
    assert (E3 : nmul z (w 3%nat) = nmul (Cr 7) (nadd (w 0%nat) (w 2%nat))) by (rewrite <- R3; destruct (w 0%nat), (w 1%nat), (w 2%nat), (w 3%nat), g; apply C_eq; cbn; unfold n0; cbn; field).
    clear R0 R1 R2 R3.
    assert (Eg : g = nadd (nadd (nadd (nmul (Cr (nth 0 aL012 0 - nth 0 aR012 0)) (w 0%nat)) (nmul (Cr (nth 1 aL012 0 - nth 1 aR012 0)) (w 1%nat)))
      (nmul (Cr (nth 2 aL012 0 - nth 2 aR012 0)) (w 2%nat))) (nmul (Cr (nth 3 aL012 0 - nth 3 aR012 0)) (w 3%nat))).
    { unfold g, Csum. cbn [ksum Nat.add].
      rewrite !(proj1 (Wt _ (le_n 3))), !(proj2 (Wt _ (le_n 3))), !(proj1 (Wt 0%nat ltac:(lia))), !(proj2 (Wt 0%nat ltac:(lia))),
          !(proj1 (Wt 1%nat ltac:(lia))), !(proj2 (Wt 1%nat ltac:(lia))), !(proj1 (Wt 2%nat ltac:(lia))), !(proj2 (Wt 2%nat ltac:(lia))).
      destruct (w 0%nat), (w 1%nat), (w 2%nat), (w 3%nat); apply C_eq; cbn; unfold n0; cbn; ring. }
    unfold aL012, aR012 in Eg. cbn [nth] in Eg. clearbody g.
    set (w0 := w 0%nat) in *. set (w1 := w 1%nat) in *. set (w2 := w 2%nat) in *. set (w3 := w 3%nat) in *.
    assert (Z4 : nmul (Cquartic (8 / 3) (117 / 8) (46 / 7) 30 z) g = nofZ 0).
    { set (z2 := nmul z z). set (z3 := nmul z2 z).
      assert (F0 : nmul (nmul z3 z) w0 = nmul (Cr (-1)) (nmul z3 g)) by (transitivity (nmul z3 (nmul z w0)); [ring|rewrite E0; ring]).
      assert (F1 : nmul (nmul z3 z) w1 = nmul (Cr (-3)) (nmul z2 g)).
      { transitivity (nmul z3 (nmul z w1)); [ring|]. rewrite E1. transitivity (nmul (Cr 3) (nmul z2 (nmul z w0))); [unfold z3; ring|]. rewrite E0. destruct z2, g. apply C_eq; cbn; ring. }
      assert (F2 : nmul (nmul z3 z) w2 = nadd (nmul (Cr (-15)) (nmul z g)) (nmul (Cr (-5)) (nmul z3 g))).
      { transitivity (nmul z3 (nmul z w2)); [ring|]. rewrite E2. transitivity (nsub (nmul (Cr 5) (nmul z2 (nmul z w1))) (nmul (Cr 5) (nmul z3 g))); [unfold z3; ring|]. rewrite E1.
        transitivity (nsub (nmul (Cr 15) (nmul z (nmul z w0))) (nmul (Cr 5) (nmul z3 g))); [unfold z2; destruct z, w0, (nmul z3 g); apply C_eq; cbn; ring|]. rewrite E0.
        destruct z, g, z3. apply C_eq; cbn; ring. }
      assert (F3 : nmul (nmul z3 z) w3 = nadd (nmul (Cr (-105)) g) (nmul (Cr (-42)) (nmul z2 g))).
      { transitivity (nmul z3 (nmul z w3)); [ring|]. rewrite E3. transitivity (nmul (Cr 7) (nadd (nmul z2 (nmul z w0)) (nmul z2 (nmul z w2)))); [unfold z3; ring|]. rewrite E0, E2.
        transitivity (nadd (nmul (Cr (-42)) (nmul z2 g)) (nmul (Cr 35) (nmul z (nmul z w1)))); [unfold z2; destruct z, w1, g; apply C_eq; cbn; ring|]. rewrite E1.
        transitivity (nadd (nmul (Cr (-42)) (nmul z2 g)) (nmul (Cr 105) (nmul z w0))); [destruct (nmul z2 g), z, w0; apply C_eq; cbn; ring|]. rewrite E0. destruct z2, g. apply C_eq; cbn; ring. }
      assert (G4 : nmul (nmul z3 z) g = nadd (nadd (nadd (nmul (Cr (nth 0 aL012 0 - nth 0 aR012 0)) (nmul (nmul z3 z) w0)) (nmul (Cr (nth 1 aL012 0 - nth 1 aR012 0)) (nmul (nmul z3 z) w1)))
        (nmul (Cr (nth 2 aL012 0 - nth 2 aR012 0)) (nmul (nmul z3 z) w2))) (nmul (Cr (nth 3 aL012 0 - nth 3 aR012 0)) (nmul (nmul z3 z) w3))).
      { unfold aL012, aR012. cbn [nth]. rewrite Eg at 1. ring. }
      rewrite F0, F1, F2, F3 in G4. unfold aL012, aR012 in G4. cbn [nth] in G4.
      transitivity (nsub (nmul (nmul z3 z) g) (nmul (nmul z3 z) g)); [|ring]. rewrite G4 at 2. unfold Cquartic. fold z2. fold z3. destruct z, z2, z3, g. apply C_eq; cbn; unfold n0; cbn; field. }
    apply C_domain in Z4. destruct Z4 as [Z4|G0]; [exact Z4|]. exfalso. rewrite G0 in E0, E2, Eg.
    assert (V : forall a, nmul z a = nofZ 0 -> z <> nofZ 0 -> a = nofZ 0) by (intros a H N; apply C_domain in H; tauto).
    assert (Z3 : nmul (Cr (-1)) (nofZ 0) = nofZ 0) by (apply C_eq; cbn; unfold n0; cbn; ring).
    assert (S : forall c a, c <> 0 -> nmul (Cr c) a = nofZ 0 -> a = nofZ 0).
    { intros c a Hc H. apply C_domain in H. destruct H as [H|H]; [apply (f_equal fst) in H; cbn in H; contradiction|exact H]. }
    assert (All : w0 = nofZ 0 /\ w1 = nofZ 0 /\ w2 = nofZ 0 /\ w3 = nofZ 0).
    { assert (Dz : z = nofZ 0 \/ z <> nofZ 0) by (destruct z as [a b]; destruct (Req_dec a 0) as [->|N]; [destruct (Req_dec b 0) as [->|N]; [left; reflexivity|right]|right]; intro H; apply N; [apply (f_equal snd) in H|apply (f_equal fst) in H]; exact H).
      destruct Dz as [->|Nz].
      - assert (Zl : forall a, nmul (nofZ 0) a = (nofZ 0 : C)) by (intro a; ring). rewrite Zl in E1, E2, E3.
        assert (A0 : w0 = nofZ 0) by (apply (S 3); [lra|symmetry; exact E1]).
        assert (A1 : w1 = nofZ 0). { symmetry in E2. apply S in E2; [|lra]. rewrite <- E2. ring. }
        assert (A2 : w2 = nofZ 0). { symmetry in E3. apply S in E3; [|lra]. rewrite A0 in E3. rewrite <- E3. ring. }
        split; [exact A0|]. split; [exact A1|]. split; [exact A2|]. rewrite A0, A1, A2 in Eg. apply (S (2 / 7 - 0)); [lra|]. etransitivity; [|symmetry; exact Eg]. ring.
      - assert (A0 : w0 = nofZ 0) by (apply V; [rewrite E0; exact Z3|exact Nz]).
        assert (A1 : w1 = nofZ 0) by (apply V; [rewrite E1, A0; ring|exact Nz]).
        assert (A2 : w2 = nofZ 0) by (apply V; [rewrite E2, A1; ring|exact Nz]).
        assert (A3 : w3 = nofZ 0) by (apply V; [rewrite E3, A0, A2; ring|exact Nz]). auto. }
    destruct All as [A0 [A1 [A2 A3]]]. destruct i as [|[|[|[|i]]]]; [apply Hz; exact A0|apply Hz; exact A1|apply Hz; exact A2|apply Hz; exact A3|lia].
  Qed.
End Conj.
(** the four eigenvalues of the script's matrix at T = -1 *)
Lemma four_roots : exists a b c d x, 0.00038 <= x /\ fst a = x /\ forall z, Cquartic (8 / 3) (117 / 8) (46 / 7) 30 z = nofZ 0 -> In z [a; b; c; d].
Proof.
  destruct (resolvent_zero (8 / 3) (117 / 8) (46 / 7) 30 (- 0.00078) (- 0.00076)) as [s [Hs E]]; [lra|unfold resolvent, rS; lra|unfold resolvent, rS; lra|].
  set (t := rt (8 / 3) (117 / 8) (46 / 7) s). set (S' := rS (8 / 3) (117 / 8) s).
  assert (T : t * (8 / 3 - 2 * s) = 46 / 7 - s * S') by (unfold t, rt, S'; field; lra).
  assert (N : t * (S' - t) = 30).
  { unfold resolvent in E. fold S' in E. rewrite <- T in E. set (k := 8 / 3 - 2 * s) in *. assert (K : k * k * (t * (S' - t) - 30) = 0) by (rewrite <- E; ring).
    assert (Hk : 0 < k) by (unfold k; lra). apply Rmult_integral in K. destruct K as [K|K]; [nra|lra]. }
  assert (BS : 14.62 <= S' <= 14.63) by (unfold S', rS; nra).
  assert (Bt : 2.46 <= t <= 2.47). { split; apply (Rmult_le_reg_r (8 / 3 - 2 * s)); try lra; rewrite T; nra. }
  set (s2 := 8 / 3 - s). set (t2 := S' - t).
  assert (P1 : 0 <= t - s * s / 4) by nra. assert (P2 : 0 <= t2 - s2 * s2 / 4) by (unfold t2, s2; nra).
  set (u := sqrt (t - s * s / 4)). set (v := sqrt (t2 - s2 * s2 / 4)).
  pose proof (sqrt_sqrt _ P1) as U. fold u in U. pose proof (sqrt_sqrt _ P2) as V. fold v in V.
  exists (- s / 2, u), (- s / 2, - u), (- s2 / 2, v), (- s2 / 2, - v), (- s / 2). split; [lra|]. split; [reflexivity|]. intros z Hz.
  assert (F : Cquartic (8 / 3) (117 / 8) (46 / 7) 30 z =
    nmul (nmul (nsub z (- s / 2, u)) (nsub z (- s / 2, - u))) (nmul (nsub z (- s2 / 2, v)) (nsub z (- s2 / 2, - v)))).
  { transitivity (nmul (nadd (nadd (nmul z z) (nmul (Cr s) z)) (Cr t)) (nadd (nadd (nmul z z) (nmul (Cr s2) z)) (Cr t2))).
    - assert (E3 : 46 / 7 = t * (8 / 3 - 2 * s) + s * S') by lra. rewrite E3, <- N. fold t2. unfold s2. assert (E2 : 117 / 8 = S' + s * (8 / 3 - s)) by (unfold S', rS; ring). rewrite E2.
      replace S' with (t + t2) by (unfold t2; ring). destruct z. unfold Cquartic. apply C_eq; cbn; unfold n0; cbn; field.
    - f_equal.
      + assert (Et : t = u * u + s * s / 4) by lra. rewrite Et. destruct z. apply C_eq; cbn; unfold n0; cbn; field.
      + assert (Et : t2 = v * v + s2 * s2 / 4) by lra. rewrite Et. destruct z. apply C_eq; cbn; unfold n0; cbn; field. }
  rewrite F in Hz.
  assert (Eq : forall a b : C, nsub a b = nofZ 0 -> b = a). { intros [a1 a2] [b1 b2] H. pose proof (f_equal fst H). pose proof (f_equal snd H). cbn in *. unfold n0 in *. cbn in *. f_equal; lra. }
  apply C_domain in Hz. destruct Hz as [Hz|Hz]; apply C_domain in Hz; destruct Hz as [Hz|Hz]; apply Eq in Hz; cbn [In]; tauto.
Qed.
Section Script.
  Context {X : Ext R}.
  Hypothesis IV : inv_ok.
  Lemma script_positive eigvals arctan2 argsort lo hi pts : argsort_ok argsort ->
    (forall M, icb_FK 3 [0; 1; 2]%nat (Cr (-1)) = Ok M -> all_eigenvalues 4 M (eigvals M)) ->
    dg_stability eigvals arctan2 argsort = Ok (lo, hi, pts) -> 0.00038 <= hi /\ exists q, In q pts /\ 0.00038 <= fst q.
  Proof.
    intros AS HA HR. unfold dg_stability in HR.
    destruct (Enhance_ok IV 3 "icb 0 1 2" "icb" ["0"; "1"; "2"]%string [0; 1; 2]%nat) as [e [E M]];
      [reflexivity|repeat constructor|repeat constructor; cbn; intuition lia|intros m Hm; cbn in Hm; lia|].
    change (sort_nat [0; 1; 2]%nat) with [0; 1; 2]%nat in M.
    destruct (report_spec eigvals arctan2 argsort AS 3 _ lo hi pts HR) as [[Ms [F2 _]] [_ [_ [_ [B _]]]]].
    assert (HM : exists K, icb_FK 3 [0; 1; 2]%nat (Cr (-1)) = Ok K).
    { assert (Hin : In (phase 0) (ebjs (A := R))) by (apply ebjs_phase; exists 0%nat; split; [lia|reflexivity]). rewrite phase_0 in Hin. clear - F2 Hin.
      induction F2 as [|t K ts Ks [E _] F IH]; [destruct Hin|]. destruct Hin as [->|Hin]; eauto. }
    destruct HM as [K HK]. destruct root012 as [x [y [Hx Hq]]].
    assert (Ev : eigen 4 K (x, y) (w012 (x, y))).
    { apply (eigen012 IV "icb 0 1 2" e (x, y) K E M); [rewrite M; exact HK| |exact Hq]. intro H. apply (f_equal fst) in H. cbn in H. lra. }
    assert (Hin : In (x, y) pts).
    { apply (vertex_iff eigvals arctan2 argsort AS 3 _ lo hi pts _ HR). exists 0%nat, K. split; [lia|]. split; [rewrite phase_0; exact HK|]. apply (HA K HK _ _ Ev). }
    split; [|exists (x, y); split; [exact Hin|apply Hx]]. pose proof (B _ Hin) as Bq. cbn [fst] in Bq. lra.
  Qed.
End Script.
(** ** sorting *)
Section Sort.
  Variable key : nat -> R.
  Fixpoint ins (i : nat) (l : list nat) : list nat := match l with [] => [i] | j :: r => if Rle_dec (key i) (key j) then i :: l else j :: ins i r end.
  Definition isort (l : list nat) : list nat := fold_right ins [] l.
  Lemma ins_perm i l : Permutation (ins i l) (i :: l).
  Proof. induction l as [|j r IH]; [reflexivity|]. cbn [ins]. destruct (Rle_dec (key i) (key j)); [reflexivity|]. rewrite IH. apply perm_swap. Qed.
  Lemma isort_perm l : Permutation (isort l) l.
  Proof. induction l as [|i l IH]; [constructor|]. cbn [isort fold_right]. rewrite ins_perm. apply perm_skip. exact IH. Qed.
  Lemma ins_sorted i l : StronglySorted (fun a b => key a <= key b) l -> StronglySorted (fun a b => key a <= key b) (ins i l).
  Proof.
    induction 1 as [|j r S IH F]; cbn [ins]; [repeat constructor|]. destruct (Rle_dec (key i) (key j)) as [L|L].
    - constructor; [constructor; assumption|]. constructor; [exact L|]. eapply Forall_impl; [|exact F]. cbv beta. intros. lra.
    - constructor; [exact IH|]. apply Forall_forall. intros b Hb. apply (Permutation_in _ (ins_perm i r)) in Hb. destruct Hb as [<-|Hb]; [lra|]. rewrite Forall_forall in F. apply F. exact Hb.
  Qed.
  Lemma isort_sorted l : StronglySorted (fun a b => key a <= key b) (isort l).
  Proof. induction l as [|i l IH]; [constructor|]. cbn [isort fold_right]. apply ins_sorted. exact IH. Qed.
End Sort.
Definition argsort_R (v : vec R) : list nat := isort (fun i => nth i v 0) (seq 0 (List.length v)).
Lemma argsort_R_ok : argsort_ok argsort_R.
Proof. intro v. split; [apply isort_perm|apply (isort_sorted (fun i => nth i v 0))]. Qed.
