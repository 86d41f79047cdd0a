(** The library routines over the reals, with proofs that they meet their contracts: the hypotheses
    [gauss_ok], [inv_ok], [legfit_ok] that theorems make are satisfiable for every order. *)
From Coq Require Import ZArith List Bool Arith String Reals Lra Lia ClassicalEpsilon.
From Verif Require Import Num Py Lib LegNumpy Ext Standins RealLib SpecDG SpecPoly ProofsPoly ProofsLeg ProofsGauss.
Import ListNotations.
Open Scope list_scope.
Open Scope R_scope.

Definition gaussR (n : nat) : list R * list R :=
  epsilon (inhabits ([], [])) (fun p => gauss_rule n (fst p) (snd p)).
Definition invR (M : list (list R)) : res (list (list R)) :=
  if excluded_middle_informative (exists Mi, is_inverse (List.length M) M Mi)
  then Ok (epsilon (inhabits []) (is_inverse (List.length M) M)) else Raise LinAlgError.
Definition fitR (x y : list R) (deg : nat) : list R :=
  epsilon (inhabits []) (fun c => List.length c = (deg + 1)%nat /\
    forall i, (i < List.length x)%nat -> legseries c (nth i x 0) = nth i y 0).
Definition fmtR (x : R) : string := epsilon (inhabits EmptyString) (fun s => parse_decimal s = Some x).

Definition ExtReal : Ext R := {|
  leggauss := gaussR; linv := invR; legfit := fitR; parse_float := parse_decimal; fmt_e18 := fmtR |}.

Lemma ExtReal_gauss : @gauss_ok ExtReal.
Proof.
  intros n Hn. cbn [leggauss ExtReal]. unfold gaussR. apply (epsilon_spec (inhabits ([], [])) (fun p => gauss_rule n (fst p) (snd p))).
  destruct (gauss_exists n Hn) as [x [w H]]. exists (x, w). exact H.
Qed.
Lemma ExtReal_inv : @inv_ok ExtReal.
Proof.
  intros n M [L S]. cbn [linv ExtReal]. unfold invR. rewrite L.
  destruct (excluded_middle_informative (exists Mi, is_inverse n M Mi)) as [E|E]; [|exact E].
  apply epsilon_spec. exact E.
Qed.
Lemma ExtReal_fit : @legfit_ok ExtReal.
Proof.
  intros n x y Hn Lx Ly D. cbn [legfit ExtReal]. unfold fitR. rewrite Lx.
  replace (n - 1 + 1)%nat with n by lia.
  apply (epsilon_spec (inhabits []) (fun c => List.length c = n /\ forall i, (i < n)%nat -> legseries c (nth i x 0) = nth i y 0)).
  destruct (interpolate n (fun i => nth i x 0) (fun i => nth i y 0) Hn) as [f [Hf E]].
  { intros i j Hi Hj. apply (proj1 (NoDup_nth x 0)); [exact D|lia|lia]. }
  destruct (poly_legseries _ f Hf) as [c [Lc Ec]]. exists c. split; [lia|]. intros i Hi. rewrite <- Ec. apply E. exact Hi.
Qed.
