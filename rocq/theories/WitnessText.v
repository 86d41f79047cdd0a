(** Library routines over the reals whose texts are integers in units of 10^-18: numbers of at most 18 decimals are written and
    read back exactly, every other number to within 10^-18.  Used to show that hypotheses about texts can be met. *)
From Coq Require Import ZArith List Bool Arith String Ascii Reals Lra Lia.
From Verif Require Import Num Py PyStr ProofsStr Lib LegNumpy Ext RealLib SpecDG SpecPoly SpecText SpecScripts ProofsText ProofsIO ExtReal.
Import ListNotations.
Open Scope R_scope.

Definition unit18 : R := 1000000000000000000.
Definition cents (x : R) : Z := Int_part (x * unit18).
Definition fmtD (x : R) : string := String (if (cents x <? 0)%Z then "m"%char else "p"%char) (show_nat (Z.abs_nat (cents x))).
Definition parseD (s : string) : option R :=
  if String.eqb s "0.5" then Some (1 / 2)
  else match s with
       | String c r => if Ascii.eqb c "m" then option_map (fun z => - IZR z / unit18) (parse_int r)
                       else if Ascii.eqb c "p" then option_map (fun z => IZR z / unit18) (parse_int r)
                       else option_map IZR (parse_int s)
       | EmptyString => None
       end.
Definition ExtDec : Ext R := {| leggauss := gaussR; linv := invR; legfit := fitR; parse_float := parseD; fmt_e18 := fmtD |}.

Lemma ExtDec_gauss : @gauss_ok ExtDec. Proof. exact ExtReal_gauss. Qed.
Lemma ExtDec_inv : @inv_ok ExtDec. Proof. exact ExtReal_inv. Qed.
Lemma ExtDec_fit : @legfit_ok ExtDec. Proof. exact ExtReal_fit. Qed.

Lemma parse_fmtD x : parseD (fmtD x) = Some (IZR (cents x) / unit18).
Proof.
  unfold parseD, fmtD. destruct (Z.ltb_spec (cents x) 0) as [H|H].
  - replace (String.eqb (String "m" (show_nat (Z.abs_nat (cents x)))) "0.5") with false by reflexivity. cbn [Ascii.eqb Bool.eqb]. rewrite parse_show. cbn [option_map].
    rewrite Zabs2Nat.id_abs, Z.abs_neq by lia. rewrite opp_IZR. f_equal. lra.
  - replace (String.eqb (String "p" (show_nat (Z.abs_nat (cents x)))) "0.5") with false by reflexivity. cbn [Ascii.eqb Bool.eqb]. rewrite parse_show. cbn [option_map].
    rewrite Zabs2Nat.id_abs, Z.abs_eq by lia. reflexivity.
Qed.
Lemma fmtD_plain x : fmtD x <> EmptyString /\ plain (fmtD x) = true.
Proof. split; [discriminate|]. unfold fmtD, plain. cbn [all_chars]. change (all_chars plain_char) with plain. rewrite show_plain. destruct (_ <? _)%Z; reflexivity. Qed.
(** every number is read within 10^-18 *)
Lemma ExtDec_near x : near_text (X := ExtDec) (/ unit18) x.
Proof.
  destruct (fmtD_plain x) as [H1 H2]. split; [exact H1|]. split; [exact H2|]. exists (IZR (cents x) / unit18). split; [apply parse_fmtD|].
  assert (P : 0 < unit18) by (unfold unit18; lra). pose proof (base_Int_part (x * unit18)) as [B1 B2]. fold (cents x) in B1, B2.
  replace (IZR (cents x) / unit18 - x) with ((IZR (cents x) - x * unit18) / unit18) by (field; lra).
  unfold Rdiv. rewrite Rabs_mult, (Rabs_pos_eq (/ unit18)) by (left; apply Rinv_0_lt_compat; exact P). rewrite <- (Rmult_1_l (/ unit18)) at 2.
  apply Rmult_le_compat_r; [left; apply Rinv_0_lt_compat; exact P|]. apply Rabs_le. lra.
Qed.
(** numbers of at most 18 decimals exactly *)
Lemma ExtDec_exact z x : x * unit18 = IZR z -> text_ok (X := ExtDec) x.
Proof.
  intro H. destruct (fmtD_plain x) as [H1 H2]. split; [exact H1|]. split; [exact H2|]. change (parseD (fmtD x) = Some x). rewrite parse_fmtD. f_equal.
  assert (C : cents x = z). { unfold cents. rewrite H. destruct (base_Int_part (IZR z)) as [B1 B2]. apply le_IZR in B1.
    assert (B3 : (z - 1 < Int_part (IZR z))%Z) by (apply lt_IZR; rewrite minus_IZR; lra). lia. }
  rewrite C, <- H. unfold unit18. field.
Qed.
Lemma ExtDec_int k : parse_float (Ext := ExtDec) (show_nat k) = Some (INR k).
Proof.
  change (parseD (show_nat k) = Some (INR k)). unfold parseD. pose proof (show_digits k) as D. pose proof (parse_show k) as P. pose proof (show_nonempty k) as Ne.
  destruct (show_nat k) as [|c r] eqn:E; [congruence|]. destruct (String.eqb_spec (String c r) "0.5") as [E1|E1].
  - rewrite E1 in D. discriminate.
  - cbn [all_chars] in D. apply andb_prop in D. destruct D as [D _]. destruct (Ascii.eqb_spec c "m"); [subst c; discriminate|].
    destruct (Ascii.eqb_spec c "p"); [subst c; discriminate|]. rewrite P. cbn [option_map]. rewrite INR_IZR_INZ. reflexivity.
Qed.
Lemma ExtDec_spaced k : parse_float (Ext := ExtDec) (" " ++ show_nat k)%string = Some (IZR (Z.of_nat k)).
Proof.
  change (parseD (" " ++ show_nat k)%string = Some (IZR (Z.of_nat k))). unfold parseD. cbn [append].
  replace (String.eqb (String " " (show_nat k)) "0.5") with false by reflexivity. cbn [Ascii.eqb Bool.eqb].
  replace (parse_int (String " " (show_nat k))) with (parse_int (show_nat k)); [rewrite parse_show; reflexivity|].
  unfold parse_int. replace (strip (String " " (show_nat k))) with (strip (show_nat k)); [reflexivity|]. unfold strip.
  assert (Hs : all_chars no_space (show_nat k) = true).
  { apply (all_impl is_digit); [|apply show_digits]. intros c Hc. unfold no_space. rewrite (proj1 (digit_char c Hc)). reflexivity. }
  change (String " " (show_nat k)) with (" " ++ show_nat k)%string. rewrite (rstrip_app " ") by (try apply show_nonempty; exact Hs). rewrite rstrip_id by exact Hs. reflexivity.
Qed.
