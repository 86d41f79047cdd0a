(** Strings, lines, splitting and decimal numbers. *)
From Coq Require Import ZArith List Bool Arith String Ascii Lia.
From Verif Require Import Num Py PyStr ProofsStr Lib Ext SpecText.
Import ListNotations.
Open Scope string_scope.
Open Scope list_scope.

Lemma sapp_nil_r s : (s ++ "")%string = s. Proof. induction s as [|c s IH]; [reflexivity|]. cbn. rewrite IH. reflexivity. Qed.
Lemma sapp_assoc a b c : ((a ++ b) ++ c)%string = (a ++ (b ++ c))%string. Proof. induction a as [|x a IH]; [reflexivity|]. cbn. rewrite IH. reflexivity. Qed.
Lemma sapp_cons x a b : (String x a ++ b)%string = String x (a ++ b). Proof. reflexivity. Qed.
Lemma slength_app a b : String.length (a ++ b) = (String.length a + String.length b)%nat.
Proof. induction a as [|x a IH]; [reflexivity|]. cbn. rewrite IH. reflexivity. Qed.
Lemma all_app P a b : all_chars P (a ++ b) = (all_chars P a && all_chars P b)%bool.
Proof. induction a as [|x a IH]; [reflexivity|]. cbn. rewrite IH. apply andb_assoc. Qed.
Lemma all_impl (P Q : ascii -> bool) s : (forall c, P c = true -> Q c = true) -> all_chars P s = true -> all_chars Q s = true.
Proof. intro H. induction s as [|c s IH]; cbn; [reflexivity|]. intro E. apply andb_prop in E. destruct E as [E1 E2]. rewrite (H c E1), (IH E2). reflexivity. Qed.

(** ** lines *)
Lemma lines_app l r : one_line l = true -> file_lines (l ++ nl ++ r) = (l ++ nl)%string :: file_lines r.
Proof.
  induction l as [|c l IH]; intro H.
  - cbn [append nl]. cbn [file_lines]. rewrite Ascii.eqb_refl. reflexivity.
  - cbn [one_line all_chars] in H. apply andb_prop in H. destruct H as [H1 H2]. cbn [append file_lines].
    destruct (Ascii.eqb c newline); [discriminate|]. rewrite IH by exact H2. reflexivity.
Qed.
Lemma lines_concat (ls : list string) : forallb one_line ls = true ->
  file_lines (String.concat "" (map (fun l => l ++ nl)%string ls)) = map (fun l => l ++ nl)%string ls.
Proof.
  assert (C : forall x xs, String.concat "" (x :: xs) = (x ++ String.concat "" xs)%string).
  { intros x [|y ys]; cbn [String.concat]; [rewrite sapp_nil_r; reflexivity|]. reflexivity. }
  induction ls as [|l ls IH]; intro H; [reflexivity|]. cbn [forallb] in H. apply andb_prop in H. destruct H as [H1 H2].
  cbn [map]. rewrite C, sapp_assoc, lines_app by exact H1. rewrite IH by exact H2. reflexivity.
Qed.
Lemma concat_nil_cons x xs : String.concat "" (x :: xs) = (x ++ String.concat "" xs)%string.
Proof. destruct xs as [|y ys]; cbn [String.concat]; [rewrite sapp_nil_r; reflexivity|]. reflexivity. Qed.

(** ** rstrip *)
Lemma space_nl : is_space newline = true. Proof. reflexivity. Qed.
Lemma rstrip_space s c : is_space c = true -> rstrip (s ++ String c "") = rstrip s.
Proof.
  intro H. induction s as [|x s IH]; cbn [append rstrip].
  - rewrite H. reflexivity.
  - rewrite IH. reflexivity.
Qed.
Lemma rstrip_nl s : rstrip (s ++ nl) = rstrip s.
Proof. apply rstrip_space. reflexivity. Qed.
Definition no_space (c : ascii) : bool := negb (is_space c).
Lemma rstrip_id s : all_chars no_space s = true -> rstrip s = s.
Proof.
  induction s as [|c s IH]; intro H; [reflexivity|]. cbn [all_chars] in H. apply andb_prop in H. destruct H as [H1 H2]. cbn [rstrip]. rewrite IH by exact H2.
  destruct s; [|reflexivity]. unfold no_space in H1. destruct (is_space c); [discriminate|reflexivity].
Qed.
Lemma lstrip_id s : all_chars no_space s = true -> lstrip s = s.
Proof. destruct s as [|c s]; intro H; [reflexivity|]. cbn [all_chars] in H. apply andb_prop in H. destruct H as [H1 _]. cbn [lstrip]. unfold no_space in H1. destruct (is_space c); [discriminate|reflexivity]. Qed.
(** rstrip of something ending in a visible character *)
Lemma rstrip_last s c : is_space c = false -> rstrip (s ++ String c "") = (s ++ String c "")%string.
Proof.
  intro H. induction s as [|x s IH]; cbn [append rstrip]; [rewrite H; reflexivity|]. rewrite IH. destruct s; reflexivity.
Qed.
Lemma string_last s : s = ""%string \/ exists a c, s = (a ++ String c "")%string.
Proof.
  induction s as [|x s IH]; [left; reflexivity|]. right. destruct IH as [->|[a [c ->]]]; [exists ""%string, x; reflexivity|exists (String x a), c; reflexivity].
Qed.
Lemma rstrip_app a b : b <> ""%string -> all_chars no_space b = true -> rstrip (a ++ b) = (a ++ b)%string.
Proof.
  intros Hb H. destruct (string_last b) as [->|[b' [c ->]]]; [congruence|]. rewrite <- sapp_assoc. apply rstrip_last.
  rewrite all_app in H. apply andb_prop in H. destruct H as [_ H]. cbn in H. unfold no_space in H. destruct (is_space c); [discriminate|reflexivity].
Qed.
Lemma rstrip_idem s : rstrip (rstrip s) = rstrip s.
Proof.
  induction s as [|c s IH]; [reflexivity|]. cbn [rstrip]. destruct (rstrip s) as [|x r] eqn:E.
  - destruct (is_space c) eqn:Ec; [reflexivity|]. cbn. rewrite Ec. reflexivity.
  - cbn [rstrip]. cbn [rstrip] in IH. rewrite IH. reflexivity.
Qed.

(** ** split *)
Lemma split_word sep w : all_chars (fun c => negb (sep c)) w = true -> split_on sep w = [w].
Proof.
  induction w as [|c w IH]; intro H; [reflexivity|]. cbn [all_chars] in H. apply andb_prop in H. destruct H as [H1 H2]. cbn [split_on].
  destruct (sep c); [discriminate|]. rewrite IH by exact H2. reflexivity.
Qed.
Lemma split_sep sep w c r : all_chars (fun c => negb (sep c)) w = true -> sep c = true -> split_on sep (w ++ String c r) = w :: split_on sep r.
Proof.
  induction w as [|x w IH]; intros H Hc; cbn [append split_on]; [rewrite Hc; reflexivity|]. cbn [all_chars] in H. apply andb_prop in H. destruct H as [H1 H2].
  destruct (sep x); [discriminate|]. rewrite IH by assumption. reflexivity.
Qed.
Lemma split_concat sep c ws : sep c = true -> ws <> [] -> forallb (all_chars (fun c => negb (sep c))) ws = true ->
  split_on sep (String.concat (String c "") ws) = ws.
Proof.
  intros Hc. induction ws as [|w ws IH]; intros Hn H; [congruence|]. cbn [forallb] in H. apply andb_prop in H. destruct H as [H1 H2].
  destruct ws as [|w' ws]; [cbn [String.concat]; apply split_word; exact H1|].
  change (String.concat (String c "") (w :: w' :: ws)) with (w ++ String c "" ++ String.concat (String c "") (w' :: ws))%string.
  cbn [append]. rewrite split_sep by assumption. f_equal. apply IH; [discriminate|exact H2].
Qed.

(** ** decimal numbers *)
Lemma digit_ok n : (n < 10)%nat -> digit_val (digit n) = Some (Z.of_nat n) /\ is_space (digit n) = false /\ digit n <> newline.
Proof. intro H. do 10 (destruct n as [|n]; [split; [reflexivity|split; [reflexivity|discriminate]]|]). lia. Qed.
Lemma digits_val_app a b acc : all_chars is_digit a = true -> digits_val (a ++ b) acc = match digits_val a acc with Some v => digits_val b v | None => None end.
Proof.
  revert acc. induction a as [|c a IH]; intros acc H; [reflexivity|]. cbn [all_chars] in H. apply andb_prop in H. destruct H as [H1 H2].
  cbn [append digits_val]. unfold is_digit in H1. destruct (digit_val c); [|discriminate]. apply IH. exact H2.
Qed.
Lemma show_aux_digits fuel : forall n acc, all_chars is_digit acc = true -> all_chars is_digit (show_nat_aux fuel n acc) = true.
Proof.
  induction fuel as [|fuel IH]; intros n acc H; [exact H|]. cbn [show_nat_aux].
  assert (H' : all_chars is_digit (String (digit (n mod 10)) acc) = true).
  { cbn [all_chars]. rewrite H. unfold is_digit. rewrite (proj1 (digit_ok (n mod 10) (Nat.mod_upper_bound n 10 ltac:(lia)))). reflexivity. }
  destruct (n <? 10)%nat; [exact H'|]. apply IH. exact H'.
Qed.
Lemma show_digits n : all_chars is_digit (show_nat n) = true.
Proof. apply show_aux_digits. reflexivity. Qed.
Lemma show_aux_app fuel : forall n acc, show_nat_aux fuel n acc = (show_nat_aux fuel n "" ++ acc)%string.
Proof.
  induction fuel as [|fuel IH]; intros n acc; [reflexivity|]. cbn [show_nat_aux]. destruct (n <? 10)%nat; [reflexivity|].
  rewrite IH, (IH _ (String _ "")), sapp_assoc. reflexivity.
Qed.
Lemma show_aux_val fuel : forall n, (n < fuel)%nat -> digits_val (show_nat_aux fuel n "") 0 = Some (Z.of_nat n).
Proof.
  induction fuel as [|fuel IH]; intros n Hn; [lia|]. cbn [show_nat_aux]. destruct (Nat.ltb_spec n 10) as [L|L].
  - cbn [digits_val]. rewrite Nat.mod_small by exact L. rewrite (proj1 (digit_ok n L)). reflexivity.
  - rewrite show_aux_app, digits_val_app by (apply show_aux_digits; reflexivity).
    assert (D : (n / 10 < n)%nat) by (apply Nat.div_lt; lia). rewrite IH by lia. cbn [digits_val].
    rewrite (proj1 (digit_ok (n mod 10) (Nat.mod_upper_bound n 10 ltac:(lia)))). f_equal.
    pose proof (Nat.div_mod n 10 ltac:(lia)). lia.
Qed.
Lemma show_nat_val n : digits_val (show_nat n) 0 = Some (Z.of_nat n).
Proof. unfold show_nat. apply show_aux_val. lia. Qed.
Lemma show_nonempty n : show_nat n <> ""%string.
Proof.
  unfold show_nat. cbn [show_nat_aux]. destruct (n <? 10)%nat; [discriminate|]. rewrite show_aux_app. intro H.
  apply (f_equal String.length) in H. rewrite slength_app in H. cbn in H. lia.
Qed.
Lemma digit_char c : is_digit c = true -> is_space c = false /\ c <> newline /\ c <> "+"%char /\ c <> "-"%char /\ c <> ","%char /\ c <> "="%char /\ c <> "#"%char.
Proof.
  destruct c as [b0 b1 b2 b3 b4 b5 b6 b7]. destruct b0, b1, b2, b3, b4, b5, b6, b7; intro H; try (discriminate H); repeat split; discriminate.
Qed.
Lemma parse_int_digits s v : s <> ""%string -> all_chars is_digit s = true -> digits_val s 0 = Some v -> parse_int s = Some v.
Proof.
  intros Hn Hd Hv. assert (Hs : all_chars no_space s = true).
  { apply (all_impl is_digit); [|exact Hd]. intros c Hc. unfold no_space. rewrite (proj1 (digit_char c Hc)). reflexivity. }
  unfold parse_int, strip. rewrite rstrip_id, lstrip_id by exact Hs. destruct s as [|c s]; [congruence|].
  cbn [all_chars] in Hd. apply andb_prop in Hd. destruct Hd as [Hc _]. destruct (digit_char c Hc) as [_ [_ [H1 [H2 _]]]].
  transitivity (nonempty_digits (String c s)); [|exact Hv].
  destruct c as [b0 b1 b2 b3 b4 b5 b6 b7]. destruct b0, b1, b2, b3, b4, b5, b6, b7; try reflexivity; congruence.
Qed.
Lemma parse_show n : parse_int (show_nat n) = Some (Z.of_nat n).
Proof. apply parse_int_digits; [apply show_nonempty|apply show_digits|apply show_nat_val]. Qed.
Lemma zero_pad_digits k : all_chars is_digit (zero_pad k) = true.
Proof. induction k as [|k IH]; [reflexivity|]. exact IH. Qed.
Lemma zero_pad_val k : digits_val (zero_pad k) 0 = Some 0%Z.
Proof. induction k as [|k IH]; [reflexivity|]. exact IH. Qed.
Lemma pad_val w n : digits_val (show_nat_pad w n) 0 = Some (Z.of_nat n).
Proof. unfold show_nat_pad. rewrite digits_val_app, zero_pad_val by apply zero_pad_digits. apply show_nat_val. Qed.
Lemma pad_digits w n : all_chars is_digit (show_nat_pad w n) = true.
Proof. unfold show_nat_pad. rewrite all_app, zero_pad_digits, show_digits. reflexivity. Qed.
