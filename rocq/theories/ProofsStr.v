(** String lemmas: decimal rendering and parsing, splitting, stripping. *)
From Coq Require Import ZArith List Bool Arith String Ascii Lia.
From Verif Require Import Py PyStr.
Import ListNotations.
Open Scope string_scope.
Open Scope nat_scope.

Fixpoint all_chars (P : ascii -> bool) (s : string) : bool :=
  match s with EmptyString => true | String c r => (P c && all_chars P r)%bool end.

Lemma app_assoc_s (a b c : string) : ((a ++ b) ++ c)%string = (a ++ (b ++ c))%string.
Proof. induction a; simpl; congruence. Qed.
Lemma app_nil_r_s (a : string) : (a ++ "")%string = a.
Proof. induction a; simpl; congruence. Qed.
Lemma all_chars_app P a b : all_chars P (a ++ b) = (all_chars P a && all_chars P b)%bool.
Proof. induction a; simpl; [reflexivity|]. rewrite IHa, andb_assoc. reflexivity. Qed.

Definition is_digit (c : ascii) : bool := match digit_val c with Some _ => true | None => false end.

Lemma digit_val_digit n : n < 10 -> digit_val (digit n) = Some (Z.of_nat n).
Proof. intro H. do 10 (destruct n as [|n]; [reflexivity|]). lia. Qed.
Lemma is_digit_digit n : n < 10 -> is_digit (digit n) = true.
Proof. intro H. unfold is_digit. rewrite digit_val_digit by exact H. reflexivity. Qed.

(** value of a digit string, with the accumulator's weight made explicit *)
Lemma digits_val_app a b z : digits_val (a ++ b) z =
  match digits_val a z with Some z' => digits_val b z' | None => None end.
Proof. revert z. induction a; intros z; simpl; [reflexivity|]. destruct (digit_val a); [apply IHa|reflexivity]. Qed.

Lemma show_nat_aux_spec : forall fuel n acc, n < fuel ->
  exists s, show_nat_aux fuel n acc = (s ++ acc)%string /\ all_chars is_digit s = true /\
            s <> ""%string /\
            digits_val s 0 = Some (Z.of_nat n).
Proof.
  induction fuel as [|fuel IH]; intros n acc H; [lia|].
  cbn [show_nat_aux]. pose proof (Nat.mod_upper_bound n 10 ltac:(lia)) as Hm.
  destruct (Nat.ltb_spec n 10) as [Hn|Hn].
  - exists (String (digit (n mod 10)) ""). split; [reflexivity|]. split.
    + cbn [all_chars]. rewrite is_digit_digit by exact Hm. reflexivity.
    + split; [discriminate|]. cbn [digits_val].
      rewrite digit_val_digit by exact Hm. rewrite Nat.mod_small by exact Hn. f_equal.
  - destruct (IH (n / 10) (String (digit (n mod 10)) acc)) as [s [E [Ha [Hne Hv]]]].
    { assert (n / 10 < n) by (apply Nat.div_lt; lia). lia. }
    exists (s ++ String (digit (n mod 10)) ""). split; [|split; [|split]].
    + rewrite E, app_assoc_s. reflexivity.
    + rewrite all_chars_app, Ha. cbn [all_chars andb]. rewrite is_digit_digit by exact Hm. reflexivity.
    + destruct s; discriminate.
    + rewrite digits_val_app, Hv. cbn [digits_val]. rewrite digit_val_digit by exact Hm. f_equal.
      rewrite (Nat.div_mod n 10) at 3 by lia. lia.
Qed.

Lemma show_nat_spec n : all_chars is_digit (show_nat n) = true /\ show_nat n <> ""%string
  /\ digits_val (show_nat n) 0 = Some (Z.of_nat n).
Proof.
  unfold show_nat. destruct (show_nat_aux_spec (S n) n "" ltac:(lia)) as [s [E [H1 [H2 H3]]]].
  rewrite E, app_nil_r_s. auto.
Qed.
Lemma show_nat_digits n : all_chars is_digit (show_nat n) = true. Proof. apply show_nat_spec. Qed.
Lemma show_nat_val n : digits_val (show_nat n) 0 = Some (Z.of_nat n). Proof. apply show_nat_spec. Qed.
Lemma show_nat_inj n m : show_nat n = show_nat m -> n = m.
Proof. intro H. pose proof (show_nat_val n) as H1. rewrite H, show_nat_val in H1. injection H1. lia. Qed.

Lemma zero_pad_digits k : all_chars is_digit (zero_pad k) = true.
Proof. induction k; [reflexivity|]. cbn [zero_pad all_chars]. rewrite IHk. reflexivity. Qed.
Lemma zero_pad_val k : digits_val (zero_pad k) 0 = Some 0%Z.
Proof. induction k; [reflexivity|]. cbn [zero_pad digits_val]. exact IHk. Qed.
Lemma show_nat_pad_digits w n : all_chars is_digit (show_nat_pad w n) = true.
Proof. unfold show_nat_pad. rewrite all_chars_app, zero_pad_digits, show_nat_digits. reflexivity. Qed.
Lemma show_nat_pad_val w n : digits_val (show_nat_pad w n) 0 = Some (Z.of_nat n).
Proof. unfold show_nat_pad. rewrite digits_val_app, zero_pad_val. apply show_nat_val. Qed.
Lemma show_nat_pad_inj w n m : show_nat_pad w n = show_nat_pad w m -> n = m.
Proof. intro H. pose proof (show_nat_pad_val w n) as H1. rewrite H, show_nat_pad_val in H1. injection H1. lia. Qed.
Lemma show_nat_pad_nonempty w n : show_nat_pad w n <> ""%string.
Proof.
  unfold show_nat_pad. intro H. apply (f_equal String.length) in H.
  pose proof (show_nat_spec n) as [_ [Hne _]]. destruct (show_nat n); [congruence|].
  destruct (w - String.length (String a s)) as [|k]; simpl in H; discriminate.
Qed.

(** the longest prefix avoiding P, and the rest *)
Fixpoint span (P : ascii -> bool) (s : string) : string * string :=
  match s with
  | EmptyString => ("", "")
  | String c r => if P c then ("", s) else let '(a, b) := span P r in (String c a, b)
  end.
Lemma span_app P a c b : all_chars (fun c => negb (P c)) a = true -> P c = true ->
  span P (a ++ String c b) = (a, String c b).
Proof.
  intros Ha Hc. induction a; simpl; [rewrite Hc; reflexivity|].
  simpl in Ha. apply andb_true_iff in Ha. destruct Ha as [H1 H2].
  destruct (P a); [discriminate|]. rewrite IHa by exact H2. reflexivity.
Qed.

Lemma span_end P a : all_chars (fun c => negb (P c)) a = true -> span P a = (a, "").
Proof.
  intros Ha. induction a; simpl; [reflexivity|].
  simpl in Ha. apply andb_true_iff in Ha. destruct Ha as [H1 H2].
  destruct (P a); [discriminate|]. rewrite IHa by exact H2. reflexivity.
Qed.

Lemma all_chars_ext P Q s : (forall c, P c = true -> Q c = true) -> all_chars P s = true -> all_chars Q s = true.
Proof.
  intro H. induction s; simpl; [reflexivity|]. intro E. apply andb_true_iff in E. destruct E as [E1 E2].
  rewrite (H _ E1), (IHs E2). reflexivity.
Qed.
