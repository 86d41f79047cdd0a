(** The convergence study's script *)
From Coq Require Import ZArith List Bool Arith String Ascii Lia.
From Verif Require Import Num Py Lib PyStr ProofsStr LegNumpy Ext Basis Sensor Enhance IC Solution Solver RK IO Deck Main Scripts Launch.
Import ListNotations.
Open Scope string_scope.
Open Scope list_scope.

(** *** paths *)
Lemma under_spec p q : under p q = true <-> exists s, q = p ++ s.
Proof.
  revert q. induction p as [|a p IH]; intro q; cbn [under app].
  - split; [intros _; exists q; reflexivity|reflexivity].
  - destruct q as [|b q]; [split; [discriminate|intros [s E]; discriminate]|]. rewrite andb_true_iff, String.eqb_eq, IH. split.
    + intros [-> [s ->]]. exists s. reflexivity.
    + intros [s E]. injection E as -> E. split; [reflexivity|exists s; exact E].
Qed.
Lemma path_eqb_spec p q : path_eqb p q = true <-> p = q.
Proof.
  revert q. induction p as [|a p IH]; intros [|b q]; cbn [path_eqb]; try (split; congruence). rewrite andb_true_iff, String.eqb_eq, IH. split; [intros [-> ->]; reflexivity|]. injection 1 as -> ->. tauto.
Qed.
Lemma resolve_code (base : path) o r : resolve (base ++ [o; r]) (codedir ++ "main.py")%string = base ++ [o; "dg1d"; "main.py"].
Proof.
  unfold resolve, codedir. change (split_on (Ascii.eqb "/") ("../dg1d/" ++ "main.py")) with [".."; "dg1d"; "main.py"]. cbn [fold_left String.eqb Ascii.eqb Bool.eqb orb].
  change [o; r] with ([o] ++ [r]). rewrite app_assoc, removelast_last, <- !app_assoc. reflexivity.
Qed.
Lemma prefixes_In p q : In q (prefixes p) <-> under q p = true.
Proof.
  revert q. induction p as [|a p IH]; intro q; cbn [prefixes In].
  - split; [intros [<-|[]]; reflexivity|]. destruct q; [left; reflexivity|discriminate].
  - rewrite in_map_iff. split.
    + intros [<-|[q' [<- H]]]; [reflexivity|]. cbn [under]. rewrite String.eqb_refl. apply IH. exact H.
    + destruct q as [|b q]; [left; reflexivity|]. cbn [under]. rewrite andb_true_iff, String.eqb_eq. intros [-> H]. right. exists q. split; [reflexivity|]. apply IH. exact H.
Qed.
Lemma show_not_dg1d n : show_nat n <> "dg1d".
Proof. intro H. pose proof (show_nat_digits n) as D. rewrite H in D. discriminate. Qed.
Lemma has_file_spec t p : has_file t p = true <-> exists c, In (p, c) (t_files t).
Proof.
  unfold has_file. rewrite existsb_exists. split.
  - intros [[q c] [H1 H2]]. cbn [fst] in H2. apply path_eqb_spec in H2. subst q. exists c. exact H1.
  - intros [c H]. exists (p, c). split; [exact H|]. apply path_eqb_spec. reflexivity.
Qed.
Lemma has_dir_spec t p : has_dir t p = true <-> In p (t_dirs t).
Proof.
  unfold has_dir. rewrite existsb_exists. split; [intros [q [H1 H2]]; apply path_eqb_spec in H2; subst q; exact H1|intro H; exists p; split; [exact H|apply path_eqb_spec; reflexivity]].
Qed.

Section Study.
  Context {A : Type} {N : Num A} {L : Libm A} {X : Ext A}.
  Variable base : path.

  (** under the directory of an order there is nothing but decks and logs *)
  Definition only_logs (t : tree) (o : nat) : Prop := forall p c, In (p, c) (t_files t) -> under (base ++ [show_nat o]) p = true ->
    exists r n, p = base ++ [show_nat o; show_nat r; n] /\ (n = "deck.inp" \/ n = "logfile").

  Lemma logs_rm t o : only_logs (rmtree t (base ++ [show_nat o])) o.
  Proof. intros p c H U. cbn [rmtree t_files] in H. apply filter_In in H. cbn [fst] in H. destruct H as [_ H]. rewrite U in H. discriminate. Qed.
  Lemma logs_rm_other t o o' : only_logs t o -> only_logs (rmtree t (base ++ [show_nat o'])) o.
  Proof. intros H p c H1 U. cbn [rmtree t_files] in H1. apply filter_In in H1. apply (H p c); [apply H1|exact U]. Qed.
  Lemma logs_write t o o' r n c : only_logs t o -> n = "deck.inp" \/ n = "logfile" -> only_logs (write t (base ++ [show_nat o'; show_nat r; n]) c) o.
  Proof.
    intros H Hn p c' H1 U. cbn [write t_files] in H1. apply in_app_or in H1. destruct H1 as [H1|[H1|[]]]; [apply (H p c'); assumption|]. injection H1 as <- <-.
    apply under_spec in U. destruct U as [s U]. rewrite <- app_assoc in U. apply app_inv_head in U. cbn [app] in U. injection U as E _. exists r, n. rewrite E. split; [reflexivity|exact Hn].
  Qed.
  Lemma no_code t o : only_logs t o -> has_file t (base ++ [show_nat o; "dg1d"; "main.py"]) = false.
  Proof.
    intro H. destruct (has_file t _) eqn:E; [|reflexivity]. apply has_file_spec in E. destruct E as [c E]. destruct (H _ _ E) as [r [n [E1 _]]].
    - apply under_spec. exists ["dg1d"; "main.py"]. rewrite <- app_assoc. reflexivity.
    - apply app_inv_head in E1. inversion E1 as [[E2 E3]]. exfalso. apply (show_not_dg1d r). symmetry. exact E2.
  Qed.

  Lemma started_none fuel t o r content : only_logs t o ->
    start_solver fuel t (base ++ [show_nat o; show_nat r]) content = (write t (base ++ [show_nat o; show_nat r; "logfile"]) "", []).
  Proof.
    intro H. unfold start_solver. rewrite resolve_code, <- app_assoc. cbn [app]. rewrite no_code; [reflexivity|]. apply logs_write; [exact H|right; reflexivity].
  Qed.

  Lemma resolutions_inv fuel o : forall ress t t' started, study_resolutions fuel base o ress t = Ok (t', started) -> only_logs t o ->
    started = [] /\ only_logs t' o /\ forall o', only_logs t o' -> only_logs t' o'.
  Proof.
    induction ress as [|r ress IH]; intros t t' started H I; cbn [study_resolutions] in H; [injection H as <- <-; auto|].
    inv_bind H. assert (Ef : t_files x = t_files t) by (unfold makedirs in Hx; destruct (_ || _)%bool; [discriminate|]; injection Hx as <-; reflexivity).
    assert (Ix : forall o', only_logs t o' -> only_logs x o') by (intros o' K p c; rewrite Ef; apply K).
    rewrite <- app_assoc in H. cbn [app] in H.
    rewrite started_none in H by (apply logs_write; [apply Ix; exact I|left; reflexivity]). inv_bind H. destruct x0 as [t1 st]. cbn [fst snd app] in H. injection H as <- <-.
    apply IH in Hx0; [|apply logs_write; [apply logs_write; [apply Ix; exact I|left; reflexivity]|right; reflexivity]]. destruct Hx0 as [E1 [E2 E3]]. split; [exact E1|]. split; [exact E2|].
    intros o' K. apply E3. apply logs_write; [apply logs_write; [apply Ix; exact K|left; reflexivity]|right; reflexivity].
  Qed.
  Lemma study_inv fuel ress : forall orders t t' started, study fuel base orders ress t = Ok (t', started) ->
    started = [] /\ (forall o, In o orders -> only_logs t' o) /\ forall o, only_logs t o -> only_logs t' o.
  Proof.
    induction orders as [|o orders IH]; intros t t' started H; cbn [study] in H; [injection H as <- <-; split; [reflexivity|]; split; [contradiction|auto]|].
    inv_bind H. inv_bind H. destruct x as [t1 st1], x0 as [t2 st2]. cbn [fst snd] in *. injection H as <- <-.
    apply resolutions_inv in Hx; [|apply logs_rm]. destruct Hx as [-> [E2 E3]]. apply IH in Hx0. destruct Hx0 as [-> [F2 F3]]. split; [reflexivity|]. split.
    - intros o' [<-|Ho]; [apply F3; exact E2|apply F2; exact Ho].
    - intros o' K. apply F3, E3, logs_rm_other, K.
  Qed.

  (** what the plotting script then finds *)
  Lemma listing_logs t o r : only_logs t o -> forall n c, In (n, c) (listing t (base ++ [show_nat o; show_nat r])) -> n = "deck.inp" \/ n = "logfile".
  Proof.
    intros H n c K. unfold listing in K. apply in_flat_map in K. destruct K as [[p c'] [K1 K2]]. cbn [fst snd] in K2. destruct (rev p) as [|m q] eqn:E; [contradiction|].
    destruct (path_eqb (rev q) (base ++ [show_nat o; show_nat r])) eqn:Q; [|contradiction]. destruct K2 as [K2|[]]. injection K2 as -> ->. apply path_eqb_spec in Q.
    assert (Ep : p = (base ++ [show_nat o; show_nat r]) ++ [n]) by (rewrite <- Q, <- (rev_involutive p), E; reflexivity).
    destruct (H p c K1) as [r' [n' [E1 E2]]]; [apply under_spec; exists [show_nat r; n]; rewrite Ep, <- !app_assoc; reflexivity|].
    rewrite Ep, <- app_assoc in E1. apply app_inv_head in E1. injection E1 as _ ->. exact E2.
  Qed.
  Lemma plot_missing t o r k : only_logs t o -> study_error (listing t (base ++ [show_nat o; show_nat r])) k = Raise FileNotFound.
  Proof.
    intro H. unfold study_error, study_column, read.
    destruct (read_file (listing t (base ++ [show_nat o; show_nat r])) "u0000000000.dat") as [c|] eqn:E; [|reflexivity]. exfalso.
    assert (K : In ("u0000000000.dat", c) (listing t (base ++ [show_nat o; show_nat r]))).
    { revert E. generalize (listing t (base ++ [show_nat o; show_nat r])). intro l. induction l as [|[n c'] l IH]; cbn [read_file]; [discriminate|]. destruct (read_file l "u0000000000.dat") as [c2|].
      - intro Q. right. apply IH. exact Q.
      - destruct (String.eqb_spec n "u0000000000.dat"); [|discriminate]. injection 1 as <-. left. subst. reflexivity. }
    apply (listing_logs t o r H) in K. destruct K; discriminate.
  Qed.

  (** with distinct resolutions the script goes through *)
  Definition free (t : tree) (o r : nat) : Prop := has_dir t (base ++ [show_nat o; show_nat r]) = false /\ has_file t (base ++ [show_nat o; show_nat r]) = false.
  Lemma free_rm t o r : free (rmtree t (base ++ [show_nat o])) o r.
  Proof.
    assert (U : under (base ++ [show_nat o]) (base ++ [show_nat o; show_nat r]) = true) by (apply under_spec; exists [show_nat r]; rewrite <- app_assoc; reflexivity).
    split.
    - destruct (has_dir _ _) eqn:E; [|reflexivity]. apply has_dir_spec in E. cbn [rmtree t_dirs] in E. apply filter_In in E. destruct E as [_ E]. rewrite U in E. discriminate.
    - destruct (has_file _ _) eqn:E; [|reflexivity]. apply has_file_spec in E. destruct E as [c E]. cbn [rmtree t_files] in E. apply filter_In in E. destruct E as [_ E]. cbn [fst] in E. rewrite U in E. discriminate.
  Qed.
  Lemma free_write t o r o' r' n c : free t o r -> free (write t (base ++ [show_nat o'; show_nat r'; n]) c) o r.
  Proof.
    intros [H1 H2]. split; [exact H1|]. unfold has_file in *. cbn [write t_files]. rewrite existsb_app, H2. cbn [existsb fst orb]. rewrite orb_false_r.
    destruct (path_eqb _ _) eqn:E; [|reflexivity]. apply path_eqb_spec, (f_equal (@List.length _)) in E. rewrite !app_length in E. cbn in E. lia.
  Qed.
  Lemma free_make t o r r' t' : r <> r' -> free t o r -> makedirs t (base ++ [show_nat o; show_nat r']) = Ok t' -> free t' o r.
  Proof.
    intros Hr [H1 H2] H. unfold makedirs in H. destruct (_ || _)%bool; [discriminate|]. injection H as <-. split; [|exact H2].
    match goal with |- ?b = false => destruct b eqn:E; [|reflexivity] end. apply has_dir_spec in E. cbn [t_dirs] in E. apply in_app_or in E. destruct E as [E|E]; [apply has_dir_spec in E; congruence|].
    apply prefixes_In, under_spec in E. destruct E as [s E]. rewrite <- app_assoc in E. apply app_inv_head in E. injection E as E _. apply show_nat_inj in E. congruence.
  Qed.
  Lemma resolutions_ok fuel o : forall ress t, NoDup ress -> only_logs t o -> (forall r, In r ress -> free t o r) -> exists q, study_resolutions fuel base o ress t = Ok q.
  Proof.
    induction ress as [|r ress IH]; intros t ND I F; cbn [study_resolutions]; [eexists; reflexivity|]. inversion ND as [|? ? N1 N2]; subst.
    destruct (F r (or_introl eq_refl)) as [F1 F2].
    destruct (makedirs t (base ++ [show_nat o; show_nat r])) as [t1|e] eqn:E; [|unfold makedirs in E; rewrite F1, F2 in E; discriminate]. cbn [rbind].
    assert (Ef : t_files t1 = t_files t) by (unfold makedirs in E; destruct (_ || _)%bool; [discriminate|]; injection E as <-; reflexivity).
    assert (Ix : only_logs t1 o) by (intros p c; rewrite Ef; apply I).
    rewrite <- app_assoc. cbn [app]. rewrite started_none by (apply logs_write; [exact Ix|left; reflexivity]).
    destruct (IH (write (write t1 (base ++ [show_nat o; show_nat r; "deck.inp"]) (study_deck o r)) (base ++ [show_nat o; show_nat r; "logfile"]) "")) as [q Q].
    - exact N2.
    - apply logs_write; [apply logs_write; [exact Ix|left; reflexivity]|right; reflexivity].
    - intros r' Hr'. apply free_write, free_write. apply (free_make t o r' r); [intros ->; contradiction|apply F; right; exact Hr'|exact E].
    - rewrite Q. eexists. reflexivity.
  Qed.
  Lemma study_ok fuel ress : NoDup ress -> forall orders t, exists q, study fuel base orders ress t = Ok q.
  Proof.
    intro ND. induction orders as [|o orders IH]; intro t; cbn [study]; [eexists; reflexivity|].
    destruct (resolutions_ok fuel o ress (rmtree t (base ++ [show_nat o])) ND (logs_rm t o) (fun r _ => free_rm t o r)) as [q Q]. rewrite Q. cbn [rbind].
    destruct (IH (fst q)) as [q' Q']. rewrite Q'. eexists. reflexivity.
  Qed.
End Study.
