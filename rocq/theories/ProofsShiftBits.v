(** Translating whole periodic runs in any arithmetic whose maximum of wave speeds does not depend on their order; binary64 is one:
    a wave speed is never the negative zero, and the other numbers are totally ordered. *)
From Coq Require Import ZArith List Bool Arith String Lia Reals Lra Floats.SpecFloat.
From Verif Require Import Num Py PyStr Lib LegNumpy Ext Basis Constants Sensor Enhance Limiting AdvectionPhysics EulerPhysics IC
  Solution Solver RKCoeffs RK Standins SpecTime ProofsTime SpecDG ProofsDG ProofsDG2 ProofsWf ProofsCons ProofsRel ProofsShift.
Import ListNotations.
Open Scope list_scope.
Open Scope nat_scope.

Section SpeedAny.
  Context {A : Type} {N : Num A} {L : Libm A}.
  Variable gamma : A.
  Hypothesis HM : forall l l' : list A, (forall y, In y l -> exists c, y = wave_speed gamma c) -> (forall y, In y l <-> In y l') -> npmax l = npmax l'.
  (** the wave-speed estimate reads the averages of all cells *)
  Lemma speed_cells ne (s : solution A) : wf ne s -> s_euler s = true ->
    max_wave_speed gamma s = match npmax (tab (ne + 2) (fun e => wave_speed gamma (at1 (modes s e 0) 0, at1 (modes s e 1) 0, at1 (modes s e 2) 0)))
                             with Some m => Ok m | None => Raise ValueError end.
  Proof.
    intros W Eu. unfold max_wave_speed. rewrite Eu. unfold euler_max_wave_speed.
    assert (NF3 : s_NF s = 3%nat) by (unfold s_NF; rewrite Eu; reflexivity).
    pose proof (wf_u _ _ W) as U. assert (Ln : List.length (row (s_u s) 0) = ((ne + 2) * 3)%nat).
    { rewrite <- NF3. apply (shape_row _ _ _ _ U). apply Ns_pos. }
    rewrite (cell3_split (ne + 2) (row (s_u s) 0) Ln). rewrite map_tab.
    rewrite (tab_ext (ne + 2) (fun i => wave_speed gamma (triple (cellv 3 (row (s_u s) 0) i)))
      (fun e => wave_speed gamma (at1 (modes s e 0) 0, at1 (modes s e 1) 0, at1 (modes s e 2) 0))); [reflexivity|].
    intros e He. f_equal. unfold triple, cellv. 
    assert (M : forall f, (f < 3)%nat -> at1 (modes s e f) 0 = at2 (s_u s) 0 (e * 3 + f)).
    { intros f Hf. rewrite <- NF3. apply (modes_at ne s); try assumption; try apply Ns_pos. rewrite NF3. exact Hf. }
    rewrite !M by lia. unfold at2. rewrite !at1_tab by lia. reflexivity.
  Qed.
  Lemma speed_any ne k sol0 s s' : wf ne sol0 -> s_bcl sol0 = pylit "periodic" -> s_bcr sol0 = pylit "periodic" ->
    SRs ne sol0 k s s' -> res_rel eq (max_wave_speed gamma s) (max_wave_speed gamma s').
  Proof.
    intros W0 Bl Br [[H1 [H2 [H3 [H4 H5]]]] [C1 C2]]. pose proof (proj1 H1) as W. pose proof (proj1 H2) as W'.
    pose proof (wf_ne _ _ W0) as Hne.
    destruct (Wf_bcs ne sol0 Bl Br s H1) as [B1 B2]. destruct (Wf_bcs ne sol0 Bl Br s' H2) as [B3 B4].
    assert (Ee : s_euler s = s_euler sol0) by (destruct H1 as [_ [t [n [sn [u [-> _]]]]]]; reflexivity).
    assert (Ee' : s_euler s' = s_euler sol0) by (destruct H2 as [_ [t [n [sn [u [-> _]]]]]]; reflexivity).
    destruct (s_euler sol0) eqn:Eu.
    - rewrite (speed_cells ne s W Ee), (speed_cells ne s' W' Ee').
      assert (NF3 : s_NF sol0 = 3%nat) by (unfold s_NF; rewrite Eu; reflexivity).
      pose (P := src_cell (pylit "periodic") (pylit "periodic") ne).
      assert (M1 : forall e f, (e < ne + 2)%nat -> (f < 3)%nat -> modes s e f = modes s (P e) f).
      { intros e f He Hf. assert (X1 : modes s e f = modes (with_u s (bc_u ne s)) e f).
        { rewrite (apply_bc_eq _ _ W) in C1. apply Ok_inj in C1. rewrite C1. reflexivity. }
        rewrite X1. rewrite (modes_bc ne s) by (try assumption; rewrite (similar_NF _ _ (proj2 H1)), NF3; exact Hf). rewrite B1, B2. reflexivity. }
      assert (M2 : forall e f, (e < ne + 2)%nat -> (f < 3)%nat -> modes s' e f = modes s (shift_cell ne k (P e)) f).
      { intros e f He Hf. assert (X1 : modes s' e f = modes (with_u s' (bc_u ne s')) e f).
        { rewrite (apply_bc_eq _ _ W') in C2. apply Ok_inj in C2. rewrite C2. reflexivity. }
        rewrite X1. rewrite (modes_bc ne s') by (try assumption; rewrite (similar_NF _ _ (proj2 H2)), NF3; exact Hf). rewrite B3, B4.
        apply H5; [apply P_range; assumption|rewrite NF3; exact Hf]. }
      rewrite (HM (tab (ne + 2) (fun e => wave_speed gamma (at1 (modes s' e 0) 0, at1 (modes s' e 1) 0, at1 (modes s' e 2) 0)))
                          (tab (ne + 2) (fun e => wave_speed gamma (at1 (modes s e 0) 0, at1 (modes s e 1) 0, at1 (modes s e 2) 0)))).
      + destruct (npmax _); constructor. reflexivity.
      + unfold tab. intros y Hy. apply in_map_iff in Hy. destruct Hy as [e [<- _]]. eexists. reflexivity.
      + intro y. unfold tab. rewrite !in_map_iff. split; intros [e [<- He]]; apply in_seq in He.
        * exists (shift_cell ne k (P e)). split.
          -- rewrite !(M2 e) by lia. reflexivity.
          -- apply in_seq. pose proof (shift_range ne Hne k (P e)). lia.
        * exists (shift_cell ne (unshift ne k) (P e)). pose proof (shift_range ne Hne (unshift ne k) (P e)) as Rg. split.
          -- rewrite !(M2 (shift_cell ne (unshift ne k) (P e))) by lia.
             replace (P (shift_cell ne (unshift ne k) (P e))) with (shift_cell ne (unshift ne k) (P e)) by (symmetry; apply P_int; exact Rg).
             rewrite (shift_unshift ne Hne k (P e) (P_range ne Hne e ltac:(lia))).
             rewrite !(M1 e) by lia. reflexivity.
          -- apply in_seq. lia.
    - unfold max_wave_speed. rewrite Ee, Ee'. constructor. reflexivity.
  Qed.
  Lemma shift_of_run_any ne k (s s' : solution A) d rk cfl tf nout fuel : shift_of ne k s s' -> wf_dg ne s d ->
    s_bcl s = pylit "periodic" -> s_bcr s = pylit "periodic" -> apply_bc s = Ok s -> apply_bc s' = Ok s' ->
    let r := integrate gamma rk d None cfl tf nout fuel s in
    let r' := integrate gamma rk d None cfl tf nout fuel s' in
    Forall2 (fun ev ev' => ev_nout ev = ev_nout ev' /\ ev_dt ev = ev_dt ev' /\ shift_of ne k (ev_sol ev) (ev_sol ev')) (fst r) (fst r')
    /\ out_rel (shift_of ne k) (snd r) (snd r').
  Proof.
    intros H D Bl Br C C'.
    destruct (shift_run gamma ne k s d (proj1 H) D Bl Br (fun t t' => speed_any ne k s t t' (proj1 H) Bl Br) rk cfl tf nout fuel s'
      (conj (shift_of_SRw _ _ _ _ H) (conj C C'))) as [E1 E2]. cbn zeta. split.
    - eapply Forall2_impl'; [|exact E1]. intros ev ev' [X1 [X2 [X3 _]]]. split; [exact X1|]. split; [exact X2|]. eapply SRw_shift_of. exact X3.
    - eapply out_rel_impl; [|exact E2]. intros x y [X3 _]. eapply SRw_shift_of. exact X3.
  Qed.
End SpeedAny.

(** binary64: the place of a number in the order *)
Definition rank (x : spec_float) : Z * Z * Z :=
  match x with
  | S754_nan => (3, 0, 0)%Z
  | S754_infinity true => (-2, 0, 0)%Z
  | S754_infinity false => (2, 0, 0)%Z
  | S754_zero _ => (0, 0, 0)%Z
  | S754_finite true m e => (-1, -e, Zneg m)%Z
  | S754_finite false m e => (1, e, Zpos m)%Z
  end.
Definition rank_lt (a b : Z * Z * Z) : Prop :=
  let '(a1, a2, a3) := a in let '(b1, b2, b3) := b in
  (a1 < b1 \/ (a1 = b1 /\ (a2 < b2 \/ (a2 = b2 /\ a3 < b3))))%Z.
Lemma ltb_rank x y : x <> S754_nan -> y <> S754_nan -> SFltb x y = true <-> rank_lt (rank x) (rank y).
Proof.
  intros Hx Hy. unfold SFltb. destruct x as [s|s| |s m e], y as [s'|s'| |s' m' e']; try congruence;
    try destruct s; try destruct s'; cbn [SFcompare rank rank_lt]; try (split; [intro; try discriminate; lia|intro; try reflexivity; lia]).
  all: destruct (Z.compare_spec e e') as [<-|He|He]; try (split; [intro; try discriminate; lia|intro; try reflexivity; lia]).
  all: change (Pcompare m m' Eq) with (Pos.compare m m'); destruct (Pos.compare_spec m m') as [<-|Hm|Hm]; cbn [CompOpp];
    try (split; [intro; try discriminate; lia|intro; try reflexivity; lia]).
Qed.
Definition ordinary (x : spec_float) : Prop := x <> S754_zero true.
Lemma rank_eq x y : ordinary x -> ordinary y -> rank x = rank y -> x = y.
Proof.
  unfold ordinary. intros Hx Hy H. destruct x as [[]|[]| |[] m e], y as [[]|[]| |[] m' e']; cbn [rank] in H; try congruence.
  all: injection H as H1 H2; f_equal; first [lia|congruence].
Qed.
Lemma rank_le_anti a b : ~ rank_lt a b -> ~ rank_lt b a -> a = b.
Proof. destruct a as [[a1 a2] a3], b as [[b1 b2] b3]. unfold rank_lt. intros. f_equal; [f_equal|]; lia. Qed.
Lemma rank_le_trans a b c : ~ rank_lt b a -> ~ rank_lt c b -> ~ rank_lt c a.
Proof. destruct a as [[a1 a2] a3], b as [[b1 b2] b3], c as [[c1 c2] c3]. unfold rank_lt. lia. Qed.
Lemma rank_lt_asym a b : rank_lt a b -> ~ rank_lt b a.
Proof. destruct a as [[a1 a2] a3], b as [[b1 b2] b3]. unfold rank_lt. lia. Qed.

Lemma fold_max_nan (l : list spec_float) : fold_left npmaximum l S754_nan = S754_nan.
Proof. induction l as [|a l IH]; [reflexivity|]. exact IH. Qed.
Lemma fold_max_sf (l : list spec_float) x :
  (In S754_nan (x :: l) /\ fold_left npmaximum l x = S754_nan) \/
  (~ In S754_nan (x :: l) /\ In (fold_left npmaximum l x) (x :: l) /\ forall y, In y (x :: l) -> ~ rank_lt (rank (fold_left npmaximum l x)) (rank y)).
Proof.
  revert x. induction l as [|a l IH]; intro x.
  - cbn [fold_left]. destruct x; try (left; split; [left|]; reflexivity).
    all: right; split; [intros [H|[]]; discriminate|]; split; [left; reflexivity|]; intros y [<-|[]] H; apply (rank_lt_asym _ _ H H).
  - cbn [fold_left]. assert (Dx : x = S754_nan \/ x <> S754_nan) by (destruct x; [right|right|left|right]; congruence).
    assert (Da : a = S754_nan \/ a <> S754_nan) by (destruct a; [right|right|left|right]; congruence).
    destruct Dx as [->|Hx]; [left; split; [left; reflexivity|apply (fold_max_nan l)]|].
    destruct Da as [->|Ha].
    { left. split; [right; left; reflexivity|]. replace (npmaximum x S754_nan) with S754_nan by (destruct x; reflexivity). apply fold_max_nan. }
    assert (E : npmaximum x a = if SFltb x a then a else x).
    { unfold npmaximum. cbn [nisnan nltb NumSF]. destruct x; try congruence; destruct a; try congruence. }
    rewrite E. pose proof (ltb_rank x a Hx Ha) as LT. destruct (SFltb x a).
    + destruct (IH a) as [[I1 I2]|[I1 [I2 I3]]]; [left; split; [right; exact I1|exact I2]|right].
      split; [intros [H|H]; [congruence|exact (I1 H)]|]. split; [right; exact I2|].
      intros y [<-|Hy]; [|apply I3; exact Hy]. apply rank_le_trans with (rank a); [apply rank_lt_asym, LT; reflexivity|apply I3; left; reflexivity].
    + destruct (IH x) as [[I1 I2]|[I1 [I2 I3]]].
      * left. split; [|exact I2]. destruct I1 as [I1|I1]; [left; exact I1|right; right; exact I1].
      * right. split; [intros [H|[H|H]]; [congruence|congruence|apply I1; right; exact H]|].
        split; [destruct I2 as [I2|I2]; [left; exact I2|right; right; exact I2]|].
        intros y [<-|[<-|Hy]]; [apply I3; left; reflexivity| |apply I3; right; exact Hy].
        apply rank_le_trans with (rank x); [intro H; apply LT in H; discriminate|apply I3; left; reflexivity].
Qed.
Lemma npmax_sf (l l' : list spec_float) : (forall y, In y l -> ordinary y) -> (forall y, In y l <-> In y l') -> npmax l = npmax l'.
Proof.
  intros O H. destruct l as [|x l], l' as [|x' l']; cbn [npmax].
  - reflexivity.
  - exfalso. apply (H x'). left. reflexivity.
  - exfalso. apply (H x). left. reflexivity.
  - f_equal. destruct (fold_max_sf l x) as [[A1 A2]|[A1 [A2 A3]]], (fold_max_sf l' x') as [[B1 B2]|[B1 [B2 B3]]].
    + rewrite A2, B2. reflexivity.
    + exfalso. apply B1, H, A1.
    + exfalso. apply A1, H, B1.
    + apply rank_eq; [apply O, A2|apply O, H, B2|]. apply rank_le_anti; [apply A3, H, B2|apply B3, H, A2].
Qed.

Definition unsigned (x : spec_float) : Prop :=
  match x with S754_zero s | S754_infinity s => s = false | S754_finite s _ _ => s = false | S754_nan => True end.
Lemma round_aux_unsigned p q m e l : unsigned (binary_round_aux p q false m e l).
Proof.
  unfold binary_round_aux. destruct (shr_fexp p q m e l) as [r e']. destruct (shr_fexp p q _ e' loc_Exact) as [r2 e2].
  destruct (shr_m r2); [reflexivity| |exact I]. destruct (Z.leb e2 (q - p)); reflexivity.
Qed.
Lemma round_unsigned p q m e : unsigned (binary_round p q false m e).
Proof. unfold binary_round. destruct (shl_align m e _). apply round_aux_unsigned. Qed.
Lemma abs_unsigned x : unsigned (SFabs x). Proof. destruct x; reflexivity || exact I. Qed.
Lemma sqrt_unsigned x : unsigned (SFsqrt prec64 emax64 x) \/ SFsqrt prec64 emax64 x = S754_zero true.
Proof.
  destruct x as [[]|[]| |[] m e]; try (left; exact I); try (left; reflexivity); try (right; reflexivity).
  left. unfold SFsqrt. destruct (SFsqrt_core_binary prec64 emax64 (Z.pos m) e) as [[mz ez] lz]. apply round_aux_unsigned.
Qed.
Lemma add_ordinary x y : unsigned x -> unsigned y \/ y = S754_zero true -> ordinary (SFadd prec64 emax64 x y).
Proof.
  unfold ordinary. intros Hx Hy H. destruct x as [[]|[]| |[] m e], y as [[]|[]| |[] m' e']; cbn [unsigned] in Hx, Hy; try discriminate;
    try (destruct Hy; discriminate).
  cbn [SFadd cond_Zopp] in H. set (ez := Z.min e e') in H.
  change (Z.pos ?a + Z.pos ?b)%Z with (Z.pos (a + b)) in H. cbn [Z.add binary_normalize] in H.
  match type of H with binary_round _ _ false ?m ?e = _ => pose proof (round_unsigned prec64 emax64 m e) as U; rewrite H in U; discriminate end.
Qed.
Lemma wave_speed_ordinary (gamma : spec_float) c : ordinary (wave_speed gamma c).
Proof.
  unfold wave_speed. cbn [nadd nabs NumSF]. apply add_ordinary; [apply abs_unsigned|]. unfold sound. destruct c as [[rho m] E]. cbn [nsqrt NumSF]. apply sqrt_unsigned.
Qed.
Lemma max_speed_sf (gamma : spec_float) l l' : (forall y, In y l -> exists c, y = wave_speed gamma c) -> (forall y, In y l <-> In y l') -> npmax l = npmax l'.
Proof. intros H. apply npmax_sf. intros y Hy. destruct (H y Hy) as [c ->]. apply wave_speed_ordinary. Qed.
Lemma shift_of_run_sf {L : Libm spec_float} (gamma : spec_float) ne k (s s' : solution spec_float) d rk cfl tf nout fuel : shift_of ne k s s' -> wf_dg ne s d ->
  s_bcl s = pylit "periodic" -> s_bcr s = pylit "periodic" -> apply_bc s = Ok s -> apply_bc s' = Ok s' ->
  let r := integrate gamma rk d None cfl tf nout fuel s in
  let r' := integrate gamma rk d None cfl tf nout fuel s' in
  Forall2 (fun ev ev' => ev_nout ev = ev_nout ev' /\ ev_dt ev = ev_dt ev' /\ shift_of ne k (ev_sol ev) (ev_sol ev')) (fst r) (fst r')
  /\ out_rel (shift_of ne k) (snd r) (snd r').
Proof. apply shift_of_run_any, max_speed_sf. Qed.
(** in the advection system the estimate does not look at the data, so any arithmetic will do *)
Lemma shift_of_run_advection {A : Type} {N : Num A} {L : Libm A} (gamma : A) ne k (s s' : solution A) d rk cfl tf nout fuel : s_euler s = false ->
  shift_of ne k s s' -> wf_dg ne s d ->
  s_bcl s = pylit "periodic" -> s_bcr s = pylit "periodic" -> apply_bc s = Ok s -> apply_bc s' = Ok s' ->
  let r := integrate gamma rk d None cfl tf nout fuel s in
  let r' := integrate gamma rk d None cfl tf nout fuel s' in
  Forall2 (fun ev ev' => ev_nout ev = ev_nout ev' /\ ev_dt ev = ev_dt ev' /\ shift_of ne k (ev_sol ev) (ev_sol ev')) (fst r) (fst r')
  /\ out_rel (shift_of ne k) (snd r) (snd r').
Proof.
  intros Ad H D Bl Br C C'.
  assert (Sp : forall t t', SRs ne s k t t' -> res_rel eq (max_wave_speed gamma t) (max_wave_speed gamma t')).
  { intros t t' [[H1 [H2 _]] _]. unfold max_wave_speed.
    assert (Ee : s_euler t = s_euler s) by (destruct H1 as [_ [? [? [? [? [-> _]]]]]]; reflexivity).
    assert (Ee' : s_euler t' = s_euler s) by (destruct H2 as [_ [? [? [? [? [-> _]]]]]]; reflexivity).
    rewrite Ee, Ee', Ad. constructor. reflexivity. }
  destruct (shift_run gamma ne k s d (proj1 H) D Bl Br Sp rk cfl tf nout fuel s'
    (conj (shift_of_SRw _ _ _ _ H) (conj C C'))) as [E1 E2]. cbn zeta. split.
  - eapply Forall2_impl'; [|exact E1]. intros ev ev' [X1 [X2 [X3 _]]]. split; [exact X1|]. split; [exact X2|]. eapply SRw_shift_of. exact X3.
  - eapply out_rel_impl; [|exact E2]. intros x y [X3 _]. eapply SRw_shift_of. exact X3.
Qed.
