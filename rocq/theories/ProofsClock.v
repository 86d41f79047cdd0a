(** The clock of a run in double arithmetic. *)
From Coq Require Import ZArith List Bool Arith String Reals SpecFloat Lia Lra.
From Verif Require Import Num Py Lib LegNumpy Ext Basis Limiting AdvectionPhysics IC Enhance Sensor Constants PyStr IO Deck Solution Solver RKCoeffs RK Main SpecTime ProofsTime ProofsTime2 SpecDG ProofsDG ProofsWf ProofsRun FloatText SpecFloatText ProofsFloatText ProofsFloatAdd.
Import ListNotations.
Open Scope list_scope.
Open Scope R_scope.
Notation sf := spec_float.
Notation fadd := (SFadd prec64 emax64).
Notation fsub := (SFsub prec64 emax64).

(** ** rounding is monotone and exact on doubles *)
Lemma rounds_fin v z : rounds v z -> (exists w, is_finite64 w = true /\ Rabs v <= Rabs (value w)) -> is_finite64 z = true.
Proof. intros [H1 H2] Hw. apply (H2 (H1 Hw)). Qed.
Lemma rounds_near v z y : rounds v z -> is_finite64 z = true -> is_finite64 y = true -> Rabs (v - value z) <= Rabs (v - value y).
Proof. intros [_ H2] Fz Fy. apply H2; [intros t ->; discriminate|exact Fy]. Qed.
Lemma rounds_err v z : rounds v z -> is_finite64 z = true -> Rabs (value z - v) <= powerRZ 2 (-53) * Rabs v.
Proof. intros [_ H2] Fz. apply H2. intros t ->. discriminate. Qed.
Lemma rounds_ge v z y : rounds v z -> is_finite64 z = true -> is_finite64 y = true -> value y <= v -> value y <= value z.
Proof.
  intros H Fz Fy L. pose proof (rounds_near v z y H Fz Fy) as Nr. destruct (Rle_lt_dec (value y) (value z)) as [|G]; [assumption|]. rewrite !Rabs_right in Nr by lra. lra.
Qed.
Lemma rounds_le v z y : rounds v z -> is_finite64 z = true -> is_finite64 y = true -> v <= value y -> value z <= value y.
Proof.
  intros H Fz Fy L. pose proof (rounds_near v z y H Fz Fy) as Nr. destruct (Rle_lt_dec (value z) (value y)) as [|G]; [assumption|]. rewrite !Rabs_left1 in Nr by lra. lra.
Qed.
Lemma rounds_exact v z w : rounds v z -> is_finite64 w = true -> value w = v -> is_finite64 z = true /\ value z = v.
Proof.
  intros H Fw E. assert (Fz : is_finite64 z = true) by (apply (rounds_fin v z H); exists w; split; [exact Fw|rewrite E; lra]). split; [exact Fz|].
  apply Rle_antisym; [apply Rle_trans with (value w); [|lra]; apply (rounds_le v); try assumption; lra|apply Rle_trans with (value w); [lra|]; apply (rounds_ge v); try assumption; lra].
Qed.
Definition zero64 : sf := S754_zero false.
(** Sterbenz *)
Lemma exact_difference x y : is_finite64 x = true -> is_finite64 y = true -> 0 <= value y -> value y <= value x <= 2 * value y ->
  exists w, is_finite64 w = true /\ value w = value x - value y.
Proof.
  intros Fx Fy Y0 [L1 L2]. destruct (Req_dec (value y) 0) as [Ey|Ny]; [exists zero64; split; [reflexivity|cbn [value zero64]; lra]|].
  destruct y as [sy|sy| |sy my ey]; try discriminate; [cbn [value] in Ny; lra|]. destruct x as [sx|sx| |sx mx ex]; try discriminate; [cbn [value] in *; lra|].
  cbn [is_finite64 valid_binary] in Fx, Fy. rewrite !value_finite in *.
  assert (Vx : 0 < IZR (Z.pos mx) * powerRZ 2 ex) by (apply Rmult_lt_0_compat; [apply IZR_lt; lia|apply pw_pos; lra]).
  assert (Vy : 0 < IZR (Z.pos my) * powerRZ 2 ey) by (apply Rmult_lt_0_compat; [apply IZR_lt; lia|apply pw_pos; lra]).
  destruct sy; cbn [sgn] in *; [lra|]. destruct sx; cbn [sgn] in *; [lra|]. rewrite !Rmult_1_l in *.
  assert (Le : (ey <= ex)%Z). { destruct (Z_le_gt_dec ey ex) as [|G]; [assumption|]. pose proof (canonical_lt mx ex my ey Fx Fy ltac:(lia)). lra. }
  pose proof (bounded_spec _ _ Fy) as (My & Ey & _). pose proof (pw_pos 2 ey ltac:(lra)) as Pe.
  set (k := (Z.pos mx * 2 ^ (ex - ey) - Z.pos my)%Z).
  assert (Ek : IZR k * powerRZ 2 ey = IZR (Z.pos mx) * powerRZ 2 ex - IZR (Z.pos my) * powerRZ 2 ey).
  { unfold k. rewrite minus_IZR, mult_IZR, IZR_pow by lia. rewrite Rmult_minus_distr_r, Rmult_assoc, <- pw_add by lra. replace (ex - ey + ey)%Z with ex by lia. reflexivity. }
  assert (K0 : (0 <= k)%Z). { apply le_IZR. apply Rmult_le_reg_r with (powerRZ 2 ey); [exact Pe|]. rewrite Rmult_0_l, Ek. lra. }
  assert (K1 : (k <= Z.pos my)%Z). { apply le_IZR. apply Rmult_le_reg_r with (powerRZ 2 ey); [exact Pe|]. rewrite Ek. lra. }
  destruct (double_of k ey) as [w [Fw Ew]]; [lia|lia|]. exists w. split; [exact Fw|]. rewrite Ew, Ek. reflexivity.
Qed.
Lemma exact_distance x y : is_finite64 x = true -> is_finite64 y = true -> 0 <= value x -> 0 <= value y -> value x <= 2 * value y -> value y <= 2 * value x ->
  exists w, is_finite64 w = true /\ value w = value x - value y.
Proof.
  intros Fx Fy X0 Y0 L1 L2. destruct (Rle_lt_dec (value y) (value x)) as [L|G]; [apply exact_difference; try assumption; lra|].
  destruct (exact_difference y x Fy Fx X0) as [w [Fw Ew]]; [lra|]. exists (SFopp w). rewrite finite_opp, value_opp. split; [exact Fw|lra].
Qed.
Lemma big_double : exists w, is_finite64 w = true /\ value w = 2 * powerRZ 2 1000.
Proof.
  exists (S754_finite false (2 ^ 52) 949). split; [reflexivity|]. rewrite value_finite. cbn [sgn]. rewrite Rmult_1_l. change (Z.pos (2 ^ 52)) with (2 ^ 52)%Z. rewrite IZR_pow by lia.
  rewrite <- pw_add by lra. change (52 + 949)%Z with (1000 + 1)%Z. rewrite pw_succ by lra. lra.
Qed.

(** ** one step of the clock *)
Definition clock_ok (tf t : sf) : Prop := is_finite64 t = true /\ 0 <= value t <= value tf + powerRZ 2 (-52) * value tf.
Definition final_ok (tf : sf) : Prop := is_finite64 tf = true /\ 0 <= value tf <= powerRZ 2 1000.
(** not negative: what is known of a requested time *)
Definition nonneg64 (x : sf) : Prop := match x with S754_finite s _ _ | S754_infinity s => s = false | _ => True end.
Definition pending_ok (x : sf) : Prop := nonneg64 x /\ valid_binary prec64 emax64 x = true.
Lemma u53 : powerRZ 2 (-52) = 2 * powerRZ 2 (-53) /\ 0 < powerRZ 2 (-53) < 1 / 2.
Proof.
  change (-52)%Z with (-53 + 1)%Z. rewrite pw_succ by lra. pose proof (pw_pos 2 (-53) ltac:(lra)). split; [lra|]. split; [assumption|].
  assert (powerRZ 2 (-53) <= powerRZ 2 (-2)) by (apply pw_le; [lra|lia]). change (powerRZ 2 (-2)) with (/ (2 * (2 * 1))) in *. lra.
Qed.
Lemma remaining tf t : final_ok tf -> clock_ok tf t -> is_finite64 (fsub tf t) = true /\ rounds (value tf - value t) (fsub tf t).
Proof.
  intros [Ff [F0 F1]] [Ft [T0 T1]]. pose proof (sub_rounds tf t Ff Ft) as Rd. split; [|exact Rd]. apply (rounds_fin _ _ Rd).
  destruct (Rle_lt_dec (value t) (value tf)) as [L|L]; [exists tf|exists t]; (split; [assumption|]).
  - rewrite !Rabs_right by lra. lra.
  - rewrite Rabs_left, (Rabs_right (value t)) by lra. lra.
Qed.
Lemma last_step tf t : final_ok tf -> clock_ok tf t -> let t' := fadd t (fsub tf t) in
  is_finite64 t' = true /\ Rabs (value t' - value tf) <= powerRZ 2 (-52) * value tf /\
  (value t = 0 \/ value tf <= 2 * value t -> value t' = value tf).
Proof.
  intros F T t'. destruct (remaining tf t F T) as [Fd Rd]. destruct F as [Ff [F0 F1]], T as [Ft [T0 T1]]. destruct u53 as [U1 U2].
  pose proof (rounds_err _ _ Rd Fd) as Er. pose proof (add_rounds t (fsub tf t) Ft Fd) as Ra. fold t' in Ra. set (d := fsub tf t) in *.
  assert (Dist : Rabs (value tf - value t) <= value tf) by (apply Rabs_le; nra).
  assert (Ed : Rabs (value t + value d - value tf) <= powerRZ 2 (-53) * value tf).
  { replace (value t + value d - value tf) with (value d - (value tf - value t)) by ring. eapply Rle_trans; [exact Er|]. apply Rmult_le_compat_l; lra. }
  pose proof (Rabs_le_inv _ _ Ed) as [Ed1 Ed2].
  assert (Ft' : is_finite64 t' = true).
  { apply (rounds_fin _ _ Ra). destruct big_double as [w [Fw Ew]]. exists w. split; [exact Fw|]. rewrite Ew. rewrite (Rabs_right (2 * _)) by lra. apply Rabs_le. nra. }
  split; [exact Ft'|]. split.
  - pose proof (rounds_near _ _ tf Ra Ft' Ff) as Nr. replace (value t' - value tf) with ((value t + value d - value tf) - (value t + value d - value t')) by ring.
    eapply Rle_trans; [unfold Rminus at 1; apply Rabs_triang|]. rewrite Rabs_Ropp. rewrite U1. lra.
  - intro Hex. assert (Ex : value d = value tf - value t).
    { destruct Hex as [Z|H2].
      - apply (rounds_exact _ _ tf Rd Ff). lra.
      - destruct (exact_distance tf t Ff Ft F0 T0 H2) as [w [Fw Ew]]; [nra|]. apply (rounds_exact _ _ w Rd Fw Ew). }
    assert (E2 : value tf = value t + value d) by lra. rewrite E2. apply (rounds_exact _ _ tf Ra Ff E2).
Qed.
(** a step that is not the last: the CFL step or the step to a requested time *)
Definition eps64 : sf := lit 1 100000000000000.
Lemma eps64_val : is_finite64 eps64 = true /\ 0 < value eps64.
Proof. split; [vm_compute; reflexivity|]. replace eps64 with (S754_finite false 6338253001141147 (-99)) by (vm_compute; reflexivity). rewrite value_finite. cbn [sgn]. rewrite Rmult_1_l. apply Rmult_lt_0_compat; [apply IZR_lt; lia|apply pw_pos; lra]. Qed.
Lemma dt_finite dt z : SFltb dt eps64 = false -> (match dt with S754_nan => true | _ => false end) = false -> valid_binary prec64 emax64 dt = true -> is_finite64 z = true -> SFltb z dt = false ->
  is_finite64 dt = true /\ 0 < value dt <= value z.
Proof.
  intros H1 H2 V Fz H3. destruct eps64_val as [Fe Pe].
  assert (Fd : is_finite64 dt = true).
  { destruct dt as [s|[|]| |s m e]; [reflexivity| | |discriminate|exact V].
    - exfalso. replace eps64 with (S754_finite false 6338253001141147 (-99)) in H1 by (vm_compute; reflexivity). discriminate H1.
    - exfalso. destruct z as [sz|sz| |sz mz ez]; discriminate. }
  split; [exact Fd|]. pose proof (ltb_value dt eps64 Fd Fe) as E1. pose proof (ltb_value z dt Fz Fd) as E3.
  assert (N1 : ~ value dt < value eps64) by (intro K; apply E1 in K; congruence). assert (N3 : ~ value z < value dt) by (intro K; apply E3 in K; congruence). lra.
Qed.

Lemma mul_valid x y : valid_binary prec64 emax64 x = true -> valid_binary prec64 emax64 y = true -> valid_binary prec64 emax64 (SFmul prec64 emax64 x y) = true.
Proof.
  destruct x as [sx|sx| |sx mx ex], y as [sy|sy| |sy my ey]; try reflexivity. cbn [valid_binary SFmul]. intros Vx Vy. apply aux_valid; [lia|].
  destruct (bounded_spec _ _ Vx) as (Mx & Ex & Cx). destruct (bounded_spec _ _ Vy) as (My & Ey & Cy).
  destruct (digits_bound (Z.pos mx * Z.pos my) ltac:(lia)) as [[B1 B2] B3]. change (Z.pos (mx * my)) with (Z.pos mx * Z.pos my)%Z. set (dg := Zdigits2 (Z.pos mx * Z.pos my)) in *.
  rewrite fexp_64. destruct (Z_le_gt_dec (ex + ey) (-1074)) as [L|G]; [lia|].
  assert (53 <= dg)%Z; [|lia]. assert (H52 : (2 ^ 52 <= Z.pos mx * Z.pos my)%Z).
  { destruct Cx as [Cx|Cx]; [nia|]. destruct Cy as [Cy|Cy]; [nia|lia]. }
  destruct (Z_le_gt_dec 53 dg) as [|G']; [assumption|exfalso]. pose proof (Z.pow_le_mono_r 2 dg 52 ltac:(lia) ltac:(lia)). lia.
Qed.
Lemma pending_zero b : pending_ok (S754_zero b). Proof. split; [exact I|reflexivity]. Qed.
Lemma pending_mul x y : pending_ok x -> pending_ok y -> pending_ok (SFmul prec64 emax64 x y).
Proof.
  intros [Hx Vx] [Hy Vy]. split; [|apply mul_valid; assumption]. destruct x as [sx|sx| |sx mx ex], y as [sy|sy| |sy my ey]; cbn [nonneg64 SFmul] in *; subst; try exact I; try reflexivity.
  match goal with |- nonneg64 ?z => assert (S : signed false z) by apply round_aux_signed; destruct z; cbn [signed nonneg64] in *; auto end.
Qed.
Lemma pending_div x y : pending_ok x -> signed false y -> pending_ok (SFdiv prec64 emax64 x y).
Proof.
  intros [Hx Vx] Hy. split; [|apply div_valid]. destruct x as [sx|sx| |sx mx ex], y as [sy|sy| |sy my ey]; cbn [nonneg64 signed SFdiv] in *; subst; try exact I; try reflexivity.
  destruct (SFdiv_core_binary _ _ _ _ _ _) as [[q e'] l]. match goal with |- nonneg64 ?z => assert (S : signed false z) by apply round_aux_signed; destruct z; cbn [signed nonneg64] in *; auto end.
Qed.
Lemma pending_add_zero x : pending_ok x -> pending_ok (SFadd prec64 emax64 x zero64).
Proof. intros [H V]. split; destruct x as [sx|sx| |sx mx ex]; try assumption; try exact I; destruct sx; reflexivity. Qed.
Lemma pending_sub_zero x : pending_ok x -> pending_ok (SFsub prec64 emax64 x zero64).
Proof. intros [H V]. split; destruct x as [sx|sx| |sx mx ex]; try assumption; try exact I; destruct sx; reflexivity. Qed.
Lemma pending_finite x : is_finite64 x = true -> 0 <= value x -> pending_ok x.
Proof.
  intros F V. destruct x as [sx|sx| |sx mx ex]; try discriminate; [apply pending_zero|]. split; [|exact F]. destruct sx; [|reflexivity]. exfalso. rewrite value_finite in V. cbn [sgn] in V.
  assert (0 < IZR (Z.pos mx) * powerRZ 2 ex) by (apply Rmult_lt_0_compat; [apply IZR_lt; lia|apply pw_pos; lra]). lra.
Qed.
Lemma pending_value x : pending_ok x -> is_finite64 x = true -> 0 <= value x.
Proof.
  intros [H _] F. destruct x as [sx|sx| |sx mx ex]; try discriminate; [cbn [value]; lra|]. cbn [nonneg64] in H. subst. rewrite value_finite. cbn [sgn].
  assert (0 < IZR (Z.pos mx) * powerRZ 2 ex) by (apply Rmult_lt_0_compat; [apply IZR_lt; lia|apply pw_pos; lra]). lra.
Qed.
Lemma ofZ_pending k : pending_ok (sf64_ofZ (Z.of_nat k)).
Proof.
  pose proof (nnat_signed k) as S. unfold nnat in S. cbn [nofZ NumSF] in S. split; [destruct (sf64_ofZ (Z.of_nat k)); cbn [signed nonneg64] in *; auto|].
  unfold sf64_ofZ in *. destruct (normalize_spec (Z.of_nat k) 0 false ltac:(lia)) as [_ H2]. set (x := binary_normalize _ _ _ _ _) in *.
  destruct x as [sx|sx| |sx mx ex]; try reflexivity. apply H2. discriminate.
Qed.
Lemma linspace_pending tf n : final_ok tf -> Forall pending_ok (linspace zero64 tf n).
Proof.
  intros [F [V _]]. pose proof (pending_finite tf F V) as Pt. unfold linspace. destruct n as [|[|n]]; [constructor|constructor; [apply pending_zero|constructor]|].
  apply Forall_forall. intros x Hx. unfold tab in Hx. apply in_map_iff in Hx. destruct Hx as [i [<- _]]. destruct (Nat.eqb i (S n)); [exact Pt|]. cbn [nadd nmul ndiv nsub nofZ NumSF].
  apply pending_add_zero, pending_mul; [apply ofZ_pending|]. apply pending_div; [apply pending_sub_zero, Pt|]. apply (nnat_signed (S n)).
Qed.

(** *** a step that is not the last *)
Lemma mid_step tf t c d : final_ok tf -> clock_ok tf t -> SFltb c eps64 = false -> (match c with S754_nan => true | _ => false end) = false -> valid_binary prec64 emax64 c = true ->
  SFltb (fsub tf t) c = false -> (d = c \/ exists tout, pending_ok tout /\ d = fsub tout t /\ SFltb d c = true) ->
  clock_ok tf (fadd t d) /\ is_finite64 c = true /\ value eps64 <= value c /\ is_finite64 d = true /\ value d <= value c /\ rounds (value t + value d) (fadd t d) /\
  value t + value c <= value tf + powerRZ 2 (-53) * value tf /\ value c <= value (fsub tf t).
Proof.
  intros F T H1 H2 V H3 Hd. destruct (remaining tf t F T) as [Fr Rr]. destruct (dt_finite c _ H1 H2 V Fr H3) as [Fc [C0 C1]]. destruct eps64_val as [Fe Pe].
  assert (Ce : value eps64 <= value c). { pose proof (ltb_value c eps64 Fc Fe) as E. destruct (Rle_lt_dec (value eps64) (value c)) as [|K]; [assumption|]. apply E in K. congruence. }
  destruct F as [Ff [F0 F1]], T as [Ft [T0 T1]]. destruct u53 as [U1 U2]. set (r := fsub tf t) in *.
  assert (Lt : value t < value tf). { destruct (Rlt_le_dec (value t) (value tf)) as [|K]; [assumption|]. pose proof (rounds_le _ _ zero64 Rr Fr eq_refl ltac:(cbn [value zero64]; lra)) as E. cbn [value zero64] in E. lra. }
  pose proof (rounds_err _ _ Rr Fr) as Er. rewrite (Rabs_right (value tf - value t)) in Er by lra. apply Rabs_le_inv in Er.
  assert (Up : value t + value c <= value tf + powerRZ 2 (-53) * value tf) by nra.
  assert (D : is_finite64 d = true /\ value d <= value c /\ - value t <= value d).
  { destruct Hd as [->|[tout [Pt [Ed Ld]]]]; [repeat split; [exact Fc|lra|lra]|].
    assert (Ftout : is_finite64 tout = true).
    { destruct Pt as [Pn Pv]. destruct tout as [so|so| |so mo eo]; [reflexivity| | |exact Pv].
      - exfalso. cbn [nonneg64] in Pn. subst so. rewrite Ed in Ld. destruct t as [st|st| |st mt et]; try discriminate; cbn [SFsub] in Ld; destruct c as [sc|sc| |sc mc ec]; try discriminate; destruct sc; discriminate.
      - exfalso. rewrite Ed in Ld. destruct t; destruct c; discriminate. }
    pose proof (pending_value tout Pt Ftout) as P0. pose proof (sub_rounds tout t Ftout Ft) as Rd. rewrite <- Ed in Rd.
    assert (Fd : is_finite64 d = true).
    { apply (rounds_fin _ _ Rd). destruct (Rle_lt_dec (value t) (value tout)); [exists tout|exists t]; (split; [assumption|]); [rewrite !Rabs_right by lra|rewrite Rabs_left, Rabs_right by lra]; lra. }
    split; [exact Fd|]. split; [apply (ltb_value d c Fd Fc) in Ld; lra|]. rewrite <- value_opp. apply (rounds_ge _ _ _ Rd Fd); [rewrite finite_opp; exact Ft|rewrite value_opp; lra]. }
  destruct D as [Fd [D1 D2]]. pose proof (add_rounds t d Ft Fd) as Ra.
  assert (Fa : is_finite64 (fadd t d) = true).
  { apply (rounds_fin _ _ Ra). destruct big_double as [w [Fw Ew]]. exists w. split; [exact Fw|]. rewrite Ew, !Rabs_right by nra. nra. }
  split; [|exact (conj Fc (conj Ce (conj Fd (conj D1 (conj Ra (conj Up C1))))))]. split; [exact Fa|]. split.
  - assert (Z : value zero64 = 0) by reflexivity. rewrite <- Z at 1. apply (rounds_ge _ _ zero64 Ra Fa eq_refl). lra.
  - destruct (Rle_lt_dec (value t + value d) (value tf)) as [L|G].
    + pose proof (rounds_le _ _ _ Ra Fa Ff L). nra.
    + pose proof (rounds_near _ _ tf Ra Fa Ff) as Nr. rewrite (Rabs_right (_ - value tf)) in Nr by lra. apply Rabs_le_inv in Nr. nra.
Qed.

(** ** the last step of a run, in any arithmetic *)
Section Last.
  Context {A : Type} {N : Num A} {L : Libm A} {X : Ext A}.
  Variable gamma : A.
  Lemma loop_last rk d l cfl tf nout sol0 s' : forall fuel k tout touts s sc evs evs',
    visits gamma rk d l cfl tf nout sol0 k tout touts s sc evs ->
    time_loop gamma (rk_inner gamma rk d l) l cfl tf fuel k tout touts s sc evs = (evs', Finished s') ->
    exists k' tout' touts' s1 sc1 evs1 sc' dt o, visits gamma rk d l cfl tf nout sol0 k' tout' touts' s1 sc1 evs1 /\
      time_step gamma (rk_inner gamma rk d l) l cfl tf tout' s1 sc1 = Ok (s', sc', (dt, o, true)).
  Proof.
    induction fuel as [|fuel IH]; intros k tout touts s sc evs evs' Hv H; [discriminate|]. cbn [time_loop] in H.
    destruct (time_step _ _ _ _ _ _ _ _) as [[[s2 sc2] [[dt o] dn]]|e] eqn:Es; [|discriminate]. destruct o.
    - destruct (printer k dt s2) as [ev|e] eqn:Ep; [|discriminate]. destruct dn.
      + injection H as _ <-. exists k, tout, touts, s, sc, evs, sc2, dt, true. split; assumption.
      + destruct touts as [|tout' touts']; [discriminate|]. apply (IH _ _ _ _ _ _ _ (visits_output _ _ _ _ _ _ _ _ _ _ _ _ _ _ _ _ _ _ _ Hv Es Ep) H).
    - destruct dn.
      + injection H as _ <-. exists k, tout, touts, s, sc, evs, sc2, dt, false. split; assumption.
      + apply (IH _ _ _ _ _ _ _ (visits_quiet _ _ _ _ _ _ _ _ _ _ _ _ _ _ _ _ _ Hv Es) H).
  Qed.
  Lemma run_last rk d l cfl tf nout fuel sol0 evs s' : integrate gamma rk d l cfl tf nout fuel sol0 = (evs, Finished s') ->
    exists k' tout' touts' s1 sc1 evs1 sc' dt o, visits gamma rk d l cfl tf nout sol0 k' tout' touts' s1 sc1 evs1 /\
      time_step gamma (rk_inner gamma rk d l) l cfl tf tout' s1 sc1 = Ok (s', sc', (dt, o, true)).
  Proof.
    intro H. rewrite integrate_run_rk in H. unfold run_rk in H. destruct (Z.ltb_spec nout 0); [discriminate|].
    destruct (printer 0 n0 sol0) as [ev|] eqn:Ep; [|discriminate]. destruct (slice_from _ 1) as [|tout touts] eqn:Es; [discriminate|].
    apply (loop_last rk d l cfl tf nout sol0 s' _ _ _ _ _ _ _ _ (visits_start gamma rk d l cfl tf nout sol0 ev tout touts Ep Es) H).
  Qed.
End Last.

(** *** neighbouring doubles *)
Lemma spacing y z : is_finite64 y = true -> is_finite64 z = true -> 0 < value y < value z -> value y < powerRZ 2 53 * (value z - value y).
Proof.
  intros Fy Fz [Y0 Lt]. destruct y as [sy|sy| |sy my ey]; try discriminate; [cbn [value] in *; lra|]. destruct z as [sz|sz| |sz mz ez]; try discriminate; [cbn [value] in *; lra|].
  cbn [is_finite64 valid_binary] in Fy, Fz. rewrite !value_finite in *.
  assert (Vz : 0 < IZR (Z.pos mz) * powerRZ 2 ez) by (apply Rmult_lt_0_compat; [apply IZR_lt; lia|apply pw_pos; lra]).
  assert (Vy : 0 < IZR (Z.pos my) * powerRZ 2 ey) by (apply Rmult_lt_0_compat; [apply IZR_lt; lia|apply pw_pos; lra]).
  destruct sy; cbn [sgn] in *; [lra|]. destruct sz; cbn [sgn] in *; [lra|]. rewrite !Rmult_1_l in *.
  assert (Le : (ey <= ez)%Z). { destruct (Z_le_gt_dec ey ez) as [|G]; [assumption|]. pose proof (canonical_lt mz ez my ey Fz Fy ltac:(lia)). lra. }
  pose proof (bounded_spec _ _ Fy) as (My & Ey & _). pose proof (pw_pos 2 ey ltac:(lra)) as Pe.
  set (k := (Z.pos mz * 2 ^ (ez - ey) - Z.pos my)%Z).
  assert (Ek : IZR k * powerRZ 2 ey = IZR (Z.pos mz) * powerRZ 2 ez - IZR (Z.pos my) * powerRZ 2 ey).
  { unfold k. rewrite minus_IZR, mult_IZR, IZR_pow by lia. rewrite Rmult_minus_distr_r, Rmult_assoc, <- pw_add by lra. replace (ez - ey + ey)%Z with ez by lia. reflexivity. }
  assert (K0 : (0 < k)%Z). { apply lt_IZR. apply Rmult_lt_reg_r with (powerRZ 2 ey); [exact Pe|]. rewrite Rmult_0_l, Ek. lra. }
  rewrite <- Ek, <- Rmult_assoc. apply Rmult_lt_compat_r; [exact Pe|]. rewrite <- IZR_pow by lia. rewrite <- mult_IZR. apply IZR_lt. nia.
Qed.
(** the largest time a clock that moves by at most c reaches *)
Lemma ceiling c tf : final_ok tf -> is_finite64 c = true -> 0 < value c -> powerRZ 2 55 * value c <= value tf -> exists w, is_finite64 w = true /\ value w = powerRZ 2 54 * value c.
Proof.
  intros [_ [_ F1]] Fc C0 B. destruct c as [sc|sc| |sc mc ec]; try discriminate; [cbn [value] in C0; lra|]. cbn [is_finite64 valid_binary] in Fc. rewrite !value_finite in *.
  assert (Vc : 0 < IZR (Z.pos mc) * powerRZ 2 ec) by (apply Rmult_lt_0_compat; [apply IZR_lt; lia|apply pw_pos; lra]). destruct sc; cbn [sgn] in *; [lra|]. rewrite !Rmult_1_l in *.
  destruct (bounded_spec _ _ Fc) as (Mc & Ec & Cc). destruct (double_of (Z.pos mc) (54 + ec)) as [w [Fw Ew]]; [lia| |exists w; split; [exact Fw|rewrite Ew, pw_add by lra; ring]].
  split; [lia|]. destruct Cc as [Cc|Cc]; [|lia]. destruct (Z_le_gt_dec (54 + ec) 971) as [|G]; [assumption|exfalso].
  apply IZR_le in Cc. rewrite IZR_pow in Cc by lia. pose proof (pw_pos 2 ec ltac:(lra)) as Pe. pose proof (pw_pos 2 55 ltac:(lra)) as P55.
  assert (K : powerRZ 2 55 * (powerRZ 2 52 * powerRZ 2 ec) <= powerRZ 2 1000).
  { eapply Rle_trans; [|exact F1]. eapply Rle_trans; [|exact B]. apply Rmult_le_compat_l; [lra|]. apply Rmult_le_compat_r; lra. }
  rewrite <- !pw_add in K by lra. assert (W : powerRZ 2 1001 <= powerRZ 2 (55 + (52 + ec))) by (apply pw_le; [lra|lia]). change 1001%Z with (1000 + 1)%Z in W. rewrite pw_succ in W by lra. pose proof (pw_pos 2 1000 ltac:(lra)). lra.
Qed.
Lemma stuck c w t d z : is_finite64 w = true -> value w = powerRZ 2 54 * value c -> 0 < value c -> is_finite64 t = true -> 0 <= value t <= value w -> value d <= value c ->
  rounds (value t + value d) z -> is_finite64 z = true -> value z <= value w.
Proof.
  intros Fw Ew C0 Ft [T0 T1] D1 Rz Fz. destruct (Rle_lt_dec (value t + value d) (value w)) as [L|G]; [apply (rounds_le _ _ _ Rz Fz Fw L)|].
  assert (E54 : powerRZ 2 54 = 2 * powerRZ 2 53) by (change 54%Z with (53 + 1)%Z; rewrite pw_succ by lra; ring). assert (P53 : 1 <= powerRZ 2 53) by (rewrite <- (powerRZ_O 2); apply pw_le; [lra|lia]).
  rewrite E54 in Ew. set (p := powerRZ 2 53) in *. assert (Pc : value c <= p * value c) by nra.
  assert (Tw : value t = value w).
  { destruct (Req_dec (value t) (value w)) as [|N]; [assumption|exfalso]. pose proof (spacing t w Ft Fw ltac:(lra)) as Sp. fold p in Sp. assert (p * (value w - value t) <= p * value c) by (apply Rmult_le_compat_l; lra). lra. }
  rewrite Tw in *. pose proof (rounds_near _ _ w Rz Fz Fw) as Nr. replace (value w + value d - value w) with (value d) in Nr by ring. rewrite (Rabs_right (value d)) in Nr by lra. apply Rabs_le_inv in Nr.
  destruct (Rle_lt_dec (value z) (value w)) as [|N]; [assumption|exfalso]. pose proof (spacing w z Fw Fz ltac:(lra)) as Sp. fold p in Sp. assert (p * (value z - value w) <= p * (2 * value c)) by (apply Rmult_le_compat_l; lra). lra.
Qed.
Lemma above a : exists m : nat, INR m > a.
Proof.
  exists (Z.to_nat (Rdefinitions.up a)). destruct (archimed a) as [U _]. rewrite INR_IZR_INZ. destruct (Z_le_gt_dec 0 (Rdefinitions.up a)) as [Hz|Hz]; [rewrite Z2Nat.id by exact Hz; exact U|].
  assert (IZR (Rdefinitions.up a) < 0) by (apply IZR_lt; lia). assert (0 <= IZR (Z.of_nat (Z.to_nat (Rdefinitions.up a)))) by (apply IZR_le; lia). lra.
Qed.
(** ** the run in double arithmetic *)
Section ClockSF.
  Context {L : Libm sf} {X : Ext sf}.
  Variable gamma : sf.

  (** the three kinds of step *)
  Lemma next_step_sf (s : solution sf) tout cfl tf dt o dn : get_next_time_step gamma s tout cfl tf = Ok (dt, o, dn) ->
    exists c, cfl_time_step gamma s cfl = Ok c /\ SFltb c eps64 = false /\ (match c with S754_nan => true | _ => false end) = false /\ valid_binary prec64 emax64 c = true /\
    ((SFltb (fsub tf (s_t s)) c = true /\ dt = fsub tf (s_t s) /\ o = true /\ dn = true) \/
     (SFltb (fsub tf (s_t s)) c = false /\ SFltb (fsub tout (s_t s)) c = true /\ dt = fsub tout (s_t s) /\ o = true /\ dn = false) \/
     (SFltb (fsub tf (s_t s)) c = false /\ SFltb (fsub tout (s_t s)) c = false /\ dt = c /\ o = false /\ dn = false)).
  Proof.
    unfold get_next_time_step. intro H. destruct (cfl_time_step gamma s cfl) as [c|] eqn:Ec; [|discriminate]. cbn [rbind] in H. exists c. split; [reflexivity|].
    destruct (sanity_check_dt c) as [[]|] eqn:Es; [|discriminate]. cbn [rbind] in H. unfold sanity_check_dt in Es. cbn [nltb nisnan NumSF] in Es.
    change (lit 1 100000000000000) with eps64 in Es. destruct (SFltb c eps64); [discriminate|]. split; [reflexivity|].
    split; [destruct c; [reflexivity|reflexivity|discriminate|reflexivity]|]. split.
    { unfold cfl_time_step in Ec. destruct (max_wave_speed gamma s) as [v|]; [|discriminate]. cbn [rbind] in Ec. injection Ec as <-. apply div_valid. }
    injection H as H. unfold adjust_for_output in H. cbn [nltb nsub NumSF] in H. destruct (SFltb (fsub tf (s_t s)) c).
    - injection H as <- <- <-. left. auto.
    - destruct (SFltb (fsub tout (s_t s)) c); injection H as <- <- <-; right; [left|right]; auto.
  Qed.

  Section Run.
    Variables (rk : string) (d : dg) (l : limiter (A:=sf)) (cfl tf : sf) (nout : Z) (sol0 : solution sf).
    Hypothesis T0 : s_t sol0 = zero64.
    Hypothesis F : final_ok tf.
    Notation visits := (visits gamma rk d l cfl tf nout sol0).
    Notation step := (time_step gamma (rk_inner gamma rk d l) l cfl tf).

    Lemma step_next tout s sc s' sc' dt o dn : step tout s sc = Ok (s', sc', (dt, o, dn)) -> get_next_time_step gamma s tout cfl tf = Ok (dt, o, dn) /\ s_t s' = fadd (s_t s) dt.
    Proof. intro H. apply time_step_clock in H; [|intros *; apply frame_inner]. destruct H as [Hn [Ht _]]. split; [exact Hn|exact Ht]. Qed.
    Lemma start_clock : clock_ok tf zero64.
    Proof. destruct F as [_ [F0 _]], u53 as [U1 U2]. split; [reflexivity|]. change (value zero64) with 0. split; [lra|]. nra. Qed.
    Lemma slice_pending tout touts : slice_from (linspace (s_t sol0) tf (Z.to_nat nout)) 1 = tout :: touts -> Forall pending_ok (tout :: touts).
    Proof.
      intro E. rewrite <- E, T0. change 1%Z with (Z.of_nat 1). rewrite slice_from_nat. apply Forall_forall. intros x Hx.
      pose proof (linspace_pending tf (Z.to_nat nout) F) as P. rewrite Forall_forall in P. apply P.
      rewrite <- (firstn_skipn 1 (linspace zero64 tf (Z.to_nat nout))). apply in_or_app. right. exact Hx.
    Qed.
    Lemma visits_clock k tout touts s sc evs : visits k tout touts s sc evs -> clock_ok tf (s_t s) /\ Forall pending_ok (tout :: touts).
    Proof.
      induction 1 as [ev tout touts Hp Hs|k tout touts s sc evs s' sc' dt Hv [IH1 IH2] Hs|k tout tout' touts s sc evs s' sc' dt ev Hv [IH1 IH2] Hs Hp].
      - split; [rewrite T0; exact start_clock|exact (slice_pending _ _ Hs)].
      - split; [|exact IH2]. destruct (step_next _ _ _ _ _ _ _ _ Hs) as [Hn ->]. apply next_step_sf in Hn. destruct Hn as [c [_ [C1 [C2 [C3 Hc]]]]].
        destruct Hc as [[_ [_ [Ho _]]]|[[_ [_ [_ [Ho _]]]]|[R1 [_ [-> _]]]]]; try discriminate. apply (mid_step tf (s_t s) c c F IH1 C1 C2 C3 R1 (or_introl eq_refl)).
      - split; [|inversion IH2; assumption]. destruct (step_next _ _ _ _ _ _ _ _ Hs) as [Hn ->]. apply next_step_sf in Hn. destruct Hn as [c [_ [C1 [C2 [C3 Hc]]]]].
        destruct Hc as [[_ [_ [_ Ho]]]|[[R1 [R2 [-> _]]]|[_ [_ [_ [Ho _]]]]]]; try discriminate. inversion IH2 as [|? ? P1 P2]; subst.
        apply (mid_step tf (s_t s) c _ F IH1 C1 C2 C3 R1). right. exists tout. auto.
    Qed.
    (** the final time of every completed run *)
    Lemma final_time fuel evs s' : integrate gamma rk d l cfl tf nout fuel sol0 = (evs, Finished s') ->
      is_finite64 (s_t s') = true /\ Rabs (value (s_t s') - value tf) <= powerRZ 2 (-52) * value tf /\
      exists k tout touts s1 sc1 evs1, visits k tout touts s1 sc1 evs1 /\ (exists sc' dt o, step tout s1 sc1 = Ok (s', sc', (dt, o, true))) /\
        (value (s_t s1) = 0 \/ value tf <= 2 * value (s_t s1) -> value (s_t s') = value tf).
    Proof.
      intro H. apply run_last in H. destruct H as [k [tout [touts [s1 [sc1 [evs1 [sc' [dt [o [Hv Hs]]]]]]]]]]. destruct (visits_clock _ _ _ _ _ _ Hv) as [T _].
      destruct (step_next _ _ _ _ _ _ _ _ Hs) as [Hn E]. apply next_step_sf in Hn. destruct Hn as [c [_ [_ [_ [_ Hc]]]]].
      destruct Hc as [[_ [-> _]]|[[_ [_ [_ [_ Ho]]]]|[_ [_ [_ [_ Ho]]]]]]; try discriminate. rewrite E. destruct (last_step tf (s_t s1) F T) as [A1 [A2 A3]].
      split; [exact A1|]. split; [exact A2|]. exists k, tout, touts, s1, sc1, evs1. split; [exact Hv|]. split; [exists sc', (fsub tf (s_t s1)), o; exact Hs|exact A3].
    Qed.
    (** the clock of a run moves by at least half the CFL step when that is not too small next to tf *)
    Lemma quiet_progress t c : clock_ok tf t -> SFltb c eps64 = false -> (match c with S754_nan => true | _ => false end) = false -> valid_binary prec64 emax64 c = true ->
      SFltb (fsub tf t) c = false -> value tf <= powerRZ 2 51 * value c -> value t + value c / 2 <= value (fadd t c).
    Proof.
      intros T C1 C2 C3 R1 B. destruct (mid_step tf t c c F T C1 C2 C3 R1 (or_introl eq_refl)) as [[Fa [A0 _]] [Fc [Ce [_ [_ [Ra [Up _]]]]]]].
      pose proof (rounds_err _ _ Ra Fa) as Er. destruct T as [_ [T1 _]]. destruct eps64_val as [_ Pe]. rewrite (Rabs_right (_ + _)) in Er by lra. apply Rabs_le_inv in Er.
      destruct u53 as [U1 U2]. assert (P : powerRZ 2 (-53) * powerRZ 2 51 = / 4). { rewrite <- pw_add by lra. change (-53 + 51)%Z with (-2)%Z. change (powerRZ 2 (-2)) with (/ (2 * (2 * 1))). field. }
      assert (Q : powerRZ 2 (-53) * value tf <= value c / 4).
      { apply Rle_trans with (powerRZ 2 (-53) * (powerRZ 2 51 * value c)); [apply Rmult_le_compat_l; lra|]. rewrite <- Rmult_assoc, P. lra. }
      assert (powerRZ 2 (-53) * (value t + value c) <= value c / 2); [|lra]. set (u := powerRZ 2 (-53)) in *.
      assert (u * (value t + value c) <= u * (value tf + u * value tf)) by (apply Rmult_le_compat_l; lra). assert (u * (u * value tf) <= 1 / 2 * (u * value tf)) by (apply Rmult_le_compat_r; [apply Rmult_le_pos; [lra|apply F]|lra]). lra.
    Qed.
    (** *** termination *)
    Section Ends.
      Variable c0 : R.
      Hypothesis C0 : 0 < c0.
      Hypothesis B : value tf <= powerRZ 2 51 * c0.
      Hypothesis Hc0 : forall k tout touts s sc evs c, visits k tout touts s sc evs -> cfl_time_step gamma s cfl = Ok c -> is_finite64 c = true -> SFltb c eps64 = false -> c0 <= value c.
      Notation top := (value tf + powerRZ 2 (-52) * value tf).
      Lemma quiet_ends touts tout :
        (forall tout' touts', touts = tout' :: touts' -> forall k s sc evs, visits k tout' touts' s sc evs ->
           exists n r, snd r <> OutOfFuel /\ forall fuel, (n <= fuel)%nat -> time_loop gamma (rk_inner gamma rk d l) l cfl tf fuel k tout' touts' s sc evs = r) ->
        forall m k s sc evs, visits k tout touts s sc evs -> top - value (s_t s) <= INR m * (c0 / 2) ->
        exists n r, snd r <> OutOfFuel /\ forall fuel, (n <= fuel)%nat -> time_loop gamma (rk_inner gamma rk d l) l cfl tf fuel k tout touts s sc evs = r.
      Proof.
        intro Next. induction m as [|m IH]; intros k s sc evs Hv Hm.
        all: destruct (step tout s sc) as [[[s2 sc2] [[dt o] dn]]|e] eqn:Es;
          [|exists 1%nat; eexists; split; [|intros [|fuel] Hf; [lia|]; cbn [time_loop]; rewrite Es; reflexivity]; discriminate].
        all: destruct o; [destruct (printer k dt s2) as [ev|e] eqn:Ep;
            [|exists 1%nat; eexists; split; [|intros [|fuel] Hf; [lia|]; cbn [time_loop]; rewrite Es, Ep; reflexivity]; discriminate];
          destruct dn; [exists 1%nat; eexists; split; [|intros [|fuel] Hf; [lia|]; cbn [time_loop]; rewrite Es, Ep; reflexivity]; discriminate|];
          destruct touts as [|tout' touts']; [exists 1%nat; eexists; split; [|intros [|fuel] Hf; [lia|]; cbn [time_loop]; rewrite Es, Ep; reflexivity]; discriminate|];
          destruct (Next tout' touts' eq_refl _ _ _ _ (visits_output _ _ _ _ _ _ _ _ _ _ _ _ _ _ _ _ _ _ _ Hv Es Ep)) as [n [r [N1 N2]]];
          exists (S n), r; split; [exact N1|]; intros [|fuel] Hf; [lia|]; cbn [time_loop]; rewrite Es, Ep; apply N2; lia|].
        all: destruct dn; [exists 1%nat; eexists; split; [|intros [|fuel] Hf; [lia|]; cbn [time_loop]; rewrite Es; reflexivity]; discriminate|].
        all: pose proof (visits_quiet _ _ _ _ _ _ _ _ _ _ _ _ _ _ _ _ _ Hv Es) as Hv2; destruct (visits_clock _ _ _ _ _ _ Hv) as [T _]; destruct (visits_clock _ _ _ _ _ _ Hv2) as [[_ [_ T2]] _];
          destruct (step_next _ _ _ _ _ _ _ _ Es) as [Hn E]; apply next_step_sf in Hn; destruct Hn as [c [Ec [C1 [C2 [C3 Hc]]]]];
          destruct Hc as [[_ [_ [Ho _]]]|[[_ [_ [_ [Ho _]]]]|[R1 [_ [-> _]]]]]; try discriminate;
          destruct (mid_step tf (s_t s) c c F T C1 C2 C3 R1 (or_introl eq_refl)) as [_ [Fc _]]; pose proof (Hc0 _ _ _ _ _ _ _ Hv Ec Fc C1) as Lc;
          assert (P : value (s_t s) + c0 / 2 <= value (s_t s2));
          [rewrite E; eapply Rle_trans; [|apply (quiet_progress _ _ T C1 C2 C3 R1)]; [lra|]; eapply Rle_trans; [exact B|]; apply Rmult_le_compat_l; [apply Rlt_le, pw_pos; lra|exact Lc]|].
        - exfalso. cbn [INR] in Hm. lra.
        - rewrite S_INR in Hm. destruct (IH _ _ _ _ Hv2) as [n [r [N1 N2]]]; [lra|]. exists (S n), r. split; [exact N1|]. intros [|fuel] Hf; [lia|]. cbn [time_loop]. rewrite Es. apply N2. lia.
      Qed.
      Lemma loop_ends : forall touts tout k s sc evs, visits k tout touts s sc evs ->
        exists n r, snd r <> OutOfFuel /\ forall fuel, (n <= fuel)%nat -> time_loop gamma (rk_inner gamma rk d l) l cfl tf fuel k tout touts s sc evs = r.
      Proof.
        induction touts as [|tout' touts IH]; intros tout k s sc evs Hv.
        all: destruct (above ((top - value (s_t s)) / (c0 / 2))) as [m Hm]; assert (Hm' : top - value (s_t s) <= INR m * (c0 / 2)) by (apply Rmult_le_reg_r with (/ (c0 / 2)); [apply Rinv_0_lt_compat; lra|]; rewrite Rmult_assoc, Rinv_r by lra; unfold Rdiv in *; lra);
          refine (quiet_ends _ _ _ m k s sc evs Hv Hm').
        - discriminate.
        - intros t' ts' E. injection E as -> ->. intros. eapply IH; eassumption.
      Qed.
      Lemma run_ends : exists n r, snd r <> OutOfFuel /\ forall fuel, (n <= fuel)%nat -> integrate gamma rk d l cfl tf nout fuel sol0 = r.
      Proof.
        destruct (nout <? 0)%Z eqn:En; [exists 0%nat; eexists; split; [|intros fuel _; rewrite integrate_run_rk; unfold run_rk; rewrite En; reflexivity]; discriminate|].
        destruct (printer 0 n0 sol0) as [ev|e] eqn:Ep; [|exists 0%nat; eexists; split; [|intros fuel _; rewrite integrate_run_rk; unfold run_rk; rewrite En, Ep; reflexivity]; discriminate].
        destruct (slice_from (linspace (s_t sol0) tf (Z.to_nat nout)) 1) as [|tout touts] eqn:Es; [exists 0%nat; eexists; split; [|intros fuel _; rewrite integrate_run_rk; unfold run_rk; rewrite En, Ep, Es; reflexivity]; discriminate|].
        destruct (loop_ends _ _ _ _ _ _ (visits_start gamma rk d l cfl tf nout sol0 ev tout touts Ep Es)) as [n [r [N1 N2]]]. exists n, r. split; [exact N1|].
        intros fuel Hf. rewrite integrate_run_rk. unfold run_rk. rewrite En, Ep, Es. apply N2. exact Hf.
      Qed.
    End Ends.
    (** ** advection: the CFL step is the same at every step *)
    Section Advection.
      Hypothesis Adv : s_euler sol0 = false.
      Definition adv_dt : sf := SFdiv prec64 emax64 (SFmul prec64 emax64 (s_dx sol0) cfl) (SFmul prec64 emax64 n1 (nnat (2 * b_p (s_basis sol0) + 1))).
      Lemma visits_same k tout touts s sc evs : visits k tout touts s sc evs -> s_euler s = false /\ s_dx s = s_dx sol0 /\ s_basis s = s_basis sol0.
      Proof.
        induction 1 as [ev tout touts Hp Hs|k tout touts s sc evs s' sc' dt Hv IH Hs|k tout tout' touts s sc evs s' sc' dt ev Hv IH Hs Hp]; [repeat split; assumption| |].
        all: apply time_step_clock in Hs; [|intros *; apply frame_inner]; destruct Hs as [_ [_ [_ [sn [u ->]]]]]; exact IH.
      Qed.
      Lemma adv_step k tout touts s sc evs : visits k tout touts s sc evs -> cfl_time_step gamma s cfl = Ok adv_dt.
      Proof.
        intro Hv. destruct (visits_same _ _ _ _ _ _ Hv) as [E1 [E2 E3]]. unfold cfl_time_step, max_wave_speed, adv_max_wave_speed. rewrite E1, E2, E3. reflexivity.
      Qed.
      (** with two requested times the only one left is tf *)
      Lemma two_times k tout touts s sc evs : nout = 2%Z -> visits k tout touts s sc evs -> tout = tf /\ touts = [].
      Proof.
        intros N2. induction 1 as [ev tout touts Hp Hs|k tout touts s sc evs s' sc' dt Hv IH Hs|k tout tout' touts s sc evs s' sc' dt ev Hv [_ IH] Hs Hp]; [|exact IH|discriminate].
        rewrite N2, T0 in Hs. change (Z.to_nat 2) with 2%nat in Hs. change 1%Z with (Z.of_nat 1) in Hs. rewrite slice_from_nat in Hs. unfold linspace, tab in Hs. cbn [seq map skipn Nat.eqb] in Hs. injection Hs as <- <-. auto.
      Qed.
      Lemma adv_clock k tout touts s sc evs : nout = 2%Z -> visits k tout touts s sc evs -> value (s_t s) = 0 \/ (is_finite64 adv_dt = true /\ value adv_dt <= value (s_t s)).
      Proof.
        intros N2. induction 1 as [ev tout touts Hp Hs|k tout touts s sc evs s' sc' dt Hv IH Hs|k tout tout' touts s sc evs s' sc' dt ev Hv IH Hs Hp].
        - left. rewrite T0. reflexivity.
        - right. destruct (step_next _ _ _ _ _ _ _ _ Hs) as [Hn E]. apply next_step_sf in Hn. destruct Hn as [c [Ec [C1 [C2 [C3 Hc]]]]]. rewrite (adv_step _ _ _ _ _ _ Hv) in Ec. injection Ec as <-.
          destruct Hc as [[_ [_ [Ho _]]]|[[_ [_ [_ [Ho _]]]]|[R1 [_ [-> _]]]]]; try discriminate. destruct (visits_clock _ _ _ _ _ _ Hv) as [T _].
          destruct (mid_step tf (s_t s) _ _ F T C1 C2 C3 R1 (or_introl eq_refl)) as [[Fa _] [Fc [_ [_ [_ [Ra _]]]]]]. split; [exact Fc|]. rewrite E. apply (rounds_ge _ _ _ Ra Fa Fc). destruct T as [_ [T1 _]]. lra.
        - destruct (two_times _ _ _ _ _ _ N2 Hv) as [_ E]. discriminate.
      Qed.
      Lemma adv_final fuel evs s' : nout = 2%Z -> 0 < value tf -> integrate gamma rk d l cfl tf nout fuel sol0 = (evs, Finished s') -> s_t s' = tf.
      Proof.
        intros N2 Pf H. destruct (final_time fuel evs s' H) as [Fs [_ [k [tout [touts [s1 [sc1 [evs1 [Hv [[sc' [dt [o Hs]]] Ex]]]]]]]]]].
        assert (V : value (s_t s') = value tf).
        { apply Ex. destruct (adv_clock _ _ _ _ _ _ N2 Hv) as [Z|[Fc Lc]]; [left; exact Z|right]. destruct (step_next _ _ _ _ _ _ _ _ Hs) as [Hn _]. apply next_step_sf in Hn.
          destruct Hn as [c [Ec [C1 [C2 [C3 Hc]]]]]. rewrite (adv_step _ _ _ _ _ _ Hv) in Ec. injection Ec as <-. destruct Hc as [[R1 _]|[[_ [_ [_ [_ Ho]]]]|[_ [_ [_ [_ Ho]]]]]]; try discriminate.
          destruct (visits_clock _ _ _ _ _ _ Hv) as [T _]. destruct (remaining tf (s_t s1) F T) as [Fr Rr]. apply (ltb_value _ _ Fr Fc) in R1.
          destruct (Rle_lt_dec (value tf) (2 * value (s_t s1))) as [|G]; [assumption|exfalso]. pose proof (rounds_ge _ _ adv_dt Rr Fr Fc ltac:(lra)). lra. }
        destruct F as [Ff _]. clear - V Fs Ff Pf. destruct tf as [s|s| |s m e]; try discriminate; [cbn [value] in Pf; lra|]. apply value_inj; assumption.
      Qed.
      Lemma adv_ends : value tf <= powerRZ 2 51 * value adv_dt -> 0 < value adv_dt ->
        exists n r, snd r <> OutOfFuel /\ forall fuel, (n <= fuel)%nat -> integrate gamma rk d l cfl tf nout fuel sol0 = r.
      Proof.
        intros B P. apply (run_ends (value adv_dt) P B). intros k tout touts s sc evs c Hv Ec _ _. rewrite (adv_step _ _ _ _ _ _ Hv) in Ec. injection Ec as <-. lra.
      Qed.
      (** without limiter, a step that is large enough for the check and for tf leads to tf *)
      Lemma adv_finishes ne : l = None -> nout = 2%Z -> wf ne sol0 -> wf_dg ne sol0 d -> is_finite64 adv_dt = true -> value eps64 <= value adv_dt -> value tf <= powerRZ 2 51 * value adv_dt -> 0 < value tf ->
        exists n evs s', (forall fuel, (n <= fuel)%nat -> integrate gamma rk d l cfl tf nout fuel sol0 = (evs, Finished s')) /\ s_t s' = tf.
      Proof.
        intros Hl N2 W D Fc Ce B Pf. destruct eps64_val as [Fe Pe].
        assert (HR : s_riemann sol0 <> RGodunov) by (rewrite (proj2 (wf_kind _ _ W) Adv); discriminate).
        assert (C1 : SFltb adv_dt eps64 = false). { destruct (SFltb adv_dt eps64) eqn:E; [|reflexivity]. apply (ltb_value _ _ Fc Fe) in E. lra. }
        assert (Loop : forall fuel k tout touts s sc evs e, visits k tout touts s sc evs -> snd (time_loop gamma (rk_inner gamma rk d l) l cfl tf fuel k tout touts s sc evs) <> Failed e).
        { induction fuel as [|fuel IH]; intros k tout touts s sc evs e Hv; [discriminate|]. cbn [time_loop]. destruct (two_times _ _ _ _ _ _ N2 Hv) as [Eo _].
          destruct (Wf_visits gamma ne sol0 d l W D _ _ _ _ _ _ _ _ _ _ Hv) as [H1 [H2 [H3 _]]].
          assert (G : exists r, get_next_time_step gamma s tout cfl tf = Ok r /\ (snd (fst r) = true -> snd r = true)).
          { unfold get_next_time_step. rewrite (adv_step _ _ _ _ _ _ Hv). cbn [rbind]. unfold sanity_check_dt. change (lit 1 100000000000000) with eps64. cbn [nltb nisnan NumSF]. rewrite C1.
            assert (Hnan : (match adv_dt with S754_nan => true | _ => false end) = false) by (clear - Fc; destruct adv_dt; try reflexivity; discriminate). rewrite Hnan. cbn [rbind]. eexists. split; [reflexivity|].
            unfold adjust_for_output. cbn [nltb nsub NumSF]. rewrite Eo. destruct (SFltb (fsub tf (s_t s)) adv_dt); intro E; [reflexivity|discriminate]. }
          destruct G as [[[dt o] dn] [G Gd]].
          destruct (time_step_total gamma ne sol0 d l D HR) with (rk := rk) (cfl := cfl) (tf := tf) (tout := tout) (s := s) (sc := sc) (r := (dt, o, dn)) as [s' [sc' Es]]; try assumption.
          { intros s0 _. rewrite Hl. exists s0. reflexivity. }
          rewrite Es. destruct (Wf_time_step gamma ne sol0 d l D _ _ _ _ _ _ _ _ _ H1 H2 H3 Es) as [[W' _] _]. cbn [fst snd] in Gd. destruct o.
          - rewrite (printer_total ne _ _ _ W'), (Gd eq_refl). discriminate.
          - destruct dn; [discriminate|]. apply IH. apply (visits_quiet _ _ _ _ _ _ _ _ _ _ _ _ _ _ _ _ _ Hv Es). }
        assert (NF : forall fuel evs e, integrate gamma rk d l cfl tf nout fuel sol0 <> (evs, Failed e)).
        { intros fuel evs e. rewrite integrate_run_rk. unfold run_rk. rewrite N2. change (2 <? 0)%Z with false. cbv iota. destruct (printer 0 n0 sol0) as [ev|e'] eqn:Ep; [|rewrite (printer_total ne) in Ep by exact W; discriminate].
          destruct (slice_from (linspace (s_t sol0) tf (Z.to_nat 2)) 1) as [|tout touts] eqn:Es.
          - exfalso. change (Z.to_nat 2) with 2%nat in Es. change 1%Z with (Z.of_nat 1) in Es. rewrite slice_from_nat in Es. discriminate.
          - intro H. assert (Hv : visits 1 tout touts sol0 {| sc_us := sol0; sc_uk := sol0; sc_K := rk_K0 rk sol0 |} [ev]) by (apply visits_start; [exact Ep|rewrite N2; exact Es]).
            apply (Loop fuel _ _ _ _ _ _ e Hv). rewrite H. reflexivity. }
        destruct (adv_ends B ltac:(lra)) as [n [[evs out] [Ho Hr]]]. exists n, evs. destruct out as [s'|e|]; [|exfalso; apply (NF n evs e); apply Hr; lia|exfalso; apply Ho; reflexivity].
        exists s'. split; [exact Hr|]. apply (adv_final n evs s' N2 Pf). apply Hr. lia.
      Qed.
      (** a step too small next to tf: the clock stops before tf *)
      Section Stuck.
        Hypothesis Fc : is_finite64 adv_dt = true.
        Hypothesis C0 : 0 < value adv_dt.
        Hypothesis B : powerRZ 2 55 * value adv_dt <= value tf.
        Lemma stuck_clock k tout touts s sc evs : visits k tout touts s sc evs -> value (s_t s) <= powerRZ 2 54 * value adv_dt.
        Proof.
          destruct (ceiling adv_dt tf F Fc C0 B) as [w [Fw Ew]]. rewrite <- Ew.
          induction 1 as [ev tout touts Hp Hs|k tout touts s sc evs s' sc' dt Hv IH Hs|k tout tout' touts s sc evs s' sc' dt ev Hv IH Hs Hp].
          - rewrite T0. change (value zero64) with 0. rewrite Ew. apply Rmult_le_pos; [apply Rlt_le, pw_pos|]; lra.
          - destruct (step_next _ _ _ _ _ _ _ _ Hs) as [Hn E]. apply next_step_sf in Hn. destruct Hn as [c [Ec [C1 [C2 [C3 Hc]]]]]. rewrite (adv_step _ _ _ _ _ _ Hv) in Ec. injection Ec as <-.
            destruct Hc as [[_ [_ [Ho _]]]|[[_ [_ [_ [Ho _]]]]|[R1 [_ [-> _]]]]]; try discriminate. destruct (visits_clock _ _ _ _ _ _ Hv) as [T _].
            destruct (mid_step tf (s_t s) _ _ F T C1 C2 C3 R1 (or_introl eq_refl)) as [[Fa _] [_ [_ [Fd [Ld [Ra _]]]]]]. rewrite E. destruct T as [Ft [T1 _]]. apply (stuck adv_dt w (s_t s) adv_dt); try assumption. lra.
          - destruct (step_next _ _ _ _ _ _ _ _ Hs) as [Hn E]. apply next_step_sf in Hn. destruct Hn as [c [Ec [C1 [C2 [C3 Hc]]]]]. rewrite (adv_step _ _ _ _ _ _ Hv) in Ec. injection Ec as <-.
            destruct Hc as [[_ [_ [_ Ho]]]|[[R1 [R2 [-> _]]]|[_ [_ [_ [Ho _]]]]]]; try discriminate. destruct (visits_clock _ _ _ _ _ _ Hv) as [T P]. inversion P as [|? ? P1 P2]; subst.
            destruct (mid_step tf (s_t s) _ (fsub tout (s_t s)) F T C1 C2 C3 R1) as [[Fa _] [_ [_ [Fd [Ld [Ra _]]]]]]; [right; exists tout; auto|]. rewrite E. destruct T as [Ft [T1 _]]. apply (stuck adv_dt w (s_t s) (fsub tout (s_t s))); try assumption. lra.
        Qed.
        Lemma not_last k tout touts s sc evs : visits k tout touts s sc evs -> SFltb (fsub tf (s_t s)) adv_dt = false.
        Proof.
          intro Hv. destruct (SFltb (fsub tf (s_t s)) adv_dt) eqn:E; [exfalso|reflexivity]. destruct (visits_clock _ _ _ _ _ _ Hv) as [T _]. destruct (remaining tf (s_t s) F T) as [Fr Rr].
          apply (ltb_value _ _ Fr Fc) in E. pose proof (stuck_clock _ _ _ _ _ _ Hv) as K.
          assert (E55 : powerRZ 2 55 = 2 * powerRZ 2 54) by (change 55%Z with (54 + 1)%Z; rewrite pw_succ by lra; ring). assert (P54 : 1 <= powerRZ 2 54) by (rewrite <- (powerRZ_O 2); apply pw_le; [lra|lia]).
          pose proof (rounds_ge _ _ adv_dt Rr Fr Fc ltac:(rewrite E55 in B; nra)). lra.
        Qed.
        Lemma never_finished fuel evs s' : integrate gamma rk d l cfl tf nout fuel sol0 <> (evs, Finished s').
        Proof.
          intro H. apply run_last in H. destruct H as [k [tout [touts [s1 [sc1 [evs1 [sc' [dt [o [Hv Hs]]]]]]]]]]. destruct (step_next _ _ _ _ _ _ _ _ Hs) as [Hn _]. apply next_step_sf in Hn.
          destruct Hn as [c [Ec [_ [_ [_ Hc]]]]]. rewrite (adv_step _ _ _ _ _ _ Hv) in Ec. injection Ec as <-. rewrite (not_last _ _ _ _ _ _ Hv) in Hc.
          destruct Hc as [[Hc _]|[[_ [_ [_ [_ Ho]]]]|[_ [_ [_ [_ Ho]]]]]]; discriminate.
        Qed.
        (** without limiter nothing else stops it *)
        Lemma never_ends ne : l = None -> nout = 2%Z -> wf ne sol0 -> wf_dg ne sol0 d -> value eps64 <= value adv_dt ->
          forall fuel, exists ev, integrate gamma rk d l cfl tf nout fuel sol0 = ([ev], OutOfFuel).
        Proof.
          intros Hl N2 W D Ce. destruct eps64_val as [Fe Pe].
          assert (HR : s_riemann sol0 <> RGodunov) by (rewrite (proj2 (wf_kind _ _ W) Adv); discriminate).
          assert (C1 : SFltb adv_dt eps64 = false). { destruct (SFltb adv_dt eps64) eqn:E; [|reflexivity]. apply (ltb_value _ _ Fc Fe) in E. lra. }
          assert (Loop : forall fuel k tout touts s sc evs, visits k tout touts s sc evs -> time_loop gamma (rk_inner gamma rk d l) l cfl tf fuel k tout touts s sc evs = (evs, OutOfFuel)).
          { induction fuel as [|fuel IH]; intros k tout touts s sc evs Hv; [reflexivity|]. cbn [time_loop]. pose proof (not_last _ _ _ _ _ _ Hv) as NL. destruct (two_times _ _ _ _ _ _ N2 Hv) as [Eo _].
            destruct (Wf_visits gamma ne sol0 d l W D _ _ _ _ _ _ _ _ _ _ Hv) as [H1 [H2 [H3 _]]].
            assert (G : get_next_time_step gamma s tout cfl tf = Ok (adv_dt, false, false)).
            { unfold get_next_time_step. rewrite (adv_step _ _ _ _ _ _ Hv). cbn [rbind]. unfold sanity_check_dt. change (lit 1 100000000000000) with eps64. cbn [nltb nisnan NumSF]. rewrite C1.
              assert (Hnan : (match adv_dt with S754_nan => true | _ => false end) = false) by (clear - Fc; destruct adv_dt; try reflexivity; discriminate). rewrite Hnan. cbn [rbind].
              unfold adjust_for_output. cbn [nltb nsub NumSF]. rewrite Eo, NL. reflexivity. }
            destruct (time_step_total gamma ne sol0 d l D HR) with (rk := rk) (cfl := cfl) (tf := tf) (tout := tout) (s := s) (sc := sc) (r := (adv_dt, false, false)) as [s' [sc' Es]]; try assumption.
            { intros s0 _. rewrite Hl. exists s0. reflexivity. }
            rewrite Es. apply IH. apply (visits_quiet _ _ _ _ _ _ _ _ _ _ _ _ _ _ _ _ _ Hv Es). }
          intro fuel. rewrite integrate_run_rk. unfold run_rk. rewrite N2. change (2 <? 0)%Z with false. cbv iota. destruct (printer 0 n0 sol0) as [ev|e] eqn:Ep; [|rewrite (printer_total ne) in Ep by exact W; discriminate].
          exists ev. destruct (slice_from (linspace (s_t sol0) tf (Z.to_nat 2)) 1) as [|tout touts] eqn:Es.
          - exfalso. change (Z.to_nat 2) with 2%nat in Es. change 1%Z with (Z.of_nat 1) in Es. rewrite slice_from_nat in Es. discriminate.
          - apply Loop. apply visits_start; [exact Ep|]. rewrite N2. exact Es.
        Qed.
      End Stuck.
    End Advection.
  End Run.
End ClockSF.

(** ** runs from a deck *)
Section DeckClock.
  Context {A : Type} {N : Num A} {L : Libm A} {X : Ext A}.
  Lemma solution_start icline sys order r enh th (s : solution A) g : Solution icline sys order r enh th = Ok (s, g) -> s_t s = n0.
  Proof.
    unfold Solution. destruct (split_ws icline) as [|nm ps]; [discriminate|]. set (s0 := blank_solution nm ps (String.eqb sys "euler") _ order).
    assert (H0 : forall s1 g1 e, run_ic s0 gamma_default = (s1, g1, e) -> s_t s1 = s_t s0).
    { unfold run_ic. destruct (IC.ic_lookup _ _ _) as [ic|e0]; intros s1 g1 e.
      - match goal with |- context [setup_common_ic ?a ?b ?c ?d] => remember (setup_common_ic a b c d) as r0 eqn:Er end. destruct r0 as [s2 e2]. intro H. injection H as <- <- <-. unfold setup_common_ic in Er.
        destruct (nth_error _ 0); [|injection Er as -> _; reflexivity]. destruct (parse_int _); [|injection Er as -> _; reflexivity].
        destruct (_ <? 0)%Z; [injection Er as -> _; reflexivity|]. destruct (_ <? 0)%Z; [injection Er as -> _; reflexivity|].
        destruct (populate _ _ _ _ _ _) as [u [e1|]]; injection Er as -> _; reflexivity.
      - intro H. injection H as <- <- <-. reflexivity. }
    destruct (run_ic s0 gamma_default) as [[s1 g1] e] eqn:E. specialize (H0 _ _ _ eq_refl). intro H. change (s_t s0) with (n0 : A) in H0.
    assert (K : exists th' : list A, (let! s2 := (if String.eqb enh "" then Ok s1 else let! e := Enhance order enh in Ok (with_enh s1 (Some e))) in
            match th' with
            | [] => Ok (s2, g1)
            | _ => if (s_NE s2 + 2 <? 0)%Z then Raise ValueError else Ok (with_sens s2 (Some (Sensor th' (Z.to_nat (s_NE s2 + 2)))), g1)
            end) = Ok (s, g)).
    { exists th. destruct e as [[]|]; try discriminate; exact H. }
    destruct K as [th' K]. inv_bind K. assert (Hx' : s_t x = n0). { destruct (String.eqb enh ""); [injection Hx as <-; exact H0|]. inv_bind Hx. injection Hx as <-. exact H0. }
    destruct th'; [injection K as <- <-; exact Hx'|]. destruct (_ <? 0)%Z; [discriminate|]. injection K as <- <-. exact Hx'.
  Qed.
  Lemma setup_start (dk : deck A) s g dgs l : setup dk = Ok (s, g, dgs, l) -> s_t s = n0 /\ s_euler s = String.eqb (dk_system dk) "euler".
  Proof.
    unfold setup. destruct (_ <? 0)%Z; [discriminate|]. intro H. inv_bind H. destruct x as [s0 g0]. inv_bind H. inv_bind H. inv_bind H. inv_bind H. injection H as <- <- _ _.
    pose proof (solution_start _ _ _ _ _ _ _ _ Hx) as T. pose proof (solution_meta _ _ _ _ _ _ _ _ Hx) as [E _]. apply frame_bc in Hx0. apply frame_limit in Hx3.
    pose proof (frame_trans _ _ _ Hx0 Hx3) as Fr. split; [rewrite (frame_t _ _ Fr); exact T|]. destruct Fr as [sn [u ->]]. exact E.
  Qed.
End DeckClock.
