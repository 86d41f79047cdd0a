(** Order conditions of the Runge-Kutta tables (C10) and Taylor coefficients (C09), by verified enumeration of rooted trees. *)
From Coq Require Import ZArith QArith Qreals List Bool Arith String Lia Reals Lra Sorted.
From Verif Require Import Num Py Lib RealLib RKCoeffs SpecRK ProofsRK.
Import ListNotations.
Open Scope R_scope.

(** * enumeration, generic in the arithmetic *)
Record ops (C : Type) := { o_zero : C; o_one : C; o_add : C -> C -> C; o_mul : C -> C -> C; o_ent : centry -> C }.
Arguments o_zero {C}. Arguments o_one {C}. Arguments o_add {C}. Arguments o_mul {C}. Arguments o_ent {C}.

Section Enum.
  Context {C : Type} (O : ops C) (rel : C -> R -> Prop).
  Record sound : Prop := {
    so_zero : rel (o_zero O) 0;
    so_one : rel (o_one O) 1;
    so_add : forall a b x y, rel a x -> rel b y -> rel (o_add O a b) (x + y);
    so_mul : forall a b x y, rel a x -> rel b y -> rel (o_mul O a b) (x * y);
    so_ent : forall c, rel (o_ent O c) (cval c) }.
  Hypothesis SO : sound.

  Definition vrel (n : nat) (v : list C) (f : nat -> R) : Prop := List.length v = n /\ forall i, (i < n)%nat -> rel (nth i v (o_zero O)) (f i).
  Fixpoint dot (x y : list C) : C := match x, y with a :: x', b :: y' => o_add O (o_mul O a b) (dot x' y') | _, _ => o_zero O end.
  Fixpoint vmul (x y : list C) : list C := match x, y with a :: x', b :: y' => o_mul O a b :: vmul x' y' | _, _ => [] end.

  Lemma dot_rel : forall n x m y f g, (n <= m)%nat -> vrel n x f -> vrel m y g -> rel (dot x y) (Rsum n (fun i => f i * g i)).
  Proof.
    induction n as [|n IH]; intros x m y f g Hnm [Lx Hx] [Ly Hy].
    - destruct x; [|discriminate]. cbn. apply (so_zero SO).
    - destruct x as [|a x]; [discriminate|]. destruct y as [|b y]; [cbn in Ly; lia|]. cbn [dot]. rewrite Rsum_S_l.
      apply (so_add SO).
      + apply (so_mul SO); [apply (Hx 0%nat); lia|apply (Hy 0%nat); lia].
      + destruct m as [|m]; [lia|]. apply (IH x m y (fun i => f (S i)) (fun i => g (S i))); [lia|split|split]; cbn in Lx, Ly; try lia.
        * intros i Hi. apply (Hx (S i)). lia.
        * intros i Hi. apply (Hy (S i)). lia.
  Qed.
  Lemma vmul_rel : forall n x y f g, vrel n x f -> vrel n y g -> vrel n (vmul x y) (fun i => f i * g i).
  Proof.
    induction n as [|n IH]; intros x y f g [Lx Hx] [Ly Hy].
    - destruct x; [|discriminate]. split; [reflexivity|intros; lia].
    - destruct x as [|a x]; [discriminate|]. destruct y as [|b y]; [discriminate|]. cbn [vmul].
      destruct (IH x y (fun i => f (S i)) (fun i => g (S i))) as [L H].
      + split; [cbn in Lx; lia|]. intros i Hi. apply (Hx (S i)). lia.
      + split; [cbn in Ly; lia|]. intros i Hi. apply (Hy (S i)). lia.
      + split; [cbn; lia|]. intros [|i] Hi; cbn [nth].
        * apply (so_mul SO); [apply (Hx 0%nat); lia|apply (Hy 0%nat); lia].
        * apply H. lia.
  Qed.

  (** the table in this arithmetic: row i has exactly i entries (the others are zero) *)
  Variable tb : rk_table.
  Hypothesis ST : sound_table tb.
  Let m := stages tb.
  Definition o_rows : list (list C) := map (fun i => map (o_ent O) (firstn i (nth i (tb_betas tb) []))) (seq 0 m).
  Definition o_weights : list C := map (o_ent O) (tb_coeffs tb).

  Lemma weights_rel : vrel m o_weights (weight tb).
  Proof.
    split; [unfold o_weights; apply map_length|]. intros i Hi. unfold o_weights, weight.
    rewrite (nth_indep _ (o_zero O) (o_ent O c0)) by (rewrite map_length; exact Hi). rewrite map_nth. apply (so_ent SO).
  Qed.
  Lemma Rsum_coef i f : (i < m)%nat -> Rsum m (fun k => coef tb i k * f k) = Rsum i (fun k => coef tb i k * f k).
  Proof.
    intro Hi. replace m with (i + (m - i))%nat by lia. rewrite Rsum_app. rewrite (Rsum_0 (m - i)); [ring|].
    intros k Hk. rewrite (st_upper _ ST) by (fold m; lia). ring.
  Qed.
  (** the rows and weights are passed around so that they are computed once *)
  Variables (rows : list (list C)) (wts : list C).
  Hypothesis Erows : rows = o_rows.
  Hypothesis Ewts : wts = o_weights.
  (** B v *)
  Definition hang (v : list C) : list C := map (fun r => dot r v) rows.
  Lemma hang_rel v f : vrel m v f -> vrel m (hang v) (fun i => Rsum m (fun k => coef tb i k * f k)).
  Proof.
    intro H. split; [unfold hang; rewrite Erows; unfold o_rows; rewrite !map_length; apply seq_length|]. intros i Hi. rewrite Rsum_coef by exact Hi.
    unfold hang. rewrite Erows. unfold o_rows. rewrite map_map. rewrite (nth_indep _ (o_zero O) (dot (map (o_ent O) (firstn 0 (nth 0 (tb_betas tb) []))) v))
      by (rewrite map_length, seq_length; exact Hi).
    rewrite (map_nth (fun i => dot (map (o_ent O) (firstn i (nth i (tb_betas tb) []))) v)), seq_nth by exact Hi. cbn [Nat.add].
    pose proof (st_rows _ ST i Hi) as Lr. apply (dot_rel i _ m); [lia| |exact H]. split.
    - rewrite map_length, firstn_length. lia.
    - intros k Hk. rewrite (nth_indep _ (o_zero O) (o_ent O c0)) by (rewrite map_length, firstn_length; lia).
      rewrite map_nth. unfold coef. rewrite nth_firstn' by exact Hk. apply (so_ent SO).
  Qed.

  (** ** forests *)
  Record item := { i_size : nat; i_dens : Z; i_vec : list C }.
  (** an item stands for a tree hung below a stage *)
  Definition rep (t : tree) (x : item) : Prop :=
    nodes t = i_size x /\ density t = i_dens x /\ vrel m (i_vec x) (fun i => Rsum m (fun k => coef tb i k * branch_product tb t k)).
  Definition fsize (ts : list tree) : nat := fold_right (fun t' acc => (nodes t' + acc)%nat) 0%nat ts.
  Definition fdens (ts : list tree) : Z := fold_right (fun t' acc => (density t' * acc)%Z) 1%Z ts.
  Definition fprod (ts : list tree) (i : nat) : R := fold_right (fun t' acc => Rsum m (fun k => coef tb i k * branch_product tb t' k) * acc) 1 ts.
  (** a forest: the density and the vector *)
  Definition frep (ts : list tree) (x : Z * list C) : Prop := fdens ts = fst x /\ vrel m (snd x) (fprod ts).
  Definition one_forest : Z * list C := (1%Z, repeat (o_one O) m).
  Definition cons_forest (x : item) (y : Z * list C) : Z * list C := ((i_dens x * fst y)%Z, vmul (i_vec x) (snd y)).
  (** all forests with n nodes built from the items of L (with repetition), L in increasing order of size *)
  Fixpoint forests (fuel : nat) (L : list item) (n : nat) : list (Z * list C) :=
    match fuel with
    | 0%nat => if Nat.eqb n 0 then [one_forest] else []
    | S fuel' =>
        if Nat.eqb n 0 then [one_forest]
        else (fix go (L : list item) : list (Z * list C) :=
                match L with
                | [] => []
                | x :: rest => if (i_size x <=? n)%nat then (if (1 <=? i_size x)%nat then map (cons_forest x) (forests fuel' (x :: rest) (n - i_size x)) else []) ++ go rest else []
                end) L
    end.

  Lemma fprod_app l1 l2 i : fprod (l1 ++ l2) i = fprod l1 i * fprod l2 i.
  Proof. unfold fprod. induction l1 as [|t l1 IH]; cbn [app fold_right]; [ring|]. rewrite IH. ring. Qed.
  Lemma fdens_app l1 l2 : fdens (l1 ++ l2) = (fdens l1 * fdens l2)%Z.
  Proof. unfold fdens. induction l1 as [|t l1 IH]; cbn [app fold_right]; [lia|]. rewrite IH. lia. Qed.
  Lemma fsize_app l1 l2 : fsize (l1 ++ l2) = (fsize l1 + fsize l2)%nat.
  Proof. unfold fsize. induction l1 as [|t l1 IH]; cbn [app fold_right]; [lia|]. rewrite IH. lia. Qed.
  Lemma vrel_ext n v f g : (forall i, (i < n)%nat -> f i = g i) -> vrel n v f -> vrel n v g.
  Proof. intros E [L H]. split; [exact L|]. intros i Hi. rewrite <- E by exact Hi. apply H. exact Hi. Qed.
  Lemma one_rel : frep [] one_forest.
  Proof.
    split; [reflexivity|]. split; [cbn; apply repeat_length|]. intros i Hi. cbn [snd one_forest fprod fold_right].
    rewrite (nth_indep _ (o_zero O) (o_one O)) by (rewrite repeat_length; exact Hi). rewrite nth_repeat. apply (so_one SO).
  Qed.
  Lemma cons_rel l1 t l2 x y : rep t x -> frep (l1 ++ l2) y -> frep (l1 ++ t :: l2) (cons_forest x y).
  Proof.
    intros [H1 [H2 H3]] [H4 H5]. split.
    - cbn [cons_forest fst]. rewrite <- H2, <- H4, !fdens_app. cbn [fdens fold_right]. fold (fdens l2). lia.
    - cbn [cons_forest snd]. eapply vrel_ext; [|apply (vmul_rel m _ _ _ _ H3 H5)]. intros i Hi. cbv beta. rewrite !fprod_app.
      cbn [fprod fold_right]. fold (fprod l2 i). ring.
  Qed.
  Lemma nodes_pos t : (1 <= nodes t)%nat. Proof. destruct t. cbn. lia. Qed.
  Lemma fsize_0 ts : fsize ts = 0%nat -> ts = [].
  Proof. destruct ts as [|t ts]; [reflexivity|]. cbn. pose proof (nodes_pos t). lia. Qed.

  (** split off a tree represented by x, or know there is none -- without deciding: classical case analysis on the list of witnesses *)
  Definition by_size (L : list item) : Prop := StronglySorted (fun a b => (i_size a <= i_size b)%nat) L.
  Lemma forests_complete : forall fuel L n (tx : list (tree * item)), (n <= fuel)%nat -> by_size L ->
    (forall p, In p tx -> rep (fst p) (snd p) /\ In (snd p) L) -> fsize (map fst tx) = n ->
    (forall a b : item, {a = b} + {a <> b}) ->
    exists y, In y (forests fuel L n) /\ frep (map fst tx) y.
  Proof.
    induction fuel as [|fuel IH]; intros L n tx Hn Hord HL Hs Dec.
    - assert (Hs0 : fsize (map fst tx) = 0%nat) by lia. apply fsize_0 in Hs0. rewrite Hs0. assert (n = 0)%nat as -> by lia. cbn [forests Nat.eqb]. eexists. split; [left; reflexivity|apply one_rel].
    - cbn [forests]. destruct (Nat.eqb_spec n 0) as [E|E].
      + rewrite E in Hs. rewrite (fsize_0 _ Hs). eexists. split; [left; reflexivity|apply one_rel].
      + revert Hord tx HL Hs. induction L as [|x L IHL]; intros Hord tx HL Hs.
        * destruct tx as [|p tx]; [cbn in Hs; lia|]. destruct (HL p (or_introl eq_refl)) as [_ []].
        * destruct (in_dec Dec x (map snd tx)) as [Hin|Hnin].
          -- apply in_map_iff in Hin. destruct Hin as [p [Ep Hp]]. apply in_split in Hp. destruct Hp as [l1 [l2 ->]].
             destruct (HL p) as [Rp _]; [apply in_or_app; right; left; reflexivity|]. rewrite Ep in Rp.
             rewrite map_app in Hs |- *. cbn [map] in Hs |- *. rewrite fsize_app in Hs. cbn [fsize fold_right] in Hs. fold (fsize (map fst l2)) in Hs.
             pose proof (nodes_pos (fst p)) as Np. pose proof (proj1 Rp) as Sz.
             destruct (IH (x :: L) (n - i_size x)%nat (l1 ++ l2)) as [y [Hy Fy]].
             ++ lia.
             ++ exact Hord.
             ++ intros p' Hp'. apply HL. apply in_app_or in Hp'. apply in_or_app. destruct Hp'; [left|right; right]; assumption.
             ++ rewrite map_app, fsize_app. lia.
             ++ exact Dec.
             ++ exists (cons_forest x y). split.
                ** replace (i_size x <=? n)%nat with true by (symmetry; apply Nat.leb_le; lia).
                   apply in_or_app. left. replace (1 <=? i_size x)%nat with true by (symmetry; apply Nat.leb_le; lia).
                   apply in_map. exact Hy.
                ** apply cons_rel; [exact Rp|]. rewrite <- map_app. exact Fy.
          -- destruct (StronglySorted_inv Hord) as [Hord' Hx].
             assert (Hfit : (i_size x <= n)%nat).
             { destruct tx as [|p tx]; [cbn in Hs; lia|]. destruct (HL p (or_introl eq_refl)) as [Rp Ip].
               cbn [map fsize fold_right] in Hs. pose proof (proj1 Rp) as Sz. destruct Ip as [E1|I1]; [rewrite E1; lia|].
               rewrite Forall_forall in Hx. specialize (Hx _ I1). lia. }
             destruct (IHL Hord' tx) as [y [Hy Fy]].
             ++ intros p Hp. destruct (HL p Hp) as [R1 [R2|R2]]; [|split; assumption]. exfalso. apply Hnin. rewrite R2. apply in_map. exact Hp.
             ++ exact Hs.
             ++ exists y. split; [|exact Fy]. replace (i_size x <=? n)%nat with true by (symmetry; apply Nat.leb_le; lia). apply in_or_app. right. exact Hy.
  Qed.

  (** the tree made of a forest *)
  Definition hang_item (n : nat) (y : Z * list C) : item := {| i_size := n; i_dens := (Z.of_nat n * fst y)%Z; i_vec := hang (snd y) |}.
  Fixpoint pool (n : nat) : list item :=
    match n with
    | 0%nat => []
    | S k => let L := pool k in L ++ map (hang_item (S k)) (forests k L k)
    end.
  Lemma pool_sizes : forall n x, In x (pool n) -> (i_size x <= n)%nat.
  Proof.
    induction n as [|n IH]; intros x Hx; [destruct Hx|]. cbn [pool] in Hx. apply in_app_or in Hx. destruct Hx as [Hx|Hx]; [specialize (IH x Hx); lia|].
    apply in_map_iff in Hx. destruct Hx as [y [<- _]]. cbn [hang_item i_size]. lia.
  Qed.
  Lemma pool_sorted : forall n, by_size (pool n).
  Proof.
    induction n as [|n IH]; [constructor|]. cbn [pool]. pose proof (pool_sizes n) as B. unfold by_size in *. set (F := forests n (pool n) n). clearbody F.
    revert B. induction IH as [|a L S1 IHS H1]; intro B; cbn [app].
    - induction F as [|y F IHF]; cbn [map]; constructor; [exact IHF|]. apply Forall_forall. intros z Hz. apply in_map_iff in Hz. destruct Hz as [y' [<- _]]. cbn. lia.
    - constructor; [apply IHS; intros; apply B; right; assumption|]. apply Forall_forall. intros z Hz. apply in_app_or in Hz. destruct Hz as [Hz|Hz].
      + rewrite Forall_forall in H1. apply H1, Hz.
      + apply in_map_iff in Hz. destruct Hz as [y [<- _]]. cbn [hang_item i_size]. specialize (B a (or_introl eq_refl)). lia.
  Qed.
  Lemma rep_node ts y : frep ts y -> rep (Node ts) (hang_item (S (fsize ts)) y).
  Proof.
    intros [H1 H2]. split; [reflexivity|]. split.
    - cbn [hang_item i_dens]. rewrite <- H1. reflexivity.
    - cbn [hang_item i_vec]. apply (hang_rel _ _ H2).
  Qed.
  Lemma all_witnesses L (ts : list tree) : (forall t, In t ts -> exists x, In x L /\ rep t x) ->
    exists tx, map fst tx = ts /\ forall p, In p tx -> rep (fst p) (snd p) /\ In (snd p) L.
  Proof.
    induction ts as [|t ts IH]; intro H; [exists []; split; [reflexivity|intros p []]|].
    destruct IH as [tx [E1 E2]]; [intros; apply H; right; assumption|]. destruct (H t (or_introl eq_refl)) as [x [Hx Rx]].
    exists ((t, x) :: tx). split; [cbn; rewrite E1; reflexivity|]. intros p [<-|Hp]; [split; assumption|apply E2, Hp].
  Qed.
  Lemma in_fsize t ts : In t ts -> (nodes t <= fsize ts)%nat.
  Proof. induction ts as [|a ts IH]; intros []; cbn; [subst; lia|]. specialize (IH H). unfold fsize in IH. lia. Qed.

  Hypothesis Dec : forall a b : item, {a = b} + {a <> b}.
  Lemma pool_complete : forall n t, (nodes t <= n)%nat -> exists x, In x (pool n) /\ rep t x.
  Proof.
    induction n as [|n IH]; intros t Ht; [pose proof (nodes_pos t); lia|]. cbn [pool].
    destruct (Nat.eq_dec (nodes t) (S n)) as [E|E].
    - destruct t as [ts]. change (nodes (Node ts)) with (S (fsize ts)) in *.
      destruct (all_witnesses (pool n) ts) as [tx [E1 E2]].
      { intros t Hin. apply IH. pose proof (in_fsize t ts Hin). lia. }
      destruct (forests_complete n (pool n) n tx) as [y [Hy Fy]]; [lia|apply pool_sorted|exact E2|rewrite E1; lia|exact Dec|].
      exists (hang_item (S n) y). split.
      + apply in_or_app. right. apply in_map. exact Hy.
      + rewrite E1 in Fy. apply rep_node in Fy. replace n with (fsize ts) by lia. exact Fy.
    - destruct (IH t) as [x [Hx Rx]]; [lia|]. exists x. split; [apply in_or_app; left; exact Hx|exact Rx].
  Qed.

  (** ** checking *)
  Variable chk : C -> Z -> bool.
  Variable eps : R.
  Hypothesis CHK : forall a x g, rel a x -> chk a g = true -> Rabs (x - / IZR g) <= eps.
  (** every tree with 1..p nodes is a forest with n-1 nodes on a root *)
  Definition check_order (p : nat) : bool :=
    let L := pool (p - 1) in
    forallb (fun n => forallb (fun y => chk (dot wts (snd y)) (Z.of_nat (S n) * fst y)%Z) (forests n L n)) (seq 0 p).
  Lemma pool_mono n k t : (nodes t <= n)%nat -> (n <= k)%nat -> exists x, In x (pool k) /\ rep t x.
  Proof. intros H1 H2. apply pool_complete. lia. Qed.
  Lemma check_sound p : check_order p = true -> order_conditions tb p eps.
  Proof.
    intros H t Ht. unfold check_order in H. rewrite forallb_forall in H. destruct t as [ts]. change (nodes (Node ts)) with (S (fsize ts)) in Ht.
    destruct (all_witnesses (pool (p - 1)) ts) as [tx [E1 E2]].
    { intros t Hin. apply pool_complete. pose proof (in_fsize t ts Hin). lia. }
    destruct (forests_complete (fsize ts) (pool (p - 1)) (fsize ts) tx) as [y [Hy Fy]]; [lia|apply pool_sorted|exact E2|rewrite E1; reflexivity|exact Dec|].
    specialize (H (fsize ts) ltac:(apply in_seq; lia)). rewrite forallb_forall in H. specialize (H y Hy). rewrite E1 in Fy. destruct Fy as [F1 F2].
    change (density (Node ts)) with (Z.of_nat (S (fsize ts)) * fdens ts)%Z. rewrite F1. refine (CHK _ _ _ _ H).
    unfold tree_weight. apply (dot_rel m _ m); [lia|rewrite Ewts; apply weights_rel|exact F2].
  Qed.

  (** Taylor coefficients *)
  Fixpoint chain (k : nat) : list C := match k with 0%nat => repeat (o_one O) m | S k' => hang (chain k') end.
  Lemma chain_rel k : vrel m (chain k) (stage_sum tb k).
  Proof.
    induction k as [|k IH].
    - exact (proj2 one_rel).
    - cbn [chain]. eapply vrel_ext; [|apply hang_rel, IH]. intros i Hi. cbn [stage_sum]. apply Rsum_coef. exact Hi.
  Qed.
  Fixpoint zfact (n : nat) : Z := match n with 0%nat => 1%Z | S k => (Z.of_nat (S k) * zfact k)%Z end.
  Lemma zfact_fact n : IZR (zfact n) = INR (fact n).
  Proof.
    induction n as [|n IH]; [reflexivity|]. change (fact (S n)) with (S n * fact n)%nat. rewrite mult_INR, <- IH, INR_IZR_INZ. cbn [zfact]. apply mult_IZR.
  Qed.
  Fixpoint chains (k n : nat) (v : list C) : bool :=
    match n with 0%nat => true | S n' => chk (dot wts v) (zfact (S k)) && chains (S k) n' (hang v) end.
  Definition check_growth (p : nat) : bool := chains 0 p (chain 0).
  Lemma chains_sound : forall n k v, vrel m v (stage_sum tb k) -> chains k n v = true ->
    forall j, (k < j <= k + n)%nat -> Rabs (growth tb j - / INR (fact j)) <= eps.
  Proof.
    induction n as [|n IH]; intros k v Hv H j Hj; [lia|]. cbn [chains] in H. apply andb_prop in H. destruct H as [H1 H2].
    destruct (Nat.eq_dec j (S k)) as [->|Hne].
    - rewrite <- zfact_fact. refine (CHK _ _ _ _ H1). cbn [growth]. apply (dot_rel m _ m); [lia|rewrite Ewts; apply weights_rel|exact Hv].
    - apply (IH (S k) (hang v)); [|exact H2|lia]. eapply vrel_ext; [|apply hang_rel, Hv]. intros i Hi. cbn [stage_sum]. apply Rsum_coef. exact Hi.
  Qed.
  Lemma growth_sound p : check_growth p = true -> forall j, (1 <= j <= p)%nat -> Rabs (growth tb j - / INR (fact j)) <= eps.
  Proof. intros H j Hj. apply (chains_sound p 0 (chain 0) (chain_rel 0) H). lia. Qed.

  (** row sums *)
  Variable chk0 : C -> centry -> bool.
  Hypothesis CHK0 : forall a x c, rel a x -> chk0 a c = true -> Rabs (x - cval c) <= eps.
  Definition check_rows : bool := forallb (fun i => chk0 (nth i (chain 1) (o_zero O)) (nth i (tb_alphas tb) c0)) (seq 0 m).
  Lemma rows_sound : check_rows = true -> forall i, (i < m)%nat -> Rabs (Rsum m (coef tb i) - abscissa tb i) <= eps.
  Proof.
    intros H i Hi. unfold check_rows in H. rewrite forallb_forall in H. specialize (H i ltac:(apply in_seq; lia)).
    refine (CHK0 _ _ _ _ H). destruct (chain_rel 1) as [_ R1]. specialize (R1 i Hi). cbn [stage_sum] in R1.
    rewrite <- Rsum_coef in R1 by exact Hi. rewrite (Rsum_ext m (coef tb i) (fun k => coef tb i k * 1)); [exact R1|]. intros; ring.
  Qed.
End Enum.
