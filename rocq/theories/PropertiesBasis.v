(** Properties C15, C16, C21-C25 (and C13 without limiter): polynomial exactness and stability.
    [gauss_ok] and [legfit_ok] are the contracts of numpy's leggauss and legfit; ExtReal meets them. *)
From Coq Require Import ZArith List Bool Arith String Reals Lra Lia.
From Verif Require Import Num Py PyStr Constants LegNumpy Ext Basis Sensor Enhance Limiting EulerPhysics Solution Solver
  RKCoeffs RK RealLib SpecTime ProofsTime SpecDG SpecPoly ProofsPoly ProofsLeg ProofsDG ProofsWf ProofsCons ProofsSol ProofsBasis ProofsAdv
  ProofsRun ExtReal Witness.
Import ListNotations.
Open Scope list_scope.
Open Scope nat_scope.

(** C21 *)
Theorem C21_mass_matrix :
  forall (X : Ext R) p i j, i <= p -> j <= p ->
  List.length (b_m (Basis p)) = p + 1 /\ List.length (b_minv (Basis p)) = p + 1 /\
  integral (fun x => LegP i x * LegP j x)%R (-1) 1 (if i =? j then at1 (b_m (Basis p)) i else 0%R) /\
  (at1 (b_m (Basis p)) i * at1 (b_minv (Basis p)) i = 1)%R.
Proof. exact @mass_matrix. Qed.
Theorem C21_values :
  forall (X : Ext R) p i, i <= p ->
  at1 (b_m (Basis p)) i = (2 / (2 * INR i + 1))%R /\ at1 (b_minv (Basis p)) i = ((2 * INR i + 1) / 2)%R.
Proof. intros X p i H. split; [apply mass_entry|apply minv_entry]; exact H. Qed.

(** C22 *)
Theorem C22_edge_values :
  forall (X : Ext R) p n, n <= p ->
  at2 (b_psi (Basis p)) 0 n = LegP n (-1) /\ at2 (b_psi (Basis p)) 1 n = LegP n 1.
Proof. exact @psi_entry. Qed.
Theorem C22_edge_signs : forall n, LegP n (-1) = ((-1) ^ n)%R /\ LegP n 1 = 1%R.
Proof. exact LegP_ends. Qed.
Theorem C22_face_values :
  forall (X : Ext R) p c, List.length c = p + 1 ->
  vdot (row (b_psi (Basis p)) 0) c = legseries c (-1) /\ vdot (row (b_psi (Basis p)) 1) c = legseries c 1.
Proof. intros X p c H. split; [apply psi_left|apply psi_right]; exact H. Qed.

(** C23: D is the derivative of P_n *)
Theorem C23_volume_quadrature :
  forall (X : Ext R), gauss_ok ->
  forall p n D F v, n <= p -> (forall x, derivable_pt_lim (LegP n) x (D x)) -> is_poly (p + 2) F ->
  integral (fun x => D x * F x)%R (-1) 1 v ->
  vdot (row (b_dphi_w (Basis p)) n) (map F (b_x (Basis p))) = v.
Proof. exact @dphi_exact_integral. Qed.

(** C24: f is the function handed to projection, fc its component k *)
Theorem C24_projection :
  forall (X : Ext R), gauss_ok -> legfit_ok ->
  forall p l r (f : R -> res (list R)) k (fc : R -> R),
  (forall x, exists fx, f x = Ok fx /\ nth_error fx k = Some (fc x)) ->
  let node g := ((r - l) / 2 * at1 (b_x (Basis p)) g + (r + l) / 2)%R in
  exists c, projection (Basis p) l r f k = Ok c /\ List.length c = p + 1 /\
    (forall g, g <= p -> legseries c (at1 (b_x (Basis p)) g) = fc (node g)) /\
    (forall c', List.length c' = p + 1 ->
       (forall g, g <= p -> legseries c' (at1 (b_x (Basis p)) g) = fc (node g)) -> c' = c) /\
    (is_poly p fc -> forall xi, legseries c xi = fc ((r - l) / 2 * xi + (r + l) / 2)%R) /\
    at1 c 0 = (/ 2 * Rsum (p + 1) (fun g => at1 (b_w (Basis p)) g * fc (node g)))%R /\
    (forall g, g <= p -> vdot (row (b_phi (Basis p)) g) c = fc (node g)).
Proof. exact @projection_spec. Qed.

(** C25 *)
Theorem C25_shift :
  forall (l : list R) s x, legseries (shift_legendre l s) x = legseries l (x + s)%R.
Proof. exact @shift_legendre_ok. Qed.
Theorem C25_product_integral :
  forall l1 l2 : list R,
  integral (fun x => legseries l1 x * legseries l2 x)%R (-1) 1 (integrate_legendre_product l1 l2).
Proof. exact @product_integral. Qed.

(** the contracts can be met, for all orders at once *)
Example contracts_satisfiable : @gauss_ok ExtReal /\ @inv_ok ExtReal /\ @legfit_ok ExtReal.
Proof. exact (conj ExtReal_gauss (conj ExtReal_inv ExtReal_fit)). Qed.

(** C15: c is the centre of cell e; s1 is the solution after the boundary conditions *)
Theorem C15_advection_exact :
  forall (X : Ext R), gauss_ok ->
  forall gamma ne (s : solution R) d s1 F e (g g' : R -> R) (c : R),
  made ne s -> wf_dg ne s d -> s_euler s = false -> s_enh s = None ->
  residual gamma d s = Ok (s1, F) -> 1 <= e <= ne ->
  is_poly (b_p (s_basis s)) g -> (forall x, derivable_pt_lim g x (g' x)) ->
  (forall xi, legseries (modes s1 e 0) xi = g (s_dx s / 2 * xi + c)%R) ->
  (forall xi, legseries (modes s1 (e - 1) 0) xi = g (s_dx s / 2 * xi + (c - s_dx s))%R) ->
  forall xi, legseries (modes (with_u s1 F) e 0) xi = (- g' (s_dx s / 2 * xi + c))%R.
Proof. exact @advection_exact. Qed.

(** C16: v e is the integral over cell e of u * du/dt; the jump at interface i is
    u(right) - u(left) *)
Theorem C16_energy_balance :
  forall (X : Ext R), gauss_ok ->
  forall gamma ne (s : solution R) d s1 F (v : nat -> R),
  made ne s -> wf_dg ne s d -> s_euler s = false -> s_enh s = None ->
  s_bcl s = pylit "periodic" -> s_bcr s = pylit "periodic" ->
  residual gamma d s = Ok (s1, F) ->
  (forall e, 1 <= e <= ne ->
     integral (fun x => s_dx s / 2 * (legseries (modes s1 e 0) x * legseries (modes (with_u s1 F) e 0) x))%R (-1) 1 (v e)) ->
  let jump i := (legseries (modes s1 (i + 1) 0) (-1) - legseries (modes s1 i 0) 1)%R in
  Rsum ne (fun i => v (i + 1)) = (- / 2 * Rsum ne (fun i => jump i * jump i))%R.
Proof. exact @advection_energy. Qed.

(** C13 without limiter (with limiter: PropertiesLimit) *)
Theorem C13_run_conserves :
  forall (X : Ext R) (gamma : R) ne (sol0 : solution R) d l,
  made ne sol0 -> wf_dg ne sol0 d -> s_bcl sol0 = pylit "periodic" -> s_bcr sol0 = pylit "periodic" ->
  keeps_means gamma l ne sol0 ->
  forall rk cfl tf nout fuel evs out f, f < s_NF sol0 ->
  integrate gamma rk d l cfl tf nout fuel sol0 = (evs, out) ->
  (forall ev, In ev evs -> total ne (ev_sol ev) f = total ne sol0 f) /\
  (forall s', out = Finished s' -> total ne s' f = total ne sol0 f).
Proof. exact @run_conserves. Qed.
Theorem C13_run_conserves_unlimited :
  forall (X : Ext R) (gamma : R) ne (sol0 : solution R) d,
  made ne sol0 -> wf_dg ne sol0 d -> s_bcl sol0 = pylit "periodic" -> s_bcr sol0 = pylit "periodic" ->
  forall rk cfl tf nout fuel evs out f, f < s_NF sol0 ->
  integrate gamma rk d None cfl tf nout fuel sol0 = (evs, out) ->
  (forall ev, In ev evs -> total ne (ev_sol ev) f = total ne sol0 f) /\
  (forall s', out = Finished s' -> total ne s' f = total ne sol0 f).
Proof. intros X gamma ne sol0 d M D Bl Br. apply (C13_run_conserves X); try assumption. apply no_limiter_keeps. Qed.

(** a solution, its residual and a completed run meet the hypotheses of C12-C16, for every order *)
Example C12_C16_witness : forall p gamma, exists s d s1 F,
  @made ExtReal 8 s /\ wf_dg 8 s d /\ b_p (s_basis s) = p /\ s_euler s = false /\ s_enh s = None /\
  s_bcl s = pylit "periodic" /\ s_bcr s = pylit "periodic" /\ residual gamma d s = Ok (s1, F).
Proof.
  intros p gamma. destruct (sine_built p) as [s [d [B [_ [D [E1 [E2 _]]]]]]].
  destruct (residual_total gamma 8 s d (md_wf _ _ (bl_made _ _ _ _ _ _ _ B)) D) as [s1 [F HF]].
  { rewrite (bl_riemann _ _ _ _ _ _ _ B). discriminate. }
  exists s, d, s1, F. pose proof (bl_made _ _ _ _ _ _ _ B). pose proof (bl_p _ _ _ _ _ _ _ B).
  pose proof (bl_euler _ _ _ _ _ _ _ B). pose proof (bl_enh _ _ _ _ _ _ _ B). tauto.
Qed.
(** .. and for the Euler equations *)
Example C12_C13_euler_witness : forall p gamma, exists s d s1 F,
  @made ExtReal 8 s /\ wf_dg 8 s d /\ b_p (s_basis s) = p /\ s_euler s = true /\
  s_bcl s = pylit "periodic" /\ s_bcr s = pylit "periodic" /\ residual gamma d s = Ok (s1, F).
Proof.
  intros p gamma. destruct (entropy_built p "roe") as [s [d [B [_ [D [E1 [E2 _]]]]]]].
  destruct (residual_total gamma 8 s d (md_wf _ _ (bl_made _ _ _ _ _ _ _ B)) D) as [s1 [F HF]].
  { rewrite (bl_riemann _ _ _ _ _ _ _ B). discriminate. }
  exists s, d, s1, F. pose proof (bl_made _ _ _ _ _ _ _ B). pose proof (bl_p _ _ _ _ _ _ _ B).
  pose proof (bl_euler _ _ _ _ _ _ _ B). pose proof (bl_enh _ _ _ _ _ _ _ B). tauto.
Qed.

Print Assumptions C21_mass_matrix.
Print Assumptions C21_values.
Print Assumptions C22_edge_values.
Print Assumptions C22_edge_signs.
Print Assumptions C22_face_values.
Print Assumptions C23_volume_quadrature.
Print Assumptions C24_projection.
Print Assumptions C25_shift.
Print Assumptions C25_product_integral.
Print Assumptions contracts_satisfiable.
Print Assumptions C15_advection_exact.
Print Assumptions C16_energy_balance.
Print Assumptions C13_run_conserves.
Print Assumptions C13_run_conserves_unlimited.
Print Assumptions C12_C16_witness.
