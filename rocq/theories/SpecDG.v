(** Vocabulary for statements about the DG scheme, in terms of cells, modes and interfaces instead
    of the code's interleaved arrays: u[n][e*NF+f] is mode n of field f in cell e; cell 0 and cell
    ne+1 are the ghost cells; interface e separates cells e and e+1. *)
From Coq Require Import ZArith List Bool Arith String Reals.
From Verif Require Import Num Py LegNumpy Ext Basis Sensor Enhance AdvectionPhysics EulerPhysics Solution Solver.
Import ListNotations.
Open Scope list_scope.
Open Scope nat_scope.

Section SpecDG.
  Context {A : Type} {N : Num A} {L : Libm A}.

  Definition shape (r c : nat) (m : mat A) : Prop :=
    List.length m = r /\ forall x, In x m -> List.length x = c.

  (** a solution with ne >= 1 interior cells whose arrays have the shapes the constructor gives them *)
  Record wf (ne : nat) (s : solution A) : Prop := {
    wf_ne : 1 <= ne;
    wf_NE : s_NE s = Z.of_nat ne;
    wf_NG : 1 <= b_NG (s_basis s);
    wf_u : shape (s_Ns s) ((ne + 2) * s_NF s) (s_u s);
    wf_phi : shape (b_NG (s_basis s)) (s_Ns s) (b_phi (s_basis s));
    wf_dphi : shape (s_Ns s) (b_NG (s_basis s)) (b_dphi_w (s_basis s));
    wf_psi : shape 2 (s_Ns s) (b_psi (s_basis s));
    wf_minv : List.length (s_minv s) = s_Ns s;
    wf_kind : s_riemann s = RUpwind <-> s_euler s = false;
    wf_enh : match s_enh s with
             | None => True
             | Some e => List.length (e_alphaL e) = s_Ns s /\ List.length (e_alphaR e) = s_Ns s
                         /\ List.length (e_betaL e) = s_Ns s /\ List.length (e_betaR e) = s_Ns s
             end;
    wf_xc : List.length (s_xc s) = ne;
    wf_sens : match s_sens s with None => True | Some sn => List.length (sn_sensors sn) = ne + 2 end
  }.
  Definition wf_dg (ne : nat) (s : solution A) (d : dg) : Prop :=
    dg_rows d = s_Ns s /\ dg_cols d = ne * s_NF s.

  (** modes of field f in cell e *)
  Definition modes (s : solution A) (e f : nat) : vec A := col (s_u s) (e * s_NF s + f).

  (** physical flux of a state vector (one entry per field) *)
  Definition phys_flux (gamma : A) (s : solution A) (c : list A) : list A :=
    if s_euler s then
      let '(a, b, e) := flux1 gamma (at1 c 0, at1 c 1, at1 c 2) in [a; b; e]
    else c.
  (** numerical flux between two state vectors *)
  Definition num_flux (gamma : A) (s : solution A) (cl cr : list A) : res (list A) :=
    let l := (at1 cl 0, at1 cl 1, at1 cl 2) in
    let r := (at1 cr 0, at1 cr 1, at1 cr 2) in
    match s_riemann s with
    | RUpwind => Ok cl
    | RRusanov => let '(a, b, e) := rusanov1 gamma l r in Ok [a; b; e]
    | RRoe => let '(a, b, e) := roe1 gamma l r in Ok [a; b; e]
    | RGodunov => let! x := godunov1 gamma l r in let '(a, b, e) := x in Ok [a; b; e]
    end.

  (** state on the left / right side of interface e, from the modes [U] of the cells *)
  Definition face_minus (s : solution A) (U : nat -> nat -> vec A) (e f : nat) : A :=
    match s_enh s with
    | None => vdot (row (b_psi (s_basis s)) 1) (U e f)
    | Some en => nadd (vdot (e_alphaL en) (U e f)) (vdot (e_alphaR en) (U (e + 1) f))
    end.
  Definition face_plus (s : solution A) (U : nat -> nat -> vec A) (e f : nat) : A :=
    match s_enh s with
    | None => vdot (row (b_psi (s_basis s)) 0) (U (e + 1) f)
    | Some en => nadd (vdot (e_betaL en) (U e f)) (vdot (e_betaR en) (U (e + 1) f))
    end.
  Definition iface_flux (gamma : A) (s : solution A) (U : nat -> nat -> vec A) (e : nat) : res (list A) :=
    num_flux gamma s (tab (s_NF s) (face_minus s U e)) (tab (s_NF s) (face_plus s U e)).

  (** state at Gauss node g of cell e *)
  Definition node_state (s : solution A) (U : nat -> nat -> vec A) (e g : nat) : list A :=
    tab (s_NF s) (fun f => vdot (row (b_phi (s_basis s)) g) (U e f)).
  (** volume term: quadrature of P_n' * flux *)
  Definition volume_term (gamma : A) (s : solution A) (U : nat -> nat -> vec A) (n e f : nat) : A :=
    vdot (row (b_dphi_w (s_basis s)) n)
         (tab (b_NG (s_basis s)) (fun g => at1 (phys_flux gamma s (node_state s U e g)) f)).
  (** contribution of the two interface fluxes ql (left) and qr (right) to the equation of mode n *)
  Definition face_term (n : nat) (ql qr : A) : A :=
    if Nat.even n then nsub qr ql else nadd ql qr.
  (** the semi-discrete equation of mode n of field f in cell e *)
  Definition residual_of (gamma : A) (s : solution A) (U : nat -> nat -> vec A) (ql qr : list A) (n e f : nat) : A :=
    nmul (nsub (volume_term gamma s U n e f) (face_term n (at1 ql f) (at1 qr f))) (at1 (s_minv s) n).
  (** the whole residual array, given the fluxes q of the interfaces 0..ne: in the ghost cells only
      the volume term is computed *)
  Definition residual_mat (gamma : A) (ne : nat) (s : solution A) (q : nat -> list A) : mat A :=
    tab2 (s_Ns s) ((ne + 2) * s_NF s) (fun n j =>
      let e := j / s_NF s in
      let f := j mod s_NF s in
      if (1 <=? e) && (e <=? ne) then residual_of gamma s (modes s) (q (e - 1)) (q e) n e f
      else nmul (volume_term gamma s (modes s) n e f) (at1 (s_minv s) n)).

  (** the cell whose content the boundary conditions bl, br put into cell e *)
  Definition src_cell (bl br : pystr) (ne e : nat) : nat :=
    if e =? 0 then
      if is_literal bl "periodic" then ne else if is_literal bl "zerograd" then 1 else 0
    else if e =? ne + 1 then
      if is_literal br "periodic" then 1 else if is_literal br "zerograd" then ne else ne + 1
    else e.

  (** the cells of s, cyclically shifted by k positions: cell e of the shifted solution is cell
      [shift_cell ne k e] of the original *)
  Definition shift_cell (ne k e : nat) : nat := (e - 1 + k) mod ne + 1.

  (** two solutions of the same run: they differ in coefficients, time, step count, sensors *)
  Definition similar (s s' : solution A) : Prop :=
    exists t n sn u, s' = with_u (with_sens (with_n (with_t s t) n) sn) u
      /\ (match s_sens s, sn with None, None => True | Some x, Some y => sn_thresholds x = sn_thresholds y | _, _ => False end).
  (** s' is s with its interior cells shifted by k *)
  Definition shift_of (ne k : nat) (s s' : solution A) : Prop :=
    wf ne s /\ wf ne s' /\ similar s s' /\ s_t s = s_t s' /\ s_n s = s_n s' /\
    forall e f, 1 <= e <= ne -> f < s_NF s -> modes s' e f = modes s (shift_cell ne k e) f.
End SpecDG.

(** Exact arithmetic *)
Section SpecDGR.
  Context {X : Ext R}.
  Open Scope R_scope.
  (** a solution as the constructor builds it, up to its coefficients, time and sensors *)
  Record made (ne : nat) (s : solution R) : Prop := {
    md_wf : wf ne s;
    md_basis : s_basis s = Basis (b_p (s_basis s));
    md_dx : 0 < s_dx s;
    md_minv : forall n, (n < s_Ns s)%nat -> at1 (s_minv s) n = INR (2 * n + 1) / s_dx s
  }.
  (** integral of field f over the interior cells: dx * sum of the cell averages *)
  Definition total (ne : nat) (s : solution R) (f : nat) : R :=
    nsum (tab ne (fun i => s_dx s * at1 (modes s (i + 1) f) 0)).
End SpecDGR.

