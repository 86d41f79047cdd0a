(** Initial conditions of dg1d/solution.py (lines 228-472): the functions f and their domains *)
From Coq Require Import ZArith List Bool Arith String.
From Verif Require Import Num Py PyStr Ext Constants.
Import ListNotations.
Open Scope list_scope.
Open Scope num_scope.

Section IC.
  Context {A : Type} {N : Num A} {L : Libm A} {X : Ext A}.

  (** sinewave, solution.py:228-244 *)
  Definition f_sinewave (x : A) : res (list A) := Ok [nsin (nofZ 2 * npi * x)].

  (** simplew, solution.py:247-293; gamma is 3 when f runs *)
  Definition simplew_u (gamma x : A) : res A :=
    let u0 := nofZ 2 / gamma in
    if x <=? lit (-3) 2 then Ok (- u0)
    else if ((lit (-3) 2 <? x) && (x <? lit (-1) 2))%bool then
      Ok (nofZ (-1) / gamma * (n1 - ntanh ((x + n1) / (lit 1 4 - npown (x + n1) 2))))
    else if ((lit (-1) 2 <=? x) && (x <=? lit 1 2))%bool then Ok n0
    else if ((lit 1 2 <? x) && (x <? lit 3 2))%bool then
      Ok (n1 / gamma * (n1 + ntanh ((x - n1) / (lit 1 4 - npown (x - n1) 2))))
    else if lit 3 2 <=? x then Ok u0
    else Raise UnboundLocalError.
  Definition f_simplew (gamma x : A) : res (list A) :=
    let! u := simplew_u gamma x in
    let a := n1 - (gamma - n1) / nofZ 2 * nabs u in
    let rho := gamma * npow a (nofZ 2 / (gamma - n1)) in
    let p := rho * a * a / gamma in
    let E := p / (gamma - n1) + nhalf * rho * u * u in
    Ok [rho; rho * u; E].

  (** entrpyw, solution.py:296-328 *)
  Definition f_entrpyw (gamma x : A) : res (list A) :=
    let rho := n1 + lit 2 10 * nsin (npi * x) in
    let u := n1 in
    let p := n1 in
    let E := p / (gamma - n1) + nhalf * rho * u * u in
    Ok [rho; rho * u; E].

  (** acsticw, solution.py:331-367 *)
  Definition acsticw_h (x : A) : A := lit 1 10000 * npown (ncos (nhalf * npi * x)) 8.
  Definition f_acsticw (gamma x : A) : res (list A) :=
    let rho := n1 + acsticw_h x in
    let u := n0 in
    let p := n1 / gamma + acsticw_h x in
    let E := p / (gamma - n1) + nhalf * rho * u * u in
    Ok [rho; rho * u; E].

  (** scktube, solution.py:370-418 *)
  Definition f_scktube (xd rhoL uL pL rhoR uR pR gamma x : A) : res (list A) :=
    let! t := (if x <? xd then Ok (rhoL, uL, pL)
               else if xd <=? x then Ok (rhoR, uR, pR)
               else Raise UnboundLocalError) in
    let '(rho, u, p) := t in
    Ok [rho; rho * u; n1 / (gamma - n1) * p + nhalf * rho * u * u].

  (** shuoshe, solution.py:421-453; f itself sets gamma = 1.4 *)
  Definition f_shuoshe (x : A) : res (list A) :=
    let gamma := gamma_default in
    let! t := (if x <? n1 then
                 Ok (lit 3857143 1000000, lit 2629369 1000000, lit 10333333 1000000)
               else if n1 <=? x then
                 Ok (n1 + lit 2 10 * nsin (nofZ 5 * (x - nofZ 5)), n0, n1)
               else Raise UnboundLocalError) in
    let '(rho, u, p) := t in
    Ok [rho; rho * u; n1 / (gamma - n1) * p + nhalf * rho * u * u].

  (** ictest, solution.py:456-472 *)
  Definition f_ictest (x : A) : res (list A) :=
    Ok [npown (nsin (x - npi / nofZ 3)) 3 + n1].

  (** What an initial-condition method hands to setup_common_ic: the interval, the boundary
      condition, the value of constants.gamma while f runs, the one left behind once f has run
      at least once, and f. *)
  Record ic_spec := {
    ic_A : A; ic_B : A; ic_bc : string;
    ic_gamma : A; ic_gamma_after : A;
    ic_f : A -> res (list A) }.

  Definition float_param (params : list string) (i : nat) : res A :=
    match nth_error params i with
    | None => Raise IndexError
    | Some s => match parse_float s with Some v => Ok v | None => Raise ValueError end
    end.

  (** the entry self.keywords[icname] up to its call of setup_common_ic.  [g] is the current
      constants.gamma.  Names that are keys of the dictionary but not initial conditions
      ('system', 'fields', ...) raise TypeError when called ('evaluate_face_solution' does not
      raise, but leaves the solution empty just the same). *)
  Definition ic_lookup (icname : string) (params : list string) (g : A) : res ic_spec :=
    if String.eqb icname "sinewave" then
      Ok {| ic_A := nofZ (-1); ic_B := n1; ic_bc := "periodic";
            ic_gamma := g; ic_gamma_after := g; ic_f := f_sinewave |}
    else if String.eqb icname "simplew" then
      Ok {| ic_A := nofZ (-4); ic_B := nofZ 4; ic_bc := "zerograd";
            ic_gamma := nofZ 3; ic_gamma_after := nofZ 3; ic_f := f_simplew (nofZ 3) |}
    else if String.eqb icname "entrpyw" then
      Ok {| ic_A := nofZ (-1); ic_B := n1; ic_bc := "periodic";
            ic_gamma := g; ic_gamma_after := g; ic_f := f_entrpyw g |}
    else if String.eqb icname "acsticw" then
      Ok {| ic_A := nofZ (-1); ic_B := n1; ic_bc := "periodic";
            ic_gamma := g; ic_gamma_after := g; ic_f := f_acsticw g |}
    else if String.eqb icname "scktube" then
      if negb (Nat.eqb (List.length params) 8)
      then Raise (SysExit "Not enough input conditions in the deck. Exiting")
      else
        let! xd := float_param params 1 in
        let! rhoL := float_param params 2 in
        let! uL := float_param params 3 in
        let! pL := float_param params 4 in
        let! rhoR := float_param params 5 in
        let! uR := float_param params 6 in
        let! pR := float_param params 7 in
        Ok {| ic_A := nofZ (-1); ic_B := n1; ic_bc := "zerograd";
              ic_gamma := gamma_default; ic_gamma_after := gamma_default;
              ic_f := f_scktube xd rhoL uL pL rhoR uR pR gamma_default |}
    else if String.eqb icname "shuoshe" then
      Ok {| ic_A := n0; ic_B := nofZ 10; ic_bc := "zerograd";
            ic_gamma := g; ic_gamma_after := gamma_default; ic_f := f_shuoshe |}
    else if String.eqb icname "ictest" then
      Ok {| ic_A := nofZ (-1); ic_B := n1; ic_bc := "periodic";
            ic_gamma := g; ic_gamma_after := g; ic_f := f_ictest |}
    else Raise KeyError.
End IC.
Arguments ic_spec : clear implicits.
