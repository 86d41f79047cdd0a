(** numpy.polynomial.legendre, as used by dg1d/basis.py and dg1d/enhance.py.

    NumPy is not part of /repo; these functions transcribe its pure-Python implementation
    (legval, legder, legadd, legmulx, legmul, legint, and series composition) because
    dg1d/basis.py:61-72, 143-168 and dg1d/enhance.py:119-135 rely on them.
    Simplification: NumPy trims trailing zero coefficients of operands (as_series); trimming does
    not change the represented polynomial and is left out. *)
From Coq Require Import ZArith List Bool Arith.
From Verif Require Import Num Py.
Import ListNotations.
Open Scope num_scope.

Section Leg.
  Context {A : Type} {N : Num A}.
  Definition nnat (n : nat) : A := nofZ (Z.of_nat n).

  (** The Clenshaw recursion shared by legval and legmul.
      [emb c] is the coefficient as an element of the module S, [mulx] multiplication by x.
      NumPy: nd = len(c); c0 = c[-2]; c1 = c[-1];
             for i in range(3, len(c)+1): tmp = c0; nd = nd-1;
                 c0 = c[-i] - (c1*(nd-1))/nd; c1 = tmp + (c1*x*(2*nd-1))/nd
             return c0 + c1*x *)
  Section Clenshaw.
    Context {S : Type}.
    Variables (emb : A -> S) (sadd ssub : S -> S -> S) (sscale : A -> S -> S) (mulx : S -> S).
    Fixpoint clenshaw_loop (rest : list A) (nd : nat) (c0 c1 : S) : S :=
      match rest with
      | [] => sadd c0 (mulx c1)
      | ci :: rest' =>
          let nd' := (nd - 1)%nat in
          clenshaw_loop rest' nd'
            (ssub (emb ci) (sscale (nnat (nd' - 1) / nnat nd') c1))
            (sadd c0 (sscale (nnat (2 * nd' - 1) / nnat nd') (mulx c1)))
      end.
    Definition clenshaw (zero : S) (c : list A) : S :=
      match rev c with
      | [] => zero
      | [c0] => emb c0                    (* len(c) == 1: c1 = 0 *)
      | c1 :: c0 :: rest => clenshaw_loop rest (length c) (emb c0) (emb c1)
      end.
  End Clenshaw.

  (** leg.legval(x, c), basis.py:68,72 *)
  Definition legval (x : A) (c : list A) : A :=
    clenshaw (fun c => c) nadd nsub nmul (fun s => s * x) n0 c.

  (** L.basis(n).coef, basis.py:64 *)
  Definition leg_basis (n : nat) : list A := tab n (fun _ => n0) ++ [n1].

  (** L.deriv() = legder, basis.py:65.  NumPy: for j in range(n,2,-1): der[j-1] = (2j-1)*c[j];
      c[j-2] += c[j];  der[1] = 3*c[2]; der[0] = c[1].  [fold_two c] is the array c after all
      the updates (index 0 is not used). *)
  Fixpoint fold_two (c : list A) : list A :=
    match c with
    | [] => []
    | x :: r => let r' := fold_two r in
                (match r' with _ :: y :: _ => x + y | _ => x end) :: r'
    end.
  Definition legder (c : list A) : list A :=
    match c with
    | [] => []
    | [c0] => [c0 * n0]
    | _ => let c' := fold_two c in
           tab (length c - 1) (fun j => nnat (2 * j + 1) * nth (S j) c' n0)
    end.

  (** legadd / legsub: pad the shorter series with zeros *)
  Fixpoint legadd (a b : list A) : list A :=
    match a, b with
    | x :: a', y :: b' => (x + y) :: legadd a' b'
    | [], _ => b
    | _, [] => a
    end.
  Definition legscale (k : A) (a : list A) : list A := map (fun v => k * v) a.
  Definition legsub (a b : list A) : list A := legadd a (map nopp b).

  (** legmulx: prd[0] = 0; prd[1] = c[0];
      for i in 1..: prd[i+1] = c[i]*(i+1)/(2i+1); prd[i-1] += c[i]*i/(2i+1) *)
  Definition legmulx (c : list A) : list A :=
    tab (length c + 1) (fun k =>
      (match k with O => n0 | S i => nth i c n0 * nnat (i + 1) / nnat (2 * i + 1) end)
      + (if (k + 1 <? length c)%nat then nth (k + 1) c n0 * nnat (k + 1) / nnat (2 * k + 3) else n0)).

  (** legmul(c1, c2) (the series product l1 * l2, basis.py:162); NumPy runs the recursion over the
      shorter operand, the product is the same *)
  Definition legmul (a b : list A) : list A :=
    clenshaw (fun c => legscale c b) legadd legsub legscale legmulx [n0] a.

  (** Evaluation of a Legendre series at a Legendre series: l(X).  L.cast with a shifted window
      (basis.py:150) evaluates l at the series of the line x + shift. *)
  Definition legcompose (c X : list A) : list A :=
    clenshaw (fun v => [v]) legadd legsub legscale (fun s => legmul s X) [n0] c.

  (** L.integ() = legint with integration constant such that the value at 0 is 0, basis.py:165 *)
  Definition legint_raw (c : list A) : list A :=
    tab (length c + 1) (fun k =>
      (match k with O => n0 | S i => nth i c n0 / nnat (2 * i + 1) end)
      - (if (k + 1 <? length c)%nat then nth (k + 1) c n0 / nnat (2 * k + 3) else n0)).
  Definition legint (c : list A) : list A :=
    match legint_raw c with
    | [] => []
    | t0 :: r => (t0 - legval n0 (legint_raw c)) :: r
    end.
End Leg.
