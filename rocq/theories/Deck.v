(** dg1d/deck.py *)
From Coq Require Import ZArith List Bool Arith String.
From Verif Require Import Num Py PyStr Ext.
Import ListNotations.
Open Scope string_scope.
Open Scope list_scope.

Section Deck.
  Context {A : Type} {N : Num A} {X : Ext A}.

  (** Deck.__init__, deck.py:18-31 *)
  Record deck := {
    dk_system : string; dk_rk : string; dk_riemann : string; dk_ic : string;
    dk_nout : Z; dk_finaltime : A; dk_cfl : A; dk_order : Z;
    dk_limiting : string; dk_enhance : string; dk_thresholds : list A }.
  Definition Deck : deck :=
    {| dk_system := "advection"; dk_rk := ""; dk_riemann := "roe"; dk_ic := "sinewave";
       dk_nout := 10; dk_finaltime := n1; dk_cfl := lit 1 2; dk_order := 1;
       dk_limiting := ""; dk_enhance := ""; dk_thresholds := [] |}.

  Inductive key := KSystem | KRk | KRiemann | KIc | KNout | KTf | KCfl | KOrder | KLimiting
                 | KEnhance | KThresholds.
  (** the headings, deck.py:41-61, in the order of the if-chain *)
  Definition headings : list (string * key) :=
    [ ("#PDE system", KSystem); ("#RK scheme", KRk); ("#riemann solver", KRiemann);
      ("#initial condition", KIc); ("#number of outputs", KNout); ("#final time", KTf);
      ("#Courant-Friedrichs-Lewy condition", KCfl); ("#order", KOrder); ("#limiting", KLimiting);
      ("#enhancement", KEnhance); ("#sensor thresholds", KThresholds) ].
  (** first heading contained in the line *)
  Fixpoint find_key (hs : list (string * key)) (line : string) : option key :=
    match hs with
    | [] => None
    | (h, k) :: r => if contains h line then Some k else find_key r line
    end.

  Definition int_of (s : string) : res Z :=
    match parse_int s with Some z => Ok z | None => Raise ValueError end.
  (** float(s): surrounding white space is ignored *)
  Definition float_of (s : string) : res A :=
    match parse_float (strip s) with Some v => Ok v | None => Raise ValueError end.

  (** the assignments, deck.py:42-63; [v] is the next line *)
  Definition set_key (d : deck) (k : key) (v : string) : res deck :=
    let 'Build_deck system rk riemann ic nout tf cfl order lim enh thr := d in
    match k with
    | KSystem => Ok (Build_deck (rstrip v) rk riemann ic nout tf cfl order lim enh thr)
    | KRk => Ok (Build_deck system (rstrip v) riemann ic nout tf cfl order lim enh thr)
    | KRiemann => Ok (Build_deck system rk (rstrip v) ic nout tf cfl order lim enh thr)
    | KIc => Ok (Build_deck system rk riemann (rstrip v) nout tf cfl order lim enh thr)
    | KNout => let! n := int_of v in Ok (Build_deck system rk riemann ic n tf cfl order lim enh thr)
    | KTf => let! t := float_of v in Ok (Build_deck system rk riemann ic nout t cfl order lim enh thr)
    | KCfl => let! c := float_of v in Ok (Build_deck system rk riemann ic nout tf c order lim enh thr)
    | KOrder => let! p := int_of v in Ok (Build_deck system rk riemann ic nout tf cfl p lim enh thr)
    | KLimiting => Ok (Build_deck system rk riemann ic nout tf cfl order (rstrip v) enh thr)
    | KEnhance => Ok (Build_deck system rk riemann ic nout tf cfl order lim (rstrip v) thr)
    | KThresholds => let! l := mapM float_of (split_ws (rstrip v)) in
                     Ok (Build_deck system rk riemann ic nout tf cfl order lim enh l)
    end.

  (** parser, deck.py:34-63: next(f) consumes the following line; at the end of the file it raises
      StopIteration *)
  Fixpoint parse_lines (lines : list string) (d : deck) : res deck :=
    match lines with
    | [] => Ok d
    | line :: rest =>
        match find_key headings line with
        | None => parse_lines rest d
        | Some k =>
            match rest with
            | [] => Raise StopIteration
            | v :: rest' => let! d' := set_key d k v in parse_lines rest' d'
            end
        end
    end.
  Definition parser (content : string) (d : deck) : res deck := parse_lines (file_lines content) d.
End Deck.
Arguments deck : clear implicits.

(** write_deck, deck.py:67-79: the text written for a list of (heading, value) pairs *)
Definition write_deck (defs : list (string * string)) : string :=
  String.concat "" (map (fun l => "#" ++ fst l ++ nl ++ snd l ++ nl)%string defs).
