(** Vocabulary for statements about several runs side by side. *)
From Coq Require Import ZArith List Bool Arith String Reals.
From Verif Require Import Num Py RealLib Basis Solution RK SpecDG SpecMonotone.
Import ListNotations.
Open Scope list_scope.
Open Scope R_scope.

(** three lists of the same length, related entry by entry *)
Inductive all3 {P : Type} (Rel : P -> P -> P -> Prop) : list P -> list P -> list P -> Prop :=
| all3_nil : all3 Rel [] [] []
| all3_cons x y z xs ys zs : Rel x y z -> all3 Rel xs ys zs -> all3 Rel (x :: xs) (y :: ys) (z :: zs).
(** same clock, and every coefficient of s3 is a times that of s1 plus b times that of s2 *)
Definition combines (a b : R) (ne : nat) (s1 s2 s3 : solution R) : Prop :=
  s_t s1 = s_t s3 /\ s_t s2 = s_t s3 /\ s_n s1 = s_n s3 /\ s_n s2 = s_n s3 /\
  forall e f n, (e < ne + 2)%nat -> (f < s_NF s3)%nat -> (n < s_Ns s3)%nat ->
    at1 (modes s3 e f) n = a * at1 (modes s1 e f) n + b * at1 (modes s2 e f) n.
(** snapshots: same number, same step, combined states *)
Definition combines_event (a b : R) (ne : nat) (x y z : event R) : Prop :=
  ev_nout x = ev_nout z /\ ev_nout y = ev_nout z /\ ev_dt x = ev_dt z /\ ev_dt y = ev_dt z /\ combines a b ne (ev_sol x) (ev_sol y) (ev_sol z).
(** all three runs complete, with combined states, or all three fail, or all three need more fuel *)
Inductive combines_outcome (a b : R) (ne : nat) : outcome R -> outcome R -> outcome R -> Prop :=
| co_finished s1 s2 s3 : combines a b ne s1 s2 s3 -> combines_outcome a b ne (Finished s1) (Finished s2) (Finished s3)
| co_failed e : combines_outcome a b ne (Failed e) (Failed e) (Failed e)
| co_fuel : combines_outcome a b ne OutOfFuel OutOfFuel OutOfFuel.
(** the sum over the interior cells of the distance of the cell averages (times dx: the L1 distance of two order-0 solutions) *)
Definition distance (ne : nat) (s1 s2 : solution R) : R := Rsum ne (fun i => Rabs (average s1 (i + 1) - average s2 (i + 1))).
(** two runs of the same problem: as many snapshots, with the same numbers and steps; [Q] holds of corresponding states; they end alike *)
Definition alike (Q : solution R -> solution R -> Prop) (r1 r2 : list (event R) * outcome R) : Prop :=
  Forall2 (fun x y => ev_nout x = ev_nout y /\ ev_dt x = ev_dt y /\ s_t (ev_sol x) = s_t (ev_sol y) /\ Q (ev_sol x) (ev_sol y)) (fst r1) (fst r2) /\
  match snd r1, snd r2 with
  | Finished s1, Finished s2 => Q s1 s2
  | Failed e1, Failed e2 => e1 = e2
  | OutOfFuel, OutOfFuel => True
  | _, _ => False
  end.
