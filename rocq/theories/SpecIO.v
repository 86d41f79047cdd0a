(** Vocabulary for statements about snapshot files. *)
From Coq Require Import ZArith List Bool Arith String Ascii Reals PrimFloat FloatOps.
From Verif Require Import Num Py PyStr ProofsStr LegNumpy Ext Basis Sensor Enhance Solution IO FloatText SpecDG SpecText.
Import ListNotations.
Open Scope list_scope.

Section SpecIO.
  Context {A : Type} {N : Num A} {L : Libm A} {X : Ext A}.

  (** a boundary-condition name that can be written in a header: one line, no comma or equals sign,
      no blanks at the end *)
  Definition bc_name_ok (b : pystr) : Prop :=
    all_chars (fun c => negb (Ascii.eqb c newline || Ascii.eqb c ","%char || Ascii.eqb c "="%char)) (txt b) = true /\
    rstrip (txt b) = txt b.
  (** column j belongs to an interior cell *)
  Definition interior_col (ne NF j : nat) : Prop := (NF <= j < (ne + 1) * NF)%nat.
  (** the numbers a snapshot contains are written and read back exactly *)
  Definition texts_ok (ne : nat) (s : solution A) : Prop :=
    text_ok (s_t s) /\ (forall e, (e < ne)%nat -> text_ok (at1 (s_xc s) e)) /\
    (forall n j, (n < s_Ns s)%nat -> interior_col ne (s_NF s) j -> text_ok (at2 (s_u s) n j)).
  (** what the loaded solution [s1] has in common with the saved one [s] *)
  Definition restored (ne : nat) (s s1 : solution A) : Prop :=
    s_xc s1 = s_xc s /\ s_t s1 = s_t s /\ s_n s1 = s_n s /\ txt (s_bcl s1) = txt (s_bcl s) /\ txt (s_bcr s1) = txt (s_bcr s) /\
    s_basis s1 = Basis (b_p (s_basis s)) /\ s_NE s1 = s_NE s /\ s_euler s1 = s_euler s /\
    shape (s_Ns s) ((ne + 2) * s_NF s) (s_u s1) /\
    (forall n j, (n < s_Ns s)%nat -> interior_col ne (s_NF s) j -> at2 (s_u s1) n j = at2 (s_u s) n j).
  (** the mesh the constructor builds on [a,b] *)
  Definition mesh_of (ne : nat) (a b : A) (s : solution A) : Prop :=
    s_x s = linspace a b (ne + 1) /\ s_xc s = centroids (s_x s) /\ s_dx s = linspace_step a b (ne + 1).
End SpecIO.

(** the library's text routines are the correctly rounded ones *)
Definition double_text (X : Ext float) : Prop :=
  (forall x : float, fmt_e18 x = fmt18 (Prim2SF x)) /\
  (forall s, parse_float s = option_map SF2Prim (parse64 s)).
