(** Specification of node alignment: a partial function from (source, target) pairs to relations. *)
From Coq Require Import List Bool.
From Verif Require Import Align_model.
Import ListNotations.
Set Implicit Arguments.
Section S.
Variables N R : Type.
Variable neqb : N -> N -> bool.

Definition alignment := N -> N -> option R.
Definition no_alignment : alignment := fun _ _ => None.

(** One-to-one alignment: aligning s with t ends every other alignment of s or of t. *)
Definition realign (m : alignment) (s t : N) (r : R) : alignment :=
  fun s' t' =>
    if neqb s' s && neqb t' t then Some r
    else if neqb s' s || neqb t' t then None
    else m s' t'.
(** Many-to-many alignment: only the pair itself is affected. *)
Definition align (m : alignment) (s t : N) (r : R) : alignment :=
  fun s' t' => if neqb s' s && neqb t' t then Some r else m s' t'.
Definition unalign (m : alignment) (s t : N) : alignment :=
  fun s' t' => if neqb s' s && neqb t' t then None else m s' t'.

Definition matching_spec (m : alignment) (o : op N R) : alignment :=
  match o with Add s t r => realign m s t r | Del _ s t => unalign m s t end.
Definition mapping_spec (m : alignment) (o : op N R) : alignment :=
  match o with Add s t r => align m s t r | Del _ s t => unalign m s t end.

(** Each node has at most one partner on the other side. *)
Definition one_to_one (m : alignment) : Prop :=
  (forall s t t' r r', m s t = Some r -> m s t' = Some r' -> t = t') /\
  (forall s s' t r r', m s t = Some r -> m s' t = Some r' -> s = s').
End S.
