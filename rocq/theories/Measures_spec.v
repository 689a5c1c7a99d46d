(** Specification: what a global alignment costs when it is read as an edit script, and the elements it pairs with equal ones. *)
From Coq Require Import List Arith.
Import ListNotations.
Set Implicit Arguments.
Section S.
Variable A : Type.
Variables (s1 s2 : list A).
(** the two aligned elements exist and are the same *)
Definition same_at (p : nat * nat) : Prop := exists a, nth_error s1 (fst p) = Some a /\ nth_error s2 (snd p) = Some a.
(** [pairs n m al]: [n] of the pairs of [al] are of equal elements and [m] are not *)
Inductive pairs : nat -> nat -> list (nat * nat) -> Prop :=
| pairs_nil : pairs 0 0 []
| pairs_same : forall n m p al, same_at p -> pairs n m al -> pairs (S n) m (p :: al)
| pairs_other : forall n m p al, ~ same_at p -> pairs n m al -> pairs n (S m) (p :: al).
(** [edits k al]: replacing the elements aligned with different ones, deleting the unaligned elements of the first sequence and inserting
    those of the second takes [k] operations *)
Definition edits (k : nat) (al : list (nat * nat)) : Prop :=
  exists n m, pairs n m al /\ k + 2 * length al = m + length s1 + length s2.
End S.
