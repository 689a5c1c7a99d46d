(** Specification: subsequences. *)
From Coq Require Import List Reals.
From Verif Require Import Py.
Import ListNotations.
Set Implicit Arguments.
Section S.
Variable A : Type.
(** [subseq u s]: [u] results from [s] by leaving out elements. *)
Inductive subseq : list A -> list A -> Prop :=
| ss_nil : subseq [] []
| ss_skip : forall x u s, subseq u s -> subseq u (x :: s)
| ss_take : forall x u s, subseq u s -> subseq (x :: u) (x :: s).

Definition common (u s t : list A) : Prop := subseq u s /\ subseq u t.
Definition longest_common (u s t : list A) : Prop :=
  common u s t /\ forall v, common v s t -> length v <= length u.
End S.

(** The real number denoted by an exact root quotient. *)
Definition rq_val (q : rootquot) : R := (INR (rq_num q) / sqrt (INR (rq_rad q)))%R.
