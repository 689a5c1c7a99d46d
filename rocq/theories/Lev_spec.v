(** Specification of edit distance, independent of the model. *)
From Coq Require Import List.
Import ListNotations.
Set Implicit Arguments.
Section S.
Variable A : Type.

(** One edit operation anywhere in a sequence. *)
Inductive edit1 : list A -> list A -> Prop :=
| edit_ins : forall u v x, edit1 (u ++ v) (u ++ x :: v)
| edit_del : forall u v x, edit1 (u ++ x :: v) (u ++ v)
| edit_sub : forall u v x y, edit1 (u ++ x :: v) (u ++ y :: v).

(** [edit_script k s t]: [s] can be turned into [t] by [k] successive edit operations. *)
Inductive edit_script : nat -> list A -> list A -> Prop :=
| es_nil : forall s, edit_script 0 s s
| es_step : forall k s t u, edit1 s t -> edit_script k t u -> edit_script (S k) s u.

(** [d] is the least number of edits that turns [s] into [t]. *)
Definition is_edit_distance (d : nat) (s t : list A) : Prop :=
  edit_script d s t /\ forall k, edit_script k s t -> d <= k.
End S.
