(** Cached functions that call each other.  A job is a function with its arguments; what it computes, calling other jobs
    on the way, is a tree. *)
From Coq Require Import List.
From Verif Require Import Py.
Import ListNotations.
Set Implicit Arguments.
Section S.
Variables J V : Type.
Inductive comp := Done (v : V) | Sub (q : J) (next : V -> comp).
Variable body : J -> comp.
(** The value of a job without any cache. *)
Inductive value : J -> V -> Prop := value_of q v : ends (body q) v -> value q v
with ends : comp -> V -> Prop :=
| ends_done v : ends (Done v) v
| ends_sub q next w v : value q w -> ends (next w) v -> ends (Sub q next) v.
(** The jobs that a computation may call directly. *)
Inductive mentions : comp -> J -> Prop :=
| mentions_now q next : mentions (Sub q next) q
| mentions_later q next w q' : mentions (next w) q' -> mentions (Sub q next) q'.
(** The number of steps without a cache: five for each call, and one each time that a computation calls. *)
Inductive takes : J -> V -> nat -> Prop := takes_of q v n : spends (body q) v n -> takes q v (5 + n)
with spends : comp -> V -> nat -> Prop :=
| spends_done v : spends (Done v) v 0
| spends_sub q next w v n m : takes q w n -> spends (next w) v m -> spends (Sub q next) v (S (n + m)).
(** What happens: a thread runs for one step, or an entry disappears from its cache. *)
Inductive event := Go (i : nat) | Drop (q : J).
End S.
Arguments Go {J}.
Arguments Done {J V}. Arguments Sub {J V}.
