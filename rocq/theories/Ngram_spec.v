(** Specification of n-grams and skip-bigrams. *)
From Coq Require Import List Sorted.
Import ListNotations.
Set Implicit Arguments.

(** [w] is the window of [n] tokens starting at position [i] of [tokens]. *)
Definition window {A} (tokens : list A) (n i : nat) (w : list A) : Prop :=
  exists u v, tokens = u ++ w ++ v /\ length u = i /\ length w = n.

(** [ws] are all the windows of [n] tokens, from left to right. *)
Definition windows {A} (n : nat) (tokens : list A) (ws : list (list A)) : Prop :=
  forall i w, nth_error ws i = Some w <-> window tokens n i w.

(** [s] consists of the strings of [l] with [sep] between neighbours. *)
Inductive joined {C} (sep : list C) : list (list C) -> list C -> Prop :=
| j_nil : joined sep [] []
| j_one : forall x, joined sep [x] x
| j_more : forall x y l s, joined sep (y :: l) s -> joined sep (x :: y :: l) (x ++ sep ++ s).

(** Lexicographic order on position pairs. *)
Definition lexlt (p q : nat * nat) : Prop :=
  fst p < fst q \/ (fst p = fst q /\ snd p < snd q).

(** The admissible position pairs of a skip bigram with at most [limit] tokens in between
    ([None] = no limit). *)
Definition skip_ok (len : nat) (limit : option nat) (i j : nat) : Prop :=
  i < j < len /\ match limit with None => True | Some d => j - i - 1 <= d end.

(** [ps] enumerates all admissible position pairs, each once, in lexicographic order. *)
Definition enumerates (ps : list (nat * nat)) (len : nat) (limit : option nat) : Prop :=
  StronglySorted lexlt ps /\ forall i j, In (i, j) ps <-> skip_ok len limit i j.
