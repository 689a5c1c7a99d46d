(** What the term, weight and similarity functions of the text aligner should give
    (lib/daeso/ptc/textalign.py 167-432). *)
From Coq Require Import Reals.
From Verif Require Import Py Ngram_spec.
Import ListNotations.
Set Implicit Arguments.
Open Scope nat_scope.
Open Scope list_scope.

(** The n-grams of a sequence of tokens, each joined with the separator. *)
Definition ngrams_of (C : Type) (sep : list C) (n : nat) (tokens : list (list C)) (terms : list (list C)) : Prop :=
  exists ws, windows n tokens ws /\ Forall2 (joined sep) ws terms.
(** x occurs in y as a contiguous part. *)
Definition infix (C : Type) (x y : list C) : Prop := exists a b, y = a ++ x ++ b.
(** A term says something about a collection if some document contains it and some does not. *)
Definition informative (T : Type) (docs : list (list T)) (t : T) : Prop :=
  (exists d, In d docs /\ In t d) /\ (exists d, In d docs /\ ~ In t d).
(** The score of every pair, row by row. *)
Definition every_pair (S E : Type) (score : nat -> nat -> S -> Prop) (sources targets : list E) (l : list (S * (E * E))) : Prop :=
  length l = length sources * length targets /\
  forall i j s t, nth_error sources i = Some s -> nth_error targets j = Some t ->
    exists x, nth_error l (i * length targets + j) = Some (x, (s, t)) /\ score i j x.
