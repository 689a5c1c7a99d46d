(** Contents of pairs, as finite trees, and what it means that two of them are the same. *)
From Coq Require Import String List.
From Verif Require Import Py.
Import ListNotations.
Set Implicit Arguments.
Section S.
Variable A : Type.
Inductive tree := Leaf (a : A) | Node (source target : tree).
(** What == of two pairs can give: True, False or None. *)
Inductive verdict := Yes | No | Neither.
Variable aeqb : A -> A -> bool.
Inductive same : tree -> tree -> Prop :=
| same_leaf a b : aeqb a b = true -> same (Leaf a) (Leaf b)
| same_node s t s' t' : same s s' -> same t t' -> same (Node s t) (Node s' t').
(** The first difference, sources before targets, is between a pair and something else. *)
Inductive unlike : tree -> tree -> Prop :=
| unlike_l a s t : unlike (Leaf a) (Node s t)
| unlike_r a s t : unlike (Node s t) (Leaf a)
| unlike_s s t s' t' : unlike s s' -> unlike (Node s t) (Node s' t')
| unlike_t s t s' t' : same s s' -> unlike t t' -> unlike (Node s t) (Node s' t').
Fixpoint height (t : tree) : nat := match t with Leaf _ => 0 | Node a b => S (Nat.max (height a) (height b)) end.
(** What repr and str print. *)
Fixpoint shown (show : A -> string) (t : tree) : string :=
  match t with
  | Leaf a => show a
  | Node s t => ("Pair(source=" ++ shown show s ++ ", target=" ++ shown show t ++ ")")%string
  end.
(** Values: other objects, or references to pairs (the i-th pair that was made). *)
Inductive value := Atom (a : A) | Ref (i : nat).
(** p = Pair(s, t); p.source = v; p.target = v; p.set(...), with None for an argument that is not given. *)
Inductive op := New (s t : value) | SetSource (i : nat) (v : value) | SetTarget (i : nat) (v : value) | SetBoth (i : nat) (s t : option value).
End S.
Arguments Ref {A}.
