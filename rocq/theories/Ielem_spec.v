(** What the text of an element tree is, independently of how positions are assigned
    (lib/daeso/ptc/ielemtree.py). *)
From Coq Require Import String.
From Verif Require Import Py.
Set Implicit Arguments.

Section Tree.
(** Characters, white space, the newline. *)
Variable char : Type.
Variable space : char -> bool.
Variable nl : char.

(** An XML element: identity, tag, "id" attribute, text before the first child, children, and
    tail text after the end tag. *)
Inductive elem : Type :=
| Elem (uid : nat) (tag : string) (id : option string) (text : option (list char))
       (tail : option (list char)) (children : list elem).
Definition uid e := match e with Elem u _ _ _ _ _ => u end.
Definition tag e := match e with Elem _ t _ _ _ _ => t end.
Definition id_of e := match e with Elem _ _ i _ _ _ => i end.
Definition text e := match e with Elem _ _ _ t _ _ => t end.
Definition tail e := match e with Elem _ _ _ _ t _ => t end.
Definition children e := match e with Elem _ _ _ _ _ c => c end.

(** White space removed at both ends; a missing text is empty. *)
Fixpoint lstrip (s : list char) : list char :=
  match s with [] => [] | c :: s' => if space c then lstrip s' else s end.
Definition stripped (o : option (list char)) : list char :=
  match o with None => [] | Some s => rev (lstrip (rev (lstrip s))) end.

(** Elements in document order. *)
Fixpoint doc_order (e : elem) : list elem :=
  match e with Elem _ _ _ _ _ ch => e :: flat_map doc_order ch end.

(** How a document is rendered. *)
Record render := { ignore : list string; newline : list string; blankline : list string }.
Definition ignored (r : render) (e : elem) : Prop := In (tag e) (ignore r).
Definition ignoredb (r : render) (e : elem) : bool := existsb (String.eqb (tag e)) (ignore r).
Definition separator (r : render) (e : elem) : list char :=
  if existsb (String.eqb (tag e)) (blankline r) then [nl; nl]
  else if existsb (String.eqb (tag e)) (newline r) then [nl] else [].

(** The text an element contributes to its parent, tail included. *)
Fixpoint contribution (r : render) (e : elem) : list char :=
  match e with
  | Elem _ _ _ tx tl ch =>
      (if ignoredb r e then [] else stripped tx ++ flat_map (contribution r) ch ++ separator r e) ++ stripped tl
  end.
(** The text contained in an element. *)
Definition contents (r : render) (e : elem) : list char :=
  stripped (text e) ++ flat_map (contribution r) (children e).

(** Elements that are neither ignored nor inside an ignored element, in document order. *)
Fixpoint visible (r : render) (e : elem) : list elem :=
  match e with Elem _ _ _ _ _ ch => if ignoredb r e then [] else e :: flat_map (visible r) ch end.

(** [e] is the k-th (counting from 1) element with its tag, in document order. *)
Definition is_nth (root : elem) (e : elem) (k : nat) : Prop :=
  exists before after, doc_order root = before ++ e :: after /\
    k = S (length (filter (fun d => String.eqb (tag d) (tag e)) before)).
(** Elements are distinguishable. *)
Definition distinct (root : elem) : Prop := NoDup (map uid (doc_order root)).
End Tree.
