(** Converting a parallel text corpus from links by number to links by id (bin/ptc_n_to_id.py). *)
From Coq Require Import String.
From Verif Require Import Py Ielem_spec Hdoc_spec.
Set Implicit Arguments.

(** A <link> element with the attributes it may have, and an <alignment> section: the method of the links and
    the links. *)
Record attributes := { from_tag : string; from_n : option Z; from_id : option string; to_tag : string; to_n : option Z; to_id : option string }.
Record document := { method : option string; links : list attributes }.
Definition by_number (a : attributes) : link (option Z) := {| l_from_tag := from_tag a; l_from := from_n a; l_to_tag := to_tag a; l_to := to_n a |}.
Definition by_id (a : attributes) : link (option string) := {| l_from_tag := from_tag a; l_from := from_id a; l_to_tag := to_tag a; l_to := to_id a |}.

Section Spec.
Variable char : Type.
Notation elem := (elem char).
(** The pairs of elements that a document aligns, in the order of its links: links count elements unless the
    method is "id". *)
Definition aligns_pairs (fr tr : elem) (d : document) (pairs : list (elem * elem)) : Prop :=
  (method d = None \/ method d = Some "n"%string) /\ Forall2 (connects (@named_n char) fr tr) (map by_number (links d)) pairs \/
  method d = Some "id"%string /\ Forall2 (connects (@named_id char) fr tr) (map by_id (links d)) pairs.
(** An element that can be referred to by its id. *)
Definition identified (root e : elem) : Prop := id_of e <> None /\ named_id root (tag e) (id_of e) e.
(** Both elements of a pair have an id. *)
Definition has_ids (p : elem * elem) : bool := match id_of (fst p), id_of (snd p) with Some _, Some _ => true | _, _ => false end.
(** What each link of a document picks, good or bad. *)
Definition all_picks (fr tr : elem) (d : document) : res (list (elem * elem)) :=
  match method d with
  | None => mapM (link_pick (@pick_n char) fr tr) (map by_number (links d))
  | Some m => if String.eqb m "n" then mapM (link_pick (@pick_n char) fr tr) (map by_number (links d))
              else if String.eqb m "id" then mapM (link_pick (@pick_id char) fr tr) (map by_id (links d))
              else Err AssertionError
  end.
(** A document of links by id for given pairs. *)
Definition id_document (pairs : list (elem * elem)) : document :=
  {| method := Some "id"%string;
     links := map (fun p => {| from_tag := tag (fst p); from_n := None; from_id := id_of (fst p);
                               to_tag := tag (snd p); to_n := None; to_id := id_of (snd p) |}) pairs |}.
End Spec.
(** The corpus file afterwards: as before, rewritten, or a broken piece of XML. *)
Inductive file_after := Unchanged | Written (d : document) | Truncated.
