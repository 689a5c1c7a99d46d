(** When graph pairs and corpora are the same, what a copy is, and who the annotator is.
    XML elements and when they are the same: C38. *)
From Coq Require Import String NArith List.
From Verif Require Import Etree_spec.
Import ListNotations.
Open Scope string_scope.
Open Scope list_scope.

(** What there is to see of a graph pair and of a corpus. *)
Record pair_value := { one_to_one : bool; source_bank : string; target_bank : string; source_id : string; target_id : string;
                       about_pair : node; links : string -> string -> option string }.
Record corpus_value := { relations : list string; about : option node; graph_pairs : list pair_value }.

Section Same.
Variable inode : string -> option nat.   (* the file found at a path, if any *)
Definition same_file (p q : string) : Prop := p = q \/ exists i, inode p = Some i /\ inode q = Some i.
(** The operating system can tell. *)
Definition known_files (p q : string) : Prop := p = q \/ (inode p <> None /\ inode q <> None).
Definition same_pair (a b : pair_value) : Prop :=
  one_to_one a = one_to_one b /\ same_file (source_bank a) (source_bank b) /\ same_file (target_bank a) (target_bank b) /\
  source_id a = source_id b /\ target_id a = target_id b /\ same (about_pair a) (about_pair b) /\ forall s t, links a s t = links b s t.
Definition same_about (a b : option node) : Prop := match a, b with None, None => True | Some x, Some y => same x y | _, _ => False end.
Definition same_corpus (c d : corpus_value) : Prop :=
  relations c = relations d /\ same_about (about c) (about d) /\ Forall2 same_pair (graph_pairs c) (graph_pairs d).
End Same.

(** Meta data without children do not survive: there is an empty element instead. *)
Definition nothing : node := Node "graph_meta_data" None None [] [].
Definition kept (e : node) : node := match children e with [] => nothing | _ => e end.
Definition copy_of (a b : pair_value) : Prop :=
  one_to_one b = one_to_one a /\ source_bank b = source_bank a /\ target_bank b = target_bank a /\ source_id b = source_id a /\ target_id b = target_id a /\
  about_pair b = kept (about_pair a) /\ forall s t, links b s t = links a s t.

(** The annotator is the text of the first element <annotator>. *)
Definition is_annotator (c : node) : Prop := tag c = "annotator".
Inductive annotator (e : node) : option text -> Prop :=
| An pre c post : children e = pre ++ c :: post -> Forall (fun x => ~ is_annotator x) pre -> is_annotator c -> annotator e (txt c)
| NoAn : Forall (fun x => ~ is_annotator x) (children e) -> annotator e None.
Definition annotator_of (c : corpus_value) (o : option text) : Prop := match about c with None => o = None | Some e => annotator e o end.
Definition and_sign : text := [32; 43; 32]%N.
(** How an annotator is added. *)
Definition added (old : option text) (a : text) (append : bool) (new : option text) : Prop :=
  match old with
  | Some ((_ :: _) as t) => new = Some (if append then t ++ and_sign ++ a else a)
  | _ => new = Some a
  end.
(** Only the annotator differs. *)
Definition only_annotator (e e' : node) : Prop :=
  tag e' = tag e /\ txt e' = txt e /\ tail e' = tail e /\ attrib e' = attrib e /\
  ((exists pre c c' post, children e = pre ++ c :: post /\ children e' = pre ++ c' :: post /\ Forall (fun x => ~ is_annotator x) pre /\ is_annotator c /\ is_annotator c' /\
      tail c' = tail c /\ attrib c' = attrib c /\ children c' = children c) \/
   (Forall (fun x => ~ is_annotator x) (children e) /\ exists t, children e' = children e ++ [Node "annotator" t None [] []])).

(** What a program can do; elements, graph pairs and corpora are numbered in the order in which they are made. *)
Inductive op :=
| NewMeta (e : node)
| NewPair (one_to_one : bool) (source_bank target_bank source_id target_id : string) (meta : option nat)
| Align (p : nat) (s t r : string) | Unalign (p : nat) (s t : string)
| SetMeta (p m : nat)
| CopyPair (p : nat)
| NewCorpus (ps : list nat) (rels : list string) (meta : option nat)
| Slice (c from to : nat)
| Append (c p : nat)
| SetCorpusMeta (c : nat) (m : option nat)
| SetAnnotator (c : nat) (a : text) (append : bool)
| CopyCorpus (c : nat).
Definition proper (o : op) : Prop := match o with NewMeta e => well_formed e | _ => True end.
(** The objects that an operation is given. *)
Inductive object := Meta (m : nat) | GP (p : nat) | Corpus (c : nat).
Definition opt_meta (m : option nat) : list object := match m with Some m => [Meta m] | None => [] end.
Definition mentions (o : op) : list object :=
  match o with
  | NewMeta _ => []
  | NewPair _ _ _ _ _ m => opt_meta m
  | Align p _ _ _ | Unalign p _ _ | CopyPair p => [GP p]
  | SetMeta p m => [GP p; Meta m]
  | NewCorpus ps _ m => map GP ps ++ opt_meta m
  | Slice c _ _ | CopyCorpus c | SetAnnotator c _ _ => [Corpus c]
  | Append c p => [Corpus c; GP p]
  | SetCorpusMeta c m => Corpus c :: opt_meta m
  end.
Definition is_copy (o : op) : Prop := match o with CopyPair _ | CopyCorpus _ => True | _ => False end.
(** Annotators one after the other. *)
Fixpoint joined (a : text) (l : list text) : text := match l with [] => a | b :: l' => a ++ and_sign ++ joined b l' end.
