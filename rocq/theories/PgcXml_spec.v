(** Vocabulary for writing and reading parallel graph corpora. *)
From Coq Require Import String List Bool Sorted.
From Verif Require Import Py Align_model PgcXml_model.
Import ListNotations.
Set Implicit Arguments.
Open Scope string_scope.
(** The tags the format reserves. *)
Definition reserved : list string :=
  ["parallel_graph_corpus"; "corpus_meta_data"; "graphbanks"; "file"; "node_relations"; "relation";
   "aligned_graphs"; "graph_pair"; "graph_meta_data"; "node_pair"; "aligned_nodes"].
(** An element in which no reserved tag occurs. *)
Fixpoint plain (e : elem) : Prop :=
  match e with
  | Elem t _ _ k => ~ In t reserved /\ (fix all (l : list elem) : Prop := match l with [] => True | x :: l' => plain x /\ all l' end) k
  end.
(** Meta data that can be written: the right outer tag, nothing reserved inside. *)
Definition meta_ok (t : string) (m : elem) : Prop := tag m = t /\ Forall plain (kids m).
(** A component of a real path. *)
Definition component (x : string) : Prop :=
  x <> "" /\ x <> "." /\ x <> ".." /\ forall a b, x <> a ++ "/" ++ b.
Definition stripped (s : string) : Prop := strip s = s /\ s <> "".
Section S.
Variable bank_path : nat -> path.
Variable bank_format : nat -> string.
Variable abs_path : bool.
Variable dir : path.
(** A bank that can be written: a real path whose text neither starts nor ends with white space, and a format. *)
Definition bank_ok (b : nat) : Prop :=
  Forall component (bank_path b) /\ stripped (file_text abs_path dir (bank_path b)) /\ bank_format b <> "".
(** A corpus that can be written.  Its alignments result from some history of adding and deleting. *)
Record writable (rleb : string -> string -> bool) (c : corpus) : Prop := {
  w_banks : forall p, In p (c_pairs c) -> bank_ok (fst (p_banks p)) /\ bank_ok (snd (p_banks p));
  w_meta : forall m, c_meta c = Some m -> meta_ok "corpus_meta_data" m;
  w_pair_meta : forall p, In p (c_pairs c) -> meta_ok "graph_meta_data" (p_meta p);
  w_rels : Forall stripped (c_rels c);
  w_sorted : Sorted (fun x y => rleb x y = true) (c_rels c);
  w_align : forall p, In p (c_pairs c) -> exists ops, p_align p = run_matching String.eqb (empty_digraph string string) ops
}.
(** The bank objects of a list of pairs in order. *)
Definition used (ps : list gpair) : list nat := flat_map (fun p => [fst (p_banks p); snd (p_banks p)]) ps.
(** Meta data as read back: itself if it has children, none otherwise. *)
Definition kept_meta (m : option elem) : option elem :=
  match m with Some e => if truth e then Some (reread e) else None | None => None end.
End S.
