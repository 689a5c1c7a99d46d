(** What a GraphML graph bank file says (http://graphml.graphdrawing.org, and lib/daeso/gb/graphml.py 33-51). *)
From Coq Require Import String.
From Verif Require Import Py.
Set Implicit Arguments.

Definition attributes := list (string * string).
Definition attribute (a : attributes) (k : string) : option string := dget String.eqb a k.
Definition attribute_or (a : attributes) (k d : string) : string := match attribute a k with Some v => v | None => d end.

Section Spec.
Variable char : Type.
Definition text := list char.
(** The parts of a document. *)
Definition data := (attributes * text)%type.
Inductive item := Data (d : data) | Node (a : attributes) (ds : list data) | Edge (a : attributes) (ds : list data).
Record graph_elem := { g_attrs : attributes; g_items : list item }.
Record key_elem := { k_attrs : attributes; k_default : option text }.
Record document := { doc_attrs : attributes; doc_keys : list key_elem; doc_graphs : list graph_elem }.

(** The events of reading a document. *)
Inductive event := Start (tag : string) (a : attributes) | End_ (tag : string) | Chars (t : text).
Definition data_events (d : data) : list event := [Start "data" (fst d); Chars (snd d); End_ "data"].
Definition item_events (i : item) : list event :=
  match i with
  | Data d => data_events d
  | Node a ds => Start "node" a :: flat_map data_events ds ++ [End_ "node"]
  | Edge a ds => Start "edge" a :: flat_map data_events ds ++ [End_ "edge"]
  end.
Definition graph_events (g : graph_elem) : list event := Start "graph" (g_attrs g) :: flat_map item_events (g_items g) ++ [End_ "graph"].
Definition key_events (k : key_elem) : list event :=
  Start "key" (k_attrs k) :: match k_default k with Some t => [Start "default" []; Chars t; End_ "default"] | None => [] end ++ [End_ "key"].
Definition body_events (d : document) : list event := flat_map key_events (doc_keys d) ++ flat_map graph_events (doc_graphs d).
Definition events (d : document) : list event := Start "graphml" (doc_attrs d) :: body_events d ++ [End_ "graphml"].

(** Text and elements without meaning may be added: before the start of an element, and before the end of an
    element other than <data> and <default>; and text may come in pieces, empty text in no piece at all. *)
Inductive meaningless : list event -> Prop :=
| ml_nil : meaningless []
| ml_text t l : meaningless l -> meaningless (Chars t :: l)
| ml_elem tag a b l : ~ In tag ["graphml"; "key"; "graph"; "node"; "edge"; "data"; "default"]%string ->
    (forall p q, ("node" <> p ++ tag ++ q)%string) ->
    meaningless b -> meaningless l -> meaningless (Start tag a :: b ++ End_ tag :: l).
Inductive same_file : list event -> list event -> Prop :=
| sf_nil : same_file [] []
| sf_step e l m : same_file l m -> same_file (e :: l) (e :: m)
| sf_start b tag a l m : meaningless b -> same_file l m -> same_file (Start tag a :: l) (b ++ Start tag a :: m)
| sf_end b tag l m : meaningless b -> tag <> "data"%string -> tag <> "default"%string -> same_file l m -> same_file (End_ tag :: l) (b ++ End_ tag :: m)
| sf_empty l m : same_file l m -> same_file (Chars [] :: l) m
| sf_chars t u l m : same_file (Chars u :: l) m -> same_file (Chars (t ++ u) :: l) (Chars t :: m).

(** The name declared for a key: the last declaration for the component, or else for all components. *)
Section Keys.
Variable keys : list key_elem.
Definition keys_ok : Prop := Forall (fun k => attribute (k_attrs k) "id" <> None /\ attribute (k_attrs k) "attr.name" <> None /\
  In (attribute_or (k_attrs k) "for" "all") ["graph"; "node"; "edge"; "all"]%string) keys.
Fixpoint declared (l : list key_elem) (comp id : string) : option string :=
  match l with
  | [] => None
  | k :: l' => match declared l' comp id with
               | Some n => Some n
               | None => if String.eqb (attribute_or (k_attrs k) "for" "all") comp && String.eqb (attribute_or (k_attrs k) "id" "") id
                         then attribute (k_attrs k) "attr.name" else None
               end
  end.
Definition key_name (comp id : string) : option string :=
  match declared keys comp id with Some n => Some n | None => declared keys "all" id end.
Definition data_name (comp : string) (d : data) : option string :=
  match attribute (fst d) "key" with Some id => key_name comp id | None => None end.

(** Attribute values: None, a string, or a list of tokens. *)
Inductive value := VNone | VText (t : text) | VToks (l : list text).
Inductive owner := OGraph | ONode (n : option string) | OEdge (u v : string).
Variables words pieces : text -> list text.

(** The assignments a graph element makes, in order.  [last] is the component that ended last. *)
Definition assign (comp : string) (o : option owner) (n : option string) (d : data) : list (owner * string * value) :=
  match data_name comp d with
  | None => []
  | Some name =>
      if String.eqb name "tokens" && String.eqb comp "graph" then [(OGraph, "tokens"%string, VToks (words (snd d)))]
      else if String.eqb name "tokens" && String.eqb comp "node" then [(ONode n, "tokens"%string, VToks (pieces (snd d)))]
      else match o with Some o => [(o, name, VText (snd d))] | None => [] end
  end.
(** Data of the graph itself: before the first node or edge they belong to the graph; after an edge they are
    given to that edge; after a node they cannot be given (see item_ok). *)
Fixpoint assigns (o : option owner) (l : list item) : list (owner * string * value) :=
  match l with
  | [] => []
  | Data d :: l' => assign "graph" o None d ++ assigns o l'
  | Node a ds :: l' =>
      let n := attribute a "id" in
      (ONode n, "label"%string, VNone) :: (ONode n, "tokens"%string, VToks []) :: flat_map (assign "node" (Some (ONode n)) n) ds ++ assigns None l'
  | Edge a ds :: l' =>
      let o := OEdge (attribute_or a "source" "") (attribute_or a "target" "") in
      (o, "label"%string, VNone) :: flat_map (assign "edge" (Some o) None) ds ++ assigns (Some o) l'
  end.
Definition assignments (g : graph_elem) : list (owner * string * value) := (OGraph, "name"%string, VText []) :: assigns (Some OGraph) (g_items g).
Definition owner_eqb (a b : owner) : bool :=
  match a, b with
  | OGraph, OGraph => true
  | ONode m, ONode n => match m, n with Some m, Some n => String.eqb m n | None, None => true | _, _ => false end
  | OEdge u v, OEdge w x => String.eqb u w && String.eqb v x
  | _, _ => false
  end.
Fixpoint last_value (l : list (owner * string * value)) (o : owner) (name : string) : option value :=
  match l with
  | [] => None
  | (p, m, v) :: l' => match last_value l' o name with Some w => Some w | None => if owner_eqb p o && String.eqb m name then Some v else None end
  end.

(** The nodes, and the edges from a node, in the order in which they first occur. *)
Fixpoint firsts {A} (eqb : A -> A -> bool) (l : list A) : list A :=
  match l with [] => [] | x :: l' => x :: filter (fun y => negb (eqb x y)) (firsts eqb l') end.
Definition node_names (l : list item) : list (option string) := flat_map (fun i => match i with Node a _ => [attribute a "id"] | _ => [] end) l.
Definition edge_ends (l : list item) : list (string * string) :=
  flat_map (fun i => match i with Edge a _ => [(attribute_or a "source" "", attribute_or a "target" "")] | _ => [] end) l.
Definition name_eqb (m n : option string) : bool := match m, n with Some m, Some n => String.eqb m n | None, None => true | _, _ => false end.

(** When an item is acceptable after the items [pre]. *)
Definition data_ok (comp : string) (d : data) : Prop := data_name comp d <> None.
Fixpoint last_comp (pre : list item) (o : option item) : option item :=
  match pre with [] => o | Data _ :: l => last_comp l o | i :: l => last_comp l (Some i) end.
Definition after_node (pre : list item) : Prop := exists a ds, last_comp pre None = Some (Node a ds).
Definition item_ok (pre : list item) (i : item) : Prop :=
  match i with
  | Data d => data_ok "graph" d /\ (data_name "graph" d <> Some "tokens"%string -> ~ after_node pre)
  | Node a ds => Forall (data_ok "node") ds /\ (exists d, In d ds /\ data_name "node" d = Some "tokens"%string) /\
      (exists ds1 d ds2, ds = ds1 ++ d :: ds2 /\ data_name "node" d = Some "label"%string /\ snd d <> [] /\
         Forall (fun d' => data_name "node" d' <> Some "label"%string) ds2)
  | Edge a ds => Forall (data_ok "edge") ds /\ exists u v, attribute a "source" = Some u /\ attribute a "target" = Some v /\
      In (Some u) (node_names pre) /\ In (Some v) (node_names pre)
  end.
Definition graph_ok (g : graph_elem) : Prop :=
  (forall pre i post, g_items g = pre ++ i :: post -> item_ok pre i) /\
  exists d, In (Data d) (g_items g) /\ data_name "graph" d = Some "tokens"%string.

(** A DaesoGraph (lib/daeso/graph/daesograph.py 37-43), as far as it is observed here. *)
Definition attr_dict := list (string * value).
Record dgraph := { id_ : string; tokens : option (list text); root : option value; attrs : attr_dict;
                   node : list (option string * attr_dict); succ : list (option string * list (option string * attr_dict)) }.
Definition targets (u : option string) (ends : list (string * string)) : list (option string) :=
  map (fun e => Some (snd e)) (filter (fun e => name_eqb (Some (fst e)) u) ends).
(** The graph object shows what the element says: id, tokens, nodes in order, edges in order, attributes; the
    root is the graph attribute named "graph". *)
Record depicts (g : graph_elem) (o : dgraph) : Prop := {
  d_id : attribute (g_attrs g) "id" = Some (id_ o);
  d_tokens : exists l, tokens o = Some l /\ last_value (assignments g) OGraph "tokens" = Some (VToks l);
  d_root : root o = last_value (assignments g) OGraph "graph";
  d_attrs : forall k, dget String.eqb (attrs o) k = if String.eqb k "tokens" then None else last_value (assignments g) OGraph k;
  d_nodes : dkeys (succ o) = firsts name_eqb (node_names (g_items g));
  d_node : forall n, match dget name_eqb (node o) n with
                     | Some d => In n (node_names (g_items g)) /\ forall k, dget String.eqb d k = last_value (assignments g) (ONode n) k
                     | None => ~ In n (node_names (g_items g)) end;
  d_edges : forall u row, dget name_eqb (succ o) u = Some row -> dkeys row = firsts name_eqb (targets u (edge_ends (g_items g)));
  d_edge : forall u row v d, dget name_eqb (succ o) (Some u) = Some row -> dget name_eqb row (Some v) = Some d ->
             forall k, dget String.eqb d k = last_value (assignments g) (OEdge u v) k }.
End Keys.

(** Balanced content without <graphml>, <key> and <graph>. *)
Inductive enclosed : list event -> Prop :=
| en_nil : enclosed []
| en_text t l : enclosed l -> enclosed (Chars t :: l)
| en_elem tag a b l : ~ In tag ["graphml"; "key"; "graph"]%string -> enclosed b -> enclosed l -> enclosed (Start tag a :: b ++ End_ tag :: l).

(** The pieces of a text between its blanks. *)
Variable is_blank : char -> bool.
Inductive has_pieces : text -> list text -> Prop :=
| one_piece t : Forall (fun c => is_blank c = false) t -> has_pieces t [t]
| more_pieces t c u l : Forall (fun c => is_blank c = false) t -> is_blank c = true -> has_pieces u l -> has_pieces (t ++ c :: u) (t :: l).

(** Which graphs are wanted: all, or those with one of the given ids. *)
Definition wanted (sparse : bool) (ids : list string) (g : graph_elem) : bool :=
  negb sparse || match attribute (g_attrs g) "id" with Some i => mem String.eqb i ids | None => false end.
(** The last graph element with a given id. *)
Fixpoint last_elem (l : list graph_elem) (i : string) : option graph_elem :=
  match l with
  | [] => None
  | g :: l' => match last_elem l' i with
               | Some h => Some h
               | None => match attribute (g_attrs g) "id" with Some j => if String.eqb j i then Some g else None | None => None end
               end
  end.
End Spec.
Arguments Start {char}.
Arguments End_ {char}.
Arguments VNone {char}.
Arguments targets : clear implicits.
