(** Model of the GraphML parser (lib/daeso/gb/graphml.py 33-258) on top of XmlGraphbankParser
    (lib/daeso/gb/parser.py 38-97) and of the part of DaesoGraph it uses (lib/daeso/graph/daesograph.py 35-72,
    137-139, 179-203, lib/daeso/graph/ograph.py 110-125, 165-180).  Expat is not modelled: the parser gets the
    list of its events.  A dict is an insertion ordered association list; attribute dicts are referred to by
    their place in a graph.  Only the successor table of a graph is modelled here (the predecessor table is
    its mirror image, see Graph_model), and the values of its attribute dicts.  Python strings are lists of
    characters, except names (tags, ids, keys), which are [string]. *)
From Coq Require Import String.
From Verif Require Import Py Graphml_spec Create_model.
Set Implicit Arguments.

Section Graphml.
Variable char : Type.
Variable space : char -> bool.      (* white space *)
Variable is_blank : char -> bool.   (* is " " *)
Notation text := (list char).
Notation value := (value char).
Notation event := (event char).
Notation attr_dict := (attr_dict char).
Notation dgraph := (dgraph char).
Notation name := (option string).
Local Open Scope string_scope.

(** ograph.py 110-125 and daesograph.py 37-43; the name property of networkx graphs stores '' in graph.graph *)
Definition new_graph (i : string) : dgraph :=
  {| id_ := i; tokens := None; root := None; attrs := [("name", VText [])]; node := []; succ := [] |}.
Definition set_tokens (g : dgraph) t := {| id_ := id_ g; tokens := Some t; root := root g; attrs := attrs g; node := node g; succ := succ g |}.
Definition set_root (g : dgraph) r := {| id_ := id_ g; tokens := tokens g; root := r; attrs := attrs g; node := node g; succ := succ g |}.
Definition set_attrs (g : dgraph) a := {| id_ := id_ g; tokens := tokens g; root := root g; attrs := a; node := node g; succ := succ g |}.
Definition set_node (g : dgraph) n := {| id_ := id_ g; tokens := tokens g; root := root g; attrs := attrs g; node := n; succ := succ g |}.
Definition set_succ (g : dgraph) s := {| id_ := id_ g; tokens := tokens g; root := root g; attrs := attrs g; node := node g; succ := s |}.
Definition update (d e : attr_dict) : attr_dict := fold_left (fun d p => dset String.eqb d (fst p) (snd p)) e d.

(** str.split(" "): the pieces between the blanks; [w] is the current piece, reversed *)
Fixpoint pieces_loop (w : text) (s : text) : list text :=
  match s with
  | [] => [rev w]
  | c :: s' => if is_blank c then rev w :: pieces_loop [] s' else pieces_loop (c :: w) s'
  end.
Definition pieces (s : text) : list text := pieces_loop [] s.

(** ograph.py 174-180 with daesograph.py 67-72: add_node(n, label=None) *)
Definition add_node (g : dgraph) (n : name) : dgraph :=
  let new := [("label", VNone); ("tokens", VToks [])] in
  match dget name_eqb (succ g) n with
  | None => set_node (set_succ g (dset name_eqb (succ g) n [])) (dset name_eqb (node g) n new)
  | Some _ => set_node g (dset name_eqb (node g) n (update (match dget name_eqb (node g) n with Some d => d | None => [] end) new))
  end.
(** daesograph.py 179-203: add_edge(u, v) *)
Definition add_edge (g : dgraph) (u v : name) : res dgraph :=
  match dget name_eqb (succ g) u, dget name_eqb (succ g) v with
  | Some row, Some _ =>
      let d := match dget name_eqb row v with Some d => d | None => [] end in
      Ok (set_succ g (dset name_eqb (succ g) u (dset name_eqb row v (update d [("label", VNone)]))))
  | _, _ => Err ValueError
  end.
(** daesograph.py 137-139 *)
Definition set_node_token_string (g : dgraph) (n : name) (t : text) : res dgraph :=
  d <- dread name_eqb (node g) n ;; Ok (set_node g (dset name_eqb (node g) n (dset String.eqb d "tokens" (VToks (pieces t))))).

(** The attribute dict self._comp_attrs refers to; Unset: the parser has no such attribute yet. *)
Inductive comp_ref := Unset | NoneRef | GraphRef (g : nat) | NodeRef (g : nat) (n : name) | EdgeRef (g : nat) (u v : name).
Record key_info := { k_name : string; k_dflt : option text }.       (* "type" is never used *)
Definition table := list (string * list (string * key_info)).
(** [ready]: a <graphml> element has been started.  [node_]: self._node, if set. *)
Record parser := { ready : bool; context : list string; buf : text; key_table : table; current_key : option (string * string);
                   data_key : option string; graphs : list dgraph; graph : option nat; comp_attrs : comp_ref;
                   node_ : option name; id2graph : list (string * option nat) }.
Definition with_context (p : parser) c := {| ready := ready p; context := c; buf := buf p; key_table := key_table p; current_key := current_key p; data_key := data_key p; graphs := graphs p; graph := graph p; comp_attrs := comp_attrs p; node_ := node_ p; id2graph := id2graph p |}.
Definition with_buf (p : parser) b := {| ready := ready p; context := context p; buf := b; key_table := key_table p; current_key := current_key p; data_key := data_key p; graphs := graphs p; graph := graph p; comp_attrs := comp_attrs p; node_ := node_ p; id2graph := id2graph p |}.
Definition with_keys (p : parser) t k := {| ready := ready p; context := context p; buf := buf p; key_table := t; current_key := k; data_key := data_key p; graphs := graphs p; graph := graph p; comp_attrs := comp_attrs p; node_ := node_ p; id2graph := id2graph p |}.
Definition with_data (p : parser) d := {| ready := ready p; context := context p; buf := buf p; key_table := key_table p; current_key := current_key p; data_key := d; graphs := graphs p; graph := graph p; comp_attrs := comp_attrs p; node_ := node_ p; id2graph := id2graph p |}.
Definition with_graphs (p : parser) g := {| ready := ready p; context := context p; buf := buf p; key_table := key_table p; current_key := current_key p; data_key := data_key p; graphs := g; graph := graph p; comp_attrs := comp_attrs p; node_ := node_ p; id2graph := id2graph p |}.
Definition with_graph (p : parser) g := {| ready := ready p; context := context p; buf := buf p; key_table := key_table p; current_key := current_key p; data_key := data_key p; graphs := graphs p; graph := g; comp_attrs := comp_attrs p; node_ := node_ p; id2graph := id2graph p |}.
Definition with_comp (p : parser) c := {| ready := ready p; context := context p; buf := buf p; key_table := key_table p; current_key := current_key p; data_key := data_key p; graphs := graphs p; graph := graph p; comp_attrs := c; node_ := node_ p; id2graph := id2graph p |}.
Definition with_node (p : parser) n := {| ready := ready p; context := context p; buf := buf p; key_table := key_table p; current_key := current_key p; data_key := data_key p; graphs := graphs p; graph := graph p; comp_attrs := comp_attrs p; node_ := n; id2graph := id2graph p |}.
Definition with_id2graph (p : parser) d := {| ready := ready p; context := context p; buf := buf p; key_table := key_table p; current_key := current_key p; data_key := data_key p; graphs := graphs p; graph := graph p; comp_attrs := comp_attrs p; node_ := node_ p; id2graph := d |}.
(** parser.py 45-51, graphml.py 53-59 *)
Definition new_parser (ids : list (string * option nat)) (gs : list dgraph) : parser :=
  {| ready := false; context := []; buf := []; key_table := []; current_key := None; data_key := None; graphs := gs; graph := None;
     comp_attrs := Unset; node_ := None; id2graph := ids |}.

(** Access to an attribute dict, and d[k] = v *)
Definition comp_dict (p : parser) : res attr_dict :=
  match comp_attrs p with
  | Unset | NoneRef => Err AttributeError
  | GraphRef g => match nth_error (graphs p) g with Some o => Ok (attrs o) | None => Err IndexError end
  | NodeRef g n => match nth_error (graphs p) g with Some o => dread name_eqb (node o) n | None => Err IndexError end
  | EdgeRef g u v => match nth_error (graphs p) g with
                     | Some o => row <- dread name_eqb (succ o) u ;; dread name_eqb row v
                     | None => Err IndexError
                     end
  end.
Definition on_graph (p : parser) (g : nat) (f : dgraph -> res dgraph) : res parser :=
  match nth_error (graphs p) g with
  | Some o => o' <- f o ;; Ok (with_graphs p (set_nth (graphs p) g o'))
  | None => Err IndexError
  end.
Definition set_comp (p : parser) (k : string) (v : value) : res parser :=
  match comp_attrs p with
  | Unset => Err AttributeError
  | NoneRef => Err TypeError
  | GraphRef g => on_graph p g (fun o => Ok (set_attrs o (dset String.eqb (attrs o) k v)))
  | NodeRef g n => on_graph p g (fun o => d <- dread name_eqb (node o) n ;; Ok (set_node o (dset name_eqb (node o) n (dset String.eqb d k v))))
  | EdgeRef g u w => on_graph p g (fun o => row <- dread name_eqb (succ o) u ;; d <- dread name_eqb row w ;;
                                            Ok (set_succ o (dset name_eqb (succ o) u (dset name_eqb row w (dset String.eqb d k v)))))
  end.

(** graphml.py 232-258 and 193-206, second half: set the attribute [k] for the component [comp] *)
Definition set_attr (p : parser) (comp k : string) (t : text) : res parser :=
  match graph p with
  | None => Err AttributeError
  | Some g =>
      if String.eqb k "tokens" && String.eqb comp "graph" then on_graph p g (fun o => Ok (set_tokens o (split space t)))
      else if String.eqb k "tokens" && String.eqb comp "node" then
        match node_ p with None => Err AttributeError | Some n => on_graph p g (fun o => set_node_token_string o n t) end
      else set_comp p k (VText t)
  end.
(** graphml.py 232-258: _set_defaults.  The order of the keys is that of a dict; insertion order is taken. *)
Definition set_defaults (p : parser) : res parser :=
  match context p with
  | [] => Err IndexError
  | comp :: _ =>
      l1 <- dread String.eqb (key_table p) "all" ;;
      l2 <- dread String.eqb (key_table p) comp ;;
      foldM (fun p k => match k_dflt (snd k) with None => Ok p | Some t => set_attr p comp (k_name (snd k)) t end) p (l1 ++ l2)
  end.
Definition graph_wanted (p : parser) : bool := match graph p with Some _ => true | None => false end.

(** graphml.py 79-97 *)
Definition start_graphml (p : parser) : parser :=
  {| ready := true; context := context p; buf := buf p; key_table := [("graph", []); ("node", []); ("edge", []); ("all", [])];
     current_key := None; data_key := None; graphs := graphs p; graph := None; comp_attrs := comp_attrs p; node_ := node_ p; id2graph := id2graph p |}.
(** graphml.py 100-104 *)
Definition start_key (p : parser) (a : attributes) : res parser :=
  let key_for := attribute_or a "for" "all" in
  n <- dread String.eqb a "attr.name" ;;
  t <- dread String.eqb (key_table p) key_for ;;
  i <- dread String.eqb a "id" ;;
  Ok (with_keys p (dset String.eqb (key_table p) key_for (dset String.eqb t i {| k_name := n; k_dflt := None |})) (Some (key_for, i))).
(** graphml.py 107-113 *)
Definition start_graph (sparse : bool) (p : parser) (a : attributes) : res parser :=
  let wanted := match attribute a "id" with Some i => dhas String.eqb (id2graph p) i | None => false end in
  if negb sparse || wanted then
    i <- dread String.eqb a "id" ;;
    let g := length (graphs p) in
    set_defaults (with_comp (with_graph (with_id2graph (with_graphs p (graphs p ++ [new_graph i])) (dset String.eqb (id2graph p) i (Some g))) (Some g)) (GraphRef g))
  else Ok p.
(** graphml.py 116-122 *)
Definition start_node (p : parser) (g : nat) (a : attributes) : res parser :=
  let n := attribute a "id" in
  p <- on_graph p g (fun o => Ok (add_node o n)) ;;
  p <- set_defaults (with_comp p (NodeRef g n)) ;;
  Ok (with_node p (Some n)).
(** graphml.py 125-130 *)
Definition start_edge (p : parser) (g : nat) (a : attributes) : res parser :=
  sn <- dread String.eqb a "source" ;;
  tn <- dread String.eqb a "target" ;;
  p <- on_graph p g (fun o => add_edge o (Some sn) (Some tn)) ;;
  set_defaults (with_comp p (EdgeRef g (Some sn) (Some tn))).
(** graphml.py 133-134 *)
Definition start_data (p : parser) (a : attributes) : res parser := k <- dread String.eqb a "key" ;; Ok (with_data p (Some k)).
(** graphml.py 62-76; nothing works before <graphml> (the order of the exceptions is not modelled there) *)
Definition start_element (sparse : bool) (p : parser) (tag : string) (a : attributes) : res parser :=
  let p := with_buf (with_context p (tag :: context p)) [] in
  if String.eqb tag "graphml" then Ok (start_graphml p)
  else if negb (ready p) then Err AttributeError
  else if String.eqb tag "key" then start_key p a
  else if String.eqb tag "graph" then start_graph sparse p a
  else match graph p with
       | None => Ok p
       | Some g => if String.eqb tag "node" then start_node p g a
                   else if String.eqb tag "edge" then start_edge p g a
                   else if String.eqb tag "data" then start_data p a
                   else Ok p
       end.

(** graphml.py 156-168: the root is looked up under "graph" *)
Definition end_graph (p : parser) : res parser :=
  match graph p with
  | None => Ok p
  | Some g =>
      p <- on_graph p g (fun o => match tokens o with None => Err DaesoError | Some _ => Ok (set_root o (dget String.eqb (attrs o) "graph")) end) ;;
      Ok (with_comp (with_graph p None) NoneRef)
  end.
(** Truth value of an attribute that may be missing *)
Definition truth (v : option value) : bool :=
  match v with None => false | Some (VNone) => false | Some (VText []) => false | Some (VToks []) => false | Some _ => true end.
(** graphml.py 171-179 *)
Definition end_node (p : parser) : res parser :=
  d <- comp_dict p ;;
  if negb (truth (dget String.eqb d "label")) then Err DaesoError
  else if negb (truth (dget String.eqb d "tokens")) then Err DaesoError
  else Ok (with_comp (with_node p (Some None)) NoneRef).
(** graphml.py 212-229: _lookup_attr_name *)
Definition lookup_attr_name (p : parser) (comp : string) : res string :=
  let find c := match dget String.eqb (key_table p) c, data_key p with
                | Some t, Some k => dget String.eqb t k
                | _, _ => None
                end in
  match find comp with
  | Some k => Ok (k_name k)
  | None => match find "all" with Some k => Ok (k_name k) | None => Err DaesoError end
  end.
(** graphml.py 186-206: context[-2] is the parent *)
Definition end_data (p : parser) : res parser :=
  match context p with
  | _ :: comp :: _ => n <- lookup_attr_name p comp ;; p <- set_attr p comp n (buf p) ;; Ok (with_data p None)
  | _ => Err IndexError
  end.
(** graphml.py 209-212: _end_default *)
Definition end_default (p : parser) : res parser :=
  match current_key p with
  | None => Err TypeError
  | Some (c, i) =>
      t <- dread String.eqb (key_table p) c ;; k <- dread String.eqb t i ;;
      Ok (with_keys p (dset String.eqb (key_table p) c (dset String.eqb t i {| k_name := k_name k; k_dflt := Some (buf p) |})) (current_key p))
  end.
(** [tag in "node"] is a test for substrings *)
Definition in_node (tag : string) : bool :=
  existsb (String.eqb tag) [""; "n"; "o"; "d"; "e"; "no"; "od"; "de"; "nod"; "ode"; "node"].
(** graphml.py 142-153 *)
Definition end_element (p : parser) (tag : string) : res parser :=
  p <- (if String.eqb tag "graph" then end_graph p
        else if graph_wanted p then
          if in_node tag then end_node p
          else if String.eqb tag "data" then end_data p
          else if String.eqb tag "default" then end_default p
          else Ok p
        else Ok p) ;;
  Ok (with_context p (tl (context p))).
(** graphml.py 215-217 *)
Definition char_data (p : parser) (t : text) : parser := if graph_wanted p then with_buf p (buf p ++ t)%list else p.
Definition step (sparse : bool) (p : parser) (e : event) : res parser :=
  match e with Start tag a => start_element sparse p tag a | End_ tag => end_element p tag | Chars t => Ok (char_data p t) end.
(** parser.py 69-97: parse_file; [ids] is the dict given by the graph bank *)
Definition parse_file (sparse : bool) (ids : list (string * option nat)) (gs : list dgraph) (evs : list event) : res parser :=
  p <- foldM (step sparse) (new_parser ids gs) evs ;;
  if sparse && existsb (fun x => match snd x with None => true | Some _ => false end) (id2graph p) then Err DaesoError else Ok p.
(** parser.py 53-64: parse_string.  [_id2graph] is [id2graph or {}]; in sparse mode _check_for_unresolved_graphs
    is called without its argument. *)
Definition parse_string (sparse : bool) (ids : list (string * option nat)) (gs : list dgraph) (evs : list event) : res parser :=
  p <- foldM (step sparse) (new_parser ids gs) evs ;;
  if sparse then Err TypeError else Ok p.
End Graphml.
