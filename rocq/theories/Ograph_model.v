(** Model of lib/daeso/graph/ograph.py: ODiGraph.  Dicts of attributes are objects with identity (numbers in a heap);
    OrderedDict is an insertion-ordered association list (see C16); self.node, a plain dict, is only looked up.
    Attributes are given by keywords or by a dict made for the call (for dicts of the caller see Graph_model, C23);
    networkx.DiGraph contributes only the plain accessors. *)
From Verif Require Import Py Ograph_spec.
Set Implicit Arguments.
Section Graph.
Variables N A W D : Type.
Variable neqb : N -> N -> bool.
Variable aeqb : A -> A -> bool.
Notation attrs := (list (A * W)).

Record ograph := { succ : list (N * list (N * nat)); pred : list (N * list (N * nat)); node : list (N * nat); heap : list attrs }.
(** ograph.py 110-127: ODiGraph(data); [convert] is not imported *)
Definition new_graph (data : option D) : res ograph :=
  match data with None => Ok {| succ := []; pred := []; node := []; heap := [] |} | Some _ => Err NameError end.
Definition deref (g : ograph) (r : nat) : attrs := nth r (heap g) [].
Definition store (g : ograph) (r : nat) (d : attrs) : ograph := {| succ := succ g; pred := pred g; node := node g; heap := set_nth (heap g) r d |}.
(** a new dict *)
Definition alloc (g : ograph) (d : attrs) : ograph * nat := ({| succ := succ g; pred := pred g; node := node g; heap := heap g ++ [d] |}, length (heap g)).
(** [d.update(e)] *)
Definition dupdate (d e : attrs) : attrs := fold_left (fun d p => dset aeqb d (fst p) (snd p)) e d.
Definition has_node (g : ograph) (n : N) : bool := dhas neqb (succ g) n.
(** ograph.py 175-177, 220-222, 283-285: a new node with this dict *)
Definition introduce (g : ograph) (n : N) (r : nat) : ograph :=
  {| succ := dset neqb (succ g) n []; pred := dset neqb (pred g) n []; node := dset neqb (node g) n r; heap := heap g |}.
(** ograph.py 174-179, 219-224 *)
Definition put_node (g : ograph) (n : N) (a : nat) : res ograph :=
  if negb (has_node g n) then Ok (introduce g n a)
  else r <- dread neqb (node g) n ;; Ok (store g r (dupdate (deref g r) (deref g a))).
(** ograph.py 129-179 *)
Definition add_node (g : ograph) (n : N) (attr : attrs) : res ograph := let (g1, a) := alloc g attr in put_node g1 n a.
(** ograph.py 187-224 *)
Definition add_nodes_from (g : ograph) (ns : list N) (attr : attrs) : res ograph :=
  let (g1, a) := alloc g attr in foldM (fun g n => put_node g n a) g1 ns.
(** ograph.py 282-285, 286-289, 361-364, 365-368 *)
Definition ensure (g : ograph) (n : N) : ograph := if negb (has_node g n) then let (g1, r) := alloc g [] in introduce g1 n r else g.
(** ograph.py 291-294, 369-373 *)
Definition put_edge (g : ograph) (u v : N) (updates : list attrs) : res ograph :=
  row <- dread neqb (succ g) u ;;
  let (g1, r) := match dget neqb row v with Some r => (g, r) | None => alloc g [] end in
  let g2 := store g1 r (fold_left dupdate updates (deref g1 r)) in
  row' <- dread neqb (succ g2) u ;;
  let g3 := {| succ := dset neqb (succ g2) u (dset neqb row' v r); pred := pred g2; node := node g2; heap := heap g2 |} in
  prow <- dread neqb (pred g3) v ;;
  Ok {| succ := succ g3; pred := dset neqb (pred g3) v (dset neqb prow u r); node := node g3; heap := heap g3 |}.
(** ograph.py 226-294 *)
Definition add_edge (g : ograph) (u v : N) (attr : attrs) : res ograph := put_edge (ensure (ensure g u) v) u v [attr].
(** ograph.py 299-373; NetworkXError is not imported, so the raise in 359 is a NameError; earlier edges stay *)
Fixpoint add_edges (g : ograph) (es : list (edge_tuple N A W)) (attr : attrs) : ograph * option exc :=
  match es with
  | [] => (g, None)
  | Two u v :: es' => match put_edge (ensure (ensure g u) v) u v [attr; []] with Ok g1 => add_edges g1 es' attr | Err e => (g, Some e) end
  | Three u v d :: es' => match put_edge (ensure (ensure g u) v) u v [attr; d] with Ok g1 => add_edges g1 es' attr | Err e => (g, Some e) end
  | NoDict _ _ :: _ => (g, Some AssertionError)
  | BadLength :: _ => (g, Some NameError)
  end.
Definition try (g : ograph) (r : res ograph) : ograph * option exc := match r with Ok g' => (g', None) | Err e => (g, Some e) end.
Definition call (g : ograph) (c : ocall N A W) : ograph * option exc :=
  match c with
  | ONode n a => try g (add_node g n a)
  | ONodes ns a => try g (add_nodes_from g ns a)
  | OEdge u v a => try g (add_edge g u v a)
  | OEdges es a => add_edges g es a
  end.
Fixpoint run (g : ograph) (cs : list (ocall N A W)) : ograph * list (option exc) :=
  match cs with
  | [] => (g, [])
  | c :: cs' => let (g1, e) := call g c in let (g2, l) := run g1 cs' in (g2, e :: l)
  end.
Definition empty_graph : ograph := {| succ := []; pred := []; node := []; heap := [] |}.

(** networkx.DiGraph accessors: nodes in iteration order, successors, predecessors, attributes (an edge's from either side). *)
Definition nodes (g : ograph) : list N := dkeys (succ g).
Definition successors (g : ograph) (u : N) : res (list N) := row <- dread neqb (succ g) u ;; Ok (dkeys row).
Definition predecessors (g : ograph) (v : N) : res (list N) := row <- dread neqb (pred g) v ;; Ok (dkeys row).
Definition edge_attr (g : ograph) (u v : N) (k : A) : res W := row <- dread neqb (succ g) u ;; r <- dread neqb row v ;; dread aeqb (deref g r) k.
Definition edge_attr_back (g : ograph) (u v : N) (k : A) : res W := row <- dread neqb (pred g) v ;; r <- dread neqb row u ;; dread aeqb (deref g r) k.
Definition node_attr (g : ograph) (n : N) (k : A) : res W := r <- dread neqb (node g) n ;; dread aeqb (deref g r) k.
End Graph.
