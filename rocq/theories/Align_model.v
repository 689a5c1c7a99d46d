(** Model of the alignment part of /repo/lib/daeso/pgc/graphpair.py (GraphMapping, GraphMatching).
    The networkx DiGraph they inherit from is an external library; it is modelled by its
    documented contract: a set of nodes and a set of directed edges each carrying one
    "relation" attribute. *)
From Verif Require Import Py.
Set Implicit Arguments.

Section Align.
Variables N R : Type.                 (* node identifiers, relations *)
Variable neqb : N -> N -> bool.
Variable reqb : R -> R -> bool.

(** networkx.DiGraph with edge attribute "relation".  Edge order stands for the arbitrary
    iteration order of Python 2 dicts. *)
Record digraph := { nodes : list N; edges : list ((N * N) * R) }.
Notation eeqb := (pair_eqb neqb neqb).

(** DiGraph.__init__ without data (graphpair.py 213). *)
Definition empty_digraph : digraph := {| nodes := []; edges := [] |}.

Definition add_node (n : N) (l : list N) : list N := if mem neqb n l then l else l ++ [n].

(** networkx add_edge(u, v, relation=r): adds missing nodes, sets the attribute. *)
Definition add_edge (g : digraph) (u v : N) (r : R) : digraph :=
  {| nodes := add_node v (add_node u (nodes g)); edges := dset eeqb (edges g) (u, v) r |}.
(** networkx has_edge / G[u][v]["relation"]. *)
Definition has_edge (g : digraph) (u v : N) : bool := dhas eeqb (edges g) (u, v).
(** networkx remove_edge: NetworkXError if the edge is absent. *)
Definition remove_edge (g : digraph) (u v : N) : res digraph :=
  if has_edge g u v then Ok {| nodes := nodes g; edges := ddel eeqb (edges g) (u, v) |}
  else Err NetworkXError.
(** networkx remove_node: removes the node and all incident edges; NetworkXError if absent. *)
Definition remove_node (g : digraph) (n : N) : res digraph :=
  if mem neqb n (nodes g) then
    Ok {| nodes := filter (fun m => negb (neqb n m)) (nodes g);
          edges := filter (fun e => negb (neqb n (fst (fst e))) && negb (neqb n (snd (fst e)))) (edges g) |}
  else Err NetworkXError.
(** networkx degree: out-degree plus in-degree (a loop counts twice). *)
Definition degree (g : digraph) (n : N) : nat :=
  length (filter (fun e => neqb n (fst (fst e))) (edges g)) +
  length (filter (fun e => neqb n (snd (fst e))) (edges g)).
(** first key of G.succ[u] / G.pred[v] ([iterkeys().next()]); None covers both KeyError (no such
    node) and StopIteration (no neighbour). *)
Definition first_succ (g : digraph) (u : N) : option N :=
  match filter (fun e => neqb u (fst (fst e))) (edges g) with
  | e :: _ => Some (snd (fst e)) | [] => None end.
Definition first_pred (g : digraph) (v : N) : option N :=
  match filter (fun e => neqb v (snd (fst e))) (edges g) with
  | e :: _ => Some (fst (fst e)) | [] => None end.

(** graphpair.py 276-280: [get_align]. *)
Definition get_align (g : digraph) (s t : N) : option R := dget eeqb (edges g) (s, t).

(** graphpair.py 283-285: [GraphMapping.add_align]. *)
Definition mapping_add_align (g : digraph) (s t : N) (r : R) : digraph := add_edge g s t r.

(** graphpair.py 291-297: one round of the house-keeping loop in [del_align].  [degree_iter]
    only yields nodes that are (still) in the graph; NetworkXError is ignored. *)
Definition drop_if_unaligned (g : digraph) (n : N) : digraph :=
  if mem neqb n (nodes g) then
    if degree g n =? 0 then
      match remove_node g n with Ok g' => g' | Err _ => g end
    else g
  else g.

(** graphpair.py 288-300: [del_align]. *)
Definition del_align (g : digraph) (s t : N) : res digraph :=
  g1 <- remove_edge g s t ;;
  Ok (drop_if_unaligned (drop_if_unaligned g1 s) t).

(** graphpair.py 371-383: first half of [GraphMatching.add_align]: free the source node. *)
Definition free_source (g : digraph) (s t : N) : res digraph :=
  match first_succ g s with
  | None => Ok g
  | Some old_target =>
      if negb (neqb old_target t) then
        g1 <- remove_edge g s old_target ;;
        if degree g1 old_target =? 0 then remove_node g1 old_target else Ok g1
      else Ok g
  end.
(** graphpair.py 385-396: second half: free the target node. *)
Definition free_target (g : digraph) (s t : N) : res digraph :=
  match first_pred g t with
  | None => Ok g
  | Some old_source =>
      if negb (neqb old_source s) then
        g1 <- remove_edge g old_source t ;;
        if degree g1 old_source =? 0 then remove_node g1 old_source else Ok g1
      else Ok g
  end.
(** graphpair.py 371-398: [GraphMatching.add_align]. *)
Definition matching_add_align (g : digraph) (s t : N) (r : R) : res digraph :=
  g1 <- free_source g s t ;;
  g2 <- free_target g1 s t ;;
  Ok (add_edge g2 s t r).

(** graphpair.py 401-412: [get_aligned_source_node], [get_aligned_target_node]. *)
Definition get_aligned_source_node (g : digraph) (n : N) : option N := first_pred g n.
Definition get_aligned_target_node (g : digraph) (n : N) : option N := first_succ g n.

(** graphpair.py 303-314: [alignments] / [alignments_iter]; an empty or absent list of relations
    means no filtering. *)
Definition alignments (g : digraph) (relations : list R) : list ((N * N) * R) :=
  match relations with
  | [] => edges g
  | _ => filter (fun e => mem reqb (snd e) relations) (edges g)
  end.

(** graphpair.py 261-265: [__len__]. *)
Definition align_len (g : digraph) : nat := length (edges g).

(** graphpair.py 317-324: [roots_aligned]; note that both arguments are the source root. *)
Definition roots_aligned (g : digraph) (source_root target_root : N) : bool :=
  has_edge g source_root source_root.

(** graphpair.py 341-360: [_alignments_equal] (None and falling off the end are false). *)
Definition alignments_equal (g h : digraph) : bool :=
  if align_len g =? align_len h then
    forallb (fun e => match get_align h (fst (fst e)) (snd (fst e)) with
                      | Some r => reqb r (snd e)
                      | None => false
                      end) (alignments g [])
  else false.

(** Histories: the public mutators of a GraphPair (= GraphMatching, graphpair.py 415) and of a
    GraphMapping.  A raised exception leaves the graph as it was: [remove_edge] is the first
    statement that can raise, and nothing has been changed before it. *)
Inductive op := Add (s t : N) (r : R) | Del (s t : N).
Definition matching_op (g : digraph) (o : op) : res digraph :=
  match o with Add s t r => matching_add_align g s t r | Del s t => del_align g s t end.
Definition mapping_op (g : digraph) (o : op) : res digraph :=
  match o with Add s t r => Ok (mapping_add_align g s t r) | Del s t => del_align g s t end.
Definition keep (f : digraph -> op -> res digraph) (g : digraph) (o : op) : digraph :=
  match f g o with Ok g' => g' | Err _ => g end.
Definition run_matching (g : digraph) (ops : list op) : digraph := fold_left (keep matching_op) ops g.
Definition run_mapping (g : digraph) (ops : list op) : digraph := fold_left (keep mapping_op) ops g.
End Align.
