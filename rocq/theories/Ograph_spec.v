(** Specification vocabulary for ordered directed graphs built by a history of calls (C59). *)
From Verif Require Export Py.
From Verif Require Import Graph_spec.
Set Implicit Arguments.
Section S.
Variables N A W : Type.   (* nodes; attribute names; attribute values *)
Variable neqb : N -> N -> bool.
Variable aeqb : A -> A -> bool.
Notation attrs := (list (A * W)).

(** The edges of a bunch: tuples (u, v), tuples (u, v, d), tuples (u, v, x) where x is not a dict, tuples of another length. *)
Inductive edge_tuple := Two (u v : N) | Three (u v : N) (d : attrs) | NoDict (u v : N) | BadLength.
(** Calls.  The attributes are the keyword arguments, or a dict made for this call. *)
Inductive ocall :=
| ONode (n : N) (attr : attrs)
| ONodes (ns : list N) (attr : attrs)
| OEdge (u v : N) (attr : attrs)
| OEdges (ebunch : list edge_tuple) (attr : attrs).

(** A bunch counts up to the first tuple that is not right. *)
Fixpoint right_part (es : list edge_tuple) : list (N * N * option attrs) :=
  match es with
  | Two u v :: es' => (u, v, None) :: right_part es'
  | Three u v d :: es' => (u, v, Some d) :: right_part es'
  | _ => []
  end.
Fixpoint failure (es : list edge_tuple) : option exc :=
  match es with
  | [] => None
  | Two _ _ :: es' | Three _ _ _ :: es' => failure es'
  | NoDict _ _ :: _ => Some AssertionError
  | BadLength :: _ => Some NameError
  end.
(** The dicts of a call; dicts have no name twice. *)
Definition dicts_of (c : ocall) : list attrs :=
  match c with
  | ONode _ a | ONodes _ a | OEdge _ _ a => [a]
  | OEdges es a => a :: flat_map (fun e => match e with Three _ _ d => [d] | _ => [] end) es
  end.
Definition are_dicts (cs : list ocall) : Prop := forall c d, In c cs -> In d (dicts_of c) -> NoDup (map fst d).
(** The answer to a call: None if it returns, and the exception otherwise. *)
Definition answer (c : ocall) : option exc := match c with OEdges es _ => failure es | _ => None end.
(** The nodes mentioned in a call, in order. *)
Definition mentions (c : ocall) : list N :=
  match c with
  | ONode n _ => [n]
  | ONodes ns _ => ns
  | OEdge u v _ => [u; v]
  | OEdges es _ => flat_map (fun e => [fst (fst e); snd (fst e)]) (right_part es)
  end.
Definition mentioned (cs : list ocall) : list N := flat_map mentions cs.
(** The edges with the attributes given to them, in order. *)
Definition insertions (c : ocall) : list (N * N * attrs) :=
  match c with
  | OEdge u v a => [(u, v, a)]
  | OEdges es a => flat_map (fun e => (fst e, a) :: match snd e with Some d => [(fst e, d)] | None => [] end) (right_part es)
  | _ => []
  end.
Definition inserted_edges (cs : list ocall) : list (N * N * attrs) := flat_map insertions cs.
Definition targets_of (cs : list ocall) (u : N) : list N :=
  firsts neqb (map (fun e => snd (fst e)) (filter (fun e => neqb u (fst (fst e))) (inserted_edges cs))).
Definition sources_of (cs : list ocall) (v : N) : list N :=
  firsts neqb (map (fun e => fst (fst e)) (filter (fun e => neqb v (snd (fst e))) (inserted_edges cs))).
(** The value given last for a name. *)
Definition last_value (k : A) (l : list attrs) : option W :=
  fold_left (fun x d => match dget aeqb d k with Some w => Some w | None => x end) l None.
Definition edge_value (cs : list ocall) (u v : N) (k : A) : option W :=
  last_value k (map snd (filter (fun e => neqb u (fst (fst e)) && neqb v (snd (fst e))) (inserted_edges cs))).

(** A call gives an attribute to a node. *)
Definition gives (c : ocall) (n : N) (k : A) (w : W) : Prop :=
  match c with
  | ONode m a => m = n /\ dget aeqb a k = Some w
  | ONodes ms a => In n ms /\ dget aeqb a k = Some w
  | _ => False
  end.
(** Nodes introduced by the same call of add_nodes_from; each node is its own twin. *)
Definition twins (cs : list ocall) (n m : N) : Prop :=
  exists pre c post, cs = pre ++ c :: post /\ ~ In n (mentioned pre) /\ ~ In m (mentioned pre) /\ In n (mentions c) /\ In m (mentions c) /\
    (n = m \/ exists ms a, c = ONodes ms a).
Definition gives_twin (cs : list ocall) (c : ocall) (n : N) (k : A) (w : W) : Prop := exists m, twins cs n m /\ gives c m k w.
(** The value given last to a node or a twin of it. *)
Definition last_given (cs : list ocall) (n : N) (k : A) (w : W) : Prop :=
  exists pre c post, cs = pre ++ c :: post /\ gives_twin cs c n k w /\ forall c' w', In c' post -> ~ gives_twin cs c' n k w'.
(** Histories in which no call of add_nodes_from introduces two nodes. *)
Definition one_at_a_time (cs : list ocall) : Prop :=
  forall pre ns a post n m, cs = pre ++ ONodes ns a :: post -> In n ns -> In m ns -> ~ In n (mentioned pre) -> ~ In m (mentioned pre) -> n = m.
(** The value given last to the node itself. *)
Definition last_given_itself (cs : list ocall) (n : N) (k : A) (w : W) : Prop :=
  exists pre c post, cs = pre ++ c :: post /\ gives c n k w /\ forall c' w', In c' post -> ~ gives c' n k w'.
End S.
Arguments Two {N A W}. Arguments Three {N A W}. Arguments NoDict {N A W}. Arguments BadLength {N A W}.
Arguments ONode {N A W}. Arguments ONodes {N A W}. Arguments OEdge {N A W}. Arguments OEdges {N A W}.
