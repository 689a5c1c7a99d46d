(** Model of lib/daeso/graph/ograph.py and lib/daeso/graph/daesograph.py.
    Dicts of attributes are objects with identity: a reference is either to a dict the caller made
    or to one the graph made.  OrderedDict is an insertion-ordered association list (see C16);
    networkx.DiGraph contributes only the plain accessors. *)
From Verif Require Import Py Graph_spec.
Set Implicit Arguments.
Section Graph.
Variables N A W : Type.
Variable neqb : N -> N -> bool.
Variable aeqb : A -> A -> bool.
Variables label_key tokens_key : A.
Notation attrs := (attrs A W).

Inductive ref := Caller (i : nat) | Own (i : nat).
(** ograph.py 111-120: the tables of a graph. *)
Record graph := { succ : list (N * list (N * ref)); pred : list (N * list (N * ref)); node : list (N * ref);
                  caller : list attrs; own : list attrs }.
Definition empty_graph : graph := {| succ := []; pred := []; node := []; caller := []; own := [] |}.

Definition deref (g : graph) (r : ref) : attrs := match r with Caller i => nth i (caller g) [] | Own i => nth i (own g) [] end.
Definition store (g : graph) (r : ref) (d : attrs) : graph :=
  match r with
  | Caller i => {| succ := succ g; pred := pred g; node := node g; caller := set_nth (caller g) i d; own := own g |}
  | Own i => {| succ := succ g; pred := pred g; node := node g; caller := caller g; own := set_nth (own g) i d |}
  end.
(** a new dict made inside a method *)
Definition alloc (g : graph) (d : attrs) : graph * ref :=
  ({| succ := succ g; pred := pred g; node := node g; caller := caller g; own := own g ++ [d] |}, Own (length (own g))).
(** [d.update(e)] *)
Definition dupdate (d e : attrs) : attrs := fold_left (fun d p => dset aeqb d (fst p) (snd p)) e d.

(** ograph.py 165-173 and the same lines in the other methods: [attr_dict] if given, updated in place
    with the keyword arguments; otherwise the keyword dict itself. *)
Definition attr_arg (g : graph) (attr_dict : option nat) (attr : attrs) : res (graph * ref) :=
  match attr_dict with
  | None => Ok (alloc g attr)
  | Some i => if i <? length (caller g) then Ok (store g (Caller i) (dupdate (deref g (Caller i)) attr), Caller i)
              else Err NameError
  end.
Definition has_node (g : graph) (n : N) : bool := dhas neqb (succ g) n.
(** ograph.py 174-180: add_node, second half. *)
Definition o_add_node (g : graph) (n : N) (a : ref) : res graph :=
  if negb (has_node g n) then
    Ok {| succ := dset neqb (succ g) n []; pred := dset neqb (pred g) n []; node := dset neqb (node g) n a;
          caller := caller g; own := own g |}
  else r <- dread neqb (node g) n ;; Ok (store g r (dupdate (deref g r) (deref g a))).
(** daesograph.py 67-72: add_node; [tokens or []] is evaluated by the caller of the model. *)
Definition add_node (g : graph) (n : N) (label tokens : W) (attr_dict : option nat) (attr : attrs) : res graph :=
  p <- attr_arg g attr_dict (dupdate [(label_key, label); (tokens_key, tokens)] attr) ;;
  o_add_node (fst p) n (snd p).
(** daesograph.py 199-203, 237-242: the edge's dict, existing or new, is updated and stored in both tables. *)
Definition put_edge (g : graph) (u v : N) (updates : list attrs) : res graph :=
  row <- dread neqb (succ g) u ;;
  let (g1, r) := match dget neqb row v with Some r => (g, r) | None => alloc g [] end in
  let g2 := store g1 r (fold_left dupdate updates (deref g1 r)) in
  row' <- dread neqb (succ g2) u ;;
  prow <- dread neqb (pred g2) v ;;
  Ok {| succ := dset neqb (succ g2) u (dset neqb row' v r); pred := dset neqb (pred g2) v (dset neqb prow u r);
        node := node g2; caller := caller g2; own := own g2 |}.
(** daesograph.py 180-203: add_edge. *)
Definition add_edge (g : graph) (u v : N) (label : W) (attr_dict : option nat) (attr : attrs) : res graph :=
  if has_node g u && has_node g v then
    p <- attr_arg g attr_dict attr ;;
    let g1 := store (fst p) (snd p) (dset aeqb (deref (fst p) (snd p)) label_key label) in
    put_edge g1 u v [deref g1 (snd p)]
  else Err ValueError.
(** daesograph.py 206-242: add_edges_from; a failing edge leaves the earlier ones in place. *)
Fixpoint bunch (a : ref) (g : graph) (es : list (N * N * attrs)) : graph * option exc :=
  match es with
  | [] => (g, None)
  | (u, v, d) :: es' =>
      if has_node g u && has_node g v then
        match put_edge g u v [deref g a; d] with Ok g1 => bunch a g1 es' | Err e => (g, Some e) end
      else (g, Some ValueError)
  end.
Definition add_edges_from (g : graph) (es : list (N * N * attrs)) (label : W) (attr_dict : option nat) (attr : attrs) : graph * option exc :=
  match attr_arg g attr_dict attr with
  | Err e => (g, Some e)
  | Ok (g1, a) => bunch a (store g1 a (dset aeqb (deref g1 a) label_key label)) es
  end.
Definition try (g : graph) (r : res graph) : graph * option exc :=
  match r with Ok g' => (g', None) | Err e => (g, Some e) end.
Definition g_call (g : graph) (c : gcall N A W) : graph * option exc :=
  match c with
  | GNewDict d => ({| succ := succ g; pred := pred g; node := node g; caller := caller g ++ [d]; own := own g |}, None)
  | GAddNode n l t d a => try g (add_node g n l t d a)
  | GAddEdge u v l d a =>
      (* an unbound attr_dict is noticed before the call starts *)
      match d with Some i => if i <? length (caller g) then try g (add_edge g u v l d a) else (g, Some NameError)
                 | None => try g (add_edge g u v l d a) end
  | GAddEdges es l d a => add_edges_from g es l d a
  end.
Fixpoint g_run (g : graph) (cs : list (gcall N A W)) : graph * list (option exc) :=
  match cs with
  | [] => (g, [])
  | c :: cs' => let (g1, e) := g_call g c in let (g2, l) := g_run g1 cs' in (g2, e :: l)
  end.

(** networkx.DiGraph accessors: nodes in iteration order, successors, predecessors, attributes. *)
Definition g_nodes (g : graph) : list N := dkeys (succ g).
Definition successors (g : graph) (u : N) : res (list N) := row <- dread neqb (succ g) u ;; Ok (dkeys row).
Definition predecessors (g : graph) (v : N) : res (list N) := row <- dread neqb (pred g) v ;; Ok (dkeys row).
Definition succ_data (g : graph) (u v : N) : res ref := row <- dread neqb (succ g) u ;; dread neqb row v.
Definition pred_data (g : graph) (u v : N) : res ref := row <- dread neqb (pred g) v ;; dread neqb row u.
Definition edge_attr (g : graph) (u v : N) (k : A) : res W := r <- succ_data g u v ;; dread aeqb (deref g r) k.
Definition node_attr (g : graph) (n : N) (k : A) : res W := r <- dread neqb (node g) n ;; dread aeqb (deref g r) k.

(** daesograph.py 81-84, 109-121: node_is_terminal, node_is_empty, node_is_punct, given what the tokens are like. *)
Variable no_tokens : W -> bool.    (* not tokens *)
Variable all_punct : W -> bool.    (* all(t in string.punctuation for t in tokens) *)
Definition node_is_empty (g : graph) (n : N) : res bool := t <- node_attr g n tokens_key ;; Ok (no_tokens t).
Definition node_is_punct (g : graph) (n : N) : res bool :=
  t <- node_attr g n tokens_key ;; Ok (if no_tokens t then false else all_punct t).
Definition node_is_terminal (g : graph) (n : N) (with_punct with_empty : bool) : res bool :=
  row <- dread neqb (succ g) n ;;
  if negb (length row =? 0) then Ok false else
  p <- (if with_punct then Ok true else b <- node_is_punct g n ;; Ok (negb b)) ;;
  if negb p then Ok false else
  if with_empty then Ok true else b <- node_is_empty g n ;; Ok (negb b).
(** daesograph.py 92-98: terminals. *)
Fixpoint filterM (f : N -> res bool) (l : list N) : res (list N) :=
  match l with
  | [] => Ok []
  | x :: l' => b <- f x ;; r <- filterM f l' ;; Ok (if b then x :: r else r)
  end.
Definition terminals (g : graph) (with_punct with_empty : bool) : res (list N) :=
  filterM (fun n => node_is_terminal g n with_punct with_empty) (g_nodes g).
(** daesograph.py 100-106: non_terminals calls a method that does not exist (only when there is a node). *)
Definition non_terminals (g : graph) : res (list N) :=
  filterM (fun _ => Err AttributeError) (g_nodes g).

(** daesograph.py 144-174: terminal_yield; [stack] has its top first; [fuel] bounds the while loop. *)
Fixpoint yield_loop (fuel : nat) (g : graph) (wp we : bool) (stack seen found : list N) : res (list N) :=
  match stack with
  | [] => Ok found
  | v :: below =>
      match fuel with
      | O => Err OutOfFuel
      | S f =>
          p <- (if mem neqb v seen then Ok (seen, found)
                else t <- node_is_terminal g v wp we ;; Ok (seen ++ [v], if t : bool then found ++ [v] else found)) ;;
          ws <- successors g v ;;
          match find (fun w => negb (mem neqb w (fst p))) ws with
          | Some w => yield_loop f g wp we (w :: stack) (fst p) (snd p)
          | None => yield_loop f g wp we below (fst p) (snd p)
          end
      end
  end.
Variable truthy : N -> bool.
Definition terminal_yield (fuel : nat) (g : graph) (root n : option N) (wp we : bool) : res (list N) :=
  let start := match n with Some x => if truthy x then Some x else root | None => root end in
  match start with
  | None => Err KeyError                                  (* self[None] *)
  | Some v => yield_loop fuel g wp we [v] [] []
  end.
End Graph.
