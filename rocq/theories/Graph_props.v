(** Properties C23 and C24: DaesoGraph. *)
From Verif Require Import Py PyLemmas Graph_spec Graph_model Graph_proof.
Section Props.
Variables N A W : Type.
Variable neqb : N -> N -> bool.
Hypothesis neq : forall x y, neqb x y = true <-> x = y.
Variable aeqb : A -> A -> bool.
Hypothesis aeq : forall x y, aeqb x y = true <-> x = y.
Variables label_key tokens_key : A.
Hypothesis lt_neq : label_key <> tokens_key.
Notation run cs := (g_run neqb aeqb label_key tokens_key (empty_graph N A W) cs).
Notation sum cs := (@summary_of N A W neqb aeqb label_key (nothing N W) cs).
Notation possible_history cs := (Forall (@possible N A W label_key tokens_key) cs).
Notation no_shared cs := (Forall (@no_shared_dict N A W) cs).

(** C23.  Whatever calls are made, in whatever order, the answers (return or exception) are those of the
    history's summary, and the nodes are listed once each in order of first insertion. *)
Theorem graph_nodes_in_insertion_order cs : possible_history cs ->
  snd (run cs) = snd (sum cs) /\ g_nodes (fst (run cs)) = all_nodes (fst (sum cs)) /\ NoDup (g_nodes (fst (run cs))).
Proof. exact (@graph_nodes N A W neqb neq aeqb aeq label_key tokens_key lt_neq cs). Qed.
(** Successors (predecessors) are the targets (sources) of the inserted edges, each once, in order of
    first insertion of the edge; an unknown node is a KeyError. *)
Theorem graph_rows_in_insertion_order cs n : possible_history cs ->
  (In n (all_nodes (fst (sum cs))) ->
     successors neqb (fst (run cs)) n = Ok (targets neqb (fst (sum cs)) n) /\
     predecessors neqb (fst (run cs)) n = Ok (sources neqb (fst (sum cs)) n)) /\
  (~ In n (all_nodes (fst (sum cs))) ->
     successors neqb (fst (run cs)) n = Err KeyError /\ predecessors neqb (fst (run cs)) n = Err KeyError).
Proof. intros H. exact (@graph_rows N A W neqb neq aeqb aeq label_key tokens_key lt_neq cs H n). Qed.
Theorem graph_rows_no_duplicates cs n : NoDup (targets neqb (fst (sum cs)) n) /\ NoDup (sources neqb (fst (sum cs)) n).
Proof. split; apply (@firsts_nodup N neqb neq). Qed.
(** Both tables hold the same dict object for an edge, no two edges share one, edges join existing
    nodes only, an edge is listed on both sides or on none, and its label is the one given last. *)
Theorem graph_edge_sides_agree cs u v : possible_history cs ->
  (forall r, succ_data neqb (fst (run cs)) u v = Ok r <-> pred_data neqb (fst (run cs)) u v = Ok r) /\
  (forall u' v' r, succ_data neqb (fst (run cs)) u v = Ok r -> succ_data neqb (fst (run cs)) u' v' = Ok r -> u = u' /\ v = v') /\
  (In v (targets neqb (fst (sum cs)) u) <-> In u (sources neqb (fst (sum cs)) v)) /\
  (In v (targets neqb (fst (sum cs)) u) -> In u (all_nodes (fst (sum cs))) /\ In v (all_nodes (fst (sum cs)))) /\
  (In v (targets neqb (fst (sum cs)) u) ->
     exists l, last_label neqb (fst (sum cs)) u v = Some l /\ edge_attr neqb aeqb (fst (run cs)) u v label_key = Ok l) /\
  (~ In v (targets neqb (fst (sum cs)) u) -> edge_attr neqb aeqb (fst (run cs)) u v label_key = Err KeyError).
Proof. intros H. exact (@graph_sides N A W neqb neq aeqb aeq label_key tokens_key lt_neq cs H u v). Qed.
(** A node's label and tokens are those given last, provided no dict of the caller's was passed to add_node. *)
Theorem graph_node_attributes_last_given cs n : possible_history cs -> no_shared cs ->
  match last_node neqb n cs with
  | Some (l, t) => node_attr neqb aeqb (fst (run cs)) n label_key = Ok l /\ node_attr neqb aeqb (fst (run cs)) n tokens_key = Ok t
  | None => node_attr neqb aeqb (fst (run cs)) n label_key = Err KeyError
  end.
Proof. exact (@graph_node_attrs N A W neqb neq aeqb aeq label_key tokens_key lt_neq cs n). Qed.

(** C24. *)
Variables no_tokens all_punct : W -> bool.
Variable truthy : N -> bool.
Notation yield := (terminal_yield neqb aeqb tokens_key no_tokens all_punct truthy).
(** On any graph, cyclic or not, the loop ends within 2 * (number of nodes) rounds and lists every
    reachable terminal exactly once. *)
Theorem terminal_yield_exact cs wp we n root fuel : possible_history cs -> no_shared cs ->
  truthy n = true -> In n (all_nodes (fst (sum cs))) -> 2 * length (all_nodes (fst (sum cs))) <= fuel ->
  exists l, yield fuel (fst (run cs)) root (Some n) wp we = Ok l /\ NoDup l /\
    forall x, In x l <-> reach neqb (fst (sum cs)) n x /\ terminal neqb no_tokens all_punct (fst (sum cs)) cs wp we x.
Proof. intros H1 H2. exact (@run_yield N A W neqb neq aeqb aeq label_key tokens_key lt_neq no_tokens all_punct truthy cs H1 H2 wp we n root fuel). Qed.
(** Where the part of the graph below n is a tree, the order is that of the leaves from left to right. *)
Theorem terminal_yield_tree_order cs wp we t root fuel : possible_history cs -> no_shared cs ->
  truthy (top t) = true -> hangs neqb (fst (sum cs)) t -> incl (labels t) (all_nodes (fst (sum cs))) -> NoDup (labels t) ->
  2 * length (all_nodes (fst (sum cs))) <= fuel ->
  yield fuel (fst (run cs)) root (Some (top t)) wp we = Ok (filter (wanted neqb no_tokens all_punct cs wp we) (leaves t)).
Proof. intros H1 H2. exact (@run_yield_tree N A W neqb neq aeqb aeq label_key tokens_key lt_neq no_tokens all_punct truthy cs H1 H2 wp we t root fuel). Qed.
Theorem terminal_yield_unknown_node cs wp we n root fuel : possible_history cs ->
  truthy n = true -> ~ In n (all_nodes (fst (sum cs))) -> 1 <= fuel -> yield fuel (fst (run cs)) root (Some n) wp we = Err KeyError.
Proof. intros H1. exact (@run_yield_unknown N A W neqb neq aeqb aeq label_key tokens_key lt_neq no_tokens all_punct truthy cs H1 wp we n root fuel). Qed.
(** Without n the root is used; also when n is a falsy object such as 0 or "". *)
Theorem terminal_yield_default cs wp we n root fuel :
  (truthy n = false -> yield fuel (fst (run cs)) root (Some n) wp we = yield fuel (fst (run cs)) root None wp we) /\
  (truthy n = true -> yield fuel (fst (run cs)) (Some n) None wp we = yield fuel (fst (run cs)) None (Some n) wp we).
Proof.
  exact (conj (@run_yield_root N A W neqb aeqb label_key tokens_key no_tokens all_punct truthy cs wp we n root fuel)
              (@run_yield_no_n N A W neqb aeqb label_key tokens_key no_tokens all_punct truthy cs wp we n fuel)).
Qed.
(** terminals() keeps exactly the terminals, in node order. *)
Theorem terminals_exact cs wp we : possible_history cs -> no_shared cs ->
  exists f, terminals neqb aeqb tokens_key no_tokens all_punct (fst (run cs)) wp we = Ok (filter f (all_nodes (fst (sum cs)))) /\
    forall n, f n = true <-> terminal neqb no_tokens all_punct (fst (sum cs)) cs wp we n.
Proof.
  intros H1 H2. eexists. split.
  - exact (@run_terminals N A W neqb neq aeqb aeq label_key tokens_key lt_neq no_tokens all_punct cs H1 H2 wp we).
  - intros n. unfold terminal. cbn beta. destruct (targets neqb (fst (sum cs)) n); intuition discriminate.
Qed.
(** non_terminals() cannot be used: it always raises on a graph with nodes. *)
Theorem non_terminals_always_fails cs : possible_history cs ->
  all_nodes (fst (sum cs)) <> [] -> non_terminals (fst (run cs)) = Err AttributeError.
Proof. intros H. exact (@run_non_terminals N A W neqb neq aeqb aeq label_key tokens_key lt_neq cs H). Qed.
End Props.

(** Attribute dicts of the caller are kept, not copied: the label of a node is not the one given to it
    last when one dict is used for two nodes. *)
Theorem graph_node_attributes_shared_dict_refuted :
  exists cs : list (gcall nat nat nat),
    Forall (possible 0 1) cs /\ last_node Nat.eqb 7 cs = Some (10, 20) /\
    node_attr Nat.eqb Nat.eqb (fst (g_run Nat.eqb Nat.eqb 0 1 (empty_graph nat nat nat) cs)) 7 0 = Ok 11.
Proof.
  exists [GNewDict []; GAddNode 7 10 20 (Some 0) []; GAddNode 8 11 21 (Some 0) []].
  split; [|split; reflexivity].
  repeat constructor; cbn; tauto.
Qed.

Print Assumptions graph_nodes_in_insertion_order.
Print Assumptions graph_rows_in_insertion_order.
Print Assumptions graph_rows_no_duplicates.
Print Assumptions graph_edge_sides_agree.
Print Assumptions graph_node_attributes_last_given.
Print Assumptions terminal_yield_exact.
Print Assumptions terminal_yield_tree_order.
Print Assumptions terminal_yield_unknown_node.
Print Assumptions terminal_yield_default.
Print Assumptions terminals_exact.
Print Assumptions non_terminals_always_fails.
Print Assumptions graph_node_attributes_shared_dict_refuted.

(** A history meeting the hypotheses: a tree 1 -> (2 -> (4, 5), 3) with a re-inserted edge, a failing call
    and a second label for node 3. *)
Definition ex_history : list (gcall nat nat nat) :=
  [GAddNode 1 100 0 None []; GAddNode 2 101 0 None []; GAddNode 3 102 5 None [];
   GAddNode 4 103 6 None []; GAddNode 5 104 9 None []; GNewDict [];
   GAddEdge 1 2 50 (Some 0) [(9, 9)]; GAddEdges [(1, 3, []); (2, 4, [(0, 77)]); (2, 9, []); (2, 5, [])] 51 None [];
   GAddEdge 2 5 52 None []; GAddEdge 1 2 53 None []; GAddNode 3 110 5 None []].
Example ex_history_possible : Forall (possible 0 1) ex_history /\ Forall (@no_shared_dict nat nat nat) ex_history.
Proof. split; repeat constructor; cbn; intuition discriminate. Qed.
Example ex_history_runs :
  let g := g_run Nat.eqb Nat.eqb 0 1 (empty_graph nat nat nat) ex_history in
  snd g = [None; None; None; None; None; None; None; Some ValueError; None; None; None] /\
  successors Nat.eqb (fst g) 1 = Ok [2; 3] /\ edge_attr Nat.eqb Nat.eqb (fst g) 1 2 0 = Ok 53 /\
  edge_attr Nat.eqb Nat.eqb (fst g) 2 4 0 = Ok 77 /\ node_attr Nat.eqb Nat.eqb (fst g) 3 0 = Ok 110 /\
  terminal_yield Nat.eqb Nat.eqb 1 (Nat.eqb 0) (Nat.eqb 9) (fun n => negb (n =? 0)) 10 (fst g) (Some 1) None true true = Ok [4; 5; 3] /\
  terminal_yield Nat.eqb Nat.eqb 1 (Nat.eqb 0) (Nat.eqb 9) (fun n => negb (n =? 0)) 10 (fst g) (Some 1) None false true = Ok [4; 3].
Proof. repeat split. Qed.
Example ex_history_tree :
  let s := fst (@summary_of nat nat nat Nat.eqb Nat.eqb 0 (nothing nat nat) ex_history) in
  let t := T 1 [T 2 [T 4 []; T 5 []]; T 3 []] in
  hangs Nat.eqb s t /\ incl (labels t) (all_nodes s) /\ NoDup (labels t) /\ leaves t = [4; 5; 3].
Proof.
  split; [|split; [|split]].
  - repeat (constructor; try reflexivity).
  - cbn. intros x; cbn; intuition.
  - cbn. repeat constructor; cbn; intuition discriminate.
  - reflexivity.
Qed.
