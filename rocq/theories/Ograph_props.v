(** Property C59: ordered directed graphs built by any history of calls. *)
From Verif Require Import Py PyLemmas Graph_spec Graph_proof Ograph_spec Ograph_model Ograph_proof.
Section Props.
Variables N A W D : Type.
Variable neqb : N -> N -> bool.
Hypothesis neq : forall x y, neqb x y = true <-> x = y.
Variable aeqb : A -> A -> bool.
Hypothesis aeq : forall x y, aeqb x y = true <-> x = y.
Notation run cs := (@Ograph_model.run N A W neqb aeqb (empty_graph N A W) cs).
Notation graph_of cs := (fst (run cs)).
Notation history := (list (ocall N A W)).

(** C59.  A call fails exactly when a bunch of edges has a tuple that is not right (AssertionError for data that is
    no dict, NameError for a wrong length), and the nodes are those mentioned, each once, in order of first mention;
    of a failing bunch the tuples before the wrong one count. *)
Theorem ordered_nodes (cs : history) : are_dicts cs ->
  snd (run cs) = map (@answer N A W) cs /\ nodes (graph_of cs) = firsts neqb (mentioned cs) /\ NoDup (nodes (graph_of cs)).
Proof.
  intros H. destruct (run_empty neqb neq aeqb aeq H) as (g & -> & I & _). split; auto. unfold nodes. cbn [fst]. rewrite (i_nodes I). split; auto. apply (@firsts_nodup N neqb neq).
Qed.
(** Outgoing (incoming) edges come in the order in which they were first inserted; an unknown node is a KeyError. *)
Theorem ordered_edges (cs : history) n : are_dicts cs ->
  (In n (mentioned cs) -> successors neqb (graph_of cs) n = Ok (targets_of neqb cs n) /\ predecessors neqb (graph_of cs) n = Ok (sources_of neqb cs n)) /\
  (~ In n (mentioned cs) -> successors neqb (graph_of cs) n = Err KeyError /\ predecessors neqb (graph_of cs) n = Err KeyError).
Proof. exact (@rows N A W neqb neq aeqb aeq cs n). Qed.
(** An attribute of an edge is the value given last for it, from whichever side it is looked up. *)
Theorem ordered_edge_attributes (cs : history) u v k : are_dicts cs ->
  edge_attr neqb aeqb (graph_of cs) u v k = match edge_value neqb aeqb cs u v k with Some w => Ok w | None => Err KeyError end /\
  edge_attr_back neqb aeqb (graph_of cs) u v k = edge_attr neqb aeqb (graph_of cs) u v k.
Proof. exact (@edge_values N A W neqb neq aeqb aeq cs u v k). Qed.
(** An attribute of a node is the value given last to it or to a node introduced by the same call of add_nodes_from. *)
Theorem ordered_node_attributes (cs : history) n k : are_dicts cs ->
  (forall w, node_attr neqb aeqb (graph_of cs) n k = Ok w <-> last_given aeqb cs n k w) /\
  ((forall w, ~ last_given aeqb cs n k w) -> node_attr neqb aeqb (graph_of cs) n k = Err KeyError).
Proof. exact (@node_values N A W neqb neq aeqb aeq cs n k). Qed.
(** If no call of add_nodes_from introduces two nodes, it is the value given last to the node itself. *)
Theorem ordered_own_attributes (cs : history) n k : are_dicts cs -> one_at_a_time cs ->
  (forall w, node_attr neqb aeqb (graph_of cs) n k = Ok w <-> last_given_itself aeqb cs n k w) /\
  ((forall w, ~ last_given_itself aeqb cs n k w) -> node_attr neqb aeqb (graph_of cs) n k = Err KeyError).
Proof.
  intros H O. destruct (@node_values N A W neqb neq aeqb aeq cs n k H) as [H1 H2]. split.
  - intros w. rewrite H1. exact (@itself N A W neqb neq aeqb cs n k w O).
  - intros X. apply H2. intros w Y. apply (X w). exact (proj1 (@itself N A W neqb neq aeqb cs n k w O) Y).
Qed.
(** A graph cannot be made from data: NameError. *)
Theorem ordered_from_data_refuted (data : D) : new_graph N A W (Some data) = Err NameError /\ new_graph N A W (@None D) = Ok (empty_graph N A W).
Proof. split; reflexivity. Qed.
End Props.

Definition ex : list (ocall nat nat nat) :=
  [ONodes [3; 1] [(0, 5)]; OEdge 4 3 [(0, 1)]; OEdges [Three 4 1 [(0, 2)]; Two 4 3; BadLength; Two 9 9] [(0, 8)]; ONode 1 [(0, 6)]; OEdges [NoDict 1 2] []].
(** Without the hypothesis on add_nodes_from: giving node 1 an attribute gives it to node 3, too. *)
Theorem ordered_own_attributes_refuted : exists (cs : list (ocall nat nat nat)) n k w, are_dicts cs /\
  node_attr Nat.eqb Nat.eqb (fst (@Ograph_model.run nat nat nat Nat.eqb Nat.eqb (empty_graph nat nat nat) cs)) n k = Ok w /\ ~ last_given_itself Nat.eqb cs n k w.
Proof.
  exists [ONodes [3; 1] [(0, 5)]; ONode 1 [(0, 6)]], 3, 0, 6. split; [|split; [reflexivity|]].
  - intros c d [<-|[<-|[]]]; cbn; intros [<-|[]]; repeat constructor; cbn; tauto.
  - intros (pre & c & post & E & G & _). assert (In c [ONodes [3; 1] [(0, 5)]; ONode 1 [(0, 6)]]) as X by (rewrite E, in_app_iff; cbn; auto).
    destruct X as [<-|[<-|[]]]; cbn in G; [destruct G as [_ G]|destruct G as [G _]]; discriminate.
Qed.
Lemma ex_dicts : are_dicts ex.
Proof. intros c d Hc Hd. unfold ex in Hc. cbn in Hc. repeat destruct Hc as [<-|Hc]; try easy; cbn in Hd; repeat destruct Hd as [<-|Hd]; try easy; repeat constructor; cbn; tauto. Qed.
Notation ex_graph := (fst (@Ograph_model.run nat nat nat Nat.eqb Nat.eqb (empty_graph nat nat nat) ex)).
Example ex_ordered : snd (@Ograph_model.run nat nat nat Nat.eqb Nat.eqb (empty_graph nat nat nat) ex) = [None; None; Some NameError; None; Some AssertionError] /\
  nodes ex_graph = [3; 1; 4] /\ successors Nat.eqb ex_graph 4 = Ok [3; 1] /\ successors Nat.eqb ex_graph 9 = Err KeyError /\
  edge_attr Nat.eqb Nat.eqb ex_graph 4 3 0 = Ok 8 /\ edge_attr Nat.eqb Nat.eqb ex_graph 4 1 0 = Ok 2 /\ node_attr Nat.eqb Nat.eqb ex_graph 3 0 = Ok 6.
Proof. repeat split; vm_compute; reflexivity. Qed.
Example ex_one_at_a_time : one_at_a_time (skipn 1 ex) /\ node_attr Nat.eqb Nat.eqb (fst (@Ograph_model.run nat nat nat Nat.eqb Nat.eqb (empty_graph nat nat nat) (skipn 1 ex))) 1 0 = Ok 6.
Proof.
  split; [|vm_compute; reflexivity]. intros pre ns a post n m E _ _ _ _. exfalso. assert (In (ONodes ns a) (skipn 1 ex)) as X by (rewrite E, in_app_iff; cbn; auto).
  cbn in X. repeat destruct X as [X|X]; try discriminate; easy.
Qed.
Print Assumptions ordered_nodes.
Print Assumptions ordered_edges.
Print Assumptions ordered_edge_attributes.
Print Assumptions ordered_node_attributes.
Print Assumptions ordered_own_attributes.
Print Assumptions ordered_from_data_refuted.
Print Assumptions ordered_own_attributes_refuted.
