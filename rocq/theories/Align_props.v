(** C25-C26: node alignment in graph pairs (daeso.pgc.graphpair) *)
From Verif Require Import Py Align_model Align_spec Align_proof.

(** C25/C26. After any history of add_align / del_align calls on a new GraphPair, get_align
    answers exactly like the abstract one-to-one alignment: aligning (s,t) ends the previous
    alignments of s and of t and touches nothing else; deleting (s,t) touches nothing else. *)
Theorem graphpair_history_refines_realignment :
  forall (N R : Type) (neqb : N -> N -> bool), (forall x y, neqb x y = true <-> x = y) ->
  forall (ops : list (op N R)) (s t : N),
  get_align neqb (run_matching neqb (empty_digraph N R) ops) s t =
  fold_left (matching_spec neqb) ops (@no_alignment N R) s t.
Proof. exact matching_refines. Qed.
Print Assumptions graphpair_history_refines_realignment.

(** C25. No node ever has two partners. *)
Theorem graphpair_always_one_to_one :
  forall (N R : Type) (neqb : N -> N -> bool), (forall x y, neqb x y = true <-> x = y) ->
  forall ops : list (op N R),
  one_to_one (get_align neqb (run_matching neqb (empty_digraph N R) ops)).
Proof. exact matching_one_to_one. Qed.
Print Assumptions graphpair_always_one_to_one.

(** C25. In every reachable state add_align succeeds, and del_align succeeds exactly on existing
    alignments and raises NetworkXError otherwise. *)
Theorem graphpair_operations_outcome :
  forall (N R : Type) (neqb : N -> N -> bool), (forall x y, neqb x y = true <-> x = y) ->
  forall (ops : list (op N R)) (s t : N) (r : R),
  let g := run_matching neqb (empty_digraph N R) ops in
  (exists g', matching_add_align neqb g s t r = Ok g') /\
  (get_align neqb g s t = None -> del_align neqb g s t = Err NetworkXError) /\
  (get_align neqb g s t <> None -> exists g', del_align neqb g s t = Ok g').
Proof. exact matching_outcome. Qed.
Print Assumptions graphpair_operations_outcome.

(** C26. alignments() lists each alignment once, filtered by the given relations; the stored nodes are
    exactly the aligned ones (deletion leaves no isolated node). *)
Theorem graphpair_alignments_listing :
  forall (N R : Type) (neqb : N -> N -> bool) (reqb : R -> R -> bool),
  (forall x y, neqb x y = true <-> x = y) -> (forall x y, reqb x y = true <-> x = y) ->
  forall (ops : list (op N R)) (rels : list R),
  let g := run_matching neqb (empty_digraph N R) ops in
  NoDup (map fst (alignments reqb g rels)) /\
  (forall s t r, In ((s, t), r) (alignments reqb g rels) <->
     (get_align neqb g s t = Some r /\ (rels = [] \/ In r rels))) /\
  align_len g = length (alignments reqb g []) /\
  NoDup (nodes g) /\
  (forall n, In n (nodes g) <->
     exists m r, get_align neqb g n m = Some r \/ get_align neqb g m n = Some r).
Proof. exact matching_listing. Qed.
Print Assumptions graphpair_alignments_listing.

(** C26. The partner queries agree with get_align. *)
Theorem graphpair_partner_queries :
  forall (N R : Type) (neqb : N -> N -> bool), (forall x y, neqb x y = true <-> x = y) ->
  forall (ops : list (op N R)) (n m : N),
  let g := run_matching neqb (empty_digraph N R) ops in
  (get_aligned_target_node neqb g n = Some m <-> exists r, get_align neqb g n m = Some r) /\
  (get_aligned_source_node neqb g n = Some m <-> exists r, get_align neqb g m n = Some r).
Proof. exact aligned_nodes. Qed.
Print Assumptions graphpair_partner_queries.

(** C26 for the unrestricted GraphMapping. *)
Theorem graphmapping_history_refines_alignment :
  forall (N R : Type) (neqb : N -> N -> bool), (forall x y, neqb x y = true <-> x = y) ->
  forall (ops : list (op N R)) (s t : N),
  get_align neqb (run_mapping neqb (empty_digraph N R) ops) s t =
  fold_left (mapping_spec neqb) ops (@no_alignment N R) s t.
Proof. exact mapping_refines. Qed.
Print Assumptions graphmapping_history_refines_alignment.

Theorem graphmapping_alignments_listing :
  forall (N R : Type) (neqb : N -> N -> bool) (reqb : R -> R -> bool),
  (forall x y, neqb x y = true <-> x = y) -> (forall x y, reqb x y = true <-> x = y) ->
  forall (ops : list (op N R)) (rels : list R),
  let g := run_mapping neqb (empty_digraph N R) ops in
  NoDup (map fst (alignments reqb g rels)) /\
  (forall s t r, In ((s, t), r) (alignments reqb g rels) <->
     (get_align neqb g s t = Some r /\ (rels = [] \/ In r rels))) /\
  (forall n, In n (nodes g) <->
     exists m r, get_align neqb g n m = Some r \/ get_align neqb g m n = Some r).
Proof. exact mapping_listing. Qed.
Print Assumptions graphmapping_alignments_listing.

(** C26. Two graph pairs (mappings) compare equal in their alignments exactly when get_align agrees
    everywhere, whatever histories produced them. *)
Theorem alignments_equal_iff_same_alignments :
  forall (N R : Type) (neqb : N -> N -> bool) (reqb : R -> R -> bool),
  (forall x y, neqb x y = true <-> x = y) -> (forall x y, reqb x y = true <-> x = y) ->
  forall ops1 ops2 : list (op N R),
  let g := run_matching neqb (empty_digraph N R) ops1 in
  let h := run_matching neqb (empty_digraph N R) ops2 in
  alignments_equal neqb reqb g h = true <-> forall s t, get_align neqb g s t = get_align neqb h s t.
Proof. exact equal_histories_matching. Qed.
Print Assumptions alignments_equal_iff_same_alignments.
Theorem mapping_alignments_equal_iff_same_alignments :
  forall (N R : Type) (neqb : N -> N -> bool) (reqb : R -> R -> bool),
  (forall x y, neqb x y = true <-> x = y) -> (forall x y, reqb x y = true <-> x = y) ->
  forall ops1 ops2 : list (op N R),
  let g := run_mapping neqb (empty_digraph N R) ops1 in
  let h := run_mapping neqb (empty_digraph N R) ops2 in
  alignments_equal neqb reqb g h = true <-> forall s t, get_align neqb g s t = get_align neqb h s t.
Proof. exact equal_histories. Qed.
Print Assumptions mapping_alignments_equal_iff_same_alignments.

(** A concrete history: source and target nodes share the names 1, 2, 3. *)
Example graphpair_ex :
  let g := run_matching Nat.eqb (empty_digraph nat nat)
     [Add 1 1 7; Add 2 3 8; Add 1 3 9; Del _ 5 5; Add 3 2 7] in
  alignments Nat.eqb g [] = [((1,3),9); ((3,2),7)] /\ nodes g = [3; 1; 2] /\
  get_align Nat.eqb g 2 3 = None.
Proof. vm_compute; auto. Qed.

(** C26. [roots_aligned] is meant to say whether the two root nodes are aligned.  It does not:
    it looks up the source root on both sides (graphpair.py 322-324). *)
Theorem roots_aligned_refuted :
  exists (g : digraph nat nat) (ops : list (op nat nat)) (source_root target_root : nat),
    g = run_matching Nat.eqb (empty_digraph nat nat) ops /\
    get_align Nat.eqb g source_root target_root <> None /\
    roots_aligned Nat.eqb g source_root target_root = false.
Proof.
  exists (run_matching Nat.eqb (empty_digraph nat nat) [Add 1 2 0]), [Add 1 2 0], 1, 2.
  split; [reflexivity|]. split; [vm_compute; discriminate|reflexivity].
Qed.
Print Assumptions roots_aligned_refuted.
(** What it does compute, for every history. *)
Theorem roots_aligned_actual :
  forall (N R : Type) (neqb : N -> N -> bool) (g : digraph N R) (sr tr : N),
  roots_aligned neqb g sr tr = true <-> exists r, get_align neqb g sr sr = Some r.
Proof. intros N R neqb g sr tr. exact (has_edge_ga neqb g sr sr). Qed.
Print Assumptions roots_aligned_actual.
