(** Reading graph banks in GraphML format: theorems.  The model is Graphml_model.v, the specification
    Graphml_spec.v.  [ids] is the dict given by the graph bank (ids with None if a graph is to be looked for),
    [gs] the graph objects that exist already; graph objects are named by their number. *)
From Coq Require Import String Ascii.
From Verif Require Import Py PyLemmas Create_spec Create_model Create_proof Sparse_spec Sparse_model Graphml_spec Graphml_model Graphml_proof.
Set Implicit Arguments.
Open Scope string_scope. Open Scope list_scope. Open Scope nat_scope.

Section Props.
Variable char : Type.
Variables space is_blank : char -> bool.
Notation parse_file := (Graphml_model.parse_file space is_blank).
Implicit Types (ids : list (string * option nat)) (gs : list (dgraph char)) (d : document char).

(** Everything asked for can be read. *)
Definition acceptable (sparse : bool) ids d : Prop :=
  keys_ok (doc_keys d) /\
  (forall g, In g (doc_graphs d) -> wanted sparse (dkeys ids) g = true -> attribute (g_attrs g) "id" <> None /\ graph_ok (doc_keys d) g) /\
  (sparse = true -> forall i, dget String.eqb ids i = Some None -> exists g, In g (doc_graphs d) /\ attribute (g_attrs g) "id" = Some i).

(** A file is read exactly if it is acceptable. *)
Theorem parse_succeeds sparse ids gs d : NoDup (dkeys ids) ->
  (exists p, parse_file sparse ids gs (events d) = Ok p) <-> acceptable sparse ids d.
Proof.
  intros N. pose proof (parse_ok space is_blank sparse ids gs d N) as P. unfold acceptable. destruct (parse_file sparse ids gs (events d)) as [p|e].
  - destruct P as (P & _). split; [intros _; exact P|eauto].
  - destruct P as (_ & P). split; [intros (p & X); discriminate|]. intros X. destruct (P X).
Qed.
Theorem parse_errors sparse ids gs d e : NoDup (dkeys ids) ->
  parse_file sparse ids gs (events d) = Err e -> In e [KeyError; DaesoError; TypeError; ValueError] /\ ~ acceptable sparse ids d.
Proof. intros N E. pose proof (parse_ok space is_blank sparse ids gs d N) as P. rewrite E in P. exact P. Qed.

(** One new object for each wanted element, in file order, and it shows what the element says. *)
Theorem parse_graphs sparse ids gs d p : NoDup (dkeys ids) -> parse_file sparse ids gs (events d) = Ok p ->
  exists words pieces os, (forall t, has_words space t (words t)) /\ (forall t, has_pieces is_blank t (pieces t)) /\
    graphs p = gs ++ os /\ Forall2 (depicts (doc_keys d) words pieces) (filter (wanted sparse (dkeys ids)) (doc_graphs d)) os.
Proof.
  intros N E. pose proof (parse_ok space is_blank sparse ids gs d N) as P. rewrite E in P. destruct P as (_ & os & F & G & _).
  exists (split space), (pieces is_blank), os. split; [apply split_ok|]. split; [apply pieces_ok|]. auto.
Qed.

(** The dict then gives for every id the object of the last wanted element with that id. *)
Theorem parse_lookup sparse ids gs d p : NoDup (dkeys ids) -> parse_file sparse ids gs (events d) = Ok p ->
  exists words pieces, (forall t, has_words space t (words t)) /\ (forall t, has_pieces is_blank t (pieces t)) /\ forall i,
    match last_elem (filter (wanted sparse (dkeys ids)) (doc_graphs d)) i with
    | Some g => exists n o, dget String.eqb (id2graph p) i = Some (Some n) /\ nth_error (graphs p) n = Some o /\ length gs <= n /\ depicts (doc_keys d) words pieces g o
    | None => dget String.eqb (id2graph p) i = dget String.eqb ids i
    end.
Proof.
  intros N E. pose proof (parse_ok space is_blank sparse ids gs d N) as P. rewrite E in P. destruct P as (_ & os & F & G & I2).
  exists (split space), (pieces is_blank). split; [apply split_ok|]. split; [apply pieces_ok|]. intros i. rewrite G, I2. apply (register_get F).
Qed.

(** Sparse loading finds for a requested id the same element as full loading. *)
Theorem sparse_like_full ids gs gs' d p q i : NoDup (dkeys ids) -> parse_file true ids gs (events d) = Ok p -> parse_file false [] gs' (events d) = Ok q ->
  dget String.eqb ids i = Some None ->
  exists words pieces g n o m o', (forall t, has_words space t (words t)) /\ (forall t, has_pieces is_blank t (pieces t)) /\ In g (doc_graphs d) /\
    dget String.eqb (id2graph p) i = Some (Some n) /\ nth_error (graphs p) n = Some o /\ depicts (doc_keys d) words pieces g o /\
    dget String.eqb (id2graph q) i = Some (Some m) /\ nth_error (graphs q) m = Some o' /\ depicts (doc_keys d) words pieces g o'.
Proof.
  intros N E E' H. pose proof (parse_ok space is_blank true ids gs d N) as P. rewrite E in P. destruct P as ((_ & _ & R) & os & F & G & I2).
  pose proof (parse_ok space is_blank false [] gs' d (NoDup_nil _)) as Q. rewrite E' in Q. destruct Q as (_ & os' & F' & G' & I2').
  pose proof (register_get F ids gs i) as RP. pose proof (register_get F' [] gs' i) as RQ.
  rewrite last_elem_wanted in RP by (apply (dget_some_in _ seqb_spec); eauto).
  replace (filter (wanted false (dkeys [])) (doc_graphs d)) with (doc_graphs d) in RQ.
  2: { clear. induction (doc_graphs d) as [|g l IH]; cbn; auto. now f_equal. }
  destruct (last_elem (doc_graphs d) i) as [g|] eqn:LE.
  - destruct RP as (n & o & A1 & A2 & _ & A3). destruct RQ as (m & o' & B1 & B2 & _ & B3).
    exists (split space), (pieces is_blank), g, n, o, m, o'. split; [apply split_ok|]. split; [apply pieces_ok|].
    split.
    { clear - LE. induction (doc_graphs d) as [|h l IH]; [discriminate|]. cbn in LE. destruct (last_elem l i) as [x|].
      - injection LE as ->. right. auto.
      - destruct (attribute (g_attrs h) "id"); [|discriminate]. destruct (String.eqb s i); [injection LE as ->; cbn; auto|discriminate]. }
    rewrite G, I2, G', I2'. auto 10.
  - exfalso. destruct (R eq_refl i H) as (g & Hg & Eg). eapply last_elem_none in LE; eauto.
Qed.

(** An unwanted graph is skipped completely, whatever it contains. *)
Theorem unwanted_skipped ids gs a0 (ks : list (key_elem char)) gl gl' a evs :
  match attribute a "id" with Some i => ~ In i (dkeys ids) | None => True end -> enclosed evs ->
  match parse_file true ids gs (Start "graphml" a0 :: flat_map (@key_events char) ks ++ flat_map (@graph_events char) gl ++ flat_map (@graph_events char) gl' ++ [End_ "graphml"]),
        parse_file true ids gs (Start "graphml" a0 :: flat_map (@key_events char) ks ++ flat_map (@graph_events char) gl ++
                                (Start "graph" a :: evs ++ [End_ "graph"]) ++ flat_map (@graph_events char) gl' ++ [End_ "graphml"]) with
  | Ok p, Ok q => graphs q = graphs p /\ id2graph q = id2graph p
  | Err e, Err e' => e = e'
  | _, _ => False
  end.
Proof. apply unwanted_out. Qed.

(** The layout of the file does not matter. *)
Theorem layout_irrelevant sparse ids gs d evs : same_file (body_events d ++ [End_ "graphml"]) evs ->
  match parse_file sparse ids gs (events d), parse_file sparse ids gs (Start "graphml" (doc_attrs d) :: evs) with
  | Ok p, Ok q => graphs q = graphs p /\ id2graph q = id2graph p
  | Err e, Err e' => e = e'
  | _, _ => False
  end.
Proof. apply layout. Qed.

(** Finding: <default> elements have no effect at all. *)
Theorem defaults_ignored sparse ids gs d ks' : Forall2 (fun k k' => k_attrs k = k_attrs k') (doc_keys d) ks' ->
  match parse_file sparse ids gs (events d), parse_file sparse ids gs (events {| doc_attrs := doc_attrs d; doc_keys := ks'; doc_graphs := doc_graphs d |}) with
  | Ok p, Ok q => graphs q = graphs p /\ id2graph q = id2graph p
  | Err e, Err e' => e = e'
  | _, _ => False
  end.
Proof. apply defaults_unused. Qed.

(** Finding: unless a key of graphs is named "graph", no graph gets a root. *)
Theorem root_never_set sparse ids gs d p n o : NoDup (dkeys ids) -> parse_file sparse ids gs (events d) = Ok p ->
  (forall id, key_name (doc_keys d) "graph" id <> Some "graph") -> length gs <= n -> nth_error (graphs p) n = Some o -> root o = None.
Proof.
  intros N E K L H. pose proof (parse_ok space is_blank sparse ids gs d N) as P. rewrite E in P. destruct P as (_ & os & F & G & I2).
  rewrite G in H. rewrite nth_error_app2 in H by lia. revert H. generalize (n - length gs) as m. clear - F K. induction F as [|g x gl os D F IH]; intros [|m] H; cbn in H; try discriminate.
  - injection H as <-. eapply no_root; eauto.
  - eauto.
Qed.

(** Finding: parse_string never returns in sparse mode. *)
Theorem parse_string_sparse ids gs (evs : list (event char)) p : parse_string space is_blank true ids gs evs <> Ok p.
Proof. unfold parse_string. destruct (foldM _ _ _); cbn; discriminate. Qed.
Theorem parse_string_full ids gs (evs : list (event char)) : parse_string space is_blank false ids gs evs = parse_file false ids gs evs.
Proof. reflexivity. Qed.

(** The file reader that Sparse_model takes for granted. *)
Theorem sparse_model_agrees wanted_ids gs d p : NoDup wanted_ids -> parse_file true (map (fun i => (i, None)) wanted_ids) gs (events d) = Ok p ->
  exists os, Forall2 (fun g o => attribute (g_attrs g) "id" = Some (id_ o)) (filter (wanted true wanted_ids) (doc_graphs d)) os /\
    Sparse_model.parse_file wanted_ids (map (fun o => (id_ o, o)) os) gs = (graphs p, id2graph p).
Proof.
  intros N E. assert (DK : dkeys (map (fun i : string => (i, None : option nat)) wanted_ids) = wanted_ids).
  { unfold dkeys. rewrite map_map. cbn. apply map_id. }
  pose proof (parse_ok space is_blank true (map (fun i => (i, None)) wanted_ids) gs d) as P. rewrite DK in P. specialize (P N). rewrite E in P.
  destruct P as (_ & os & F & G & I2). exists os. split.
  { clear - F. induction F as [|g o gl os D F IH]; constructor; auto. apply (d_id D). }
  unfold Sparse_model.parse_file. rewrite G, I2.
  assert (W : forall o, In o os -> In (id_ o) wanted_ids).
  { intros o Ho. assert (Q : forall gl, Forall2 (depicts (doc_keys d) (split space) (pieces is_blank)) gl os -> (forall g, In g gl -> wanted true wanted_ids g = true) -> In (id_ o) wanted_ids).
    { clear F G I2. intros gl F. induction F as [|g o' gl os D F IH]; intros W; [destruct Ho|]. destruct Ho as [->|Ho].
      - specialize (W g (or_introl eq_refl)). unfold wanted in W. cbn in W. rewrite (d_id D) in W. now apply (mem_spec _ seqb_spec) in W.
      - apply IH; auto. intros; apply W; cbn; auto. }
    eapply Q; eauto. intros g Hg. apply filter_In in Hg. tauto. }
  clear F G I2 E. revert W. cut (forall ids gs0, dkeys ids = wanted_ids -> (forall o, In o os -> In (id_ o) wanted_ids) ->
    fold_left (fun acc x => if dhas String.eqb (snd acc) (fst x) then (fst acc ++ [snd x], dset String.eqb (snd acc) (fst x) (Some (length (fst acc)))) else acc) (map (fun o => (id_ o, o)) os) (gs0, ids) =
    (gs0 ++ os, register ids (length gs0) os)). { intros X W. now apply X. }
  induction os as [|o os IH]; intros ids gs0 D W; cbn [map fold_left register fst snd].
  - now rewrite app_nil_r.
  - assert (I : In (id_ o) (dkeys ids)) by (rewrite D; apply W; cbn; auto).
    replace (dhas String.eqb ids (id_ o)) with true.
    2: { unfold dhas. apply (dget_some_in _ seqb_spec) in I as (v & ->). reflexivity. }
    rewrite IH.
    + rewrite app_length, Nat.add_1_r, <- app_assoc. reflexivity.
    + rewrite (dkeys_set _ seqb_spec). apply (mem_spec _ seqb_spec) in I. now rewrite I.
    + intros; apply W; cbn; auto.
Qed.
End Props.

(** Example. *)
Definition chars (s : string) : list ascii := list_ascii_of_string s.
Definition sp (c : ascii) : bool := Ascii.eqb c " ".
Definition key f i n : key_elem ascii := {| k_attrs := [("for", f); ("id", i); ("attr.name", n)]; k_default := None |}.
Definition dat k s : data ascii := ([("key", k)], chars s).
Definition nodee i l t : item ascii := Node [("id", i)] [dat "l" l; dat "t" t].
Definition the_keys := [key "all" "l" "label"; key "node" "t" "tokens"; key "graph" "t" "tokens"; key "graph" "r" "root"; key "edge" "w" "weight"].
Definition g1 : graph_elem ascii :=
  {| g_attrs := [("id", "g1")];
     g_items := [Data (dat "t" "the dog barks"); Data (dat "r" "n1"); nodee "n1" "s" "the dog barks"; nodee "n2" "np" "the dog"; Edge [("source", "n1"); ("target", "n2")] [dat "l" "su"; dat "w" "3"]] |}.
Definition g2 : graph_elem ascii := {| g_attrs := [("id", "g2")]; g_items := [Edge [] []] |}.
Definition doc gl : document ascii := {| doc_attrs := []; doc_keys := the_keys; doc_graphs := gl |}.
Definition parse sparse ids d := Graphml_model.parse_file sp sp sparse ids [] (events d).

Example example_sparse : exists o p, parse true [("g1", None)] (doc [g2; g1]) = Ok p /\ graphs p = [o] /\ id2graph p = [("g1", Some 0)] /\
  tokens o = Some [chars "the"; chars "dog"; chars "barks"] /\ dkeys (succ o) = [Some "n1"; Some "n2"] /\
  dget name_eqb (succ o) (Some "n1") = Some [(Some "n2", [("label", VText (chars "su")); ("weight", VText (chars "3"))])].
Proof. eexists. eexists. split; [vm_compute; reflexivity|]. repeat split. Qed.
Example example_full_error : parse false [] (doc [g2; g1]) = Err KeyError.
Proof. reflexivity. Qed.
Example example_missing : parse true [("g3", None)] (doc [g2; g1]) = Err DaesoError.
Proof. reflexivity. Qed.
Example example_acceptable : acceptable true [("g1", None)] (doc [g2; g1]).
Proof. apply (@parse_succeeds ascii sp sp true [("g1", None)] [] (doc [g2; g1])); [constructor; [cbn; auto|constructor]|]. eexists. vm_compute. reflexivity. Qed.

(** Finding: the root given in the file is not used. *)
Theorem root_refuted : ~ (forall d p o g t, parse false [] d = Ok p -> doc_graphs d = [g] -> graphs p = [o] ->
  last_value (assignments (doc_keys d) (split sp) (pieces sp) g) OGraph "root" = Some (VText t) -> root o = Some (VText t)).
Proof.
  intros H. assert (X : exists p o, parse false [] (doc [g1]) = Ok p /\ graphs p = [o] /\ root o = None).
  { eexists. eexists. split; [vm_compute; reflexivity|]. split; reflexivity. }
  destruct X as (p & o & E & G & R). specialize (H (doc [g1]) p o g1 (chars "n1") E eq_refl G eq_refl). congruence.
Qed.

(** Finding: data of a graph that come after an edge are given to that edge. *)
Definition g3 : graph_elem ascii :=
  {| g_attrs := [("id", "g3")];
     g_items := [Data (dat "t" "the dog"); nodee "n1" "s" "the dog"; Edge [("source", "n1"); ("target", "n1")] []; Data (dat "r" "n1")] |}.
Theorem late_data_refuted : exists p o, parse false [] (doc [g3]) = Ok p /\ graphs p = [o] /\ dget String.eqb (attrs o) "root" = None /\
  dget name_eqb (succ o) (Some "n1") = Some [(Some "n1", [("label", VNone); ("root", VText (chars "n1"))])].
Proof. eexists. eexists. split; [vm_compute; reflexivity|]. repeat split. Qed.

(** Layout of the example: white space and a <desc> element. *)
Example example_layout : exists evs, same_file (body_events (doc [g1]) ++ [End_ "graphml"]) evs /\ evs <> body_events (doc [g1]) ++ [End_ "graphml"] /\
  exists p, Graphml_model.parse_file sp sp false [] [] (Start "graphml" [] :: evs) = Ok p.
Proof.
  exists ([Chars (chars " "); Start "desc" []; Chars (chars "x"); End_ "desc"] ++ body_events (doc [g1]) ++ [End_ "graphml"]).
  split; [|split; [vm_compute; discriminate|eexists; vm_compute; reflexivity]].
  change (body_events (doc [g1]) ++ [End_ "graphml"]) with (Start "key" (k_attrs (key "all" "l" "label")) :: tl (body_events (doc [g1]) ++ [End_ "graphml"])).
  apply sf_start; [|apply same_file_refl]. constructor. apply (@ml_elem ascii "desc" [] [Chars (chars "x")] []); [cbn; intuition discriminate| |repeat constructor|constructor].
  intros a b E. destruct a as [|c1 [|c2 [|c3 [|c4 [|c5 a]]]]]; discriminate.
Qed.

Print Assumptions parse_succeeds.
Print Assumptions parse_errors.
Print Assumptions parse_graphs.
Print Assumptions parse_lookup.
Print Assumptions sparse_like_full.
Print Assumptions unwanted_skipped.
Print Assumptions layout_irrelevant.
Print Assumptions defaults_ignored.
Print Assumptions root_never_set.
Print Assumptions parse_string_sparse.
Print Assumptions sparse_model_agrees.
Print Assumptions root_refuted.
Print Assumptions late_data_refuted.
Print Assumptions parse_string_full.
