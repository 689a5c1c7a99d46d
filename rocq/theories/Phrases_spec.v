(** What the table of aligned phrases of a corpus is (bin/pgc_extract_phrases.py). *)
From Verif Require Import Py Ngram_spec.
Set Implicit Arguments.
Section Spec.
Variable char : Type.
Variables blank newline : char.
Notation text := (list char).
(** A graph: its id and the tokens of its nodes (KeyError for an unknown node or a node without tokens, None for
    missing tokens).  A graph pair: the paths of its graphbanks, its graphs and its alignments in the order
    in which they are stored, a pair of nodes with the relation (None if missing). *)
Record graph := { g_id : text; tokens : text -> res (option (list text)) }.
Record gpair := { source_path : text; target_path : text; source : graph; target : graph; aligned : list ((text * text) * option text) }.

(** A row of the table. *)
Record entry := { r_source_path : text; r_target_path : text; r_source_id : text; r_target_id : text; r_source : text; r_target : text;
                  source_tokens : list text; relation : text; target_tokens : list text }.
(** The row for an alignment in a graph pair; TypeError without tokens or relation. *)
Definition row (p : gpair) (a : (text * text) * option text) : res entry :=
  match tokens (source p) (fst (fst a)), snd a, tokens (target p) (snd (fst a)) with
  | Ok (Some s), Some r, Ok (Some t) =>
      Ok {| r_source_path := source_path p; r_target_path := target_path p; r_source_id := g_id (source p); r_target_id := g_id (target p);
            r_source := fst (fst a); r_target := snd (fst a); source_tokens := s; relation := r; target_tokens := t |}
  | _, _, _ => Err TypeError
  end.
(** All rows of all corpora in order; a file that cannot be read counts as one bad row. *)
Definition rows (files : list (res (list gpair))) : list (res entry) :=
  flat_map (fun f => match f with Err x => [Err x] | Ok c => flat_map (fun p => map (row p) (aligned p)) c end) files.

(** The columns of a row; the tokens of a phrase have one blank between them. *)
Definition columns (verbose : bool) (e : entry) (cols : list text) : Prop :=
  exists s t, joined [blank] (source_tokens e) s /\ joined [blank] (target_tokens e) t /\
    cols = (if verbose then [r_source_path e; r_target_path e; r_source_id e; r_target_id e; r_source e; r_target e] else []) ++ [s; relation e; t].
(** A printed table: a line for each row, in order, with the delimiter between columns. *)
Inductive printed (delimiter : text) (verbose : bool) : list entry -> text -> Prop :=
| printed_nil : printed delimiter verbose [] []
| printed_row e es cols line out : columns verbose e cols -> joined delimiter cols line -> printed delimiter verbose es out ->
    printed delimiter verbose (e :: es) (line ++ newline :: out).

(** Rows that can be told apart: no delimiter or newline in a column, tokens without blanks. *)
Definition clean_token (d : char) (w : text) : Prop := w <> [] /\ ~ In blank w /\ ~ In d w /\ ~ In newline w.
Definition clean_cell (d : char) (w : text) : Prop := ~ In d w /\ ~ In newline w.
Definition clean (d : char) (e : entry) : Prop :=
  Forall (clean_token d) (source_tokens e) /\ clean_cell d (relation e) /\ Forall (clean_token d) (target_tokens e) /\
  clean_cell d (r_source_path e) /\ clean_cell d (r_target_path e) /\ clean_cell d (r_source_id e) /\ clean_cell d (r_target_id e) /\
  clean_cell d (r_source e) /\ clean_cell d (r_target e).
(** What a short table shows of a row. *)
Definition shown (e : entry) : list text * text * list text := (source_tokens e, relation e, target_tokens e).
End Spec.
