(** Vocabulary for copying, packing and unpacking corpora. *)
From Coq Require Import String List Bool.
From Verif Require Import Py Align_model PgcXml_model PgcXml_spec Ship_model.
Import ListNotations.
Set Implicit Arguments.
Open Scope string_scope.
Open Scope list_scope.
(** A file is not also a directory. *)
Definition sound (w : fs) : Prop := forall p, file w p <> None -> isdir w p = false.
(** The bank number b of a corpus: its file and format. *)
Definition bank_of (st : pstate) (b : nat) : option (path * option string) := option_map snd (nth_error (banks st) b).
(** The banks in use by the graph pairs. *)
Definition in_use (st : pstate) (b : nat) : Prop :=
  exists p, In p (c_pairs (result st)) /\ (b = fst (p_banks p) \/ b = snd (p_banks p)).
(** Whenever two banks in use are on the same file, they agree about its format. *)
Definition one_format (st : pstate) : Prop :=
  forall a b p f g, in_use st a -> in_use st b -> bank_of st a = Some (p, f) -> bank_of st b = Some (p, g) -> f = g.
(** The same corpus: relations, meta data (if they have children), and graph pairs in the same order with
    the same graphs, alignments, meta data, and the same bank files. *)
Definition same_corpus (st st' : pstate) : Prop :=
  c_rels (result st') = c_rels (result st) /\
  c_meta (result st') = kept_meta (c_meta (result st)) /\
  List.length (c_pairs (result st')) = List.length (c_pairs (result st)) /\
  forall i p, nth_error (c_pairs (result st)) i = Some p ->
    exists q, nth_error (c_pairs (result st')) i = Some q /\
      p_graphs q = p_graphs p /\
      p_meta q = (if truth (p_meta p) then reread (p_meta p) else Elem "graph_meta_data" [] None []) /\
      (forall s t, get_align String.eqb (p_align q) s t = get_align String.eqb (p_align p) s t) /\
      bank_of st' (fst (p_banks q)) = bank_of st (fst (p_banks p)) /\
      bank_of st' (snd (p_banks q)) = bank_of st (snd (p_banks p)).
(** A corpus as read from a file in good order: no reserved tags inside meta data, no empty relations. *)
Definition orderly (st : pstate) : Prop :=
  (forall m, c_meta (result st) = Some m -> Forall plain (kids m)) /\
  (forall p, In p (c_pairs (result st)) -> Forall plain (kids (p_meta p))) /\
  Forall (fun r => r <> "") (c_rels (result st)).
(** Its banks can be written down in directory d: paths whose text there neither starts nor ends with white
    space, and formats that are not empty. *)
Definition presentable (d : path) (st : pstate) : Prop :=
  forall b, in_use st b -> exists p f, bank_of st b = Some (p, Some f) /\ f <> "" /\ stripped (file_text false d p).
(** Of any two files of banks in use, both exist or they are one and the same. *)
Definition comparable (w : fs) (st : pstate) : Prop :=
  forall a b p q f g, in_use st a -> in_use st b -> bank_of st a = Some (p, f) -> bank_of st b = Some (q, g) ->
    p = q \/ exists_at w p = true /\ exists_at w q = true.
Section Cp.
Variable rleb : string -> string -> bool.
(** Where the copy of a source goes. *)
Definition goes_to (w : fs) (target source : path) : path :=
  if isdir w target then target ++ [last source ""] else target.
(** What pgc_cp is to say about a source: nothing if it is copied. *)
Definition complaint (overwrite : bool) (w : fs) (target source : path) : list warning :=
  match file w source, isdir w source with
  | None, false => [Missing source]
  | None, true | Some (Other _), _ => [Invalid source]
  | Some (Xml e), _ =>
      match parse rleb (removelast source) e with
      | Err _ => [Invalid source]
      | Ok _ =>
          let t := goes_to w target source in
          if path_eqb source t then [Same_file source]
          else if exists_at w t && negb overwrite then [Exists t]
          else []
      end
  end.
End Cp.
Section Zip.
Variable rleb : string -> string -> bool.
(** The files that belong into the archive: the corpora and the bank files in use by them. *)
Definition packed (w : fs) (corpora : list path) (f : path) : Prop :=
  In f corpora \/
  exists c e st b x, In c corpora /\ file w c = Some (Xml e) /\ parse rleb (removelast c) e = Ok st /\ in_use st b /\ bank_of st b = Some (f, x).
(** The <file> elements of a document, in the order of their end tags. *)
Fixpoint files (e : elem) : list elem :=
  match e with Elem t _ _ k => flat_map files k ++ (if String.eqb t "file" then [e] else []) end.
(** The path in bank number b, as it is written. *)
Definition written_path (e : elem) (b : nat) (s : string) : Prop :=
  exists x t, nth_error (files e) b = Some x /\ text x = Some t /\ strip t = s.
(** A path that ends in a name (not in a slash or in dots). *)
Definition names_file (s : string) : Prop := component (last (split_path s) "").
End Zip.
(** A document without any of the tags of the format is read as the empty corpus. *)
Definition empty_corpus : elem :=
  Elem "parallel_graph_corpus" [] None [Elem "graphbanks" [] None []; Elem "node_relations" [] None []; Elem "aligned_graphs" [] None []].
(** A text without dots; a text of dots only. *)
Definition dotless (s : string) : Prop := forall x y, s <> (x ++ "." ++ y)%string.
Definition dots (s : string) : Prop := exists n, s = String.concat "" (repeat "." n).
