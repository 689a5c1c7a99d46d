(** Model of bin/pgc_extract_phrases.py.  Texts are lists of characters, without encodings (for a delimiter that
    is not ASCII the program raises UnicodeDecodeError).  Reading the corpora is not modelled: a file gives a
    list of graph pairs or an exception. *)
From Verif Require Import Py Phrases_spec.
Set Implicit Arguments.
Section Phrases.
Variable char : Type.
Variables blank newline : char.
Notation text := (list char).
(** str.join *)
Fixpoint join (sep : text) (l : list text) : text :=
  match l with [] => [] | [x] => x | x :: l => x ++ sep ++ join sep l end.
(** graph/daesograph.py 132-137: get_node_token_string; None if KeyError or TypeError is caught *)
Definition get_node_token_string (g : graph char) (n : text) : option text :=
  match tokens g n with
  | Ok (Some ts) => Some (join [blank] ts)
  | Ok None => None
  | Err _ => None
  end.
(** delimiter.join(columns): TypeError for a column that is None *)
Definition join_columns (delimiter : text) (columns : list (option text)) : res text :=
  cs <- mapM (fun c => match c with Some c => Ok c | None => Err TypeError end) columns ;;
  Ok (join delimiter cs).
(** bin/pgc_extract_phrases.py 48-66: the text printed for the alignments of a graph pair, and the exception if any *)
Fixpoint print_alignments (delimiter : text) (verbose : bool) (p : gpair char) (l : list ((text * text) * option text)) : text * option exc :=
  match l with
  | [] => ([], None)
  | (nodes, relation) :: l =>
      let columns := [get_node_token_string (source p) (fst nodes); relation; get_node_token_string (target p) (snd nodes)] in
      let columns := if verbose then
          [Some (source_path p); Some (target_path p); Some (g_id (source p)); Some (g_id (target p)); Some (fst nodes); Some (snd nodes)] ++ columns
        else columns in
      match join_columns delimiter columns with
      | Err x => ([], Some x)
      | Ok line => let (out, x) := print_alignments delimiter verbose p l in (line ++ newline :: out, x)
      end
  end.
(** bin/pgc_extract_phrases.py 41-46: the graph pairs of a corpus *)
Fixpoint extract_phrases (delimiter : text) (verbose : bool) (corpus : list (gpair char)) : text * option exc :=
  match corpus with
  | [] => ([], None)
  | p :: corpus =>
      match print_alignments delimiter verbose p (aligned p) with
      | (out, Some x) => (out, Some x)
      | (out, None) => let (out', x) := extract_phrases delimiter verbose corpus in (out ++ out', x)
      end
  end.
(** bin/pgc_extract_phrases.py 93-94: the files *)
Fixpoint main (delimiter : text) (verbose : bool) (files : list (res (list (gpair char)))) : text * option exc :=
  match files with
  | [] => ([], None)
  | Err x :: _ => ([], Some x)
  | Ok corpus :: files =>
      match extract_phrases delimiter verbose corpus with
      | (out, Some x) => (out, Some x)
      | (out, None) => let (out', x) := main delimiter verbose files in (out ++ out', x)
      end
  end.
End Phrases.
