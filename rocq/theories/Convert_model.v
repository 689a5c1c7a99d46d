(** Model of bin/ptc_n_to_id.py, on top of Hdoc_model (the alignment methods of HitaextDoc).  The document trees
    are parsed and update()d (Ielem_model).  The tags of links are always present.  Reading the corpus and the
    marked-up texts is not modelled, nor is that the program as it stands passes the list of its arguments
    (nargs="+") as a file name, which fails. *)
From Coq Require Import String.
From Verif Require Import Py Ielem_spec Ielem_model Hdoc_spec Hdoc_model Convert_spec.
Set Implicit Arguments.
Section Convert.
Variable char : Type.
Notation elem := (elem char).
Notation index := (index char).
(** document.py 246-259: inject_alignments *)
Definition inject (d : document) (fx tx : index) : res (index * index) :=
  match method d with
  | None => inject_n (map by_number (links d)) fx tx
  | Some m =>
      if String.eqb m "n" then inject_n (map by_number (links d)) fx tx
      else if String.eqb m "id" then inject_id (map by_id (links d)) fx tx
      else Err AssertionError
  end.
(** document.py 230-239: add_id_alignment, add_n_alignment: the new <link> *)
Definition id_attributes (l : link (option string)) : attributes :=
  {| from_tag := l_from_tag l; from_n := None; from_id := l_from l; to_tag := l_to_tag l; to_n := None; to_id := l_to l |}.
Definition n_attributes (l : link (option Z)) : attributes :=
  {| from_tag := l_from_tag l; from_n := l_from l; from_id := None; to_tag := l_to_tag l; to_n := l_to l; to_id := None |}.
(** document.py 306-319: extract_alignments; the method attribute is kept *)
Definition extract (d : document) (fr : elem) (fx tx : index) : res document :=
  match method d with
  | None => Ok {| method := method d; links := map n_attributes (extract_n fr fx tx (map by_number (links d))) |}
  | Some m =>
      if String.eqb m "n" then Ok {| method := method d; links := map n_attributes (extract_n fr fx tx (map by_number (links d))) |}
      else if String.eqb m "id" then Ok {| method := method d; links := map id_attributes (extract_id fr fx tx (map by_id (links d))) |}
      else Err AssertionError
  end.
(** ElementTree.write raises TypeError on an attribute whose value is None, when part of the text is written *)
Definition writable (d : document) : bool :=
  forallb (fun a => match from_n a, from_id a, to_n a, to_id a with
                    | Some _, None, Some _, None => true       (* Element(..., from_n=.., to_n=..) *)
                    | None, Some _, None, Some _ => true       (* Element(..., from_id=.., to_id=..) *)
                    | _, _, _, _ => false
                    end) (links d).
(** document.py 171-180: write, to a file that exists already: it is opened for writing, and so emptied, first *)
Definition write_document (d : document) : file_after * option exc :=
  if writable d then (Written d, None) else (Truncated, Some TypeError).
(** bin/ptc_n_to_id.py 56-74, for a document that has been read *)
Definition convert (d : document) (fr : elem) (fx tx : index) : file_after * option exc :=
  match inject d fx tx with
  | Err x => (Unchanged, Some x)
  | Ok (fx', tx') =>
      match extract {| method := Some "id"%string; links := links d |} fr fx' tx' with
      | Err x => (Unchanged, Some x)
      | Ok d' => write_document d'
      end
  end.
End Convert.
