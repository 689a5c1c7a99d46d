(** Model of pgc_from_ptc (lib/daeso/pgc/creation.py 39-125).  Reading the files is not modelled: it starts
    from the links of the text corpus, the two parsed document trees and the two loaded graph banks (dicts of
    graphs by id).  A GraphPair is represented by its two graphs; the banks are the same for all pairs. *)
From Coq Require Import String.
From Verif Require Import Py Ielem_spec Ielem_model Ptceval_spec.
Set Implicit Arguments.

Section Create.
Variable char : Type.
Variable ceqb : char -> char -> bool.
Variable space : char -> bool.
Variable nl : char.
Variable lower : char -> char.       (* str.lower works character by character *)
Variable G : Type.
Notation elem := (elem char).
Notation index := (index char).

(** str.split(): [w] is the current word, reversed *)
Fixpoint split_loop (w : list char) (s : list char) : list (list char) :=
  match s with
  | [] => match w with [] => [] | _ => [rev w] end
  | c :: s' =>
      if space c then match w with [] => split_loop [] s' | _ => rev w :: split_loop [] s' end
      else split_loop (c :: w) s'
  end.
Definition split (s : list char) : list (list char) := split_loop [] s.
(** == on words *)
Fixpoint weqb (v w : list char) : bool :=
  match v, w with [], [] => true | a :: v', b :: w' => ceqb a b && weqb v' w' | _, _ => false end.

(** creation.py 113-116: _get_elem_tokens; a tree is its index and its text *)
Definition get_elem_tokens (tree : index * list char) (t : string) (id : option string) : res (list (list char)) :=
  d <- dread String.eqb (ids (fst tree)) t ;;
  el <- dread id_eqb d id ;;
  Ok (split (map lower (get_elem_text (snd tree) (st (fst tree)) (uid el)))).
(** creation.py 119-125: _token_diff; [x in d] for a dict made by dict.fromkeys *)
Definition token_diff (s t : list (list char)) : nat :=
  let fd := fold_left (fun d w => dset weqb d w tt) s [] in
  let td := fold_left (fun d w => dset weqb d w tt) t [] in
  length (filter (fun w => negb (mem weqb w (dkeys td))) s) + length (filter (fun w => negb (mem weqb w (dkeys fd))) t).
(** gb/graphbank.py 137-143: get_graph *)
Definition get_graph (bank : list (string * G)) (id : option string) : res G :=
  match id with Some i => dread String.eqb bank i | None => Err KeyError end.

Section Run.
Variables from_tree to_tree : index * list char.
Variables from_tag to_tag : string.
Variables from_bank to_bank : list (string * G).
Variables min_token_diff max_token_len : Z.
(** creation.py 82-108: the loop body, appending to the corpus *)
Definition create_step (corpus : list (G * G)) (l : file_link) : res (list (G * G)) :=
  if negb (id_eqb (f_from_tag l) (Some from_tag)) || negb (id_eqb (f_to_tag l) (Some to_tag)) then Ok corpus
  else
    source_tokens <- get_elem_tokens from_tree from_tag (f_from_id l) ;;
    target_tokens <- get_elem_tokens to_tree to_tag (f_to_id l) ;;
    if (max_token_len <? Z.of_nat (length source_tokens))%Z || (max_token_len <? Z.of_nat (length target_tokens))%Z then Ok corpus
    else if negb (min_token_diff =? 0)%Z && (Z.of_nat (token_diff source_tokens target_tokens) <? min_token_diff)%Z then Ok corpus
    else
      s <- get_graph from_bank (f_from_id l) ;;
      t <- get_graph to_bank (f_to_id l) ;;
      Ok (corpus ++ [(s, t)]).
Definition create_loop (links : list file_link) : res (list (G * G)) := foldM create_step [] links.
End Run.

(** creation.py 39-110, ptc/document.py 191-203: both trees are freshly parsed and updated with the default
    settings (ielemtree.py 51). *)
Definition pgc_from_ptc (links : list file_link) (from_root to_root : elem) (from_bank to_bank : list (string * G))
  (from_tag to_tag : string) (min_token_diff max_token_len : Z) : res (list (G * G)) :=
  let fresh := fun _ => no_attrs char in
  let r := {| ignore := []; newline := []; blankline := [] |} in
  create_loop (update space nl r from_root fresh) (update space nl r to_root fresh)
    from_tag to_tag from_bank to_bank min_token_diff max_token_len links.
End Create.
