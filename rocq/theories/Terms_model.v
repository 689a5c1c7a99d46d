(** Model of the term extraction, weighting and similarity functions of lib/daeso/ptc/textalign.py and of the
    steps of TextAligner._align_within_scope that use them (167-265, 302-404, 421-432).  Weights are real
    numbers.  remove_stopwords comes from the package daeso_nl, which is not part of this repository: it is a
    parameter, a function from lists of tokens to lists of tokens. *)
From Coq Require Import Reals.
From Verif Require Import Py Ngram_model Create_model Sim_model Tfidf_model Textal_model.
Import ListNotations.
Set Implicit Arguments.
Open Scope nat_scope.
Open Scope list_scope.

Section Terms.
Variable char : Type.
Variable ceqb : char -> char -> bool.
Variable space : char -> bool.
Variable lower : char -> char.        (* str.lower works character by character *)
Variable blank : char.                (* the default separator " " of n_gram_strings *)
Variable pad : list char.             (* its default pad_string "_", unused: pad_size is 0 *)
Variable punctuation : list char.     (* string.punctuation *)
Variable remove_stopwords : list (list char) -> list (list char).   (* with ignore_case and remove_punc *)
Notation text := (list char).

(** n_gram_strings(tokens, n) *)
Definition grams (tokens : list text) (n : nat) : list text := n_gram_strings tokens n 0 pad [blank].
(** textalign.py 302-307 *)
Definition word_n_gram (n : nat) (s : text) : list text := grams (split space s) n.
(** textalign.py 310-315 *)
Definition char_n_gram (n : nat) (s : text) : list text := grams (map (fun c => [c]) s) n.
(** x in y, for strings *)
Fixpoint is_prefix (x y : text) : bool :=
  match x, y with
  | [], _ => true
  | a :: x', b :: y' => ceqb a b && is_prefix x' y'
  | _, [] => false
  end.
Fixpoint is_infix (x y : text) : bool :=
  is_prefix x y || match y with [] => false | _ :: y' => is_infix x y' end.
(** textalign.py 319-329; the condition is about the whole text, not about the token *)
Definition preproc_word_n_gram (n : nat) (s : text) : list text :=
  grams (map (map lower) (filter (fun _ => negb (is_infix s punctuation)) (split space s))) n.
(** textalign.py 332-342 *)
Definition preproc_stopword_word_n_gram (n : nat) (s : text) : list text :=
  grams (remove_stopwords (split space (map lower s))) n.
(** textalign.py 345-355; list(text) of a list of tokens is that list *)
Definition preproc_char_n_gram (n : nat) (s : text) : list text :=
  grams (remove_stopwords (split space (map lower s))) n.

(** == on terms *)
Definition teqb : text -> text -> bool := weqb ceqb.
Fixpoint terms_eqb (a b : list text) : bool :=
  match a, b with [], [] => true | x :: a', y :: b' => teqb x y && terms_eqb a' b' | _, _ => false end.

(** ** Weights; None is what no_weight gives to an element *)
Definition weights := option (list R).
(** textalign.py 362-363 *)
Definition no_weight (docs : list (list text)) : res (list weights) := Ok (map (fun _ => None) (seq 0 (length docs))).
Variable tleb : text -> text -> bool.  (* order of terms, for sorting the vocabulary *)
(** textalign.py 366-371 *)
Definition tf_idf_indicator_weight (docs : list (list text)) : res (list weights) :=
  r <- tf_idf teqb tleb docs true true ;; Ok (map Some (snd r)).

(** ** Similarities *)
(** textalign.py 379-380 *)
Definition equals_sim (a b : list text) (_ _ : weights) : res R := Ok (if terms_eqb a b then 1%R else 0%R).
(** textalign.py 383-402; cosine keeps its square root *)
Definition jaccard_sim (a b : list text) (_ _ : weights) := Ok (jaccard teqb a b).
Definition dice_sim (a b : list text) (_ _ : weights) := Ok (dice teqb a b).
Definition cosine_sim (a b : list text) (_ _ : weights) := Ok (cosine teqb a b).
Definition tanimoto_sim (a b : list text) (_ _ : weights) := Ok (tanimoto teqb a b).
Definition type_match_sim (a b : list text) (_ _ : weights) := Ok (type_match teqb a b).
Definition overlap_min_sim (a b : list text) (_ _ : weights) := Ok (overlap_min teqb a b).
Definition overlap_max_sim (a b : list text) (_ _ : weights) := Ok (overlap_max teqb a b).
(** textalign.py 405-415: zip and iteration need lists *)
Definition weighted_sim (_ _ : list text) (w v : weights) : res R :=
  match w, v with Some w, Some v => Ok (weighted_cosine_sim w v) | _, _ => Err TypeError end.

(** ** The steps *)
Section Steps.
Variables S E : Type.
Variable term_func : text -> list text.
Variable weight_func : list (list text) -> res (list weights).
Variable sim_func : list text -> list text -> weights -> weights -> res S.
Variable filter_func : list (S * (E * E)) -> list (S * (E * E)).
(** get_elem_text in the source and the target tree *)
Variables source_text target_text : E -> text.
(** elem.get("_weights"): None if zip ended before the element *)
Definition weight_at (ws : list weights) (i : nat) : weights := match nth_error ws i with Some w => w | None => None end.
(** textalign.py 226-259: _extract_terms, _weight_terms, _score_sim.  The focus elements are different
    elements, so that every element keeps the terms and weights it is given. *)
Definition scores (sources targets : list E) : res (list (S * (E * E))) :=
  let source_terms := map (fun e => term_func (source_text e)) sources in
  let target_terms := map (fun e => term_func (target_text e)) targets in
  ws <- weight_func (source_terms ++ target_terms) ;;
  rows <- mapM (fun s : (E * list text) * weights =>
            mapM (fun t : (E * list text) * weights =>
              x <- sim_func (snd (fst s)) (snd (fst t)) (snd s) (snd t) ;; Ok (x, (fst (fst s), fst (fst t))))
              (combine (combine targets target_terms) (map (weight_at ws) (seq (length sources) (length targets)))))
            (combine (combine sources source_terms) (map (weight_at ws) (seq 0 (length sources)))) ;;
  Ok (concat rows).
(** textalign.py 197-207, 262-263: the pairs that _create_alignments is given *)
Definition selected (sources targets : list E) : res (list (S * (E * E))) :=
  match sources, targets with
  | _ :: _, _ :: _ => l <- scores sources targets ;; Ok (filter_func l)
  | _, _ => Ok []
  end.
End Steps.
(** textalign.py 189-195: the defaults of a TextAligner, 421-422: no_filter *)
Definition no_filter (A : Type) (l : list A) : list A := l.
Definition default_selected (E : Type) (source_text target_text : E -> text) : list E -> list E -> res (list (R * (E * E))) :=
  selected (word_n_gram 1) no_weight equals_sim (@no_filter _) source_text target_text.
End Terms.
