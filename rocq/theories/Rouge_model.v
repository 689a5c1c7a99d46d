(** Model of /repo/lib/daeso/string/rouge.py.  Floats are exact rationals. *)
From Coq Require Import QArith.
From Verif Require Import Py Lcs_model Ngram_model Sim_model.
Open Scope nat_scope.
Set Implicit Arguments.
(** [==] on sequences (tuples, lists or strings of tokens) *)
Fixpoint list_eqb {A} (eqb : A -> A -> bool) (l l' : list A) : bool :=
  match l, l' with
  | [], [] => true
  | x :: l, y :: l' => eqb x y && list_eqb eqb l l'
  | _, _ => false
  end.
Section Rouge.
Variable A : Type.
Variable eqb : A -> A -> bool.
(** rouge.py 75-82 *)
Definition count_match {G} (geqb : G -> G -> bool) (candidate_ngrams reference_ngrams : list G) : nat :=
  length (filter (fun g => mem geqb g reference_ngrams) candidate_ngrams).
(** rouge.py 61-72 *)
Definition rouge_ngram {G} (geqb : G -> G -> bool) (candidate_ngrams reference_ngrams : list G) : Q :=
  quot0 (count_match geqb candidate_ngrams reference_ngrams) (length reference_ngrams).
(** rouge.py 44-58; [n_gram_slices] is called without padding ([p] is the unused pad token) *)
Definition rouge_n (p : A) (candidate_tokens : list A) (reference_tokens_list : list (list A)) (n : nat) : Q :=
  let candidate_ngrams := n_gram_slices candidate_tokens n 0 p in
  let reference_ngrams := fold_left (fun acc rt => acc ++ n_gram_slices rt n 0 p) reference_tokens_list [] in
  rouge_ngram (list_eqb eqb) candidate_ngrams reference_ngrams.
(** a / float(b) without a handler *)
Definition fquot (a b : nat) : res Q := if b =? 0 then Err ZeroDivisionError else Ok (qn a / qn b)%Q.
(** rouge.py 101-105 and 140-145: the F-measure with its handler *)
Definition fmeasure (beta precision recall : Q) : Q :=
  let den := (beta * beta * precision + recall)%Q in
  if Qeq_bool den 0 then 0%Q else ((1 + beta * beta) * precision * recall / den)%Q.
(** rouge.py 90-105 *)
Definition rouge_l (candidate_tokens reference_tokens : list A) (beta : Q) : res Q :=
  l <- lcs eqb candidate_tokens reference_tokens ;;
  recall <- fquot (length l) (length reference_tokens) ;;
  precision <- fquot (length l) (length candidate_tokens) ;;
  Ok (fmeasure beta precision recall).
(** rouge.py 125-145 *)
Definition rouge_skip_bigram {G} (geqb : G -> G -> bool) (skip_bigrams1 skip_bigrams2 : list G) (beta : Q) : res Q :=
  let matches := intersection geqb (to_set geqb skip_bigrams1) (to_set geqb skip_bigrams2) in
  recall <- fquot (length matches) (length skip_bigrams1) ;;
  precision <- fquot (length matches) (length skip_bigrams2) ;;
  Ok (fmeasure beta precision recall).
(** rouge.py 112-122 *)
Definition rouge_s (tokens1 tokens2 : list A) (limit : option nat) (beta : Q) : res Q :=
  rouge_skip_bigram (pair_eqb eqb eqb) (skip_bigram_slices tokens1 limit) (skip_bigram_slices tokens2 limit) beta.
(** rouge.py 152-165 (the arguments must be tuples, since a tuple is prepended) *)
Definition rouge_su (tokens1 tokens2 : list A) (limit : option nat) (beta : Q) (marker : A) : res Q :=
  rouge_s ([marker] ++ tokens1) ([marker] ++ tokens2) limit beta.
End Rouge.
