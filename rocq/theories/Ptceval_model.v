(** Model of lib/daeso/ptc/evaluate.py and lib/daeso/ptc/diff.py.  Floats are exact rationals;
    printing is modelled by the sequence of printed rows; reading of corpora is not modelled. *)
From Coq Require Import String QArith.
From Verif Require Import Py Ielem_spec Ielem_model Hdoc_spec Hdoc_model Ptceval_spec.
Open Scope nat_scope.
Set Implicit Arguments.

Definition pair_eq (p q : option string * option string) : bool := pair_eqb id_eqb id_eqb p q.
(** set.add *)
Definition set_add (s : list (option string * option string)) p := if mem pair_eq p s then s else s ++ [p].

(** evaluate.py 88-98: get_alignment *)
Definition get_alignment (links : list file_link) (t : string) : list (option string * option string) :=
  fold_left (fun alignments l =>
    if id_eqb (f_from_tag l) (Some t) && id_eqb (f_to_tag l) (Some t) then set_add alignments (f_from_id l, f_to_id l)
    else alignments) links [].

(** evaluate.py 101-110: count_alignment; [&] keeps the elements of the one that are in the other *)
Definition count_alignment (true_corpus pred_corpus : list file_link) (t : string) : nat * nat * nat :=
  let true_alignments := get_alignment true_corpus t in
  let pred_alignments := get_alignment pred_corpus t in
  (length true_alignments, length pred_alignments,
   length (filter (fun p => mem pair_eq p pred_alignments) true_alignments)).

Definition qnat (n : nat) : Q := inject_Z (Z.of_nat n).
(** [a / b], with ZeroDivisionError *)
Definition qdiv (a b : Q) : res Q := if Qeq_bool b 0 then Err ZeroDivisionError else Ok (a / b)%Q.
(** [try: x = ... except ZeroDivisionError: x = 0.0] *)
Definition or_zero (r : res Q) : Q := match r with Ok q => q | Err _ => 0%Q end.
(** evaluate.py 113-134: compute_scores: ratio, precision, recall, f *)
Definition compute_scores (n_true n_pred n_common : nat) : Q * Q * Q * Q :=
  let ratio := or_zero (qdiv (qnat n_pred) (qnat n_true)) in
  let recall := or_zero (qdiv (qnat n_common) (qnat n_true)) in
  let precision := or_zero (qdiv (qnat n_common) (qnat n_pred)) in
  let f := or_zero (qdiv (inject_Z 2 * precision * recall)%Q (precision + recall)%Q) in
  (ratio, precision, recall, f).

(** evaluate.py 33-85: eval_alignment, with the corpora already read: the printed row of each
    pair of corpora, and the overall row. *)
Definition eval_alignment (pairs : list (list file_link * list file_link)) (labels : list string) (t : string)
  : list (nat * nat * nat * (Q * Q * Q * Q) * string) * (nat * nat * nat * (Q * Q * Q * Q)) :=
  let '(rows, n1, n2, n3) :=
    fold_left (fun acc pl =>
      let '(rows, n1, n2, n3) := acc in
      let '((true_corpus, pred_corpus), label) := pl in
      let '(n_true, n_pred, n_common) := count_alignment true_corpus pred_corpus t in
      (rows ++ [((n_true, n_pred, n_common), compute_scores n_true n_pred n_common, label)],
       n1 + n_true, n2 + n_pred, n3 + n_common))
      (combine pairs labels) ([], 0, 0, 0) in
  (rows, ((n1, n2, n3), compute_scores n1 n2 n3)).

(** diff.py 56-86 for one pair of source elements: the alignments of the true and of the predicted
    source element; the for-else loops look for an equal id.  The printed text is left out. *)
Section Diff.
Variable char : Type.
Notation elem := (elem char).
Definition has_id (i : option string) (l : list elem) : bool := existsb (fun e => id_eqb (id_of e) i) l.
Definition diff_elem (true_from pred_from : elem) (true_aligns pred_aligns : list elem) : list difference :=
  flat_map (fun t => if has_id (id_of t) pred_aligns then []
                     else [{| d_true := true; d_from := id_of true_from; d_to := id_of t |}]) true_aligns ++
  flat_map (fun t => if has_id (id_of t) true_aligns then []
                     else [{| d_true := false; d_from := id_of pred_from; d_to := id_of t |}]) pred_aligns.
(** diff.py 35-86: print_diff; the count printed with each difference is its position *)
Definition print_diff (tx px : index char) (t : string) : res (list (nat * difference)) :=
  tl <- dread String.eqb (counts tx) t ;;
  pl <- dread String.eqb (counts px) t ;;
  let ds := flat_map (fun p => diff_elem (fst p) (snd p) (a_aligns (st tx (uid (fst p)))) (a_aligns (st px (uid (snd p)))))
                     (combine tl pl) in
  Ok (combine (seq 1 (length ds)) ds).
End Diff.
