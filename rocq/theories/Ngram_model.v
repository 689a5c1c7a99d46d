(** Model of /repo/lib/daeso/string/ngram.py and /repo/lib/daeso/string/sgram.py *)
From Verif Require Import Py.
Set Implicit Arguments.

Section Ngram.
Variable A : Type.

(** ngram.py 77-88: [pad].  The three branches (tuple, str, list) are the same operation on the
    respective sequence type.  Simplification: a negative pad size (which Python treats as 0)
    is represented by 0.  For [str] tokens the pad string is one character. *)
Definition pad (tokens : list A) (pad_size : nat) (pad_string : A) : list A :=
  repeat pad_string pad_size ++ tokens ++ repeat pad_string pad_size.

(** ngram.py 29-37: [n_gram_slices].  [range(len - n + 1)] is empty when n > len.
    Simplification: n is a natural number. *)
Definition n_gram_slices (tokens : list A) (n pad_size : nat) (pad_string : A) : list (list A) :=
  let padded := pad tokens pad_size pad_string in
  map (fun i => slice padded i (i + n)) (seq 0 (length padded + 1 - n)).

(** ngram.py 54-74: [n_gram_slices_range].  [pad_sizes] is None or a list; an empty list is
    falsy and treated as None.  [zip] stops at the shorter list.  The result is a dict. *)
Definition n_gram_slices_range (tokens : list A) (n_range : list nat) (padding : bool)
    (pad_sizes : option (list nat)) (pad_string : A) : res (list (nat * list (list A))) :=
  sizes <- (if padding then
              match pad_sizes with
              | Some ((_ :: _) as ps) =>
                  if length n_range =? length ps then Ok ps else Err AssertionError
              | _ => Ok (map (fun n => n - 1) n_range)
              end
            else Ok (repeat 0 (length n_range))) ;;
  Ok (fold_left (fun d (p : nat * nat) =>
                   dset Nat.eqb d (fst p) (n_gram_slices tokens (fst p) (snd p) pad_string))
                (combine n_range sizes) []).

(** sgram.py 31-44: [skip_bigram_slices]; [None] is the default [sys.maxint], which exceeds
    every list length.  [tokens[1:2+limit]] is the first 1+limit tokens of the tail. *)
Fixpoint skip_bigram_slices (tokens : list A) (limit : option nat) : list (A * A) :=
  match tokens with
  | [] => []
  | x :: rest =>
      map (fun y => (x, y)) (match limit with
                             | Some d => slice (x :: rest) 1 (2 + d)
                             | None => rest
                             end)
      ++ skip_bigram_slices rest limit
  end.

(** sgram.py 47-56: [padded_skip_bigram_slices]. *)
Definition padded_skip_bigram_slices (tokens : list A) (limit : option nat) (pad_string : A) :=
  skip_bigram_slices (pad tokens 1 pad_string) limit.
End Ngram.

(** ngram.py 40-51: [n_gram_strings]; tokens, pad string and separator are character lists. *)
Fixpoint join {C} (sep : list C) (l : list (list C)) : list C :=
  match l with
  | [] => []
  | [x] => x
  | x :: l' => x ++ sep ++ join sep l'
  end.
Definition n_gram_strings {C} (tokens : list (list C)) (n pad_size : nat) (pad_string separator : list C)
  : list (list C) :=
  let padded := pad tokens pad_size pad_string in
  map (fun i => join separator (slice padded i (i + n))) (seq 0 (length padded + 1 - n)).
