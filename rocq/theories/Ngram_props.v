(** C06-C07: properties of daeso.string.ngram and daeso.string.sgram *)
From Verif Require Import Py Ngram_model Ngram_spec Ngram_proof.

(** C06. The i-th n-gram is exactly the window of n tokens at position i of the padded token
    sequence, and there is nothing else in the list. *)
Theorem n_gram_slices_windows :
  forall (A : Type) (tokens : list A) (n pad_size : nat) (p : A) (i : nat) (w : list A),
  nth_error (n_gram_slices tokens n pad_size p) i = Some w <->
  window (repeat p pad_size ++ tokens ++ repeat p pad_size) n i w.
Proof. exact n_gram_ok. Qed.
Print Assumptions n_gram_slices_windows.

Theorem n_gram_slices_count :
  forall (A : Type) (tokens : list A) (n pad_size : nat) (p : A),
  length (n_gram_slices tokens n pad_size p) = length tokens + 2 * pad_size + 1 - n.
Proof. exact n_gram_count. Qed.
Print Assumptions n_gram_slices_count.
Example n_gram_ex : n_gram_slices [1;2;3] 2 1 0 = [[0;1];[1;2];[2;3];[3;0]].
Proof. reflexivity. Qed.

(** The range version without explicit pad sizes: exactly the requested n, each with padding n-1
    (if padding is on) or 0. *)
Theorem n_gram_slices_range_default :
  forall (A : Type) (tokens : list A) (n_range : list nat) (padding : bool) (p : A),
  exists d, n_gram_slices_range tokens n_range padding None p = Ok d /\
  forall n, dget Nat.eqb d n =
    if mem Nat.eqb n n_range
    then Some (n_gram_slices tokens n (if padding then n - 1 else 0) p) else None.
Proof. exact n_gram_range_default. Qed.
Print Assumptions n_gram_slices_range_default.

(** ... and with explicit pad sizes: position by position, AssertionError on a length mismatch. *)
Theorem n_gram_slices_range_explicit :
  forall (A : Type) (tokens : list A) (n_range pad_sizes : list nat) (p : A),
  pad_sizes <> [] -> NoDup n_range ->
  (length n_range = length pad_sizes ->
   exists d, n_gram_slices_range tokens n_range true (Some pad_sizes) p = Ok d /\
   forall n s, dget Nat.eqb d n = Some s <->
      exists i k, nth_error n_range i = Some n /\ nth_error pad_sizes i = Some k /\
                  s = n_gram_slices tokens n k p) /\
  (length n_range <> length pad_sizes ->
   n_gram_slices_range tokens n_range true (Some pad_sizes) p = Err AssertionError).
Proof. exact n_gram_range_sizes. Qed.
Print Assumptions n_gram_slices_range_explicit.
Example n_gram_range_ex : [0; 2] <> [] /\ NoDup [1; 3] /\
  n_gram_slices_range [7;8] [1;3] true (Some [0;2]) 9 =
  Ok [(1, [[7];[8]]); (3, [[9;9;7];[9;7;8];[7;8;9];[8;9;9]])].
Proof.
  split; [discriminate|]. split; [|reflexivity].
  repeat constructor; cbn; intuition discriminate.
Qed.

(** The string version joins exactly these slices with the separator. *)
Theorem n_gram_strings_join :
  forall (C : Type) (tokens : list (list C)) n pad_size p sep,
  Forall2 (joined sep) (n_gram_slices tokens n pad_size p) (n_gram_strings tokens n pad_size p sep).
Proof. exact n_gram_strings_joined. Qed.
Example n_gram_strings_ex : n_gram_strings [[1];[2;3];[4]] 2 0 [] [0;0] = [[1;0;0;2;3];[2;3;0;0;4]].
Proof. reflexivity. Qed.
Print Assumptions n_gram_strings_join.

(** C07. Skip-bigrams: there is an enumeration of exactly the position pairs i < j with at most
    [limit] tokens in between, lexicographically sorted without repetition, and the result is
    the list of the token pairs at these positions. *)
Theorem skip_bigrams_exact :
  forall (A : Type) (tokens : list A) (limit : option nat),
  exists ps, enumerates ps (length tokens) limit /\
  map Some (skip_bigram_slices tokens limit) =
  map (fun q => match nth_error tokens (fst q), nth_error tokens (snd q) with
                | Some a, Some b => Some (a, b) | _, _ => None end) ps.
Proof. exact skip_ok_lemma. Qed.
Print Assumptions skip_bigrams_exact.
Example skip_bigrams_ex : skip_bigram_slices [1;2;3;4] (Some 1) = [(1,2);(1,3);(2,3);(2,4);(3,4)].
Proof. reflexivity. Qed.

Theorem skip_bigrams_number :
  forall (A : Type) (tokens : list A),
  2 * length (skip_bigram_slices tokens None) = length tokens * (length tokens - 1).
Proof. exact skip_count. Qed.
Print Assumptions skip_bigrams_number.

(** The padded variant is the same on the sequence with one pad token on either side. *)
Theorem padded_skip_bigrams :
  forall (A : Type) (tokens : list A) (limit : option nat) (p : A),
  exists ps, enumerates ps (length tokens + 2) limit /\
  map Some (padded_skip_bigram_slices tokens limit p) =
  map (fun q => match nth_error ([p] ++ tokens ++ [p]) (fst q), nth_error ([p] ++ tokens ++ [p]) (snd q) with
                | Some a, Some b => Some (a, b) | _, _ => None end) ps.
Proof.
  intros A tokens limit p. replace (length tokens + 2) with (length ([p] ++ tokens ++ [p])) by (rewrite !app_length; cbn; lia).
  exact (skip_ok_lemma ([p] ++ tokens ++ [p]) limit).
Qed.
Example padded_ex : padded_skip_bigram_slices [1;2] (Some 0) 9 = [(9,1);(1,2);(2,9)].
Proof. reflexivity. Qed.
Print Assumptions padded_skip_bigrams.
