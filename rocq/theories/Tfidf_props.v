(** C14: term frequencies and tf*idf weights (daeso.string.tf_idf).  Weights are real numbers. *)
From Coq Require Import Reals Lra Sorted.
From Verif Require Import Py PyLemmas Corpus_model Corpus_proof Tfidf_spec Tfidf_model Tfidf_proof.
Open Scope nat_scope.

(** C14. The vocabulary: every term that occurs in some document, exactly once, in ascending order. *)
Theorem vocabulary : forall (T : Type) (teqb tleb : T -> T -> bool), (forall x y, teqb x y = true <-> x = y) ->
  (forall x y, tleb x y = true \/ tleb y x = true) ->
  forall docs : list (list T), let terms := fst (calculate_term_frequencies teqb tleb docs) in
  NoDup terms /\ Sorted (fun x y => tleb x y = true) terms /\ (forall t, In t terms <-> exists d, In d docs /\ In t d).
Proof.
  intros T teqb tleb teq tot docs terms. pose proof (@tf_ok _ teqb tleb teq docs) as (N & I & _). split; [exact N|]. split; [|exact I].
  unfold terms, calculate_term_frequencies. cbv zeta. cbn [fst]. rewrite sort_isort. apply isort_adj, tot.
Qed.
Print Assumptions vocabulary.
(** C14. The count tables: per document the number of occurrences of each of its terms, and overall
    the number of documents a term occurs in; terms that do not occur are absent. *)
Theorem frequencies : forall (T : Type) (teqb tleb : T -> T -> bool), (forall x y, teqb x y = true <-> x = y) ->
  forall docs : list (list T), let tables := snd (calculate_term_frequencies teqb tleb docs) in
  Forall2 (fun d table => NoDup (dkeys table) /\
             forall t, dget teqb table t = if occurrences teqb t d =? 0 then None else Some (occurrences teqb t d)) docs tables /\
  let df := calculate_document_frequencies teqb tables in
  NoDup (dkeys df) /\ forall t, dget teqb df t = if containing teqb t docs =? 0 then None else Some (containing teqb t docs).
Proof. intros T teqb tleb teq docs tables. destruct (@tf_ok _ teqb tleb teq docs) as (_ & _ & F). split; [exact F|]. now apply df_ok. Qed.
Print Assumptions frequencies.

(** C14. idf: every document gets the same row, with ln(n/df) for each term of the vocabulary, divided by ln n if normalized. *)
Theorem idf_value : forall (T : Type) (teqb tleb : T -> T -> bool), (forall x y, teqb x y = true <-> x = y) ->
  forall (docs : list (list T)) (normalized : bool), (normalized = true -> 2 <= length docs) ->
  let terms := fst (calculate_term_frequencies teqb tleb docs) in
  idf teqb tleb docs normalized = Ok (terms, map (fun _ =>
    map (fun t => idf_of (length docs) (containing teqb t docs) / (if normalized then ln (INR (length docs)) else 1))%R terms) docs).
Proof. intros T teqb tleb teq docs normalized H. now apply (@idf_ok _ teqb tleb teq). Qed.
Print Assumptions idf_value.
(** C14. tf*idf: the relative frequency of the term in the document (or 1/0 with [indicator]; 0 for an empty
    document) times the idf weight. *)
Theorem tf_idf_value : forall (T : Type) (teqb tleb : T -> T -> bool), (forall x y, teqb x y = true <-> x = y) ->
  forall (docs : list (list T)) (normalized indicator : bool), (normalized = true -> 2 <= length docs) ->
  let terms := fst (calculate_term_frequencies teqb tleb docs) in
  let tf t d := (if indicator then if mem teqb t d then 1 else 0 else INR (occurrences teqb t d) / INR (length d))%R in
  tf_idf teqb tleb docs normalized indicator = Ok (terms, map (fun d =>
    map (fun t => tf t d * (idf_of (length docs) (containing teqb t docs) / (if normalized then ln (INR (length docs)) else 1)))%R terms) docs).
Proof. intros T teqb tleb teq docs normalized indicator H. now apply (@tf_idf_ok _ teqb tleb teq). Qed.
Print Assumptions tf_idf_value.

(** C14. All weights are between 0 and ln n, between 0 and 1 if normalized, and an idf weight
    is 0 exactly for the terms that occur in every document. *)
Theorem weights_in_range : forall (T : Type) (teqb tleb : T -> T -> bool), (forall x y, teqb x y = true <-> x = y) ->
  forall (docs : list (list T)) (normalized indicator : bool), (normalized = true -> 2 <= length docs) ->
  let top := (if normalized then 1 else ln (INR (length docs)))%R in
  exists terms ws tws, idf teqb tleb docs normalized = Ok (terms, ws) /\ tf_idf teqb tleb docs normalized indicator = Ok (terms, tws) /\
  (forall row, In row ws -> length row = length terms /\
     forall i t w, nth_error terms i = Some t -> nth_error row i = Some w ->
       (0 <= w <= top)%R /\ (w = 0%R <-> forall d, In d docs -> In t d)) /\
  (forall row, In row tws -> length row = length terms /\ forall w, In w row -> (0 <= w <= top)%R).
Proof. intros T teqb tleb teq docs normalized indicator H. now apply (@ranges _ teqb tleb teq). Qed.
Print Assumptions weights_in_range.

(** C14. Finding: the normalized variants fail on an empty collection (log of 0) and on a single non-empty document (ln 1 = 0). *)
Theorem normalized_fails : forall (T : Type) (teqb tleb : T -> T -> bool), (forall x y, teqb x y = true <-> x = y) ->
  forall indicator,
  idf teqb tleb [] true = Err ValueError /\ tf_idf teqb tleb [] true indicator = Err ValueError /\
  forall t d, idf teqb tleb [t :: d] true = Err ZeroDivisionError /\ tf_idf teqb tleb [t :: d] true indicator = Err ZeroDivisionError.
Proof.
  intros T teqb tleb teq ind. destruct (@normalized_failures _ teqb tleb teq [] ind) as (A & _). destruct (A eq_refl) as [A1 A2].
  split; [exact A1|]. split; [exact A2|]. intros t d. destruct (@normalized_failures _ teqb tleb teq [t :: d] ind) as (_ & B & _). now apply (B t d).
Qed.
Print Assumptions normalized_fails.

Example tfidf_example : calculate_term_frequencies Nat.eqb Nat.leb [[1; 2; 1; 3]; [4; 1; 2; 2]] =
  ([1; 2; 3; 4], [[(1, 2); (2, 1); (3, 1)]; [(4, 1); (1, 1); (2, 2)]]).
Proof. reflexivity. Qed.
Example tfidf_example_df : calculate_document_frequencies Nat.eqb (snd (calculate_term_frequencies Nat.eqb Nat.leb [[1; 2; 1; 3]; [4; 1; 2; 2]])) =
  [(1, 2); (2, 2); (3, 1); (4, 1)].
Proof. reflexivity. Qed.
