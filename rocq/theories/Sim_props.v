(** C10: set similarity measures (daeso.string.similar) *)
From Coq Require Import QArith.
From Verif Require Import Py Sim_spec Sim_model Sim_proof.
Open Scope nat_scope.

(** C10. Values: c is the number of different elements that occur in both sequences, u the number of those
    that occur in at least one.  [frac a b] is a/b, or 0 if b is 0. *)
Theorem similarity_values : forall (A : Type) (eqb : A -> A -> bool), (forall x y, eqb x y = true <-> x = y) ->
  forall (s1 s2 : list A) (c u : nat),
  exactly (fun x => In x s1 /\ In x s2) c -> exactly (fun x => In x s1 \/ In x s2) u ->
  type_match eqb s1 s2 = c /\
  dice eqb s1 s2 = frac (2 * c) (length s1 + length s2) /\
  tanimoto eqb s1 s2 = frac c (length s1 + length s2 - c) /\
  jaccard eqb s1 s2 = frac c u /\
  overlap_min eqb s1 s2 = frac c (min (length s1) (length s2)) /\
  overlap_max eqb s1 s2 = frac c (max (length s1) (length s2)) /\
  (length s1 * length s2 = 0 -> rq_zero (cosine eqb s1 s2)) /\
  (0 < length s1 * length s2 -> cosine eqb s1 s2 = {| rq_num := c; rq_rad := length s1 * length s2 |}).
Proof. exact values. Qed.
Print Assumptions similarity_values.
(** such counts always exist *)
Theorem similarity_counts_exist : forall (A : Type) (eqb : A -> A -> bool), (forall x y, eqb x y = true <-> x = y) ->
  forall s1 s2 : list A, exists c u, exactly (fun x => In x s1 /\ In x s2) c /\ exactly (fun x => In x s1 \/ In x s2) u.
Proof. intros A eqb H s1 s2. do 2 eexists. split; [now apply inter_count|now apply union_count]. Qed.
Print Assumptions similarity_counts_exist.

(** C10. Each measure is symmetric, in [0,1], and 0 exactly for sequences without common elements. *)
Theorem similarity_symmetric_in_range : forall (A : Type) (eqb : A -> A -> bool), (forall x y, eqb x y = true <-> x = y) ->
  good_measure (dice eqb) /\ good_measure (tanimoto eqb) /\ good_measure (jaccard eqb) /\
  good_measure (overlap_min eqb) /\ good_measure (overlap_max eqb).
Proof. exact measures_good. Qed.
Print Assumptions similarity_symmetric_in_range.
Theorem cosine_symmetric_in_range : forall (A : Type) (eqb : A -> A -> bool), (forall x y, eqb x y = true <-> x = y) ->
  forall s1 s2 : list A, cosine eqb s1 s2 = cosine eqb s2 s1 /\ rq_le_one (cosine eqb s1 s2) /\
  (rq_zero (cosine eqb s1 s2) <-> forall x, ~ (In x s1 /\ In x s2)) /\
  (rq_one (cosine eqb s1 s2) <-> same_set s1 s2 /\ s1 <> []).
Proof. exact cosine_all. Qed.
Print Assumptions cosine_symmetric_in_range.

(** C10. Exactly when a measure is 1.  Only jaccard disregards duplicates. *)
Theorem similarity_one_iff : forall (A : Type) (eqb : A -> A -> bool), (forall x y, eqb x y = true <-> x = y) ->
  forall s1 s2 : list A,
  ((dice eqb s1 s2 == 1)%Q <-> same_set s1 s2 /\ s1 <> []) /\
  ((tanimoto eqb s1 s2 == 1)%Q <-> same_set s1 s2 /\ s1 <> []) /\
  ((jaccard eqb s1 s2 == 1)%Q <-> (forall x, In x s1 <-> In x s2) /\ s1 <> []) /\
  ((overlap_max eqb s1 s2 == 1)%Q <-> same_set s1 s2 /\ s1 <> []) /\
  ((overlap_min eqb s1 s2 == 1)%Q <-> s1 <> [] /\ s2 <> [] /\ ((NoDup s1 /\ incl s1 s2) \/ (NoDup s2 /\ incl s2 s1))).
Proof. exact ones. Qed.
Print Assumptions similarity_one_iff.

(** C10. Without duplicates, tanimoto is jaccard and dice is 2j/(1+j). *)
Theorem similarity_without_duplicates : forall (A : Type) (eqb : A -> A -> bool), (forall x y, eqb x y = true <-> x = y) ->
  forall s1 s2 : list A, NoDup s1 -> NoDup s2 -> tanimoto eqb s1 s2 = jaccard eqb s1 s2 /\
  (dice eqb s1 s2 == 2 * jaccard eqb s1 s2 / (1 + jaccard eqb s1 s2))%Q.
Proof. exact dup_free. Qed.
Print Assumptions similarity_without_duplicates.

(** C10. token_match is at most the length, equal to it exactly if all tokens are shared, and at least the
    type match; the symmetric version is symmetric. *)
Theorem token_match_bounds : forall (A : Type) (eqb : A -> A -> bool), (forall x y, eqb x y = true <-> x = y) ->
  forall s1 s2 : list A, token_match eqb s1 s2 <= length s1 /\
  (token_match eqb s1 s2 = length s1 <-> incl s1 s2) /\ type_match eqb s1 s2 <= token_match eqb s1 s2 /\
  sym_token_match eqb s1 s2 = sym_token_match eqb s2 s1 /\
  (NoDup s1 -> token_match eqb s1 s2 = type_match eqb s1 s2).
Proof. exact token_match_all. Qed.
Print Assumptions token_match_bounds.

(** C10. The generalized measures: values, range, and agreement with the binary ones. *)
Theorem generalized_values : forall (A : Type) (eqb : A -> A -> bool), (forall x y, eqb x y = true <-> x = y) ->
  forall (ss : list (list A)) (c u : nat), ss <> [] -> exactly (in_all ss) c -> exactly (in_some ss) u ->
  generalized_dice eqb ss = frac (length ss * c) (list_sum (map (@length A) ss)) /\
  generalized_jaccard eqb ss = frac c u /\
  (product (map (@length A) ss) = 0 -> rq_zero (generalized_cosine eqb ss)) /\
  (0 < product (map (@length A) ss) -> generalized_cosine eqb ss = {| rq_num := c; rq_rad := product (map (@length A) ss) |}).
Proof. exact gvalues. Qed.
Print Assumptions generalized_values.
Theorem generalized_in_range : forall (A : Type) (eqb : A -> A -> bool), (forall x y, eqb x y = true <-> x = y) ->
  forall ss : list (list A), ss <> [] ->
  (0 <= generalized_dice eqb ss /\ generalized_dice eqb ss <= 1)%Q /\
  (0 <= generalized_jaccard eqb ss /\ generalized_jaccard eqb ss <= 1)%Q /\
  (2 <= length ss -> rq_le_one (generalized_cosine eqb ss)) /\
  ((generalized_dice eqb ss == 0)%Q <-> forall x, ~ in_all ss x) /\
  ((generalized_jaccard eqb ss == 0)%Q <-> forall x, ~ in_all ss x) /\
  (rq_zero (generalized_cosine eqb ss) <-> forall x, ~ in_all ss x).
Proof. exact gen_all. Qed.
Print Assumptions generalized_in_range.
Theorem generalized_agree_on_two : forall (A : Type) (eqb : A -> A -> bool) (s1 s2 : list A),
  generalized_dice eqb [s1; s2] = dice eqb s1 s2 /\ generalized_jaccard eqb [s1; s2] = jaccard eqb s1 s2 /\
  generalized_cosine eqb [s1; s2] = cosine eqb s1 s2.
Proof. exact gen_two. Qed.
Print Assumptions generalized_agree_on_two.
Theorem generalized_identity : forall (A : Type) (eqb : A -> A -> bool), (forall x y, eqb x y = true <-> x = y) ->
  forall (s : list A) (n : nat), NoDup s -> s <> [] ->
  (generalized_dice eqb (repeat s (S n)) == 1)%Q /\ (generalized_jaccard eqb (repeat s (S n)) == 1)%Q.
Proof. exact gen_equal. Qed.
Print Assumptions generalized_identity.
(** C10. generalized_cosine is not such a measure: for one sequence it can exceed 1, and for three equal
    sequences it is not 1. *)
Theorem generalized_cosine_not_normalized_refuted :
  generalized_cosine Nat.eqb [[1; 2; 3; 4]] = {| rq_num := 4; rq_rad := 4 |} /\
  ~ rq_le_one (generalized_cosine Nat.eqb [[1; 2; 3; 4]]) /\
  ~ rq_one (generalized_cosine Nat.eqb [[1; 2]; [1; 2]; [1; 2]]).
Proof. split; [reflexivity|]. unfold rq_le_one, rq_one. cbn. split; intros [_ H]; lia. Qed.
Print Assumptions generalized_cosine_not_normalized_refuted.

Example similarity_ex :
  exactly (fun x => In x [1;2;2;3] /\ In x [2;3;5]) 2 /\ exactly (fun x => In x [1;2;2;3] \/ In x [2;3;5]) 4 /\
  Qred (dice Nat.eqb [1;2;2;3] [2;3;5]) = (4 # 7)%Q /\ Qred (jaccard Nat.eqb [1;2;2;3] [2;3;5]) = (1 # 2)%Q /\
  Qred (tanimoto Nat.eqb [1;2;2;3] [2;3;5]) = (2 # 5)%Q /\ cosine Nat.eqb [1;2;2;3] [2;3;5] = {| rq_num := 2; rq_rad := 12 |} /\
  Qred (generalized_dice Nat.eqb [[1;2;2;3]; [2;3;5]; [3;3]]) = (1 # 3)%Q.
Proof.
  split; [exists [2;3]; split; [repeat constructor; cbn; intuition lia|split; [cbn; intuition lia|reflexivity]]|].
  split; [exists [1;2;3;5]; split; [repeat constructor; cbn; intuition lia|split; [cbn; intuition lia|reflexivity]]|].
  vm_compute. repeat split; reflexivity.
Qed.
