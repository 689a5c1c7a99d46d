(** C01-C03: properties of daeso.string.levenshtein *)
From Coq Require Import QArith.
From Verif Require Import Py Lev_model Lev_spec Lev_proof.
Open Scope nat_scope.

(** C01. [levenshtein] always returns, and what it returns is the length of a shortest
    sequence of single-element insertions, deletions and substitutions. *)
Theorem levenshtein_is_edit_distance :
  forall (A : Type) (eqb : A -> A -> bool), (forall x y, eqb x y = true <-> x = y) ->
  forall s1 s2 : list A,
  exists d, levenshtein eqb s1 s2 = Ok d /\ is_edit_distance d s1 s2.
Proof. exact levenshtein_is_distance. Qed.
Print Assumptions levenshtein_is_edit_distance.
(* non-vacuity: natural numbers with their boolean equality *)
Example levenshtein_ex : (forall x y, Nat.eqb x y = true <-> x = y) /\
  levenshtein Nat.eqb [1;2;3;3;4;5] [6;2;3;3;2;5;7] = Ok 3.
Proof. split; [exact Nat.eqb_eq | vm_compute; reflexivity]. Qed.

(** C02. Metric laws and bounds. *)
Theorem levenshtein_identity :
  forall (A : Type) (eqb : A -> A -> bool), (forall x y, eqb x y = true <-> x = y) ->
  forall s1 s2 : list A, levenshtein eqb s1 s2 = Ok 0 <-> s1 = s2.
Proof. exact lev_zero. Qed.
Print Assumptions levenshtein_identity.

Theorem levenshtein_symmetric :
  forall (A : Type) (eqb : A -> A -> bool), (forall x y, eqb x y = true <-> x = y) ->
  forall s1 s2 : list A, levenshtein eqb s1 s2 = levenshtein eqb s2 s1.
Proof. exact lev_sym. Qed.
Print Assumptions levenshtein_symmetric.

Theorem levenshtein_triangle :
  forall (A : Type) (eqb : A -> A -> bool), (forall x y, eqb x y = true <-> x = y) ->
  forall (s1 s2 s3 : list A) a b c,
  levenshtein eqb s1 s2 = Ok a -> levenshtein eqb s2 s3 = Ok b -> levenshtein eqb s1 s3 = Ok c ->
  c <= a + b.
Proof. exact lev_triangle. Qed.
Print Assumptions levenshtein_triangle.
Example levenshtein_triangle_ex :
  levenshtein Nat.eqb [1;2] [2;1] = Ok 2 /\ levenshtein Nat.eqb [2;1] [2] = Ok 1 /\
  levenshtein Nat.eqb [1;2] [2] = Ok 1.
Proof. vm_compute; auto. Qed.

Theorem levenshtein_bounds :
  forall (A : Type) (eqb : A -> A -> bool), (forall x y, eqb x y = true <-> x = y) ->
  forall (s1 s2 : list A) d, levenshtein eqb s1 s2 = Ok d ->
  length s1 - length s2 <= d /\ length s2 - length s1 <= d /\
  d <= Nat.max (length s1) (length s2).
Proof. exact lev_bounds. Qed.
Print Assumptions levenshtein_bounds.

(** C03. The normalized distance always returns, lies in [0,1], is symmetric, is zero exactly on
    equal sequences, and is the distance divided by the longer length. *)
Theorem normalized_levenshtein_range :
  forall (A : Type) (eqb : A -> A -> bool), (forall x y, eqb x y = true <-> x = y) ->
  forall s1 s2 : list A,
  exists q, normalized_levenshtein eqb s1 s2 = Ok q /\
  (0 <= q /\ q <= 1)%Q /\ ((q == 0)%Q <-> s1 = s2) /\
  normalized_levenshtein eqb s2 s1 = Ok q /\
  (exists d, levenshtein eqb s1 s2 = Ok d /\
     (inject_Z (Z.of_nat d) == q * inject_Z (Z.of_nat (Nat.max (length s1) (length s2))))%Q).
Proof. exact nlev_ok. Qed.
Print Assumptions normalized_levenshtein_range.
Example normalized_levenshtein_ex :
  normalized_levenshtein Nat.eqb [1;2] [2] = Ok (1#2) /\
  normalized_levenshtein Nat.eqb [] ([] : list nat) = Ok 0%Q.
Proof. vm_compute; auto. Qed.
