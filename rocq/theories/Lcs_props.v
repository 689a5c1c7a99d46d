(** C04-C05: properties of daeso.string.lcs *)
From Coq Require Import Reals.
From Verif Require Import Py Lcs_model Lcs_spec Lcs_proof.
Open Scope nat_scope.

(** C04. [lcs] always returns (no KeyError, no non-termination) a longest common subsequence. *)
Theorem lcs_is_longest_common_subsequence :
  forall (A : Type) (eqb : A -> A -> bool), (forall x y, eqb x y = true <-> x = y) ->
  forall s1 s2 : list A, exists r, lcs eqb s1 s2 = Ok r /\ longest_common r s1 s2.
Proof. exact lcs_ok. Qed.
Print Assumptions lcs_is_longest_common_subsequence.
Example lcs_ex : lcs Nat.eqb [1;2;3;2;4;1;2] [2;4;3;1;2;1] = Ok [2;3;2;1].
Proof. vm_compute; reflexivity. Qed.

(** C05. [normalized_lcs] always returns a number in [0,1], symmetric in its arguments,
    0 if a sequence is empty, 1 for equal non-empty sequences, and otherwise the length of a
    longest common subsequence over the square root of the product of the lengths. *)
Theorem normalized_lcs_range :
  forall (A : Type) (eqb : A -> A -> bool), (forall x y, eqb x y = true <-> x = y) ->
  forall s1 s2 : list A, exists q, normalized_lcs eqb s1 s2 = Ok q /\
  normalized_lcs eqb s2 s1 = Ok q /\
  (0 <= rq_val q /\ rq_val q <= 1)%R /\
  (s1 = [] \/ s2 = [] -> rq_val q = 0%R) /\
  (s1 = s2 -> s1 <> [] -> rq_val q = 1%R) /\
  (s1 <> [] -> s2 <> [] -> exists r, longest_common r s1 s2 /\
     rq_val q = (INR (length r) / sqrt (INR (length s1 * length s2)))%R).
Proof. exact nlcs_ok. Qed.
Print Assumptions normalized_lcs_range.
Example normalized_lcs_ex : normalized_lcs Nat.eqb [1;2;3] [1;3] = Ok {| rq_num := 2; rq_rad := 6 |}.
Proof. vm_compute; reflexivity. Qed.
