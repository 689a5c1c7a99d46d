(** C08: properties of daeso.string.median *)
From Coq Require Import QArith.
From Verif Require Import Py Median_model Median_spec Median_proof.
Open Scope nat_scope.

(** C08. For a symmetric distance that vanishes on the diagonal, [set_median_string] returns the
    first member of the list whose total distance to all members is minimal. *)
Theorem set_median_string_minimal :
  forall (A : Type) (dist : A -> A -> Q) (strings : list A),
  (forall x y, (dist x y == dist y x)%Q) -> (forall x, (dist x x == 0)%Q) -> strings <> [] ->
  exists i r, set_median_string dist strings = Ok r /\ nth_error strings i = Some r /\
  forall k x, nth_error strings k = Some x ->
    (total dist strings r <= total dist strings x)%Q /\
    (k < i -> (total dist strings r < total dist strings x)%Q).
Proof. exact median_ok. Qed.
Print Assumptions set_median_string_minimal.
Definition zdist (x y : Z) : Q := inject_Z (Z.abs (x - y)).
Example set_median_string_ex :
  (forall x y, (zdist x y == zdist y x)%Q) /\ (forall x, (zdist x x == 0)%Q) /\
  set_median_string zdist [9; 1; 4; 3]%Z = Ok 4%Z.
Proof.
  repeat split.
  - intros x y. unfold zdist. replace (Z.abs (x - y)) with (Z.abs (y - x)) by lia. reflexivity.
  - intros x. unfold zdist. now rewrite Z.sub_diag.
Qed.

(** An empty list makes the call fail. *)
Theorem set_median_string_empty :
  forall (A : Type) (dist : A -> A -> Q), set_median_string dist [] = Err IndexError.
Proof. exact median_empty. Qed.
Print Assumptions set_median_string_empty.
