(** Specification of ROUGE scores. *)
From Coq Require Import QArith.
From Verif Require Import Py.
Open Scope nat_scope.
Set Implicit Arguments.
(** [F] is the F-measure of precision [p] and recall [r] with weight [b]: 0 if both are 0 (or b*b*p + r is), else the quotient *)
Definition is_fmeasure (b p r F : Q) : Prop :=
  let den := (b * b * p + r)%Q in
  ((den == 0)%Q -> (F == 0)%Q) /\ (~ (den == 0)%Q -> (F * den == (1 + b * b) * p * r)%Q).
(** how many members of [xs] occur in [ys] *)
Inductive hits {A} (ys : list A) : list A -> nat -> Prop :=
| h_nil : hits ys [] 0
| h_yes : forall x xs n, In x ys -> hits ys xs n -> hits ys (x :: xs) (S n)
| h_no : forall x xs n, ~ In x ys -> hits ys xs n -> hits ys (x :: xs) n.
Definition q_of (n : nat) : Q := inject_Z (Z.of_nat n).
