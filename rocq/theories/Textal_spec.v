(** What text alignment should produce (lib/daeso/ptc/textalign.py). *)
From Coq Require Import String Reals Permutation Sorted.
From Verif Require Import Py Ielem_spec Hdoc_spec.
Set Implicit Arguments.
Open Scope nat_scope.

(** Two pairs of positions cross if their sources and targets are ordered differently. *)
Definition cross (p q : nat * nat) : Prop :=
  (fst p < fst q /\ snd p > snd q) \/ (fst p > fst q /\ snd p < snd q).

(** A comparison [a < b] of scores that orders them linearly up to ties. *)
Record score_order (S : Type) (lt : S -> S -> bool) : Prop := {
  lt_asym : forall a b, lt a b = true -> lt b a = false;
  ge_trans : forall a b c, lt a b = false -> lt b c = false -> lt a c = false }.

(** [sort] sorts in descending order, with any treatment of ties. *)
Definition sorts_descending (S X : Type) (lt : S -> S -> bool) (sort : list (S * X) -> list (S * X)) : Prop :=
  forall l, Permutation l (sort l) /\ StronglySorted (fun a b => lt (fst a) (fst b) = false) (sort l).

(** The proper descendants of an element, in document order. *)
Definition inside (char : Type) (e : elem char) : list (elem char) := flat_map (@doc_order char) (children e).

(** The value of a weighted cosine: dot product over the product of the lengths. *)
Definition dot (a b : list R) : R := fold_right Rplus 0%R (map (fun p => fst p * snd p)%R (combine a b)).
Definition square_length (a : list R) : R := fold_right Rplus 0%R (map (fun x => x * x)%R a).
