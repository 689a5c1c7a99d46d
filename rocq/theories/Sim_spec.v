(** Specification of set similarity: counting elements. *)
From Coq Require Import QArith.
From Verif Require Import Py.
Open Scope nat_scope.
Set Implicit Arguments.
(** exactly [n] different elements have property [P] *)
Definition exactly {A} (P : A -> Prop) (n : nat) : Prop :=
  exists l, NoDup l /\ (forall x, In x l <-> P x) /\ length l = n.
(** the fraction a/b, or 0 if b = 0 *)
Definition frac (a b : nat) : Q := match b with O => 0%Q | _ => (inject_Z (Z.of_nat a) / inject_Z (Z.of_nat b))%Q end.
(** x / sqrt y lies in [0,1]; equals 1; equals 0 *)
Definition rq_le_one (q : rootquot) : Prop := 0 < rq_rad q /\ rq_num q * rq_num q <= rq_rad q.
Definition rq_one (q : rootquot) : Prop := 0 < rq_rad q /\ rq_num q * rq_num q = rq_rad q.
Definition rq_zero (q : rootquot) : Prop := 0 < rq_rad q /\ rq_num q = 0.
(** two sequences with the same elements, neither with duplicates *)
Definition same_set {A} (s1 s2 : list A) : Prop := NoDup s1 /\ NoDup s2 /\ (forall x, In x s1 <-> In x s2).
(** in all / in some of the sequences *)
Definition in_all {A} (ss : list (list A)) (x : A) : Prop := forall s, In s ss -> In x s.
Definition in_some {A} (ss : list (list A)) (x : A) : Prop := exists s, In s ss /\ In x s.
Definition product (l : list nat) : nat := fold_right Nat.mul 1 l.
(** a symmetric measure with values in [0,1] that is 0 exactly for sequences without a common element *)
Definition good_measure {A} (m : list A -> list A -> Q) : Prop :=
  forall s1 s2, m s1 s2 = m s2 s1 /\ (0 <= m s1 s2 /\ m s1 s2 <= 1)%Q /\
    ((m s1 s2 == 0)%Q <-> forall x, ~ (In x s1 /\ In x s2)).
