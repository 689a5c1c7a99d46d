(** Specification of the assignment problem. *)
From Coq Require Import List ZArith.
Import ListNotations.
Set Implicit Arguments.

(** Cost matrix with [rows] rows of [cols] entries each. *)
Definition rectangular (rows cols : nat) (m : list (list Z)) : Prop :=
  length m = rows /\ forall row, In row m -> length row = cols.

(** An assignment: pairs (row, column) of positions in the matrix, no row and no column twice. *)
Definition assignment (rows cols : nat) (a : list (nat * nat)) : Prop :=
  (forall i j, In (i, j) a -> i < rows /\ j < cols) /\ NoDup (map fst a) /\ NoDup (map snd a).
(** It is complete when the smaller side is used up. *)
Definition complete (rows cols : nat) (a : list (nat * nat)) : Prop :=
  assignment rows cols a /\ length a = Nat.min rows cols.

Definition entry (m : list (list Z)) (p : nat * nat) : Z := nth (snd p) (nth (fst p) m []) 0%Z.
Definition total (m : list (list Z)) (a : list (nat * nat)) : Z := fold_right Z.add 0%Z (map (entry m) a).
