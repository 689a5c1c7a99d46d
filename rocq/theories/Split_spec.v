(** What splitting a corpus into files and joining files means (bin/pgc_split.py, bin/pgc_join.py). *)
From Coq Require Import Permutation.
From Verif Require Import Py.
Open Scope nat_scope.
Set Implicit Arguments.

(** File names are sequences of byte values. *)
Definition name := list nat.
(** [n] in decimal notation. *)
Inductive decimal : nat -> name -> Prop :=
| Dec1 : forall d, d < 10 -> decimal d [48 + d]
| DecS : forall n d s, 0 < n -> d < 10 -> decimal n s -> decimal (10 * n + d) (s ++ [48 + d]).
(** With zeros in front up to four digits. *)
Definition decimal4 (n : nat) (s : name) : Prop := exists z t, decimal n t /\ s = repeat 48 z ++ t /\ (z = 0 \/ length s = 4) /\ 4 <= length s.
(** root_FIRST-LASText *)
Definition part_name (root ext : name) (first last : nat) (s : name) : Prop :=
  exists a b, decimal4 first a /\ decimal4 last b /\ s = root ++ [95] ++ a ++ [45] ++ b ++ ext.

(** Byte-wise alphabetical order. *)
Inductive before : name -> name -> Prop :=
| BNil : forall c s, before [] (c :: s)
| BLt : forall c d s t, c < d -> before (c :: s) (d :: t)
| BEq : forall c s t, before s t -> before (c :: s) (c :: t).

(** The parts of a corpus: consecutive non-empty pieces, all of the given size except perhaps the
    last, which is not larger; each in a file named after its first and last position. *)
Inductive partition (A : Type) (root ext : name) (size : nat) : nat -> list A -> list (name * list A) -> Prop :=
| PNil : forall k, partition root ext size k [] []
| PLast : forall k s l, l <> [] -> length l <= size -> part_name root ext (k + 1) (k + length l) s ->
    partition root ext size k l [(s, l)]
| PCons : forall k s l rest parts, length l = size -> rest <> [] -> part_name root ext (k + 1) (k + length l) s ->
    partition root ext size (k + size) rest parts -> partition root ext size k (l ++ rest) ((s, l) :: parts).
