(** Model of /repo/lib/daeso/string/levenshtein.py *)
From Coq Require Import QArith.
From Verif Require Import Py.
Open Scope nat_scope.
Set Implicit Arguments.

Section Lev.
Variable A : Type.
Variable eqb : A -> A -> bool.      (* Python [==] on sequence elements *)

(** levenshtein.py 45-51: body of the inner loop [for j in range(1, n+1)].
    [min(add, delete, change)] is the least of the three. *)
Definition lev_cell (s1 s2 : list A) (i : nat) (previous current : list nat) (j : nat)
  : res (list nat) :=
  pj <- get previous j ;;
  cj <- get current (j - 1) ;;
  let add := pj + 1 in
  let delete := cj + 1 in
  change0 <- get previous (j - 1) ;;
  a <- get s1 (j - 1) ;;
  b <- get s2 (i - 1) ;;
  let change := if negb (eqb a b) then change0 + 1 else change0 in
  set current j (Nat.min add (Nat.min delete change)).

(** levenshtein.py 43-51: body of the outer loop: shift rows, fill the new one. *)
Definition lev_row (s1 s2 : list A) (n : nat) (current : list nat) (i : nat) : res (list nat) :=
  foldM (lev_cell s1 s2 i current) (i :: repeat 0 n) (seq 1 n).

(** levenshtein.py 29-52 after the swap: [s1] is the shorter sequence. *)
Definition lev_main (s1 s2 : list A) : res nat :=
  let n := length s1 in
  let m := length s2 in
  current <- foldM (lev_row s1 s2 n) (seq 0 (n + 1)) (seq 1 m) ;;
  get current n.

(** levenshtein.py 29-52: [levenshtein]. *)
Definition levenshtein (s1 s2 : list A) : res nat :=
  if length s2 <? length s1 then lev_main s2 s1 else lev_main s1 s2.

(** levenshtein.py 55-68: [normalized_levenshtein]; the float quotient is an exact rational,
    ZeroDivisionError (denominator 0) is caught and gives 0. *)
Definition normalized_levenshtein (s1 s2 : list A) : res Q :=
  d <- levenshtein s1 s2 ;;
  match Nat.max (length s1) (length s2) with
  | O => Ok 0%Q
  | S k => Ok (Z.of_nat d # Pos.of_succ_nat k)
  end.
End Lev.
