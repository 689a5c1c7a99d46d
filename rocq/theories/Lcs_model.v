(** Model of /repo/lib/daeso/string/lcs.py *)
From Verif Require Import Py.
Set Implicit Arguments.

Section Lcs.
Variable A : Type.
Variable eqb : A -> A -> bool.

(** The dict [lcsLen], keyed by pairs (lcs.py 51). *)
Definition table := list ((nat * nat) * nat).
Definition tread (t : table) (i j : nat) : res nat := dread (pair_eqb Nat.eqb Nat.eqb) t (i, j).
Definition tset (t : table) (i j v : nat) : table := dset (pair_eqb Nat.eqb Nat.eqb) t (i, j) v.

(** lcs.py 53-59: one cell of the table. *)
Definition lcs_cell (s1 s2 : list A) (i : nat) (t : table) (j : nat) : res table :=
  if (i =? 0) || (j =? 0) then Ok (tset t i j 0)
  else
    a <- get s1 (i - 1) ;;
    b <- get s2 (j - 1) ;;
    if eqb a b then
      v <- tread t (i - 1) (j - 1) ;; Ok (tset t i j (v + 1))
    else
      u <- tread t (i - 1) j ;;
      l <- tread t i (j - 1) ;;
      Ok (tset t i j (Nat.max u l)).

(** lcs.py 51-59: fill the table. *)
Definition lcs_row (s1 s2 : list A) (t : table) (i : nat) : res table :=
  foldM (lcs_cell s1 s2 i) t (seq 0 (length s2 + 1)).
Definition lcs_table (s1 s2 : list A) : res table :=
  foldM (lcs_row s1 s2) [] (seq 0 (length s1 + 1)).

(** lcs.py 67-68: [while lcsLen[i,j] == lcsLen[i-1,j]: i -= 1].
    At i = 0 the key (-1, j) is missing: KeyError. *)
Fixpoint move_i (t : table) (i j : nat) : res nat :=
  v <- tread t i j ;;
  match i with
  | O => Err KeyError
  | S i' => w <- tread t i' j ;; if v =? w then move_i t i' j else Ok i
  end.

(** lcs.py 69-70: [while lcsLen[i,j] == lcsLen[i,j-1]: j -= 1]. *)
Fixpoint move_j (t : table) (i j : nat) : res nat :=
  v <- tread t i j ;;
  match j with
  | O => Err KeyError
  | S j' => w <- tread t i j' ;; if v =? w then move_j t i j' else Ok j
  end.

(** lcs.py 66-73: the outer [while lcsLen[i,j]] loop.  [seq1[i]] is read after [i -= 1]. *)
Fixpoint backtrack (s1 : list A) (t : table) (fuel i j : nat) (acc : list A) : res (list A) :=
  v <- tread t i j ;;
  if v =? 0 then Ok acc
  else match fuel with
       | O => Err OutOfFuel
       | S fuel' =>
         i1 <- move_i t i j ;;
         j1 <- move_j t i1 j ;;
         a <- get s1 (i1 - 1) ;;
         backtrack s1 t fuel' (i1 - 1) (j1 - 1) (acc ++ [a])
       end.

(** lcs.py 42-84: [longest_common_subsequence] (= [lcs], line 98).  The conversion of the
    result to the type of the inputs (str, tuple, list; 77-84) is the identity here.
    Fuel: one unit per outer iteration; [length s1] iterations always suffice (proved). *)
Definition lcs (s1 s2 : list A) : res (list A) :=
  t <- lcs_table s1 s2 ;;
  r <- backtrack s1 t (length s1) (length s1) (length s2) [] ;;
  Ok (rev r).

(** lcs.py 87-95: [normalized_lcs]: len(lcs) / sqrt(len1*len2); a zero root is caught and gives 0.0.
    The quotient is kept exact; 0.0 is represented as 0/sqrt(1). *)
Definition normalized_lcs (s1 s2 : list A) : res rootquot :=
  r <- lcs s1 s2 ;;
  if length s1 * length s2 =? 0 then Ok {| rq_num := 0; rq_rad := 1 |}
  else Ok {| rq_num := length r; rq_rad := length s1 * length s2 |}.
End Lcs.
