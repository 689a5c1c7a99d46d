(** Model of print_matrix, lib/daeso/thirdparty/munkres.py 727-759, for a matrix of integers (lists of any lengths).
    [lg z] is int(math.log10(z)) for z > 0; what is assumed of it is in the theorems. *)
From Coq Require Import Ascii ZArith.
From Verif Require Import Py Number_model Table_spec Table_model Showmat_spec.
Import ListNotations.
Open Scope list_scope.
Open Scope nat_scope.
Section Showmat.
Variable lg : Z -> nat.
(** int(math.log10(val)): ValueError (math domain error) unless val > 0 *)
Definition log10 (z : Z) : res nat := if (0 <? z)%Z then Ok (lg z) else Err ValueError.
(** munkres.py 743-746 *)
Definition width_of (m : list (list Z)) : res nat :=
  foldM (fun w row => foldM (fun w v => l <- log10 v ;; Ok (Nat.max w (l + 1))) w row) 0 m.
(** munkres.py 749: the format %wd *)
Definition cell (w : nat) (v : Z) : text := rjust w (str_Z v).
(** munkres.py 753-758: a row; sep is '[' for the first value and ', ' for the others *)
Fixpoint cells (w : nat) (sep : text) (row : list Z) : text :=
  match row with [] => [] | v :: row' => sep ++ cell w v ++ cells w [","%char; space] row' end.
Definition line (w : nat) (row : list Z) : text := cells w ["["%char] row ++ ["]"%char; newline].
(** munkres.py 739-758: what is written, and the exception if any *)
Definition print_matrix (m : list (list Z)) (msg : option text) : text * option exc :=
  let head := match msg with Some s => s ++ [newline] | None => [] end in
  match width_of m with
  | Err e => (head, Some e)
  | Ok w => (head ++ concat (map (line w) m), None)
  end.
End Showmat.
