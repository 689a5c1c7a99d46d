(** Specification for a printed matrix (C67), independent of the program that prints it.  Numbers are those of Table_spec. *)
From Coq Require Import Ascii ZArith.
From Verif Require Export Py Table_spec.
Open Scope list_scope.
Open Scope nat_scope.
(** A number at the right end of a field of [w] characters. *)
Definition right_in (w : nat) (z : Z) (f : text) : Prop := exists k d, numeral z d /\ f = repeat space k ++ d /\ length f = w.
(** A row: [f1, f2, f3] and, if there is nothing in it, only the closing bracket. *)
Definition row_line (fs : list text) (l : text) : Prop :=
  match fs with
  | [] => l = ["]"%char]
  | f :: fs' => l = "["%char :: f ++ concat (map (fun g => ","%char :: space :: g) fs') ++ ["]"%char]
  end.
(** One line for each row, all numbers in fields of the same width. *)
Definition matrix_lines (w : nat) (m : list (list Z)) (ls : list text) : Prop :=
  Forall2 (fun row l => exists fs, Forall2 (right_in w) row fs /\ row_line fs l) m ls.
(** The exponent of the largest power of ten that is not above z. *)
Definition exponent (z : Z) (e : nat) : Prop := (10 ^ Z.of_nat e <= z < 10 ^ Z.of_nat (S e))%Z.
