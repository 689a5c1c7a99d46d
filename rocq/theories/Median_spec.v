From Coq Require Import QArith List.
Open Scope nat_scope.
(** Total distance of [x] to all members of [l]. *)
Definition total {A} (dist : A -> A -> Q) (l : list A) (x : A) : Q :=
  fold_right Qplus 0%Q (map (dist x) l).
