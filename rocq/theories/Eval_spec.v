(** Specification of evaluation counts: plain counting of alignment triples. *)
From Verif Require Import Py.
Set Implicit Arguments.
Section S.
Variables N R : Type.
Variable neqb : N -> N -> bool.
Variable reqb : R -> R -> bool.
(** An alignment triple ((source, target), relation). *)
Definition triple := ((N * N) * R)%type.
Definition teqb (x y : triple) : bool := pair_eqb (pair_eqb neqb neqb) reqb x y.
(** number of triples with relation r *)
Definition n_rel (r : R) (l : list triple) : nat := length (filter (fun e => reqb (snd e) r) l).
(** number of triples with relation r that are in both lists *)
Definition n_both_rel (r : R) (t p : list triple) : nat :=
  length (filter (fun e => reqb (snd e) r && mem teqb e p) t).
(** number of node pairs that are aligned in both lists, whatever the relations *)
Definition n_both_any (t p : list triple) : nat :=
  length (filter (fun e => mem (pair_eqb neqb neqb) (fst e) (map fst p)) t).
(** sums over corresponding graph pairs *)
Definition over_pairs {X} (f : X -> X -> nat) (t p : list X) : nat :=
  list_sum (map (fun q => f (fst q) (snd q)) (combine t p)).
End S.
(** The quotient of two counts, 0 if it is undefined. *)
From Coq Require Import QArith.
Definition ratio (a b : nat) : Q := match b with O => 0 | S _ => Z.of_nat a # Pos.of_nat b end.
(** The sum of f over a list. *)
Definition q_total {X} (f : X -> Q) (l : list X) : Q := fold_right (fun x s => (f x + s)%Q) 0%Q l.
Definition q_of (n : nat) : Q := inject_Z (Z.of_nat n).
