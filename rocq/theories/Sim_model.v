(** Model of /repo/lib/daeso/string/similar.py.  Floats are exact rationals; a quotient by a square root is
    kept exact as a [rootquot] (0.0 is 0/sqrt 1). *)
From Coq Require Import QArith.
From Verif Require Import Py.
Open Scope nat_scope.
Set Implicit Arguments.
Section Sim.
Variable A : Type.
Variable eqb : A -> A -> bool.
(** set(l): the elements, once each (the order of a set is never observed here) *)
Definition to_set (l : list A) : list A := fold_left (fun s x => if mem eqb x s then s else s ++ [x]) l [].
(** s.intersection(l), s.union(l) for a set s and a sequence l; also the updating variants *)
Definition intersection (s l : list A) : list A := filter (fun x => mem eqb x l) s.
Definition union (s l : list A) : list A := fold_left (fun s x => if mem eqb x s then s else s ++ [x]) l s.
Definition qn (n : nat) : Q := inject_Z (Z.of_nat n).
(** float(a)/b with the ZeroDivisionError caught and 0.0 returned *)
Definition quot0 (a b : nat) : Q := if b =? 0 then 0%Q else (qn a / qn b)%Q.
Definition rootquot0 (a b : nat) : rootquot := if b =? 0 then {| rq_num := 0; rq_rad := 1 |} else {| rq_num := a; rq_rad := b |}.
Section Two.
Variables seq1 seq2 : list A.
(** similar.py 35-42 *)
Definition type_match : nat := length (intersection (to_set seq1) seq2).
(** similar.py 45-53 *)
Definition token_match (seq1 seq2 : list A) : nat := length (filter (fun e => mem eqb e seq2) seq1).
(** similar.py 56-67 *)
Definition sym_token_match : Q := (qn (token_match seq1 seq2 + token_match seq2 seq1) / 2)%Q.
(** similar.py 70-85 *)
Definition cosine : rootquot := let i := intersection (to_set seq1) seq2 in rootquot0 (length i) (length seq1 * length seq2).
(** similar.py 88-103; the denominator cannot be negative *)
Definition tanimoto : Q := let i := intersection (to_set seq1) seq2 in quot0 (length i) (length seq1 + length seq2 - length i).
(** similar.py 106-121 *)
Definition dice : Q := let i := intersection (to_set seq1) seq2 in quot0 (2 * length i) (length seq1 + length seq2).
(** similar.py 124-140 *)
Definition jaccard : Q := let u := union (to_set seq1) seq2 in let i := intersection (to_set seq1) seq2 in quot0 (length i) (length u).
(** similar.py 143-155 *)
Definition overlap_min : Q := let i := intersection (to_set seq1) seq2 in quot0 (length i) (min (length seq1) (length seq2)).
(** similar.py 158-170 *)
Definition overlap_max : Q := let i := intersection (to_set seq1) seq2 in quot0 (length i) (max (length seq1) (length seq2)).
End Two.
(** similar.py 180-199 *)
Definition generalized_cosine (sequences : list (list A)) : rootquot :=
  match sequences with
  | [] => {| rq_num := 0; rq_rad := 1 |}
  | s0 :: rest =>
      let st := fold_left (fun st s => (fst st * length s, intersection (snd st) s)) rest (length s0, to_set s0) in
      rootquot0 (length (snd st)) (fst st)
  end.
(** similar.py 202-221 *)
Definition generalized_dice (sequences : list (list A)) : Q :=
  match sequences with
  | [] => 0%Q
  | s0 :: rest =>
      let st := fold_left (fun st s => (fst st + length s, intersection (snd st) s)) rest (length s0, to_set s0) in
      quot0 (length sequences * length (snd st)) (fst st)
  end.
(** similar.py 224-243 *)
Definition generalized_jaccard (sequences : list (list A)) : Q :=
  match sequences with
  | [] => 0%Q
  | s0 :: rest =>
      let st := fold_left (fun st s => (union (fst st) s, intersection (snd st) s)) rest (to_set s0, to_set s0) in
      quot0 (length (snd st)) (length (fst st))
  end.
End Sim.
