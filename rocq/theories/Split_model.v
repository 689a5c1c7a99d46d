(** Model of bin/pgc_split.py and bin/pgc_join.py.  Reading and writing of the files and the final
    corpus.purge() are not modelled here (see PgcXml_model, Purge_model): a file holds a list of
    relations and a list of graph pairs.  Floating point division and rounding are exact. *)
From Verif Require Import Py Split_spec.
Open Scope Z_scope.
Set Implicit Arguments.

(** "%d" of a natural number: repeated division by 10 *)
Fixpoint dec (fuel : nat) (n : nat) : name :=
  match fuel with
  | O => []
  | S f => if (n <? 10)%nat then [48 + n]%nat else dec f (n / 10)%nat ++ [48 + n mod 10]%nat
  end.
(** "{0:04d}" *)
Definition dec4 (n : nat) : name :=
  let s := dec (S n) n in repeat 48%nat (4 - length s) ++ s.

Section Split.
Variable A : Type.

(** pgc_split.py 80-81: [int(round(len / parts + 0.5))], where [/] is integer division and round
    rounds halves away from zero. *)
Definition split_size (len : nat) (parts : Z) (size : option Z) : res Z :=
  let computed := if parts =? 0 then Err ZeroDivisionError
                  else let k := Z.of_nat len / parts in Ok (if 0 <=? k then k + 1 else k) in
  match size with
  | None => computed
  | Some s => if s =? 0 then computed else Ok s
  end.
(** range(0, stop, step) with stop >= 0 *)
Definition py_range (stop : nat) (step : Z) : res (list nat) :=
  if step =? 0 then Err ValueError
  else if step <? 0 then Ok []
  else Ok (map (fun k => k * Z.to_nat step)%nat (seq 0 (Z.to_nat ((Z.of_nat stop + step - 1) / step)))).
(** pgc_split.py 77-88: the written files, in order *)
Definition split (corpus : list A) (root ext : name) (parts : Z) (size : option Z) : res (list (name * list A)) :=
  size <- split_size (length corpus) parts size ;;
  is <- py_range (length corpus) size ;;
  Ok (map (fun i => let j := Nat.min (i + Z.to_nat size) (length corpus) in
                    (root ++ [95]%nat ++ dec4 (i + 1) ++ [45]%nat ++ dec4 j ++ ext, slice corpus i j)) is).
End Split.

Section Join.
Variables (A R : Type) (reqb : R -> R -> bool).
(** str.__le__ *)
Fixpoint name_leb (s t : name) : bool :=
  match s, t with
  | [], _ => true
  | _ :: _, [] => false
  | c :: s', d :: t' => if (c <? d)%nat then true else if (d <? c)%nat then false else name_leb s' t'
  end.
(** lib/daeso/utils/opsys.py 53-61: multiglob, for files that match the patterns in any order *)
Fixpoint insert (f : name * (list R * list A)) l :=
  match l with [] => [f] | g :: l' => if name_leb (fst f) (fst g) then f :: l else g :: insert f l' end.
Definition multiglob (matched : list (name * (list R * list A))) := fold_right insert [] matched.
(** list.__eq__ *)
Fixpoint rels_eqb (l1 l2 : list R) : bool :=
  match l1, l2 with [], [] => true | x :: a, y :: b => reqb x y && rels_eqb a b | _, _ => false end.
(** pgc_join.py 66-84 and lib/daeso/pgc/corpus.py 286-294, 686-700: __iadd__ with the check on relations *)
Definition join (matched : list (name * (list R * list A))) : res (list R * list A) :=
  match multiglob matched with
  | [] => Err IndexError
  | (_, (relations, pairs)) :: rest =>
      l <- foldM (fun acc f => if rels_eqb relations (fst (snd f)) then Ok (acc ++ snd (snd f)) else Err ValueError) pairs rest ;;
      Ok (relations, l)
  end.
End Join.
