(** Specification of a stock of items in order of use.  An item that is added again while it is there occurs twice; only
    its last occurrence is known to discard and update. *)
From Coq Require Import String List Bool.
From Verif Require Import Py.
Import ListNotations.
Set Implicit Arguments.
Section S.
Variable K : Type.
Variable keqb : K -> K -> bool.
Inductive sop := SAdd (k : K) | SUpdate (k : K) | SDiscard (k : K) | SClear.
(** Occurrences, oldest first; the flag says whether it is the known one. *)
Definition occurrences := list (K * bool).
Definition forget (k : K) (l : occurrences) : occurrences := map (fun e => (fst e, snd e && negb (keqb k (fst e)))) l.
Definition drop (k : K) (l : occurrences) : occurrences := filter (fun e => negb (snd e && keqb k (fst e))) l.
Definition sstep (l : occurrences) (o : sop) : occurrences :=
  match o with
  | SAdd k => forget k l ++ [(k, true)]
  | SUpdate k => drop k l ++ [(k, true)]
  | SDiscard k => drop k l
  | SClear => []
  end.
Definition sruns (os : list sop) : occurrences := fold_left sstep os [].
(** No item is added while it is there. *)
Definition adds_new (os : list sop) : Prop := forall a k b, os = a ++ SAdd k :: b -> ~ In k (map fst (sruns a)).
Fixpoint with_between (sep : string) (l : list string) : string :=
  match l with [] => "" | [x] => x | x :: l' => (x ++ sep ++ with_between sep l')%string end.
(** What str() shows: newest to oldest, then oldest to newest. *)
Definition shown (show : K -> string) (l : list K) : string :=
  (with_between " <- " (rev (map show l)) ++ " / " ++ with_between " -> " (map show l))%string.
End S.
Arguments SClear {K}.
