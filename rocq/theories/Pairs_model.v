(** Model of lib/daeso/pair.py.  Pairs are mutable objects; the heap lists their attributes source and target.  Items that
    are not Pairs are of type A with a total ==; comparing such an item with a Pair is left to Pair.__eq__ (which is what
    the comparisons of the built-in types do).  Recursion is bounded by [fuel], as by the recursion limit of Python. *)
From Coq Require Import String.
From Verif Require Import Py Pairs_spec.
Import ListNotations.
Set Implicit Arguments.
Open Scope string_scope.
Open Scope nat_scope.
Open Scope list_scope.
Section Pairs.
Variable A : Type.
Variable none : A.
Variable aeqb : A -> A -> bool.
Notation value := (value A).
Definition heap := list (value * value).
(** pair.py 61-63: set(source=None, target=None) *)
Definition or_none (v : option value) : value := match v with Some v => v | None => Atom none end.
Definition set_pair (h : heap) (i : nat) (s t : option value) : heap := set_nth h i (or_none s, or_none t).
(** a reference to a pair that does not exist cannot be written *)
Definition valid (h : heap) (v : value) : bool := match v with Atom _ => true | Ref i => i <? length h end.
Definition valid_opt (h : heap) (v : option value) : bool := match v with Some v => valid h v | None => true end.
(** pair.py 37-38 __init__ , assignments to the attributes, set *)
Definition step (h : heap) (o : op A) : heap :=
  match o with
  | New s t => if valid h s && valid h t then h ++ [(s, t)] else h
  | SetSource i v => match nth_error h i with Some (s, t) => if valid h v then set_nth h i (v, t) else h | None => h end
  | SetTarget i v => match nth_error h i with Some (s, t) => if valid h v then set_nth h i (s, v) else h | None => h end
  | SetBoth i s t => if (i <? length h) && valid_opt h s && valid_opt h t then set_pair h i s t else h
  end.
Definition run (h : heap) (os : list (op A)) : heap := fold_left step os h.
(** pair.py 41-44: __eq__; [a and b] is a if a is false; without a Pair on the other side the result is None *)
Fixpoint eq (fuel : nat) (h : heap) (v w : value) : res verdict :=
  match v, w with
  | Atom a, Atom b => Ok (if aeqb a b then Yes else No)
  | Ref i, Ref j =>
      match fuel with
      | O => Err OutOfFuel
      | S f =>
          match nth_error h i, nth_error h j with
          | Some (s, t), Some (s', t') =>
              x <- eq f h s s' ;;
              match x with Yes => eq f h t t' | _ => Ok x end
          | _, _ => Err NameError
          end
      end
  | _, _ => Ok Neither
  end.
(** != and hash: Pair defines neither, so Python 2 takes the identity of the objects *)
Definition ne (i j : nat) : bool := negb (i =? j).
(** i in d, d[i] for a dict with Pairs as keys *)
Definition lookup {V} (d : list (nat * V)) (i : nat) : res V := dread Nat.eqb d i.
(** p in l for a list l: the same object, or == gives a true value *)
Fixpoint in_list (fuel : nat) (h : heap) (i : nat) (l : list value) : res bool :=
  match l with
  | [] => Ok false
  | v :: l' =>
      if match v with Ref j => j =? i | Atom _ => false end then Ok true
      else x <- eq fuel h v (Ref i) ;; match x with Yes => Ok true | _ => in_list fuel h i l' end
  end.
(** pair.py 57-58: __iter__; the tuple is made when iter() is called *)
Definition iter (h : heap) (i : nat) : res (list value) :=
  match nth_error h i with Some (s, t) => Ok [s; t] | None => Err NameError end.
(** pair.py 47-54: __repr__ and __str__, for [show] = repr or str of the other items *)
Fixpoint text_of (show : A -> string) (fuel : nat) (h : heap) (v : value) : res string :=
  match v with
  | Atom a => Ok (show a)
  | Ref i =>
      match fuel with
      | O => Err OutOfFuel
      | S f =>
          match nth_error h i with
          | Some (s, t) => x <- text_of show f h s ;; y <- text_of show f h t ;;
                           Ok ("Pair(source=" ++ x ++ ", target=" ++ y ++ ")")%string
          | None => Err NameError
          end
      end
  end.
(** What a value contains, followed through the references. *)
Inductive contains (h : heap) : value -> tree A -> Prop :=
| contains_atom a : contains h (Atom a) (Leaf a)
| contains_pair i s t x y : nth_error h i = Some (s, t) -> contains h s x -> contains h t y -> contains h (Ref i) (Node x y).
(** The i-th pair can be found from the value. *)
Inductive reaches (h : heap) : value -> nat -> Prop :=
| reach_self i : reaches h (Ref i) i
| reach_s i s t j : nth_error h i = Some (s, t) -> reaches h s j -> reaches h (Ref i) j
| reach_t i s t j : nth_error h i = Some (s, t) -> reaches h t j -> reaches h (Ref i) j.
End Pairs.
