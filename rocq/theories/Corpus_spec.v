(** Specification of a parallel graph corpus as a plain list: a world of corpora, each a list of graph
    pairs with a list of relations and optional meta data, and what each operation does to it. *)
From Coq Require Import List Bool ZArith.
Import ListNotations.
From Verif Require Import Py.
Set Implicit Arguments.
Section S.
Variables P R : Type.
Variable peqb : P -> P -> bool.        (* graph pairs compare equal (or are the same object) *)
Variable rleb : R -> R -> bool.        (* order on relation names *)
Variable reqb : R -> R -> bool.
Variable mequal : nat -> nat -> bool.  (* meta data (objects numbered) have equal contents *)

(** Python's [l[a:b]]: a missing bound is the end of the list on that side, a negative one counts from
    the end, and everything is clipped to the list. *)
Definition bound (len : nat) (o : option Z) (missing : nat) : nat :=
  match o with
  | None => missing
  | Some i => if (i <? 0)%Z then Z.to_nat (Z.max 0 (i + Z.of_nat len)) else Nat.min (Z.to_nat i) len
  end.
(** elements at positions a <= p < b; positions outside. *)
Definition at_positions (f : nat -> bool) (l : list P) : list P :=
  map snd (filter (fun x => f (fst x)) (combine (seq 0 (length l)) l)).
Definition between (a b p : nat) : bool := (a <=? p) && (p <? b).
Definition cut (l : list P) (a b : option Z) : list P :=
  at_positions (between (bound (length l) a 0) (bound (length l) b (length l))) l.
(** [l[a:b] = m] puts m where the cut was (at the lower bound if the cut is empty). *)
Definition paste (l : list P) (a b : option Z) (m : list P) : list P :=
  let i := bound (length l) a 0 in
  let j := bound (length l) b (length l) in
  at_positions (fun p => p <? i) l ++ m ++ at_positions (fun p => Nat.max i j <=? p) l.
(** [l[k]] counts from the end for negative k. *)
Definition position (l : list P) (k : Z) : option nat :=
  let k' := if (k <? 0)%Z then (k + Z.of_nat (length l))%Z else k in
  if ((0 <=? k') && (k' <? Z.of_nat (length l)))%Z%bool then Some (Z.to_nat k') else None.
Definition drop_at (l : list P) (p : nat) : list P := at_positions (fun q => negb (q =? p)) l.
Definition put_at (l : list P) (p : nat) (v : P) : list P :=
  map (fun x => if fst x =? p then v else snd x) (combine (seq 0 (length l)) l).
Fixpoint drop_first (x : P) (l : list P) : option (list P) :=
  match l with
  | [] => None
  | y :: l' => if peqb y x then Some l' else match drop_first x l' with Some r => Some (y :: r) | None => None end
  end.
Definition copies (n : Z) (l : list P) : list P := concat (repeat l (Z.to_nat n)).
(** Relations are kept sorted. *)
Fixpoint ins (x : R) (l : list R) : list R :=
  match l with [] => [x] | y :: l' => if rleb x y then x :: y :: l' else y :: ins x l' end.
Fixpoint isort (l : list R) : list R := match l with [] => [] | x :: l' => ins x (isort l') end.
Fixpoint list_eqb (l1 l2 : list R) : bool :=
  match l1, l2 with [], [] => true | x :: l1', y :: l2' => reqb x y && list_eqb l1' l2' | _, _ => false end.
Fixpoint pairs_eqb (l1 l2 : list P) : bool :=
  match l1, l2 with [], [] => true | x :: l1', y :: l2' => peqb x y && pairs_eqb l1' l2' | _, _ => false end.

Inductive cop :=
| CRels (l : list R)                                          (* the caller makes a list of relations *)
| CNew (l : list P) (r : option nat) (m : option nat)         (* ParallelGraphCorpus(l, relations, meta data) *)
| CSetRelations (i : nat) (r : option nat)
| CAdd (i j : nat) | CAddOther (i : nat)                      (* c + d; c + something else *)
| CIAdd (i j : nat) | CExtend (i : nat) (l : list P)
| CMul (i : nat) (n : Z) | CRMul (i : nat) (n : Z) | CIMul (i : nat) (n : Z)
| CSlice (i : nat) (a b : option Z) | CDelSlice (i : nat) (a b : option Z) | CSetSlice (i : nat) (a b : option Z) (j : nat)
| CItem (i : nat) (k : Z) | CDelItem (i : nat) (k : Z) | CSetItem (i : nat) (k : Z) (v : P)
| CAppend (i : nat) (v : P) | CPop (i : nat) (k : option Z) | CInsert (i : nat) (k : Z) (v : P)
| CRemove (i : nat) (v : P) | CReverse (i : nat) | CClear (i : nat)
| CEqual (i j : nat) | CNotEqual (i j : nat).
Inductive answer := ANothing | ACorpus (i : nat) | APair (p : P) | ABool (b : bool) | ARaise (e : exc).

Record book := { items : list P; relations : list R; meta : option nat }.
Record world := { given : list (list R); books : list book }.
Definition no_world : world := {| given := []; books := [] |}.
Definition new_book (w : world) (b : book) : world * answer :=
  ({| given := given w; books := books w ++ [b] |}, ACorpus (length (books w))).
Definition change (w : world) (i : nat) (b : book) (l : list P) : world * answer :=
  ({| given := given w; books := set_nth (books w) i {| items := l; relations := relations b; meta := meta b |} |}, ANothing).
Definition like (b : book) (l : list P) : book := {| items := l; relations := relations b; meta := meta b |}.
(** the list the caller passed, which is sorted in place; nothing or an empty list means no relations *)
Definition choose_relations (w : world) (r : option nat) : option (world * list R) :=
  match r with
  | None => Some (w, [])
  | Some k => match nth_error (given w) k with
              | None => None
              | Some l => Some ({| given := set_nth (given w) k (isort l); books := books w |}, isort l)
              end
  end.
Definition raise (w : world) (e : exc) : world * answer := (w, ARaise e).
Definition on_book (w : world) (i : nat) (f : book -> world * answer) : world * answer :=
  match nth_error (books w) i with Some b => f b | None => raise w NameError end.
Definition compatible (b c : book) : bool := list_eqb (relations b) (relations c).
Definition meta_equal (m1 m2 : option nat) : option bool :=   (* None: cannot be compared *)
  match m1, m2 with
  | None, None => Some true
  | Some x, Some y => Some ((x =? y) || mequal x y)
  | _, _ => None
  end.
Definition does (w : world) (o : cop) : world * answer :=
  match o with
  | CRels l => ({| given := given w ++ [l]; books := books w |}, ANothing)
  | CNew l r m => match choose_relations w r with
                  | None => raise w NameError
                  | Some (w', rs) => new_book w' {| items := l; relations := rs; meta := m |} end
  | CSetRelations i r =>
      on_book w i (fun b => match choose_relations w r with
                          | None => raise w NameError
                          | Some (w', rs) => ({| given := given w'; books := set_nth (books w') i {| items := items b; relations := rs; meta := meta b |} |}, ANothing) end)
  | CAdd i j => on_book w i (fun b => on_book w j (fun c =>
      if compatible b c then new_book w (like b (items b ++ items c)) else raise w ValueError))
  | CAddOther i => on_book w i (fun _ => raise w TypeError)
  | CIAdd i j => on_book w i (fun b => on_book w j (fun c =>
      if compatible b c then change w i b (items b ++ items c) else raise w ValueError))
  | CExtend i l => on_book w i (fun b => change w i b (items b ++ l))
  | CMul i n => on_book w i (fun b => new_book w (like b (copies n (items b))))
  | CRMul i n => on_book w i (fun _ => raise w TypeError)
  | CIMul i n => on_book w i (fun b => change w i b (copies n (items b)))
  | CSlice i x y => on_book w i (fun b => new_book w (like b (cut (items b) x y)))
  | CDelSlice i x y => on_book w i (fun b => change w i b (paste (items b) x y []))
  | CSetSlice i x y j => on_book w i (fun b => on_book w j (fun c =>
      if compatible b c then change w i b (paste (items b) x y (items c)) else raise w ValueError))
  | CItem i k => on_book w i (fun b => match position (items b) k with
      | Some p => match nth_error (items b) p with Some v => (w, APair v) | None => raise w IndexError end
      | None => raise w IndexError end)
  | CDelItem i k => on_book w i (fun b => match position (items b) k with
      | Some p => change w i b (drop_at (items b) p) | None => raise w IndexError end)
  | CSetItem i k v => on_book w i (fun b => match position (items b) k with
      | Some p => change w i b (put_at (items b) p v) | None => raise w IndexError end)
  | CAppend i v => on_book w i (fun b => change w i b (items b ++ [v]))
  | CPop i None => on_book w i (fun _ => raise w TypeError)
  | CPop i (Some k) => on_book w i (fun b => match position (items b) k with
      | Some p => change w i b (drop_at (items b) p) | None => raise w IndexError end)
  | CInsert i _ _ => on_book w i (fun _ => raise w TypeError)
  | CRemove i v => on_book w i (fun b => match drop_first v (items b) with
      | Some l => change w i b l | None => raise w ValueError end)
  | CReverse i => on_book w i (fun b => change w i b (rev (items b)))
  | CClear i => on_book w i (fun b => change w i b [])
  | CEqual i j => on_book w i (fun b => on_book w j (fun c =>
      if i =? j then (w, ABool true)
      else if negb (compatible b c) then (w, ABool false)
      else match meta_equal (meta b) (meta c) with
           | None => raise w AttributeError
           | Some m => (w, ABool (m && pairs_eqb (items b) (items c))) end))
  | CNotEqual i j => on_book w i (fun _ => on_book w j (fun _ => raise w TypeError))
  end.
Fixpoint history (w : world) (os : list cop) : world * list answer :=
  match os with
  | [] => (w, [])
  | o :: os' => let (w1, a) := does w o in let (w2, l) := history w1 os' in (w2, a :: l)
  end.
End S.
Arguments CRels {P R}. Arguments CNew {P R}. Arguments CSetRelations {P R}. Arguments CAdd {P R}. Arguments CAddOther {P R}.
Arguments CIAdd {P R}. Arguments CExtend {P R}. Arguments CMul {P R}. Arguments CRMul {P R}. Arguments CIMul {P R}.
Arguments CSlice {P R}. Arguments CDelSlice {P R}. Arguments CSetSlice {P R}. Arguments CItem {P R}. Arguments CDelItem {P R}.
Arguments CSetItem {P R}. Arguments CAppend {P R}. Arguments CPop {P R}. Arguments CInsert {P R}. Arguments CRemove {P R}.
Arguments CReverse {P R}. Arguments CClear {P R}. Arguments CEqual {P R}. Arguments CNotEqual {P R}.
Arguments ANothing {P}. Arguments ACorpus {P}. Arguments APair {P}. Arguments ABool {P}. Arguments ARaise {P}.
Arguments no_world {P R}.
