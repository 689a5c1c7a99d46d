(** Model of class ParallelGraphCorpus (lib/daeso/pgc/corpus.py 55-715), the list operations.
    A corpus object is its Python list part, a reference to a (possibly shared) list of relations and
    a reference to meta data.  Reading, writing and purge() are modelled elsewhere. *)
From Verif Require Import Py Corpus_spec.
Set Implicit Arguments.
Section Corpus.
Variables P R : Type.
Variable peqb : P -> P -> bool.
Variable rleb : R -> R -> bool.
Variable reqb : R -> R -> bool.
Variable mequal : nat -> nat -> bool.

(** A relation list is one of the caller's or one made by set_relations ([relations or []]). *)
Inductive rref := FromCaller (k : nat) | Fresh (k : nat).
Record corpus := { pairs : list P; rels : rref; mdata : option nat }.
Record heap := { caller_lists : list (list R); fresh_lists : list (list R); corpora : list corpus }.
Definition no_heap : heap := {| caller_lists := []; fresh_lists := []; corpora := [] |}.
Definition rel_get (h : heap) (r : rref) : list R :=
  match r with FromCaller k => nth k (caller_lists h) [] | Fresh k => nth k (fresh_lists h) [] end.
Definition rel_put (h : heap) (r : rref) (l : list R) : heap :=
  match r with
  | FromCaller k => {| caller_lists := set_nth (caller_lists h) k l; fresh_lists := fresh_lists h; corpora := corpora h |}
  | Fresh k => {| caller_lists := caller_lists h; fresh_lists := set_nth (fresh_lists h) k l; corpora := corpora h |}
  end.
(** list.sort(): any stable sort. *)
Fixpoint insert_sorted (x : R) (l : list R) : list R :=
  match l with [] => [x] | y :: l' => if rleb x y then x :: l else y :: insert_sorted x l' end.
Definition list_sort (l : list R) : list R := fold_right insert_sorted [] l.
(** corpus.py 431-433: set_relations; an absent or empty list is replaced by a new one. *)
Definition set_relations (h : heap) (r : option rref) : heap * rref :=
  let use := match r with
             | None => None
             | Some x => match rel_get h x with [] => None | _ => Some x end
             end in
  match use with
  | Some x => (rel_put h x (list_sort (rel_get h x)), x)
  | None => ({| caller_lists := caller_lists h; fresh_lists := fresh_lists h ++ [list_sort []]; corpora := corpora h |},
             Fresh (length (fresh_lists h)))
  end.
(** corpus.py 132-136: __init__ without a file. *)
Definition new (h : heap) (l : list P) (r : option rref) (m : option nat) : heap * answer P :=
  let (h1, x) := set_relations h r in
  ({| caller_lists := caller_lists h1; fresh_lists := fresh_lists h1; corpora := corpora h1 ++ [{| pairs := l; rels := x; mdata := m |}] |},
   ACorpus (length (corpora h1))).
Definition put_pairs (h : heap) (i : nat) (c : corpus) (l : list P) : heap * answer P :=
  ({| caller_lists := caller_lists h; fresh_lists := fresh_lists h;
      corpora := set_nth (corpora h) i {| pairs := l; rels := rels c; mdata := mdata c |} |}, ANothing).

(** Python 2: for [x[i:j]] the interpreter first adds len(x) to negative bounds; a missing upper bound is
    sys.maxint (not below len(x), which is what it amounts to after clipping). *)
Definition lower (l : list P) (a : option Z) : Z :=
  match a with None => 0 | Some i => if (i <? 0)%Z then i + Z.of_nat (length l) else i end%Z.
Definition upper (l : list P) (b : option Z) : Z :=
  match b with None => Z.of_nat (length l) | Some j => if (j <? 0)%Z then j + Z.of_nat (length l) else j end%Z.
(** corpus.py 261-281 and 178-191, 402-419: the bounds passed on are max(0, i) and max(0, j). *)
Definition lo (l : list P) a : nat := Z.to_nat (Z.max 0 (lower l a)).
Definition hi (l : list P) b : nat := Z.to_nat (Z.max 0 (upper l b)).
(** built-in list slicing with non-negative bounds: get, assign, delete. *)
Definition list_getslice (l : list P) (a b : nat) : list P := firstn (Nat.min b (length l) - Nat.min a (length l)) (skipn (Nat.min a (length l)) l).
Definition list_setslice (l : list P) (a b : nat) (m : list P) : list P :=
  let a := Nat.min a (length l) in let b := Nat.min b (length l) in
  let b := if b <? a then a else b in
  firstn a l ++ m ++ skipn b l.
(** built-in list indexing. *)
Definition list_index (l : list P) (k : Z) : res nat :=
  let k := if (k <? 0)%Z then (k + Z.of_nat (length l))%Z else k in
  if ((k <? 0) || (Z.of_nat (length l) <=? k))%Z%bool then Err IndexError else Ok (Z.to_nat k).
Fixpoint list_remove (l : list P) (v : P) : res (list P) :=
  match l with
  | [] => Err ValueError
  | x :: l' => if peqb x v then Ok l' else r <- list_remove l' v ;; Ok (x :: r)
  end.
(** list * n *)
Fixpoint list_mul_nat (l : list P) (n : nat) : list P := match n with O => [] | S n' => l ++ list_mul_nat l n' end.
Definition list_mul (l : list P) (n : Z) : list P := if (n <=? 0)%Z then [] else list_mul_nat l (Z.to_nat n).
Fixpoint rel_list_eqb (l1 l2 : list R) : bool :=
  match l1, l2 with [], [] => true | x :: a, y :: b => if reqb x y then rel_list_eqb a b else false | _, _ => false end.
Fixpoint list_eq (l1 l2 : list P) : bool :=
  match l1, l2 with [], [] => true | x :: a, y :: b => if peqb x y then list_eq a b else false | _, _ => false end.

(** corpus.py 686-700: _check_compatibility with another corpus (the warning is not modelled). *)
Definition check_compatibility (h : heap) (c d : corpus) : res unit :=
  if negb (rel_list_eqb (rel_get h (rels c)) (rel_get h (rels d))) then Err ValueError else Ok tt.
(** corpus.py 675-683 and utils/etree.py 45-58: comparing meta data with None fails on None.tag. *)
Definition meta_data_equal (m1 m2 : option nat) : res bool :=
  match m1, m2 with
  | None, None => Ok true
  | Some x, Some y => if x =? y then Ok true else Ok (mequal x y)
  | _, _ => Err AttributeError
  end.
Definition fail (h : heap) (e : exc) : heap * answer P := (h, ARaise e).
Definition with_corpus (h : heap) (i : nat) (f : corpus -> heap * answer P) : heap * answer P :=
  match nth_error (corpora h) i with Some c => f c | None => fail h NameError end.
Definition or_fail (h : heap) X (r : res X) (f : X -> heap * answer P) : heap * answer P :=
  match r with Ok x => f x | Err e => fail h e end.
Definition caller_ref (h : heap) (r : option nat) : res (option rref) :=
  match r with None => Ok None | Some k => if k <? length (caller_lists h) then Ok (Some (FromCaller k)) else Err NameError end.

Definition step (h : heap) (o : cop P R) : heap * answer P :=
  match o with
  | CRels l => ({| caller_lists := caller_lists h ++ [l]; fresh_lists := fresh_lists h; corpora := corpora h |}, ANothing)
  | CNew l r m => or_fail h (caller_ref h r) (fun r => new h l r m)
  | CSetRelations i r =>                                                          (* 431-433 *)
      with_corpus h i (fun c => or_fail h (caller_ref h r) (fun r =>
        let (h1, x) := set_relations h r in
        ({| caller_lists := caller_lists h1; fresh_lists := fresh_lists h1;
            corpora := set_nth (corpora h1) i {| pairs := pairs c; rels := x; mdata := mdata c |} |}, ANothing)))
  | CAdd i j =>                                                                   (* 139-151 *)
      with_corpus h i (fun c => with_corpus h j (fun d =>
        or_fail h (check_compatibility h c d) (fun _ => new h (pairs c ++ pairs d) (Some (rels c)) (mdata c))))
  | CAddOther i => with_corpus h i (fun _ => fail h TypeError)                    (* 690-693 *)
  | CIAdd i j =>                                                                  (* 287-296 *)
      with_corpus h i (fun c => with_corpus h j (fun d =>
        or_fail h (check_compatibility h c d) (fun _ => put_pairs h i c (pairs c ++ pairs d))))
  | CExtend i l => with_corpus h i (fun c => put_pairs h i c (pairs c ++ l))      (* 467-479 *)
  | CMul i n => with_corpus h i (fun c => new h (list_mul (pairs c) n) (Some (rels c)) (mdata c))   (* 338-346 *)
  | CRMul i n => with_corpus h i (fun _ => fail h TypeError)                      (* 373-377: __mul__() lacks its argument *)
  | CIMul i n => with_corpus h i (fun c => put_pairs h i c (list_mul (pairs c) n))   (* 299-303 *)
  | CSlice i a b =>                                                               (* 261-281, 239-258 *)
      with_corpus h i (fun c => new h (list_getslice (pairs c) (lo (pairs c) a) (hi (pairs c) b)) (Some (rels c)) (mdata c))
  | CDelSlice i a b =>                                                            (* 178-191 *)
      with_corpus h i (fun c => put_pairs h i c (list_setslice (pairs c) (lo (pairs c) a) (hi (pairs c) b) []))
  | CSetSlice i a b j =>                                                          (* 402-419, 380-399 *)
      with_corpus h i (fun c => with_corpus h j (fun d =>
        or_fail h (check_compatibility h c d) (fun _ =>
          put_pairs h i c (list_setslice (pairs c) (lo (pairs c) a) (hi (pairs c) b) (pairs d)))))
  | CItem i k =>                                                                  (* 239-258 *)
      with_corpus h i (fun c => or_fail h (k <- list_index (pairs c) k ;; get (pairs c) k) (fun p => (h, APair p)))
  | CDelItem i k =>                                                               (* 168-175 *)
      with_corpus h i (fun c => or_fail h (list_index (pairs c) k) (fun k => put_pairs h i c (firstn k (pairs c) ++ skipn (S k) (pairs c))))
  | CSetItem i k v =>                                                             (* 380-399 *)
      with_corpus h i (fun c => or_fail h (list_index (pairs c) k) (fun k => put_pairs h i c (set_nth (pairs c) k v)))
  | CAppend i v => with_corpus h i (fun c => put_pairs h i c (pairs c ++ [v]))    (* 436-447 *)
  | CPop i None => with_corpus h i (fun _ => fail h TypeError)                    (* 545-553: list.pop(self, None) *)
  | CPop i (Some k) =>                                                            (* 545-553: the result is dropped *)
      with_corpus h i (fun c => or_fail h (list_index (pairs c) k) (fun k => put_pairs h i c (firstn k (pairs c) ++ skipn (S k) (pairs c))))
  | CInsert i k v => with_corpus h i (fun _ => fail h TypeError)                  (* 500-512: takes one argument only *)
  | CRemove i v => with_corpus h i (fun c => or_fail h (list_remove (pairs c) v) (fun l => put_pairs h i c l))   (* 602-609 *)
  | CReverse i => with_corpus h i (fun c => put_pairs h i c (rev (pairs c)))      (* 612-616 *)
  | CClear i => with_corpus h i (fun c => put_pairs h i c (list_setslice (pairs c) 0 (length (pairs c)) []))   (* 450-456 *)
  | CEqual i j =>                                                                 (* 194-219 *)
      with_corpus h i (fun c => with_corpus h j (fun d =>
        if i =? j then (h, ABool true)
        else if negb (rel_list_eqb (rel_get h (rels c)) (rel_get h (rels d))) then (h, ABool false)
        else or_fail h (meta_data_equal (mdata c) (mdata d)) (fun m =>
          (h, ABool (if m then list_eq (pairs c) (pairs d) else false)))))
  | CNotEqual i j => with_corpus h i (fun _ => with_corpus h j (fun _ => fail h TypeError))   (* 349-353 *)
  end.
Fixpoint steps (h : heap) (os : list (cop P R)) : heap * list (answer P) :=
  match os with
  | [] => (h, [])
  | o :: os' => let (h1, a) := step h o in let (h2, l) := steps h1 os' in (h2, a :: l)
  end.
(** What an observer sees of the heap. *)
Definition view (h : heap) : world P R :=
  {| given := caller_lists h;
     books := map (fun c => {| items := pairs c; relations := rel_get h (rels c); meta := mdata c |}) (corpora h) |}.
End Corpus.
