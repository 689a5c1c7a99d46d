(** Model of lib/daeso/thirdparty/counter.py (Counter).
    A Counter is its dict content, an association list; the order in which a Python 2 dict or set is
    iterated is not specified, so functions that iterate over one take the enumeration as an argument. *)
From Verif Require Import Py.
Set Implicit Arguments.
Section Counter.
Variable K : Type.
Variable keqb : K -> K -> bool.
Definition counter := list (K * Z).

(** counter.py 37-38 __missing__ and dict.__getitem__: absent keys count 0. *)
Definition cget (c : counter) (k : K) : Z := match dget keqb c k with Some n => n | None => 0%Z end.
(** counter.py 95-98: update from an iterable that is not a mapping. *)
Definition update_elems (c : counter) (l : list K) : counter :=
  fold_left (fun c e => dset keqb c e (cget c e + 1)%Z) l c.
(** counter.py 88-94: update from a mapping with items [m]; the fast path is dict.update. *)
Definition update_mapping (c : counter) (m : list (K * Z)) : counter :=
  if length c =? 0 then fold_left (fun c p => dset keqb c (fst p) (snd p)) m c
  else fold_left (fun c p => dset keqb c (fst p) (cget c (fst p) + snd p)%Z) m c.
(** counter.py 24-35: __init__. *)
Definition counter_of (l : list K) : counter := update_elems [] l.
(** counter.py 105-108: __delitem__ does not raise. *)
Definition cdel (c : counter) (k : K) : counter := ddel keqb c k.
(** counter.py 56-71: elements; [items] enumerates the dict. repeat(None, n) is empty for n <= 0. *)
Definition elements (items : list (K * Z)) : list K :=
  flat_map (fun p => repeat (fst p) (Z.to_nat (snd p))) items.
(** counter.py 40-54: most_common.  [sorted(.., key=itemgetter(1), reverse=True)] is a stable sort by
    decreasing count; heapq.nlargest(n, ..) is documented as the first n of that. *)
Fixpoint insert_by_count (p : K * Z) (l : list (K * Z)) : list (K * Z) :=
  match l with
  | [] => [p]
  | q :: l' => if (snd q <=? snd p)%Z then p :: q :: l' else q :: insert_by_count p l'
  end.
Definition sort_by_count (l : list (K * Z)) : list (K * Z) := fold_right insert_by_count [] l.
Definition most_common (items : list (K * Z)) (n : option nat) : list (K * Z) :=
  match n with None => sort_by_count items | Some n => firstn n (sort_by_count items) end.

(** counter.py 126-140, 142-155, 157-172: __add__, __sub__, __or__; [elems] enumerates [set(self) | set(other)]. *)
Definition pointwise (f : Z -> Z -> Z) (elems : list K) (a b : counter) : counter :=
  fold_left (fun r e => let n := f (cget a e) (cget b e) in if (0 <? n)%Z then dset keqb r e n else r) elems [].
Definition c_add := pointwise Z.add.
Definition c_sub := pointwise Z.sub.
Definition c_or := pointwise Z.max.
(** counter.py 174-191: __and__; iterates over the smaller counter, [other] on a tie. *)
Definition c_and (a b : counter) : counter :=
  let (s, o) := if length a <? length b then (b, a) else (a, b) in
  fold_left (fun r e => if dhas keqb s e then
                          let n := Z.min (cget s e) (cget o e) in if (0 <? n)%Z then dset keqb r e n else r
                        else r) (dkeys o) [].
End Counter.
