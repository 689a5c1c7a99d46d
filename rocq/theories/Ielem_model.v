(** Model of lib/daeso/ptc/ielemtree.py.  Elements are objects with identity (uid); attributes set
    during indexing live in a store indexed by identity.  Parsing is not modelled. *)
From Coq Require Import String.
From Verif Require Import Py Ielem_spec.
Set Implicit Arguments.

Section Index.
Variable char : Type.
Variable space : char -> bool.
Variable nl : char.
Notation elem := (elem char).

(** The attributes _n, _start, _end, _ignore and _alignments of one element. *)
Record attrs := { a_n : option nat; a_start : option nat; a_end : option nat; a_ignore : bool;
                  a_aligns : list elem }.
Definition no_attrs : attrs :=
  {| a_n := None; a_start := None; a_end := None; a_ignore := false; a_aligns := [] |}.
Definition store := nat -> attrs.
Definition upd (s : store) (u : nat) (a : attrs) : store := fun v => if v =? u then a else s v.

(** [==] on values of elem.get("id"). *)
Definition id_eqb (a b : option string) : bool :=
  match a, b with Some x, Some y => String.eqb x y | None, None => true | _, _ => false end.

(** tagCountTable, tagIdTable and the attributes. *)
Record index := { counts : list (string * list elem); ids : list (string * list (option string * elem));
                  st : store }.

(** str.strip() of [x or ""]. *)
Definition strip_or_empty (o : option (list char)) : list char :=
  let drop := fix go s := match s with [] => [] | c :: s' => if space c then go s' else s end in
  match o with None => [] | Some s => rev (drop (rev (drop s))) end.

(** ielemtree.py 75-98. *)
Definition register (x : index) (e : elem) : index :=
  let c := match dget String.eqb (counts x) (tag e) with
           | Some l => dset String.eqb (counts x) (tag e) (l ++ [e])
           | None => dset String.eqb (counts x) (tag e) [e] end in
  let i := match dget String.eqb (ids x) (tag e) with
           | Some d => dset String.eqb (ids x) (tag e) (dset id_eqb d (id_of e) e)
           | None => dset String.eqb (ids x) (tag e) [(id_of e, e)] end in
  let n := match dget String.eqb c (tag e) with Some l => length l | None => 0 end in
  let a := st x (uid e) in
  {| counts := c; ids := i;
     st := upd (st x) (uid e) {| a_n := Some n; a_start := a_start a; a_end := a_end a; a_ignore := a_ignore a; a_aligns := [] |} |}.

(** ielemtree.py 102. *)
Definition set_ignore (x : index) (u : nat) : index :=
  let a := st x u in
  {| counts := counts x; ids := ids x;
     st := upd (st x) u {| a_n := a_n a; a_start := a_start a; a_end := a_end a; a_ignore := true; a_aligns := a_aligns a |} |}.
(** ielemtree.py 113-114. *)
Definition set_span (x : index) (u b e : nat) : index :=
  let a := st x u in
  {| counts := counts x; ids := ids x;
     st := upd (st x) u {| a_n := a_n a; a_start := Some b; a_end := Some e; a_ignore := a_ignore a; a_aligns := a_aligns a |} |}.

(** ielemtree.py 67-125: index_elem. *)
Fixpoint index_elem (r : render) (e : elem) (start : nat) (ign : bool) (x : index) : index * list char :=
  match e with
  | Elem u tg _ tx tl ch =>
      let x := register x e in
      if ign || mem String.eqb tg (ignore r) then
        let x := (fix go l x := match l with
                                | [] => x
                                | c :: l' => go l' (fst (index_elem r c 0 true (set_ignore x u))) end) ch x in
        (x, strip_or_empty tl)
      else
        let '(x, text) := (fix go l x text := match l with
                                | [] => (x, text)
                                | c :: l' => let '(x', t) := index_elem r c (start + length text) false x in
                                             go l' x' (text ++ t) end) ch x (strip_or_empty tx) in
        let x := set_span x u start (start + length text) in
        let text := if mem String.eqb tg (blankline r) then text ++ [nl; nl]
                    else if mem String.eqb tg (newline r) then text ++ [nl] else text in
        (x, text ++ strip_or_empty tl)
  end.

(** ielemtree.py 51-65: update; the element attributes of an earlier update are still there. *)
Definition update (r : render) (root : elem) (old : store) : index * list char :=
  index_elem r root 0 false {| counts := []; ids := []; st := old |}.

(** ielemtree.py 127-132: get_elem_text. *)
Definition get_elem_text (doc : list char) (s : store) (u : nat) : list char :=
  slice doc (match a_start (s u) with Some b => b | None => 0 end)
            (match a_end (s u) with Some b => b | None => 0 end).
End Index.
