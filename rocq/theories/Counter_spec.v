(** Specification vocabulary for multisets. *)
From Coq Require Import List ZArith.
Import ListNotations.
Set Implicit Arguments.
Section S.
Variable K : Type.
Variable keqb : K -> K -> bool.
(** How often [k] occurs in [l]. *)
Definition occurrences (k : K) (l : list K) : nat := length (filter (keqb k) l).
(** A dict as the list of its items: no key twice. *)
Definition is_dict (c : list (K * Z)) : Prop := NoDup (map fst c).
(** The multiplicity of [k]: the value stored for it, 0 if there is none. *)
Definition multiplicity (c : list (K * Z)) (k : K) (n : Z) : Prop :=
  In (k, n) c \/ ((forall m, ~ In (k, m) c) /\ n = 0%Z).
(** [elems] enumerates the keys of both dicts. *)
Definition all_keys (elems : list K) (a b : list (K * Z)) : Prop :=
  NoDup elems /\ forall k, In k elems <-> In k (map fst a) \/ In k (map fst b).
End S.
