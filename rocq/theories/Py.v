(** Shared vocabulary for the models: Python exceptions as values, list indexing,
    assignment, and loops that may raise.  No part of /repo is modelled here; this is the
    (Python 2) language semantics the other models are written in.  *)
From Coq Require Export List Arith ZArith Bool Lia.
Export ListNotations.
Set Implicit Arguments.

(** Python exceptions raised by the modelled code. *)
Inductive exc : Set :=
| IndexError | KeyError | ValueError | ZeroDivisionError | AssertionError
| TypeError | AttributeError | NameError | EOFError | OSError
| NetworkXError | DaesoError | UnboundLocalError | NotImplementedError | UserWarning
| OutOfFuel.  (* not a Python exception: the model ran out of fuel *)

(** Result of a Python call: a value or an exception. *)
Inductive res (A : Type) : Type :=
| Ok : A -> res A
| Err : exc -> res A.
Arguments Ok {A} _.
Arguments Err {A} _.

Definition bind {A B} (m : res A) (f : A -> res B) : res B :=
  match m with Ok a => f a | Err e => Err e end.

Notation "x <- m ;; k" := (bind m (fun x => k))
  (at level 61, m at next level, right associativity).

(** [l[i]] for a non-negative index. *)
Definition get {A} (l : list A) (i : nat) : res A :=
  match nth_error l i with Some a => Ok a | None => Err IndexError end.

(** [l[i] = v] for a non-negative index. *)
Fixpoint set_nth {A} (l : list A) (i : nat) (v : A) : list A :=
  match l, i with
  | [], _ => []
  | _ :: l', O => v :: l'
  | x :: l', S i' => x :: set_nth l' i' v
  end.
Definition set {A} (l : list A) (i : nat) (v : A) : res (list A) :=
  if i <? length l then Ok (set_nth l i v) else Err IndexError.

(** [for x in l: s = f(s, x)] where the body may raise. *)
Fixpoint foldM {S X} (f : S -> X -> res S) (s : S) (l : list X) : res S :=
  match l with
  | [] => Ok s
  | x :: l' => s' <- f s x ;; foldM f s' l'
  end.

(** [[f(x) for x in l]] where [f] may raise. *)
Fixpoint mapM {X Y} (f : X -> res Y) (l : list X) : res (list Y) :=
  match l with
  | [] => Ok []
  | x :: l' => y <- f x ;; ys <- mapM f l' ;; Ok (y :: ys)
  end.

(** [l[a:b]] with non-negative bounds. *)
Definition slice {A} (l : list A) (a b : nat) : list A := firstn (b - a) (skipn a l).

(** [x in l] for a given element equality. *)
Fixpoint mem {A} (eqb : A -> A -> bool) (x : A) (l : list A) : bool :=
  match l with
  | [] => false
  | y :: l' => eqb x y || mem eqb x l'
  end.

(** A Python dict as an association list: first binding wins, assignment to a present key
    replaces its value in place, assignment to a new key appends. *)
Section Dict.
Variables K V : Type.
Variable keqb : K -> K -> bool.
Fixpoint dget (d : list (K * V)) (k : K) : option V :=
  match d with
  | [] => None
  | (k', v) :: d' => if keqb k k' then Some v else dget d' k
  end.
Fixpoint dset (d : list (K * V)) (k : K) (v : V) : list (K * V) :=
  match d with
  | [] => [(k, v)]
  | (k', v') :: d' => if keqb k k' then (k', v) :: d' else (k', v') :: dset d' k v
  end.
Fixpoint ddel (d : list (K * V)) (k : K) : list (K * V) :=
  match d with
  | [] => []
  | (k', v') :: d' => if keqb k k' then d' else (k', v') :: ddel d' k
  end.
(** [d[k]] *)
Definition dread (d : list (K * V)) (k : K) : res V :=
  match dget d k with Some v => Ok v | None => Err KeyError end.
Definition dkeys (d : list (K * V)) : list K := map fst d.
Definition dhas (d : list (K * V)) (k : K) : bool :=
  match dget d k with Some _ => true | None => false end.
End Dict.

(** A quotient n / sqrt(m) kept exact. *)
Record rootquot := { rq_num : nat; rq_rad : nat }.

(** [==] on Python pairs. *)
Definition pair_eqb {A B} (ea : A -> A -> bool) (eb : B -> B -> bool) (p q : A * B) : bool :=
  ea (fst p) (fst q) && eb (snd p) (snd q).
