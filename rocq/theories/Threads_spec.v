(** Concurrent use of a cache by threads: the calls, their answers, and what a sequential account of
    them is. *)
From Coq Require Import List ZArith Bool.
Import ListNotations.
From Verif Require Import Py Cache_spec.
Set Implicit Arguments.
Section S.
Variables K V : Type.

(** Synchronized calls, and the two calls that take no lock. *)
Inductive sop := SCall (c : ccall K V) | SSize.
Inductive top := TSync (o : sop) | THasKey (k : K) | TKeys.
Inductive sans := ACall (a : canswer V) | ASize (n : nat).
Inductive tans := TAns (a : sans) | THas (b : bool) | TList (l : list K) | TRaise (e : exc).

(** The synchronized calls among the finished calls of a thread, with their answers. *)
Fixpoint synced (ops : list top) (outs : list tans) : list (sop * sans) :=
  match ops, outs with
  | TSync o :: ops', TAns a :: outs' => (o, a) :: synced ops' outs'
  | _ :: ops', _ :: outs' => synced ops' outs'
  | _, _ => []
  end.
(** Every call is answered in kind; in particular synchronized calls do not raise (a KeyError that
    fetch is asked to raise is among the answers). *)
Definition in_kind (o : top) (a : tans) : Prop :=
  match o, a with TSync (SCall _), TAns (ACall _) => True | TSync SSize, TAns (ASize _) => True
  | THasKey _, THas _ => True | TKeys, TList _ => True | _, _ => False end.
(** Those of thread [i] in an account of all threads. *)
Definition of_thread (i : nat) (h : list (nat * (sop * sans))) : list (sop * sans) :=
  map snd (filter (fun e => fst e =? i) h).
Definition extends {A} (l l' : list A) : Prop := exists r, l' = l ++ r.
End S.
Arguments SSize {K V}. Arguments TKeys {K V}. Arguments ASize {V}. Arguments THas {K V}. Arguments THasKey {K V}.
Arguments TList {K V}. Arguments TRaise {K V}. Arguments TAns {K V}.
