(** Vocabulary for a cache with arbitrary keys: what is stored for a key is stored for its string. *)
From Coq Require Import List ZArith.
From Verif Require Import Py Cache_spec.
Import ListNotations.
Set Implicit Arguments.
(** How a key meets the strings in a dict: it cannot be hashed, its hash differs from that of its string (as for
    numbers and tuples), or its hash is that of its string (as for strings). *)
Inductive look := Unhashable | Blind | Sees.
Section S.
Variables R K V : Type.
Variable str : R -> K.
Variable looks : R -> look.
(** The calls, with any objects as keys. *)
Inductive rcall :=
| RFetch (r : R) (now : Z) | RInsert (r : R) (v : V) (now : Z) | RRemove (r : R) | RClearAll
| RCollect (now : K -> Z) | RReconfigure (maxsize : option nat) (expiry : option Z)
| RFetchGen (r : R) (v : V) (now now' : Z).
Inductive ranswer := RAnswer (a : canswer V) | RTypeError.
(** The same call with the string of the key. *)
Definition spelled (c : rcall) : ccall K V :=
  match c with
  | RFetch r now => CFetch (str r) now | RInsert r v now => CInsert (str r) v now | RRemove r => CRemove (str r) | RClearAll => CClearAll
  | RCollect now => CCollect now | RReconfigure m x => CReconfigure m x | RFetchGen r v now now' => CFetchGen (str r) v now now'
  end.
Definition key_in (c : rcall) : option R :=
  match c with RInsert r _ _ => Some r | RFetchGen r _ _ _ => Some r | _ => None end.
(** The call stores [v] at time [t] for a key whose string is [k]; the call ends what was stored for [k]. *)
Definition stores (c : rcall) (k : K) (v : V) (t : Z) : Prop :=
  exists r, str r = k /\ looks r <> Unhashable /\ (c = RInsert r v t \/ exists t0, c = RFetchGen r v t0 t).
Definition discards (c : rcall) (k : K) : Prop :=
  c = RClearAll \/ exists r, str r = k /\ (c = RRemove r \/ looks r <> Unhashable /\ exists v t, c = RInsert r v t).
End S.
