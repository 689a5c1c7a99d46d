(** Specification of an insertion-ordered map, in terms of a log of assignments and removals. *)
From Coq Require Import List Sorted.
From Verif Require Import Py.
Import ListNotations.
Set Implicit Arguments.

Section Log.
Variables K V : Type.
(** Elementary events, oldest first in a log. *)
Inductive event := Assign (k : K) (v : V) | Remove (k : K) | RemoveAll.
Definition log := list event.
Definition removes (k : K) (e : event) : Prop := e = Remove k \/ e = RemoveAll.
Definition assigns (k : K) (e : event) : Prop := exists v, e = Assign k v.

(** [k] is present with value [v]: some event assigned [v] to [k], and no later event assigns or removes [k]. *)
Definition holds (h : log) (k : K) (v : V) : Prop :=
  exists h1 h2, h = h1 ++ Assign k v :: h2 /\ forall e, In e h2 -> ~ removes k e /\ ~ assigns k e.
Definition present (h : log) (k : K) : Prop := exists v, holds h k v.
(** [k] was inserted at time [t]: event [t] assigns [k], [k] was not present before, and it was never removed since. *)
Definition inserted_at (h : log) (k : K) (t : nat) : Prop :=
  exists h1 v h2, h = h1 ++ Assign k v :: h2 /\ length h1 = t /\ ~ present h1 k /\
    forall e, In e h2 -> ~ removes k e.
(** [items] is what the log describes: the present keys with their values, oldest insertion first. *)
Definition describes (h : log) (items : list (K * V)) : Prop :=
  NoDup (map fst items) /\
  (forall k v, In (k, v) items <-> holds h k v) /\
  (exists times, Forall2 (inserted_at h) (map fst items) times /\ StronglySorted lt times).

(** The mutating calls of the interface and what a caller gets back. *)
Inductive call :=
| CSet (k : K) (v : V) | CDel (k : K) | CClear | CPopitem
| CSetdefault (k : K) (v : V) | CPop (k : K) (dflt : option V) | CUpdate (l : list (K * V)).
Inductive answer := ANone | AValue (v : V) | AItem (k : K) (v : V) | ARaise (e : exc).
Definition absent (items : list (K * V)) (k : K) := forall v, ~ In (k, v) items.

(** What each call must do to a map holding [items]: the events it causes and its answer. *)
Inductive effect (items : list (K * V)) : call -> log -> answer -> Prop :=
| ESet k v : effect items (CSet k v) [Assign k v] ANone
| EDel k v : In (k, v) items -> effect items (CDel k) [Remove k] ANone
| EDelMissing k : absent items k -> effect items (CDel k) [] (ARaise KeyError)
| EClear : effect items CClear [RemoveAll] ANone
| EPopitem l k v : items = l ++ [(k, v)] -> effect items CPopitem [Remove k] (AItem k v)
| EPopitemEmpty : items = [] -> effect items CPopitem [] (ARaise KeyError)
| ESetdefault k v d : In (k, v) items -> effect items (CSetdefault k d) [] (AValue v)
| ESetdefaultNew k d : absent items k -> effect items (CSetdefault k d) [Assign k d] (AValue d)
| EPop k v d : In (k, v) items -> effect items (CPop k d) [Remove k] (AValue v)
| EPopDefault k d : absent items k -> effect items (CPop k (Some d)) [] (AValue d)
| EPopMissing k : absent items k -> effect items (CPop k None) [] (ARaise KeyError)
| EUpdate l : effect items (CUpdate l) (map (fun p => Assign (fst p) (snd p)) l) ANone.

(** A history of calls with their answers takes log [h] to log [h']. *)
Inductive history : log -> list call -> list answer -> log -> Prop :=
| HNil h : history h [] [] h
| HCall h items c events a cs l h' : describes h items -> effect items c events a ->
    history (h ++ events) cs l h' -> history h (c :: cs) (a :: l) h'.
End Log.
Arguments Remove {K V}. Arguments RemoveAll {K V}.
Arguments CDel {K V}. Arguments CClear {K V}. Arguments CPopitem {K V}.
Arguments ANone {K V}. Arguments AValue {K V}. Arguments ARaise {K V}.
