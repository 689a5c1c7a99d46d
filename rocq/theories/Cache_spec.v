(** Specification of a least-recently-used cache with a size limit and a time to live. *)
From Coq Require Import List ZArith Bool.
Import ListNotations.
From Verif Require Import Py.
Set Implicit Arguments.
Section S.
Variables K V : Type.
Variable keqb : K -> K -> bool.

(** The calls of the interface.  Clock readings are part of the call: [now] is what time.time() shows.
    [CFetchGen k v t t'] is fetch_with_generator(k, g) where g would return [v]; t is the clock at the
    lookup and t' at the insertion (if there is one). *)
Inductive ccall :=
| CFetch (k : K) (now : Z) | CInsert (k : K) (v : V) (now : Z) | CRemove (k : K) | CClearAll
| CCollect (now : K -> Z) | CReconfigure (maxsize : option nat) (expiry : option Z)
| CFetchGen (k : K) (v : V) (now now' : Z).
Inductive canswer := CFound (v : V) | CMissing | CKeyError | CDone.

(** Entries are kept in order of last use, least recent first. *)
Definition entry := (K * (V * Z))%type.
Record scache := { cap : option nat; ttl : option Z; entries : list entry }.

(** A time to live of None or 0 is infinite; a limit of None or 0 is no limit. *)
Definition outdated (life : option Z) (now t : Z) : bool :=
  match life with Some d => negb (d =? 0)%Z && (t + d <? now)%Z | None => false end.
Definition without (k : K) (l : list entry) : list entry := filter (fun e => negb (keqb k (fst e))) l.
Definition newest (n : nat) (l : list entry) : list entry := skipn (length l - n) l.
(** Forget least recently used entries until [room] more fit. *)
Definition make_room (limit : option nat) (room : nat) (l : list entry) : list entry :=
  match limit with Some (S m) => newest (S m - room) l | _ => l end.
Definition lookup (k : K) (l : list entry) : option (V * Z) :=
  option_map snd (find (fun e => keqb k (fst e)) l).

Definition sfetch (s : scache) (k : K) (now : Z) : scache * option V :=
  match lookup k (entries s) with
  | None => (s, None)
  | Some (v, t) =>
      if outdated (ttl s) now t then ({| cap := cap s; ttl := ttl s; entries := without k (entries s) |}, None)
      else ({| cap := cap s; ttl := ttl s; entries := without k (entries s) ++ [(k, (v, t))] |}, Some v)
  end.
Definition sinsert (s : scache) (k : K) (v : V) (now : Z) : scache :=
  {| cap := cap s; ttl := ttl s; entries := make_room (cap s) 1 (without k (entries s)) ++ [(k, (v, now))] |}.
(** [fail]: the cache was made with default_fail = True, so that a missing key raises. *)
Definition missing (fail : bool) : canswer := if fail then CKeyError else CMissing.
Definition scall (fail : bool) (s : scache) (c : ccall) : scache * canswer :=
  match c with
  | CFetch k now => let (s', r) := sfetch s k now in
      (s', match r with Some v => CFound v | None => missing fail end)
  | CInsert k v now => (sinsert s k v now, CDone)
  | CRemove k => ({| cap := cap s; ttl := ttl s; entries := without k (entries s) |}, CDone)
  | CClearAll => ({| cap := cap s; ttl := ttl s; entries := [] |}, CDone)
  | CCollect now => ({| cap := cap s; ttl := ttl s;
        entries := filter (fun e => negb (outdated (ttl s) (now (fst e)) (snd (snd e)))) (entries s) |}, CDone)
  | CReconfigure m x => ({| cap := m; ttl := x; entries := make_room m 0 (entries s) |}, CDone)
  | CFetchGen k v now now' => let (s', r) := sfetch s k now in
      match r with
      | Some w => (s', CFound w)
      | None => if fail then (s', CKeyError) else (sinsert s' k v now', CFound v)
      end
  end.
Fixpoint srun (fail : bool) (s : scache) (cs : list ccall) : scache * list canswer :=
  match cs with
  | [] => (s, [])
  | c :: cs' => let (s1, a) := scall fail s c in let (s2, l) := srun fail s1 cs' in (s2, a :: l)
  end.
(** No call inserts a key that is still stored at that moment. *)
Fixpoint never_overwrites (fail : bool) (s : scache) (cs : list ccall) : Prop :=
  match cs with
  | [] => True
  | c :: cs' => match c with CInsert k _ _ => lookup k (entries s) = None | _ => True end /\
                never_overwrites fail (fst (scall fail s c)) cs'
  end.

(** For the correctness of single answers. *)
Definition offers (c : ccall) (k : K) (v : V) (t : Z) : Prop :=
  c = CInsert k v t \/ exists t0, c = CFetchGen k v t0 t.
Definition forgets (c : ccall) (k : K) : Prop :=
  c = CRemove k \/ c = CClearAll \/ exists v t, c = CInsert k v t.
(** [v] was stored for [k] at time [t], and the key was neither removed nor assigned since. *)
Definition last_stored (cs : list ccall) (k : K) (v : V) (t : Z) : Prop :=
  exists cs1 c cs2, cs = cs1 ++ c :: cs2 /\ offers c k v t /\ forall c', In c' cs2 -> ~ forgets c' k.
End S.
Arguments CFetch {K V}. Arguments CRemove {K V}. Arguments CClearAll {K V}. Arguments CCollect {K V}. Arguments CReconfigure {K V}.
Arguments CMissing {V}. Arguments CKeyError {V}. Arguments CDone {V}.
