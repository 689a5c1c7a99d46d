(** What GenericCache does for every history, including those that insert a key which is still stored.
    The cache keeps one list of marks, oldest first.  A stored entry has one live mark; inserting a key
    that is still stored leaves its old mark behind, as a leftover, where it was.  Leftovers only go
    away with clear().  An eviction looks at the key of the first mark, whatever mark that is. *)
From Coq Require Import List ZArith Bool.
Import ListNotations.
From Verif Require Import Py Cache_spec.
Set Implicit Arguments.
Section S.
Variables K V : Type.
Variable keqb : K -> K -> bool.

Inductive mark := Live (e : entry K V) | Leftover (k : K).
Definition mark_key (m : mark) : K := match m with Live e => fst e | Leftover k => k end.
(** The stored entries, least recently used first. *)
Definition live (l : list mark) : list (entry K V) :=
  flat_map (fun m => match m with Live e => [e] | Leftover _ => [] end) l.
Definition stored (k : K) (l : list mark) : bool := existsb (fun e => keqb k (fst e)) (live l).
Definition is_live (k : K) (m : mark) : bool := match m with Live e => keqb k (fst e) | Leftover _ => false end.
(** The entry of [k] disappears, with its mark. *)
Definition forget (k : K) (l : list mark) : list mark := filter (fun m => negb (is_live k m)) l.
(** The entry of [k] disappears, its mark stays. *)
Definition leave (k : K) (l : list mark) : list mark := map (fun m => if is_live k m then Leftover k else m) l.
(** [n] evictions.  None: the key of the first mark is not stored, the cache tries to remove it for ever. *)
Fixpoint evict (n : nat) (l : list mark) : option (list mark) :=
  match n with
  | O => Some l
  | S n' => match l with
            | [] => None
            | m :: _ => if stored (mark_key m) l then evict n' (forget (mark_key m) l) else None
            end
  end.
(** How many entries must go before [room] more fit; no limit if the limit is None or 0. *)
Definition excess (limit : option nat) (room : nat) (l : list mark) : nat :=
  match limit with Some (S m) => length (live l) + room - S m | _ => 0 end.

Record mcache := { mcap : option nat; mttl : option Z; marks : list mark }.
Definition with_marks (s : mcache) (l : list mark) : mcache := {| mcap := mcap s; mttl := mttl s; marks := l |}.
Definition mfetch (s : mcache) (k : K) (now : Z) : mcache * option V :=
  match lookup keqb k (live (marks s)) with
  | None => (s, None)
  | Some (v, t) => if outdated (mttl s) now t then (with_marks s (forget k (marks s)), None)
                   else (with_marks s (forget k (marks s) ++ [Live (k, (v, t))]), Some v)
  end.
Definition minsert (s : mcache) (k : K) (v : V) (now : Z) : option mcache :=
  if stored k (marks s) then Some (with_marks s (leave k (marks s) ++ [Live (k, (v, now))]))
  else option_map (fun l => with_marks s (l ++ [Live (k, (v, now))])) (evict (excess (mcap s) 1 (marks s)) (marks s)).
(** None: the call never returns. *)
Definition mcall (fail : bool) (s : mcache) (c : ccall K V) : option (mcache * canswer V) :=
  match c with
  | CFetch k now => let (s', r) := mfetch s k now in
      Some (s', match r with Some v => CFound v | None => missing V fail end)
  | CInsert k v now => option_map (fun s' => (s', CDone)) (minsert s k v now)
  | CRemove k => Some (with_marks s (forget k (marks s)), CDone)
  | CClearAll => Some (with_marks s [], CDone)
  | CCollect now => Some (with_marks s (filter (fun m => match m with
        | Live e => negb (outdated (mttl s) (now (fst e)) (snd (snd e))) | Leftover _ => true end) (marks s)), CDone)
  | CReconfigure m x =>
      option_map (fun l => ({| mcap := m; mttl := x; marks := l |}, CDone)) (evict (excess m 0 (marks s)) (marks s))
  | CFetchGen k v now now' => let (s', r) := mfetch s k now in
      match r with
      | Some w => Some (s', CFound w)
      | None => if fail then Some (s', CKeyError) else option_map (fun s2 => (s2, CFound v)) (minsert s' k v now')
      end
  end.
Fixpoint mrun (fail : bool) (s : mcache) (cs : list (ccall K V)) : option (mcache * list (canswer V)) :=
  match cs with
  | [] => Some (s, [])
  | c :: cs' => match mcall fail s c with
                | None => None
                | Some (s1, a) => option_map (fun p => (fst p, a :: snd p)) (mrun fail s1 cs')
                end
  end.
(** No call sets a size limit. *)
Definition sets_no_limit (c : ccall K V) : Prop :=
  match c with CReconfigure (Some (S _)) _ => False | _ => True end.
End S.
Arguments Leftover {K V}.
