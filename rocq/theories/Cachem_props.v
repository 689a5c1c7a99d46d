(** C19: GenericCache for every history of calls.  [none_key] is the string "None"; [fuel] bounds the loop of _shrink. *)
From Coq Require Import List ZArith.
Import ListNotations.
From Verif Require Import Py Cache_spec Cachem_spec Cache_model.
From Verif Require Cachem_proof.
Set Implicit Arguments.

(** For every history: if the list of marks of Cachem_spec lets all calls return, they do, with its answers,
    its stored entries and its order of marks; if it says that a call does not return, then the history
    returns with no number of rounds. *)
Theorem cache_follows_marks :
  forall (K V : Type) (keqb : K -> K -> bool), (forall x y, keqb x y = true <-> x = y) ->
  forall (none_key : K) m x fail (calls : list (ccall K V)),
  match mrun keqb fail {| mcap := m; mttl := x; marks := [] |} calls with
  | Some (s, answers) => forall fuel, length calls <= fuel ->
      exists c, run_calls keqb none_key fuel (new_cache K V m x fail) calls = Ok (c, answers) /\
        size c = length (live (marks s)) /\
        (forall k, In k (stored_keys c) <-> exists y, In (k, y) (live (marks s))) /\
        (forall k now, snd (fetch keqb c k now) = snd (mfetch keqb s k now)) /\
        (forall fuel', length (marks s) < fuel' ->
           lru_tolist fuel' (lru_of c) 0 = Ok (map (fun m => Some (mark_key m)) (marks s)))
  | None => forall fuel, run_calls keqb none_key fuel (new_cache K V m x fail) calls = Err OutOfFuel
  end.
Proof. exact Cachem_proof.marks_exact. Qed.
Print Assumptions cache_follows_marks.

(** A cache that never has a size limit answers as specified, overwriting or not, and always returns. *)
Theorem cache_unlimited_exact :
  forall (K V : Type) (keqb : K -> K -> bool), (forall x y, keqb x y = true <-> x = y) ->
  forall (none_key : K) m x fail (calls : list (ccall K V)) fuel,
  (m = None \/ m = Some 0) -> Forall (@sets_no_limit K V) calls -> length calls <= fuel ->
  exists c, let (s, answers) := srun keqb fail {| cap := m; ttl := x; entries := [] |} calls in
    run_calls keqb none_key fuel (new_cache K V m x fail) calls = Ok (c, answers) /\
    size c = length (entries s) /\ (forall k, In k (stored_keys c) <-> exists y, In (k, y) (entries s)).
Proof. exact Cachem_proof.unlimited. Qed.
Print Assumptions cache_unlimited_exact.

(** With any limit: insert a key twice, then as many other keys as the limit allows - all that returns -
    and the next new key blocks the cache for ever. *)
Theorem cache_overwriting_blocks :
  forall (K V : Type) (keqb : K -> K -> bool), (forall x y, keqb x y = true <-> x = y) ->
  forall (none_key : K) limit x fail k v t v' t' (others : list (K * (V * Z))) fuel,
  let put := fun e => CInsert (fst e) (fst (snd e)) (snd (snd e)) in
  NoDup (k :: map fst others) -> length others = S limit -> 1 <= limit ->
  run_calls keqb none_key fuel (new_cache K V (Some limit) x fail)
    (CInsert k v t :: CInsert k v' t' :: map put others) = Err OutOfFuel /\
  (limit + 2 <= fuel -> exists c,
   run_calls keqb none_key fuel (new_cache K V (Some limit) x fail)
    (CInsert k v t :: CInsert k v' t' :: map put (firstn limit others)) =
   Ok (c, map (fun _ => CDone) (CInsert k v t :: CInsert k v' t' :: map put (firstn limit others)))).
Proof. exact Cachem_proof.blocked. Qed.
Print Assumptions cache_overwriting_blocks.

(** A history that overwrites a key, evicts the wrong entry, and goes on; one more insert and it hangs. *)
Example cachem_ex :
  let calls := [CInsert 1 10 0%Z; CInsert 2 20 0%Z; CInsert 1 11 0%Z; CInsert 3 30 0%Z; CFetch 1 0%Z; CFetch 2 0%Z] in
  let start := {| mcap := Some 2; mttl := None; marks := [] |} in
  mrun Nat.eqb false start calls =
    Some ({| mcap := Some 2; mttl := None; marks := [Leftover 1; Live (3, (30, 0%Z)); Live (2, (20, 0%Z))] |},
          [CDone; CDone; CDone; CDone; CMissing; CFound 20]) /\
  mrun Nat.eqb false start (calls ++ [CInsert 4 40 0%Z]) = None /\
  option_map snd (mrun Nat.eqb false start (calls ++ [CClearAll; CInsert 4 40 0%Z; CInsert 5 50 0%Z; CInsert 6 60 0%Z; CFetch 4 0%Z; CFetch 6 0%Z])) =
    Some [CDone; CDone; CDone; CDone; CMissing; CFound 20; CDone; CDone; CDone; CDone; CMissing; CFound 60].
Proof. cbv. repeat split. Qed.
Example cachem_unlimited_ex :
  Forall (@sets_no_limit nat nat) [CInsert 1 10 0%Z; CInsert 1 11 0%Z; CReconfigure None (Some 5%Z); CFetch 1 3%Z] /\
  snd (srun Nat.eqb false {| cap := None; ttl := None; entries := [] |} [CInsert 1 10 0%Z; CInsert 1 11 0%Z; CReconfigure None (Some 5%Z); CFetch 1 3%Z])
    = [CDone; CDone; CDone; CFound 11].
Proof. split; [repeat constructor|reflexivity]. Qed.
