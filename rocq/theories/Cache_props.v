(** C18, C19: GenericCache. [none_key] is the string "None"; [fuel] bounds the loop of _shrink. *)
From Coq Require Import List ZArith.
Import ListNotations.
From Verif Require Import Py Cache_spec Cache_model.
From Verif Require Cache_proof2 Cache_proof3.
Set Implicit Arguments.

(** C18: after any history that returns, the size limit is respected, and a fetch finds only a value
    which was stored for that very key, has not been removed or replaced since, and has not expired. *)
Theorem cache_never_wrong :
  forall (K V : Type) (keqb : K -> K -> bool), (forall x y, keqb x y = true <-> x = y) ->
  forall (none_key : K) m x fail fuel (calls : list (ccall K V)) c answers,
  run_calls keqb none_key fuel (new_cache K V m x fail) calls = Ok (c, answers) ->
  (match maxsize c with Some (S n) => size c <= S n | _ => True end) /\
  forall k now v, snd (fetch keqb c k now) = Some v ->
    exists t, last_stored calls k v t /\ outdated (expiry c) now t = false.
Proof. exact Cache_proof3.cache_sound. Qed.
Print Assumptions cache_never_wrong.

(** C18: a memoised function (the cached() decorator: every lookup of [k] offers [g k]) always answers
    what the function would, whatever evictions, expirations, removals and reconfigurations happen;
    and every call returns. *)
Theorem cached_function_transparent :
  forall (K V : Type) (keqb : K -> K -> bool), (forall x y, keqb x y = true <-> x = y) ->
  forall (none_key : K) (g : K -> V) m x (calls : list (ccall K V)) fuel, length calls <= fuel ->
  (forall c, In c calls -> match c with CFetchGen k v _ _ => v = g k | CInsert _ _ _ => False | _ => True end) ->
  exists c answers, run_calls keqb none_key fuel (new_cache K V m x false) calls = Ok (c, answers) /\
  Forall2 (fun c a => match c with CFetchGen k _ _ _ => a = CFound (g k) | _ => True end) calls answers.
Proof. exact Cache_proof3.memo_ok. Qed.
Print Assumptions cached_function_transparent.

(** C19: as long as no stored key is inserted again, every call returns, with the answers of the
    least-recently-used specification, and the stored keys are the specified ones in the specified order of use. *)
Theorem cache_is_lru_without_overwriting :
  forall (K V : Type) (keqb : K -> K -> bool), (forall x y, keqb x y = true <-> x = y) ->
  forall (none_key : K) m x fail (calls : list (ccall K V)) fuel, length calls <= fuel ->
  never_overwrites keqb fail {| cap := m; ttl := x; entries := [] |} calls ->
  exists c, let (s, answers) := srun keqb fail {| cap := m; ttl := x; entries := [] |} calls in
    run_calls keqb none_key fuel (new_cache K V m x fail) calls = Ok (c, answers) /\
    size c = length (entries s) /\
    (forall k, In k (stored_keys c) <-> exists y, In (k, y) (entries s)) /\
    (forall k, has_key keqb c k = true <-> exists y, In (k, y) (entries s)) /\
    (forall fuel', length (entries s) < fuel' ->
       lru_tolist fuel' (lru_of c) 0 = Ok (map (fun e => Some (fst e)) (entries s))).
Proof. exact Cache_proof2.cache_exact. Qed.
Print Assumptions cache_is_lru_without_overwriting.

(** Without that restriction it is false: a history of four inserts after which the call never returns ... *)
Theorem cache_insert_returns_refuted :
  exists calls : list (ccall nat nat), forall fuel r,
  run_calls Nat.eqb 0 fuel (new_cache nat nat (Some 1) None false) calls <> Ok r.
Proof. exact Cache_proof3.hangs_ex. Qed.
Print Assumptions cache_insert_returns_refuted.
(** ... and one in which all calls return but the most recently inserted key is evicted. *)
Theorem cache_evicts_least_recently_used_refuted :
  exists calls c answers, run_calls Nat.eqb 0 10 (new_cache nat nat (Some 2) None false) calls = Ok (c, answers) /\
  answers <> snd (srun Nat.eqb false {| cap := Some 2; ttl := None; entries := [] |} calls).
Proof. exact Cache_proof3.victim_refutes. Qed.
Print Assumptions cache_evicts_least_recently_used_refuted.

(** fetch_with_generator on a cache made with default_fail = True raises instead of generating. *)
Theorem cache_generator_ignored_when_default_fail :
  forall (K V : Type) (keqb : K -> K -> bool) (none_key k : K) (v : V) now now' fuel m x,
  do_call keqb none_key fuel (new_cache K V m x true) (CFetchGen k v now now') = Ok (new_cache K V m x true, CKeyError).
Proof. exact Cache_proof3.gen_fails. Qed.
Print Assumptions cache_generator_ignored_when_default_fail.

Example cache_ex :
  let calls := [CInsert 1 10 0%Z; CInsert 2 20 1%Z; CFetch 1 2%Z; CInsert 3 30 3%Z; CFetch 2 4%Z; CFetch 1 4%Z;
                CFetchGen 2 22 5%Z 5%Z; CFetch 3 5%Z; CFetch 1 11%Z] in
  never_overwrites Nat.eqb false {| cap := Some 2; ttl := Some 10%Z; entries := [] |} calls /\
  snd (srun Nat.eqb false {| cap := Some 2; ttl := Some 10%Z; entries := [] |} calls) =
    [CDone; CDone; CFound 10; CDone; CMissing; CFound 10; CFound 22; CMissing; CMissing].
Proof. cbv. repeat split. Qed.
