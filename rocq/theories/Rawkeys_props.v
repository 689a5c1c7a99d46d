(** C63: GenericCache with keys that need not be strings.  [str r] is str(key); [looks r] says how the key itself
    behaves when a dict of strings is searched for it (see Rawkeys_spec). *)
From Coq Require Import List ZArith.
Import ListNotations.
From Verif Require Import Py Cache_spec Cache_model Rawkeys_spec Rawkeys_model.
From Verif Require Rawkeys_proof.
Set Implicit Arguments.

(** After any history that returns, the size limit is kept and a lookup finds only a value that was stored for a key with
    the same string, with no removal or assignment for such a key since, and not expired. *)
Theorem any_key_cache_never_wrong :
  forall (R K V : Type) (keqb : K -> K -> bool), (forall x y, keqb x y = true <-> x = y) ->
  forall (none_key : K) (str : R -> K) (looks : R -> look) m x fail fuel (calls : list (rcall R K V)) s answers,
  raw_run keqb none_key str looks fuel (new_rcache R K V m x fail) calls = Ok (s, answers) ->
  (match maxsize (base s) with Some (S n) => size (base s) <= S n | _ => True end) /\
  forall r now v, raw_fetch keqb str s r now = Some v ->
    exists cs1 c cs2 t, calls = cs1 ++ c :: cs2 /\ stores str looks c (str r) v t /\
      (forall c', In c' cs2 -> ~ discards str looks c' (str r)) /\ outdated (expiry (base s)) now t = false.
Proof. exact Rawkeys_proof.raw_sound. Qed.
Print Assumptions any_key_cache_never_wrong.

(** keys() lists one object for every stored string, each given to an earlier call. *)
Theorem any_key_cache_keys :
  forall (R K V : Type) (keqb : K -> K -> bool), (forall x y, keqb x y = true <-> x = y) ->
  forall (none_key : K) (str : R -> K) (looks : R -> look) m x fail fuel (calls : list (rcall R K V)) s answers,
  raw_run keqb none_key str looks fuel (new_rcache R K V m x fail) calls = Ok (s, answers) ->
  NoDup (map str (raw_keys s)) /\ length (raw_keys s) = size (base s) /\
  (forall k, In k (map str (raw_keys s)) <-> In k (stored_keys (base s))) /\
  forall r, In r (raw_keys s) -> looks r <> Unhashable /\ exists c, In c calls /\ key_in c = Some r.
Proof. exact Rawkeys_proof.raw_keys_ok. Qed.
Print Assumptions any_key_cache_keys.

(** has_key is right for keys that hash as their string. *)
Theorem string_like_key_found :
  forall (R K V : Type) (keqb : K -> K -> bool), (forall x y, keqb x y = true <-> x = y) ->
  forall (none_key : K) (str : R -> K) (looks : R -> look) m x fail fuel (calls : list (rcall R K V)) s answers r,
  raw_run keqb none_key str looks fuel (new_rcache R K V m x fail) calls = Ok (s, answers) ->
  looks r = Sees -> exists b, has_raw keqb str looks s r = Ok b /\ (b = true <-> In (str r) (map str (raw_keys s))).
Proof. exact Rawkeys_proof.raw_has. Qed.
Print Assumptions string_like_key_found.

(** If all keys stored hash as their strings, the cache answers and stores as the cache of the strings does (C18, C19). *)
Theorem string_like_keys_cache :
  forall (R K V : Type) (keqb : K -> K -> bool) (none_key : K) (str : R -> K) (looks : R -> look) fuel (calls : list (rcall R K V)),
  (forall c r, In c calls -> key_in c = Some r -> looks r = Sees) -> forall s,
  match raw_run keqb none_key str looks fuel s calls, run_calls keqb none_key fuel (base s) (map (spelled str) calls) with
  | Ok (s', l), Ok (c', l') => base s' = c' /\ l = map (@RAnswer V) l' | Err e, Err e' => e = e' | _, _ => False end.
Proof. exact Rawkeys_proof.sees_run. Qed.
Print Assumptions string_like_keys_cache.

(** Objects with the same string share an entry: what is stored for one is found for the other. *)
Theorem same_string_same_entry :
  forall (R K V : Type) (keqb : K -> K -> bool), (forall x y, keqb x y = true <-> x = y) ->
  forall (none_key : K) (str : R -> K) (looks : R -> look) fuel (s s' : rcache R K V) r r' v now now',
  looks r <> Unhashable -> str r' = str r ->
  raw_insert keqb none_key str looks fuel s r v now = Ok s' -> outdated (expiry (base s')) now' now = false ->
  raw_fetch keqb str s' r' now' = Some v.
Proof. exact Rawkeys_proof.raw_alias. Qed.
Print Assumptions same_string_same_entry.

(** A key that cannot be hashed can be looked up and removed but not stored: TypeError, and nothing changes. *)
Theorem unhashable_key_not_stored :
  forall (R K V : Type) (keqb : K -> K -> bool) (none_key : K) (str : R -> K) (looks : R -> look) fuel (s : rcache R K V) r v now,
  looks r = Unhashable -> raw_call keqb none_key str looks fuel s (RInsert K r v now) = Ok (s, RTypeError V).
Proof. exact Rawkeys_proof.raw_unhashable_call. Qed.
Print Assumptions unhashable_key_not_stored.

(** Objects for the examples: the pair (n, true) is a number, whose hash is not that of its string, (n, false) that string. *)
Definition number_looks (r : nat * bool) : look := if snd r then Blind else Sees.
Definition num (n : nat) := (n, true).
Definition txt (n : nat) := (n, false).
Notation run2 := (raw_run Nat.eqb 0 (@fst nat bool) number_looks 10 (new_rcache (nat * bool) nat nat (Some 2) None false)).

(** "k in cache" after cache[k] = v is false for a number, though cache[k] finds v. *)
Theorem has_key_after_insert_refuted :
  exists s answers, run2 [RInsert nat (num 1) 10 0%Z] = Ok (s, answers) /\
  raw_fetch Nat.eqb (@fst nat bool) s (num 1) 0%Z = Some 10 /\ has_raw Nat.eqb (@fst nat bool) number_looks s (num 1) = Ok false.
Proof. eexists; eexists; split; [vm_compute; reflexivity|]. split; reflexivity. Qed.
Print Assumptions has_key_after_insert_refuted.

(** Assigning to a stored number in a full cache evicts another entry; with the strings it does not. *)
Theorem overwriting_evicts_nothing_refuted :
  (exists s answers, run2 [RInsert nat (num 1) 10 0%Z; RInsert nat (num 2) 20 0%Z; RInsert nat (num 2) 21 0%Z] = Ok (s, answers) /\
   map (@fst nat bool) (raw_keys s) = [2] /\ raw_fetch Nat.eqb (@fst nat bool) s (num 1) 0%Z = None) /\
  exists s answers, run2 [RInsert nat (txt 1) 10 0%Z; RInsert nat (txt 2) 20 0%Z; RInsert nat (txt 2) 21 0%Z] = Ok (s, answers) /\
   map (@fst nat bool) (raw_keys s) = [1; 2] /\ raw_fetch Nat.eqb (@fst nat bool) s (txt 1) 0%Z = Some 10.
Proof. split; (eexists; eexists; split; [vm_compute; reflexivity|]; split; reflexivity). Qed.
Print Assumptions overwriting_evicts_nothing_refuted.

(** A cached function of a number and of a string: the second call gets the value of the first. *)
Theorem distinct_keys_distinct_values_refuted :
  exists s, run2 [RFetchGen nat (num 1) 10 0%Z 0%Z; RFetchGen nat (txt 1) 11 0%Z 0%Z] = Ok (s, [RAnswer (CFound 10); RAnswer (CFound 10)]).
Proof. eexists. vm_compute. reflexivity. Qed.
Print Assumptions distinct_keys_distinct_values_refuted.

Example any_key_ex :
  exists s, run2 [RInsert nat (num 1) 10 0%Z; RInsert nat (txt 2) 20 0%Z; RFetch nat nat (txt 1) 1%Z; RInsert nat (num 3) 30 1%Z;
                  RFetch nat nat (num 2) 2%Z; RRemove nat nat (txt 3)] =
    Ok (s, [RAnswer CDone; RAnswer CDone; RAnswer (CFound 10); RAnswer CDone; RAnswer CMissing; RAnswer CDone]) /\
  raw_keys s = [num 1].
Proof. eexists. split; vm_compute; reflexivity. Qed.
Example string_like_ex : (forall c r, In c [RInsert nat (txt 1) 10 0%Z; RFetchGen nat (txt 2) 5 0%Z 1%Z] -> key_in c = Some r -> number_looks r = Sees).
Proof. intros c r [<-|[<-|[]]] E; injection E as <-; reflexivity. Qed.
