(** Model of lib/daeso/thirdparty/GenericCache (LRUStock.py, GenericCache.py).
    Keys are strings (CacheNode objects hash and compare as str(key), so a node and its key string
    are the same dict key); the lock is not modelled (one thread).  The doubly linked ring of
    LRUStock is modelled at pointer level: node 0 is the LRUStock object itself. *)
From Verif Require Import Py Cache_spec.
Set Implicit Arguments.

Section Cache.
Variables K V : Type.
Variable keqb : K -> K -> bool.
(** [str(None)], the key that results when LRUStock.pop() finds nothing. *)
Variable none_key : K.

(** LRUStock.py 11-33: nodes with prev, next, item; the dict [keys] maps items to nodes. *)
Record lru := { nx : nat -> nat; pv : nat -> nat; item : nat -> option K; lkeys : list (K * nat); fresh : nat }.
Definition upd {A} (f : nat -> A) (i : nat) (v : A) : nat -> A := fun j => if j =? i then v else f j.
Definition new_lru : lru :=
  {| nx := fun _ => 0; pv := fun _ => 0; item := fun _ => None; lkeys := []; fresh := 1 |}.
(** LRUStock.py 42-51: discard. *)
Definition discard (l : lru) (k : K) : lru :=
  match dget keqb (lkeys l) k with
  | None => l
  | Some n =>
      let nx1 := upd (nx l) (pv l n) (nx l n) in
      let pv1 := upd (pv l) (nx1 n) (pv l n) in
      {| nx := nx1; pv := pv1; item := item l; lkeys := ddel keqb (lkeys l) k; fresh := fresh l |}
  end.
(** LRUStock.py 53-62: add.  A node already registered for the item is only dropped from [keys]. *)
Definition add (l : lru) (k : K) : lru :=
  let n := fresh l in
  let nx1 := upd (nx l) n 0 in
  let pv1 := upd (pv l) n (pv l 0) in
  let nx2 := upd nx1 (pv1 n) n in
  let pv2 := upd pv1 0 n in
  {| nx := nx2; pv := pv2; item := upd (item l) n (Some k); lkeys := dset keqb (lkeys l) k n; fresh := S n |}.
(** LRUStock.py 35-40: update. *)
Definition lru_update (l : lru) (k : K) : lru := add (discard l k) k.
(** LRUStock.py 64-70: pop, which only looks. *)
Definition pop (l : lru) : option K := if nx l 0 =? 0 then None else item l (nx l 0).
(** LRUStock.py 106-112: clear. *)
Definition lru_clear (l : lru) : lru :=
  {| nx := upd (nx l) 0 0; pv := upd (pv l) 0 0; item := item l; lkeys := []; fresh := fresh l |}.
(** LRUStock.py 72-84: __iter__, tolist. *)
Fixpoint lru_tolist (fuel : nat) (l : lru) (at_ : nat) : res (list (option K)) :=
  match fuel with
  | O => Err OutOfFuel
  | S f => if nx l at_ =? 0 then Ok [] else r <- lru_tolist f l (nx l at_) ;; Ok (item l (nx l at_) :: r)
  end.

(** GenericCache.py 40-62. Each stored node has a value and a time stamp. *)
Record cache := { maxsize : option nat; expiry : option Z; default_fail : bool;
                  values : list (K * (V * Z)); lru_of : lru }.
Definition new_cache (m : option nat) (x : option Z) (fail : bool) : cache :=
  {| maxsize := m; expiry := x; default_fail := fail; values := []; lru_of := new_lru |}.
Definition with_content (c : cache) (vs : list (K * (V * Z))) (l : lru) : cache :=
  {| maxsize := maxsize c; expiry := expiry c; default_fail := default_fail c; values := vs; lru_of := l |}.
(** GenericCache.py 64-71: _has_expired; [if self.expiry and ...]. *)
Definition has_expired (c : cache) (now : Z) (t : Z) : bool :=
  match expiry c with Some x => if (x =? 0)%Z then false else (t + x <? now)%Z | None => false end.
(** GenericCache.py 117-126: remove. *)
Definition remove (c : cache) (k : K) : cache :=
  if dhas keqb (values c) k then with_content c (ddel keqb (values c) k) (discard (lru_of c) k) else c.
(** GenericCache.py 73-79: _shrink. *)
Definition remove_popped (c : cache) : cache :=
  match pop (lru_of c) with Some k => remove c k | None => remove c none_key end.
Fixpoint shrink_loop (fuel : nat) (m nb : nat) (c : cache) : res cache :=
  if m <? length (values c) + nb then
    match fuel with O => Err OutOfFuel | S f => shrink_loop f m nb (remove_popped c) end
  else Ok c.
Definition shrink (fuel nb : nat) (c : cache) : res cache :=
  match maxsize c with None => Ok c | Some O => Ok c | Some m => shrink_loop fuel m nb c end.
(** GenericCache.py 81-103: fetch; None stands for the missing value (or KeyError). *)
Definition fetch (c : cache) (k : K) (now : Z) : cache * option V :=
  match dget keqb (values c) k with
  | None => (c, None)
  | Some (v, t) => if has_expired c now t then (remove c k, None)
                   else (with_content c (values c) (lru_update (lru_of c) k), Some v)
  end.
(** GenericCache.py 137-157: insert(key, value). *)
Definition insert (fuel : nat) (c : cache) (k : K) (v : V) (now : Z) : res cache :=
  c1 <- (if dhas keqb (values c) k then Ok c else shrink fuel 1 c) ;;
  Ok (with_content c1 (dset keqb (values c1) k (v, now)) (add (lru_of c1) k)).
(** GenericCache.py 128-135: reconfigure. *)
Definition reconfigure (fuel : nat) (c : cache) (m : option nat) (x : option Z) : res cache :=
  shrink fuel 0 {| maxsize := m; expiry := x; default_fail := default_fail c; values := values c; lru_of := lru_of c |}.
(** GenericCache.py 159-165: clear. *)
Definition clear_all (c : cache) : cache := with_content c [] (lru_clear (lru_of c)).
(** GenericCache.py 167-177: collect; [now k] is the clock when key k is looked at. *)
Definition collect_one (now : K -> Z) (c : cache) (k : K) : res cache :=
  x <- dread keqb (values c) k ;;
  Ok (if has_expired c (now k) (snd x) then remove c k else c).
Definition collect (c : cache) (now : K -> Z) : res cache :=
  foldM (collect_one now) c (dkeys (values c)).
(** GenericCache.py 105-115: fetch_with_generator; fetch is called with the default [fail]. *)
Definition fetch_gen (fuel : nat) (c : cache) (k : K) (v : V) (now now' : Z) : res (cache * canswer V) :=
  match fetch c k now with
  | (c', Some w) => Ok (c', CFound w)
  | (c', None) => if default_fail c' then Ok (c', CKeyError)
                  else c2 <- insert fuel c' k v now' ;; Ok (c2, CFound v)
  end.
(** One call.  [Err OutOfFuel]: the call does not return within [fuel] iterations of _shrink. *)
Definition do_call (fuel : nat) (c : cache) (call : ccall K V) : res (cache * canswer V) :=
  match call with
  | CFetch k now => let (c', r) := fetch c k now in
      Ok (c', match r with Some v => CFound v | None => if default_fail c then CKeyError else CMissing end)
  | CInsert k v now => c' <- insert fuel c k v now ;; Ok (c', CDone)
  | CRemove k => Ok (remove c k, CDone)
  | CClearAll => Ok (clear_all c, CDone)
  | CCollect now => c' <- collect c now ;; Ok (c', CDone)
  | CReconfigure m x => c' <- reconfigure fuel c m x ;; Ok (c', CDone)
  | CFetchGen k v now now' => fetch_gen fuel c k v now now'
  end.
Fixpoint run_calls (fuel : nat) (c : cache) (cs : list (ccall K V)) : res (cache * list (canswer V)) :=
  match cs with
  | [] => Ok (c, [])
  | call :: cs' => p <- do_call fuel c call ;; q <- run_calls fuel (fst p) cs' ;; Ok (fst q, snd p :: snd q)
  end.
(** GenericCache.py 179-184 size, 191-195 keys, 197-202 has_key. *)
Definition size (c : cache) : nat := length (values c).
Definition stored_keys (c : cache) : list K := dkeys (values c).
Definition has_key (c : cache) (k : K) : bool := dhas keqb (values c) k.
End Cache.
