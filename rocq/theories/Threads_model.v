(** Model of GenericCache (lib/daeso/thirdparty/GenericCache) used by threads: every method is a
    sequence of atomic steps on the shared objects, the decorator @synchronized takes a re-entrant
    lock, and a scheduler chooses which thread does the next step.  The steps are those of Python
    statements; the test of a key and the read of the same slot of the dict are one step, and
    self.maxsize is read once for the loop of _shrink.  Clock readings are part of the calls. *)
From Verif Require Import Py Cache_spec Cache_model Threads_spec.
Set Implicit Arguments.

Section T.
Variables K V : Type.
Variable keqb : K -> K -> bool.
Variable none_key : K.
Notation cache := (cache K V).

(** A running call: finished, or an atomic step on the shared objects, or taking or giving back the lock. *)
CoInductive prog :=
| Ret (a : tans K V)
| Act (f : cache -> cache * prog)
| Acq (p : prog)
| Rel (p : prog).

Definition with_lru (c : cache) (l : lru K) : cache := with_content c (values c) l.
Definition set_nx (l : lru K) (i v : nat) : lru K := {| nx := upd (nx l) i v; pv := pv l; item := item l; lkeys := lkeys l; fresh := fresh l |}.
Definition set_pv (l : lru K) (i v : nat) : lru K := {| nx := nx l; pv := upd (pv l) i v; item := item l; lkeys := lkeys l; fresh := fresh l |}.
Definition set_keys (l : lru K) (d : list (K * nat)) : lru K := {| nx := nx l; pv := pv l; item := item l; lkeys := d; fresh := fresh l |}.
(** LRUNode(item) and self.keys[item] = node. *)
Definition new_node (l : lru K) (k : K) : lru K :=
  {| nx := nx l; pv := pv l; item := upd (item l) (fresh l) (Some k); lkeys := dset keqb (lkeys l) k (fresh l); fresh := S (fresh l) |}.

(** LRUStock.py 42-51: discard. *)
Definition discard_prog (k : K) (next : prog) : prog :=
  Act (fun c => match dget keqb (lkeys (lru_of c)) k with
  | None => (c, next)
  | Some n => (c,
      Act (fun c => let l := lru_of c in (with_lru c (set_nx l (pv l n) (nx l n)),
      Act (fun c => let l := lru_of c in (with_lru c (set_pv l (nx l n) (pv l n)),
      Act (fun c => let l := lru_of c in (with_lru c (set_keys l (ddel keqb (lkeys l) k)), next)))))))
  end).
(** LRUStock.py 53-62: add. *)
Definition add_prog (k : K) (next : prog) : prog :=
  Act (fun c => let l := lru_of c in let n := fresh l in (with_lru c (new_node l k),
    Act (fun c => let l := lru_of c in (with_lru c (set_nx l n 0),
    Act (fun c => let l := lru_of c in (with_lru c (set_pv l n (pv l 0)),
    Act (fun c => let l := lru_of c in (with_lru c (set_nx l (pv l n) n),
    Act (fun c => let l := lru_of c in (with_lru c (set_pv l 0 n), next)))))))))).
(** GenericCache.py 117-126: remove, with the lock (decorators.py 47-62). *)
Definition remove_prog (k : K) (next : prog) : prog :=
  Acq (Act (fun c => if dhas keqb (values c) k
    then (c, discard_prog k (Act (fun c => (with_content c (ddel keqb (values c) k) (lru_of c), Rel next))))
    else (c, Rel next))).
(** GenericCache.py 73-79: _shrink; len(self) is the synchronized size(). *)
CoFixpoint shrink_prog (m nb : nat) (next : prog) : prog :=
  Acq (Act (fun c => (c, Rel (if m <? length (values c) + nb
    then Act (fun c => (c, remove_prog (match pop (lru_of c) with Some k => k | None => none_key end) (shrink_prog m nb next)))
    else next)))).
Definition shrink_if (nb : nat) (next : prog) : prog :=
  Act (fun c => (c, match maxsize c with None => next | Some O => next | Some m => shrink_prog m nb next end)).
(** GenericCache.py 81-103: fetch; [next fail r]. *)
Definition fetch_prog (k : K) (now : Z) (next : bool -> option V -> prog) : prog :=
  Acq (Act (fun c => let fail := default_fail c in (c,
    Act (fun c => match dget keqb (values c) k with
    | None => (c, Rel (next fail None))
    | Some (v, t) => (c, Act (fun c => if has_expired c now t then (c, remove_prog k (Rel (next fail None)))
                                       else (c, discard_prog k (add_prog k (Rel (next fail (Some v)))))))
    end)))).
(** GenericCache.py 137-157: insert. *)
Definition store_prog (k : K) (v : V) (now : Z) (next : prog) : prog :=
  Act (fun c => (with_content c (dset keqb (values c) k (v, now)) (lru_of c), add_prog k next)).
Definition insert_prog (k : K) (v : V) (now : Z) (next : prog) : prog :=
  Acq (Act (fun c => (c, if dhas keqb (values c) k then store_prog k v now (Rel next)
                         else shrink_if 1 (store_prog k v now (Rel next))))).
(** GenericCache.py 128-135: reconfigure. *)
Definition reconfigure_prog (m : option nat) (x : option Z) (next : prog) : prog :=
  Acq (Act (fun c => ({| maxsize := m; expiry := expiry c; default_fail := default_fail c; values := values c; lru_of := lru_of c |},
       Act (fun c => ({| maxsize := maxsize c; expiry := x; default_fail := default_fail c; values := values c; lru_of := lru_of c |},
       shrink_if 0 (Rel next)))))).
(** GenericCache.py 159-165, LRUStock.py 106-112: clear. *)
Definition clear_prog (next : prog) : prog :=
  Acq (Act (fun c => (with_content c [] (lru_of c),
       Act (fun c => (with_lru c (set_keys (lru_of c) []),
       Act (fun c => (with_lru c (set_nx (lru_of c) 0 0),
       Act (fun c => (with_lru c (set_pv (lru_of c) 0 0), Rel next))))))))).
(** GenericCache.py 167-177: collect. *)
Fixpoint collect_loop (now : K -> Z) (ks : list K) (next : prog) : prog :=
  match ks with
  | [] => next
  | k :: ks' => Act (fun c => match dget keqb (values c) k with
      | None => (c, Rel (Ret (TRaise KeyError)))
      | Some (_, t) => (c, Act (fun c => (c, if has_expired c (now k) t then remove_prog k (collect_loop now ks' next)
                                             else collect_loop now ks' next)))
      end)
  end.
Definition collect_prog (now : K -> Z) (next : prog) : prog :=
  Acq (Act (fun c => (c, collect_loop now (dkeys (values c)) (Rel next)))).
Definition answer (a : canswer V) : prog := Ret (TAns (ACall a)).
(** GenericCache.py 105-115: fetch_with_generator; the generator returns [v] without using the cache. *)
Definition fetch_gen_prog (k : K) (v : V) (now now' : Z) : prog :=
  Acq (fetch_prog k now (fun fail r => match r with
    | Some w => Rel (answer (CFound w))
    | None => if fail then Rel (answer CKeyError) else insert_prog k v now' (Rel (answer (CFound v)))
    end)).
(** GenericCache.py 179-184 size; 191-202 keys, has_key (not synchronized). *)
Definition method (o : top K V) : prog :=
  match o with
  | TSync (SCall (CFetch k now)) => fetch_prog k now (fun fail r => answer (match r with Some v => CFound v | None => missing V fail end))
  | TSync (SCall (CInsert k v now)) => insert_prog k v now (answer CDone)
  | TSync (SCall (CRemove k)) => remove_prog k (answer CDone)
  | TSync (SCall CClearAll) => clear_prog (answer CDone)
  | TSync (SCall (CCollect now)) => collect_prog now (answer CDone)
  | TSync (SCall (CReconfigure m x)) => reconfigure_prog m x (answer CDone)
  | TSync (SCall (CFetchGen k v now now')) => fetch_gen_prog k v now now'
  | TSync SSize => Acq (Act (fun c => (c, Rel (Ret (TAns (ASize (length (values c))))))))
  | THasKey k => Act (fun c => (c, Ret (THas (dhas keqb (values c) k))))
  | TKeys => Act (fun c => (c, Ret (TList (dkeys (values c)))))
  end.

(** Threads.  The call in progress is the first one to do. *)
Record thread := { todo : list (top K V); cur : option prog; outs : list (tans K V) }.
(** The lock: its owner and how often he took it again (threading.RLock). *)
Record world := { mem : cache; lock : option (nat * nat); threads : nat -> thread }.
Definition start (m : option nat) (x : option Z) (fail : bool) (progs : nat -> list (top K V)) : world :=
  {| mem := new_cache K V m x fail; lock := None; threads := fun i => {| todo := progs i; cur := None; outs := [] |} |}.
Definition set_thread (w : world) (c : cache) (l : option (nat * nat)) (i : nat) (t : thread) : world :=
  {| mem := c; lock := l; threads := fun j => if j =? i then t else threads w j |}.
Definition at_ (t : thread) (p : prog) : thread := {| todo := todo t; cur := Some p; outs := outs t |}.
(** One step of thread [i]; a thread that waits for the lock, or has nothing to do, changes nothing. *)
Definition tstep (w : world) (i : nat) : world :=
  let t := threads w i in
  match cur t with
  | None => match todo t with [] => w | o :: _ => set_thread w (mem w) (lock w) i (at_ t (method o)) end
  | Some (Ret a) => set_thread w (mem w) (lock w) i {| todo := tl (todo t); cur := None; outs := outs t ++ [a] |}
  | Some (Act f) => let (c, p) := f (mem w) in set_thread w c (lock w) i (at_ t p)
  | Some (Acq p) => match lock w with
      | None => set_thread w (mem w) (Some (i, 0)) i (at_ t p)
      | Some (o, d) => if o =? i then set_thread w (mem w) (Some (i, S d)) i (at_ t p) else w
      end
  | Some (Rel p) => match lock w with
      | Some (o, S d) => set_thread w (mem w) (Some (o, d)) i (at_ t p)
      | _ => set_thread w (mem w) None i (at_ t p)
      end
  end.
Definition run (w : world) (schedule : list nat) : world := fold_left tstep schedule w.
(** A thread with work left that waits for the lock of another. *)
Definition has_work (w : world) (i : nat) : bool :=
  match cur (threads w i), todo (threads w i) with None, [] => false | _, _ => true end.
Definition waits (w : world) (i : nat) : bool :=
  match cur (threads w i), lock w with Some (Acq _), Some (o, _) => negb (o =? i) | _, _ => false end.

(** The sequential meaning of a synchronized call. *)
Definition seq_op (fuel : nat) (c : cache) (o : sop K V) : res (cache * sans V) :=
  match o with
  | SCall call => p <- do_call keqb none_key fuel c call ;; Ok (fst p, ACall (snd p))
  | SSize => Ok (c, ASize (size c))
  end.
Fixpoint seq_run (fuel : nat) (c : cache) (os : list (sop K V)) : res (cache * list (sans V)) :=
  match os with
  | [] => Ok (c, [])
  | o :: os' => p <- seq_op fuel c o ;; q <- seq_run fuel (fst p) os' ;; Ok (fst q, snd p :: snd q)
  end.
End T.
Arguments Ret {K V}. Arguments Act {K V}. Arguments Acq {K V}. Arguments Rel {K V}.
