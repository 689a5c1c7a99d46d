(** Model of functions with the decorator cached() (lib/daeso/thirdparty/GenericCache/decorators.py 17-30) on several
    caches, called by several threads.  fetch_with_generator (GenericCache.py 105-115) runs with the re-entrant lock of
    its cache (decorators.py 47-60), which it keeps while the function is computed.  A job is a function with its
    arguments and stands for its key (keys of different jobs differ; C57 is about equal keys).  Caches have
    default_fail = False.  What a limit or an expiry time removes is removed by [Drop] events, at any moment.  While the
    lock is held the lookup and the insertion are single steps (C53 is about the steps inside of them).  Exceptions in
    functions are not modelled. *)
From Coq Require Import Arith.
From Verif Require Import Py Flight_spec.
Import ListNotations.
Set Implicit Arguments.
Section Flight.
Variables J V : Type.
Variable jeqb : J -> J -> bool.
Variable body : J -> comp J V.
(** the cache of the function of a job *)
Variable cache_of : J -> nat.
(** where a thread is, in a call for job q: before lock.acquire() (decorators.py 55), at the fetch (GenericCache.py 110), in the
    function (112), at self[key] = res (113), at lock.release() (decorators.py 59) *)
Inductive control := Want (q : J) | Inside (q : J) | Run (q : J) (c : comp J V) | Store (q : J) (v : V) | Leave (q : J) (v : V).
(** [stack]: the functions that wait for the value of another job *)
Record thread := { todo : list J; now : option control; stack : list (J * (V -> comp J V)); outs : list (J * V) }.
(** [locks]: owner and count of each lock that is held; [mem]: the entries of all caches; [started]: functions that were entered *)
Record world := { locks : list (nat * (nat * nat)); mem : list (J * V); started : list J; threads : nat -> thread }.
Definition start (jobs : nat -> list J) : world :=
  {| locks := []; mem := []; started := []; threads := fun i => {| todo := jobs i; now := None; stack := []; outs := [] |} |}.
(** replaces thread i *)
Definition put (w : world) (l : list (nat * (nat * nat))) (m : list (J * V)) (s : list J) (i : nat) (t : thread) : world :=
  {| locks := l; mem := m; started := s; threads := fun j => if j =? i then t else threads w j |}.
Definition at_ (t : thread) (c : control) : thread := {| todo := todo t; now := Some c; stack := stack t; outs := outs t |}.
(** lock.acquire() of a threading.RLock; None: the thread waits *)
Definition acquire (l : list (nat * (nat * nat))) (c i : nat) : option (list (nat * (nat * nat))) :=
  match dget Nat.eqb l c with
  | None => Some (dset Nat.eqb l c (i, 1))
  | Some (o, n) => if o =? i then Some (dset Nat.eqb l c (i, S n)) else None
  end.
(** lock.release() *)
Definition release (l : list (nat * (nat * nat))) (c : nat) : list (nat * (nat * nat)) :=
  match dget Nat.eqb l c with
  | Some (o, S (S n)) => dset Nat.eqb l c (o, S n)
  | _ => ddel Nat.eqb l c
  end.
(** GenericCache.py 105-115 and decorators.py 24-27, 51-59: one step of thread i *)
Definition go (w : world) (i : nat) : world :=
  let t := threads w i in
  match now t with
  | None =>
      match todo t with
      | [] => w
      | q :: qs => put w (locks w) (mem w) (started w) i {| todo := qs; now := Some (Want q); stack := []; outs := outs t |}
      end
  | Some (Want q) =>
      match acquire (locks w) (cache_of q) i with
      | None => w
      | Some l => put w l (mem w) (started w) i (at_ t (Inside q))
      end
  | Some (Inside q) =>
      match dget jeqb (mem w) q with
      | Some v => put w (locks w) (mem w) (started w) i (at_ t (Leave q v))
      | None => put w (locks w) (mem w) (q :: started w) i (at_ t (Run q (body q)))
      end
  | Some (Run q (Done v)) => put w (locks w) (mem w) (started w) i (at_ t (Store q v))
  | Some (Run q (Sub q' next)) =>
      put w (locks w) (mem w) (started w) i {| todo := todo t; now := Some (Want q'); stack := (q, next) :: stack t; outs := outs t |}
  | Some (Store q v) => put w (locks w) (dset jeqb (mem w) q v) (started w) i (at_ t (Leave q v))
  | Some (Leave q v) =>
      put w (release (locks w) (cache_of q)) (mem w) (started w) i
        match stack t with
        | (q', next) :: st => {| todo := todo t; now := Some (Run q' (next v)); stack := st; outs := outs t |}
        | [] => {| todo := todo t; now := None; stack := []; outs := outs t ++ [(q, v)] |}
        end
  end.
(** GenericCache.py 73-79, 117-126: an entry is removed *)
Definition happen (w : world) (e : event J) : world :=
  match e with
  | Go i => go w i
  | Drop q => {| locks := locks w; mem := ddel jeqb (mem w) q; started := started w; threads := threads w |}
  end.
Definition run (w : world) (es : list (event J)) : world := fold_left happen es w.
(** A thread that has returned from all its calls; a thread that waits for a lock of another thread. *)
Definition finished (t : thread) : Prop := now t = None /\ todo t = [].
Definition blocked (w : world) (i : nat) : Prop :=
  exists q o n, now (threads w i) = Some (Want q) /\ dget Nat.eqb (locks w) (cache_of q) = Some (o, n) /\ o <> i.
(** The same as a test, and the number of events in which thread i makes a step. *)
Definition can_go (w : world) (i : nat) : bool :=
  match now (threads w i) with
  | None => match todo (threads w i) with [] => false | _ => true end
  | Some (Want q) => match acquire (locks w) (cache_of q) i with Some _ => true | None => false end
  | _ => true
  end.
Fixpoint moves (w : world) (es : list (event J)) (i : nat) : nat :=
  match es with
  | [] => 0
  | e :: es' => (match e with Go j => if (j =? i) && can_go w i then 1 else 0 | Drop _ => 0 end) + moves (happen w e) es' i
  end.
End Flight.
Arguments Want {J V}. Arguments Inside {J V}. Arguments Run {J V}. Arguments Store {J V}. Arguments Leave {J V}.
