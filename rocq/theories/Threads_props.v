(** C53: GenericCache used by threads.  [run w s]: the world after the threads did steps in the order
    [s]; [progs i]: the calls thread [i] makes; [outs]: the answers it got; [todo]: the rest. *)
From Coq Require Import List ZArith Arith Lia.
Import ListNotations.
From Verif Require Import Py Cache_spec Cache_model Cachem_spec Threads_spec Threads_model.
From Verif Require Threads_proof2 Threads_proof3 Threads_proof4.
Set Implicit Arguments.

(** Linearizability: at every moment of every schedule there is a sequential account of the synchronized
    calls, to which later moments only append; the calls made one after another on a new cache give
    the same answers, and the stored state whenever nobody holds the lock; it contains the calls of
    every thread in their order, those answered and at most one whose answer is just being returned.
    Every answered call got an answer of its kind, never an unexpected exception. *)
Theorem cache_linearizable :
  forall (K V : Type) (keqb : K -> K -> bool), (forall x y, keqb x y = true <-> x = y) ->
  forall (none_key : K) m x fail (progs : nat -> list (top K V)),
  exists account : list nat -> list (nat * (sop K V * sans V)),
  (forall s1 s2, extends (account s1) (account (s1 ++ s2))) /\
  forall s, let w := run keqb none_key (start m x fail progs) s in
  (exists fuel c, seq_run keqb none_key fuel (new_cache K V m x fail) (map (fun e => fst (snd e)) (account s)) =
                    Ok (c, map (fun e => snd (snd e)) (account s)) /\
                  (lock w = None -> mem w = c)) /\
  forall i, exists done pending, progs i = done ++ todo (threads w i) /\ Forall2 (@in_kind K V) done (outs (threads w i)) /\
    of_thread i (account s) = synced done (outs (threads w i)) ++ pending /\
    (pending = [] \/ exists o a rest, pending = [(o, a)] /\ todo (threads w i) = TSync o :: rest /\ cur (threads w i) <> None).
Proof. exact Threads_proof2.linearizable. Qed.
Print Assumptions cache_linearizable.

(** No deadlock: as long as some thread has work left, some thread can do a step. *)
Theorem cache_threads_no_deadlock :
  forall (K V : Type) (keqb : K -> K -> bool), (forall x y, keqb x y = true <-> x = y) ->
  forall (none_key : K) m x fail (progs : nat -> list (top K V)) s i,
  let w := run keqb none_key (start m x fail progs) s in
  has_work w i = true -> exists j, has_work w j = true /\ waits w j = false.
Proof. exact Threads_proof2.no_deadlock. Qed.
Print Assumptions cache_threads_no_deadlock.

(** If every sequence of the calls of [N] threads returns when made by one thread, then under every
    schedule that gives every thread a turn again and again all threads finish. *)
Theorem cache_threads_finish :
  forall (K V : Type) (keqb : K -> K -> bool), (forall x y, keqb x y = true <-> x = y) ->
  forall (none_key : K) m x fail (progs : nat -> list (top K V)) N schedule,
  (forall i, N <= i -> progs i = []) ->
  (forall os, (forall o, In o os -> exists i, In (TSync o) (progs i)) ->
     exists fuel r, seq_run keqb none_key fuel (new_cache K V m x fail) os = Ok r) ->
  (forall i t, i < N -> exists t', t <= t' /\ schedule t' = i) ->
  exists n, forall i, has_work (run keqb none_key (start m x fail progs) (map schedule (seq 0 n))) i = false.
Proof. exact Threads_proof3.fair_threads_end. Qed.
Print Assumptions cache_threads_finish.

(** That is so without a size limit, and for threads that use the cache only for a memoised function
    (they may also remove, clear, collect, reconfigure and fetch, but insert nothing else). *)
Theorem cache_unlimited_threads_finish :
  forall (K V : Type) (keqb : K -> K -> bool), (forall x y, keqb x y = true <-> x = y) ->
  forall (none_key : K) m x fail (progs : nat -> list (top K V)) N schedule, (m = None \/ m = Some 0) ->
  (forall i c, In (TSync (SCall c)) (progs i) -> sets_no_limit c) ->
  (forall i, N <= i -> progs i = []) -> (forall i t, i < N -> exists t', t <= t' /\ schedule t' = i) ->
  exists n, forall i, has_work (run keqb none_key (start m x fail progs) (map schedule (seq 0 n))) i = false.
Proof. exact Threads_proof3.unlimited_fair. Qed.
Print Assumptions cache_unlimited_threads_finish.

Theorem cached_function_threads_finish :
  forall (K V : Type) (keqb : K -> K -> bool), (forall x y, keqb x y = true <-> x = y) ->
  forall (none_key : K) (g : K -> V) m x (progs : nat -> list (top K V)) N schedule,
  (forall i o, In (TSync o) (progs i) -> match o with
     | SCall (CFetchGen k v _ _) => v = g k | SCall (CInsert _ _ _) => False | _ => True end) ->
  (forall i, N <= i -> progs i = []) -> (forall i t, i < N -> exists t', t <= t' /\ schedule t' = i) ->
  exists n, forall i, has_work (run keqb none_key (start m x false progs) (map schedule (seq 0 n))) i = false.
Proof.
  intros K V keqb keq none_key g m x progs N schedule H. apply (@Threads_proof3.memo_fair K V keqb keq none_key g m x progs N schedule).
  intros i o Hi. specialize (H i o Hi). destruct o as [[]|]; exact H.
Qed.
Print Assumptions cached_function_threads_finish.

(** A memoised function shared by threads answers what the function would, in every schedule. *)
Theorem cached_function_threads :
  forall (K V : Type) (keqb : K -> K -> bool), (forall x y, keqb x y = true <-> x = y) ->
  forall (none_key : K) (g : K -> V) m x (progs : nat -> list (top K V)) s,
  (forall i o, In (TSync o) (progs i) -> match o with
     | SCall (CFetchGen k v _ _) => v = g k | SCall (CInsert _ _ _) => False | _ => True end) ->
  let w := run keqb none_key (start m x false progs) s in
  forall i n k v now now' r, nth_error (progs i) n = Some (TSync (SCall (CFetchGen k v now now'))) ->
  nth_error (outs (threads w i)) n = Some r -> r = TAns (ACall (CFound (g k))).
Proof.
  intros K V keqb keq none_key g m x progs s H. apply (@Threads_proof3.memo_threads K V keqb keq none_key g m x progs s).
  intros i o Hi. specialize (H i o Hi). destruct o as [[]|]; exact H.
Qed.
Print Assumptions cached_function_threads.

(** A call that never returns (C19) blocks the next synchronized call of every thread for ever. *)
Theorem cache_hang_blocks_threads :
  forall (K V : Type) (keqb : K -> K -> bool), (forall x y, keqb x y = true <-> x = y) ->
  forall (none_key : K) m x fail (progs : nat -> list (top K V)) s1 s2 j o rest,
  let w := run keqb none_key (start m x fail progs) s1 in
  lock w = None -> todo (threads w j) = TSync o :: rest -> cur (threads w j) = Some (method keqb none_key (TSync o)) ->
  (forall fuel r, seq_op keqb none_key fuel (mem w) o <> Ok r) ->
  forall i o' rest', i = j \/ cur (threads w i) = None -> todo (threads w i) = TSync o' :: rest' ->
  outs (threads (run keqb none_key w (j :: s2)) i) = outs (threads w i).
Proof. exact Threads_proof4.hang_outs. Qed.
Print Assumptions cache_hang_blocks_threads.

(** keys() and has_key() take no lock: a thread that has seen a size of 1 can then see no keys at all,
    which is impossible between the calls of the other thread. *)
Theorem cache_keys_linearizable_refuted :
  exists (progs : nat -> list (top nat nat)) s,
  progs 0 = [TSync (SCall (CInsert 1 10 0%Z)); TSync (SCall (CInsert 2 20 0%Z))] /\ progs 1 = [TSync SSize; TKeys] /\
  outs (threads (run Nat.eqb 0 (start (Some 1) None false progs) s) 1) = [TAns (ASize 1); TList []] /\
  forall n fuel c l, 1 <= n ->
    seq_run Nat.eqb 0 fuel (new_cache nat nat (Some 1) None false) (firstn n [SCall (CInsert 1 10 0%Z); SCall (CInsert 2 20 0%Z)]) = Ok (c, l) ->
    stored_keys c <> [].
Proof. exists Threads_proof4.two, Threads_proof4.torn_schedule. split; [reflexivity|]. split; [reflexivity|]. split; [exact Threads_proof4.torn|exact Threads_proof4.torn_seq]. Qed.
Print Assumptions cache_keys_linearizable_refuted.

(** Cases that meet the hypotheses: three threads with a memoised function, a limit of one and round-robin turns ... *)
Definition squares : nat -> list (top nat nat) := fun i => match i with
  | 0 => [TSync (SCall (CFetchGen 3 9 0%Z 0%Z)); TSync (SCall (CFetchGen 4 16 0%Z 0%Z))]
  | 1 => [TSync (SCall (CFetchGen 3 9 0%Z 0%Z)); TKeys; TSync SSize]
  | 2 => [TSync (SCall CClearAll); TSync (SCall (CFetchGen 4 16 0%Z 0%Z)); THasKey 4]
  | _ => [] end.
Definition robin (t : nat) : nat := t mod 3.
Example threads_memo_ex :
  (forall i o, In (TSync o) (squares i) -> match o with
     | SCall (CFetchGen k v _ _) => v = k * k | SCall (CInsert _ _ _) => False | _ => True end) /\
  (forall i, 3 <= i -> squares i = []) /\
  (forall i t, i < 3 -> exists t', t <= t' /\ robin t' = i) /\
  map (fun i => outs (threads (run Nat.eqb 0 (start (Some 1) None false squares) (map robin (seq 0 300))) i)) [0; 1; 2] =
    [[TAns (ACall (CFound 9)); TAns (ACall (CFound 16))];
     [TAns (ACall (CFound 9)); TList []; TAns (ASize 1)];
     [TAns (ACall CDone); TAns (ACall (CFound 16)); THas true]].
Proof.
  split; [|split; [|split]].
  - intros [|[|[|i]]] o; cbn; intros H; repeat (destruct H as [H|H]); try discriminate; try tauto; injection H as <-; auto.
  - intros [|[|[|i]]] H; auto; exfalso; lia.
  - intros i t L. exists (i + t * 3). split.
    + lia.
    + unfold robin. rewrite Nat.mod_add by discriminate. now apply Nat.mod_small.
  - vm_compute. reflexivity.
Qed.
(** ... and the four inserts of C19, with a thread that asks for the size. *)
Definition hanging : nat -> list (top nat nat) := fun i => match i with
  | 0 => map (fun c => TSync (SCall c)) [CInsert 1 10 0%Z; CInsert 1 11 0%Z; CInsert 2 20 0%Z; CInsert 3 30 0%Z]
  | 1 => [TSync SSize] | _ => [] end.
Example threads_hang_ex : let w := run Nat.eqb 0 (start (Some 1) None false hanging) (repeat 0 54) in
  lock w = None /\ todo (threads w 0) = [TSync (SCall (CInsert 3 30 0%Z))] /\
  cur (threads w 0) = Some (method Nat.eqb 0 (TSync (SCall (CInsert 3 30 0%Z)))) /\
  cur (threads w 1) = None /\ todo (threads w 1) = [TSync SSize] /\ outs (threads w 1) = [] /\
  forall fuel r, seq_op Nat.eqb 0 fuel (mem w) (SCall (CInsert 3 30 0%Z)) <> Ok r.
Proof.
  intros w. set (w' := run Nat.eqb 0 (start (Some 1) None false hanging) (repeat 0 53)).
  assert (E : w = tstep Nat.eqb 0 w' 0) by
    (unfold w, w', run; change (repeat 0 54) with (repeat 0 53 ++ [0]); rewrite fold_left_app; cbn [fold_left]; reflexivity).
  clearbody w.
  assert (Q : cur (threads w' 0) = None) by (vm_compute; reflexivity).
  assert (T : todo (threads w' 0) = [TSync (SCall (CInsert 3 30 0%Z))]) by (vm_compute; reflexivity).
  split; [rewrite E; vm_compute; reflexivity|]. split; [rewrite E; vm_compute; reflexivity|].
  split; [rewrite E; unfold tstep; rewrite Q, T; reflexivity|].
  split; [rewrite E; vm_compute; reflexivity|]. split; [rewrite E; vm_compute; reflexivity|]. split; [rewrite E; vm_compute; reflexivity|].
  intros fuel r. cbn [seq_op do_call]. unfold insert, shrink.
  assert (Ev : values (mem w) = [(2, (20, 0%Z))]) by (rewrite E; vm_compute; reflexivity).
  assert (Em : maxsize (mem w) = Some 1) by (rewrite E; vm_compute; reflexivity).
  assert (Ep : pop (lru_of (mem w)) = Some 1) by (rewrite E; vm_compute; reflexivity).
  unfold dhas. rewrite Ev, Em. cbn [dget Nat.eqb].
  rewrite Cache_proof3.stuck; [discriminate|rewrite Ev; cbn; auto|].
  unfold remove_popped, remove, dhas. rewrite Ep, Ev. reflexivity.
Qed.
