(** C66: cached functions that call each other, several caches, several threads. *)
From Coq Require Import List Bool Arith Lia.
From Verif Require Import Py Flight_spec Flight_model Flight_proof.
Import ListNotations.
Set Implicit Arguments.
Section T.
Variables J V : Type.
Variable jeqb : J -> J -> bool.
Hypothesis jeq : forall x y, jeqb x y = true <-> x = y.
Variable body : J -> comp J V.
Variable cache_of : J -> nat.
Notation after jobs es := (run jeqb body cache_of (start V jobs) es).
(** Under every schedule, whatever the caches drop, a returned value is the value of the function without caches. *)
Theorem cached_values_are_right : forall jobs es i q v, In (q, v) (outs (threads (after jobs es) i)) -> value body q v.
Proof. intros. eapply answers; eauto. Qed.
(** A thread that has finished has the answers of all its calls, in order. *)
Theorem finished_thread_has_all_answers : forall jobs es i, finished (threads (after jobs es) i) ->
  Forall2 (fun q a => fst a = q /\ value body q (snd a)) (jobs i) (outs (threads (after jobs es) i)).
Proof. intros. apply finished_outs; auto. Qed.
(** The value does not depend on the schedule. *)
Theorem value_is_unique : forall q v v', value body q v -> value body q v' -> v = v'.
Proof. intros q v v' H. now apply value_fun. Qed.
(** If no entry disappears and no function needs its own value, then each function is computed once for each key, for all threads. *)
Theorem computed_at_most_once : forall level : J -> nat, (forall q q', mentions (body q) q' -> level q' < level q) ->
  forall jobs es, (forall q, ~ In (Drop q) es) -> NoDup (started (after jobs es)).
Proof. intros level D jobs es. apply once_run with level; auto. Qed.
(** If functions only call functions of the same cache or of a cache of a higher rank, then as long as a thread has not finished, some
    thread can make a step. *)
Theorem ordered_caches_do_not_deadlock : forall rank : nat -> nat,
  (forall q q', mentions (body q) q' -> cache_of q' = cache_of q \/ rank (cache_of q) < rank (cache_of q')) ->
  forall jobs es i, ~ finished (threads (after jobs es) i) ->
  exists j, ~ finished (threads (after jobs es) j) /\ ~ blocked cache_of (after jobs es) j /\
            now (threads (run jeqb body cache_of (after jobs es) [Go j]) j) <> now (threads (after jobs es) j).
Proof.
  intros rank Or jobs es i F. destruct (@progress_run J V jeqb jeq body cache_of rank jobs es i Or F) as (j & A & B). exists j. split; auto. split; auto.
  now apply (@unblocked_moves J V jeqb body cache_of _ j A B).
Qed.
(** In particular with one cache. *)
Theorem one_cache_does_not_deadlock : forall c, (forall q, cache_of q = c) -> forall jobs es i, ~ finished (threads (after jobs es) i) ->
  exists j, ~ finished (threads (after jobs es) j) /\ ~ blocked cache_of (after jobs es) j.
Proof. intros c E jobs es i F. apply (@progress_run J V jeqb jeq body cache_of (fun _ => 0) jobs es i); auto. intros q q' _. left. now rewrite !E. Qed.
(** No thread makes more steps than its calls would take without caches, whatever the caches drop. *)
Theorem steps_are_bounded : forall cost jobs es i, (forall q, In q (jobs i) -> exists v, takes body q v (cost q)) ->
  moves jeqb body cache_of (start V jobs) es i <= list_sum (map (fun q => S (cost q)) (jobs i)).
Proof. intros. now apply moves_bound. Qed.
(** Functions that never need their own value have a number of steps. *)
Theorem descending_calls_end : forall level : J -> nat, (forall q q', mentions (body q) q' -> level q' < level q) ->
  forall q, exists v n, takes body q v n /\ value body q v.
Proof. intros level D q. destruct (takes_total D q) as (v & n & H). exists v, n. split; auto. eapply takes_value; eauto. Qed.
(** Together: from every state that can be reached, all threads can finish. *)
Theorem all_threads_can_finish : forall (rank : nat -> nat) (cost : J -> nat),
  (forall q q', mentions (body q) q' -> cache_of q' = cache_of q \/ rank (cache_of q) < rank (cache_of q')) ->
  forall n jobs, (forall i, n <= i -> jobs i = []) -> (forall i q, In q (jobs i) -> exists v, takes body q v (cost q)) ->
  forall es, exists es', (forall e, In e es' -> exists i, e = Go i) /\ forall i, finished (threads (after jobs (es ++ es')) i).
Proof.
  intros rank cost Or n jobs Idle T es.
  assert (G : forall k, exists f, forall i, i < k -> budget body cost (threads (after jobs es) i) (f i)).
  { induction k as [|k [f IH]]; [exists (fun _ => 0); lia|]. destruct (@budget_run J V jeqb jeq body cache_of cost jobs es k (T k)) as [b B].
    exists (fun x => if x =? k then b else f x). intros i L. destruct (Nat.eqb_spec i k) as [->|Ne]; auto. apply IH. lia. }
  destruct (G n) as [f F]. eapply drive; eauto.
Qed.
(** When all threads have finished no lock is held. *)
Theorem no_lock_is_left : forall jobs es, (forall i, finished (threads (after jobs es) i)) -> locks (after jobs es) = [].
Proof. intros. apply all_done; auto. Qed.
(** Two threads that wait for each other's locks wait forever. *)
Theorem deadlock_is_forever : forall jobs es i j q q' n n', i <> j ->
  now (threads (after jobs es) i) = Some (Want q) -> dget Nat.eqb (locks (after jobs es)) (cache_of q) = Some (j, n) ->
  now (threads (after jobs es) j) = Some (Want q') -> dget Nat.eqb (locks (after jobs es)) (cache_of q') = Some (i, n') ->
  forall es', ~ finished (threads (after jobs (es ++ es')) i) /\ ~ finished (threads (after jobs (es ++ es')) j).
Proof.
  intros jobs es i j q q' n n' Ne A B C D es'. destruct (@waits_run J V jeqb jeq body cache_of jobs es es' i j Ne) as [W1 W2]; [exists q, n; auto|exists q', n'; auto|].
  destruct W1 as (? & ? & E & _), W2 as (? & ? & E' & _). split; intros [F _]; congruence.
Qed.
End T.
(** Without an order of the caches: f of cache 0 calls g' of cache 1 and g of cache 1 calls f' of cache 0, none of them calls itself.
    Two threads that call f and g may never return. *)
Definition cross (q : nat) : comp nat nat := match q with 0 => Sub 2 Done | 1 => Sub 3 Done | _ => Done q end.
Definition where_ (q : nat) : nat := match q with 0 => 0 | 1 => 1 | 2 => 1 | _ => 0 end.
Definition two (i : nat) : list nat := match i with 0 => [0] | 1 => [1] | _ => [] end.
Definition stuck : list (event nat) := [Go 0; Go 0; Go 0; Go 0; Go 1; Go 1; Go 1; Go 1].
Theorem crossing_caches_finish_refuted :
  (forall q q', mentions (cross q) q' -> q < 2 <= q') /\
  forall es', ~ finished (threads (run Nat.eqb cross where_ (start nat two) (stuck ++ es')) 0) /\
              ~ finished (threads (run Nat.eqb cross where_ (start nat two) (stuck ++ es')) 1).
Proof.
  split.
  - intros [|[|q]] q' H; cbn in H; inversion H; subst; try lia; match goal with K : mentions (Done _) _ |- _ => inversion K end.
  - apply (@deadlock_is_forever nat nat Nat.eqb Nat.eqb_eq cross where_ two stuck 0 1 2 3 1 1); vm_compute; auto; discriminate.
Qed.
(** Fibonacci numbers with a cache, by two threads. *)
Definition fib (n : nat) : comp nat nat := match n with 0 => Done 0 | 1 => Done 1 | S (S m) => Sub (S m) (fun a => Sub m (fun b => Done (a + b))) end.
Example fib_descends : forall q q', mentions (fib q) q' -> q' < q.
Proof.
  intros [|[|q]] q' H; cbn in H; try solve [inversion H]. inversion H as [|? ? w ? K]; subst; [lia|]. inversion K as [|? ? w' ? K']; subst; [lia|]. inversion K'.
Qed.
Fixpoint both (n : nat) : list (event nat) := match n with 0 => [] | S m => Go 0 :: Go 1 :: both m end.
Example fib_runs : let w := run Nat.eqb fib (fun _ => 7) (start nat (fun i => if i <? 2 then [6; 8] else [])) (both 120) in
  outs (threads w 0) = [(6, 8); (8, 21)] /\ outs (threads w 1) = [(6, 8); (8, 21)] /\ length (started w) = 9 /\ locks w = [] /\
  now (threads w 0) = None /\ todo (threads w 0) = [].
Proof. vm_compute. auto 10. Qed.
Example fib_drops : let w := run Nat.eqb fib (fun _ => 7) (start nat (fun i => if i <? 2 then [4] else [])) (both 6 ++ [Drop 0; Drop 1; Drop 2] ++ both 20 ++ [Drop 2; Drop 1] ++ both 60) in
  outs (threads w 0) = [(4, 3)] /\ outs (threads w 1) = [(4, 3)].
Proof. vm_compute. auto. Qed.
Example fib_cost : takes fib 3 2 29.
Proof.
  assert (A : takes fib 1 1 5) by (apply (@takes_of nat nat fib 1 1 0); constructor).
  assert (B : takes fib 0 0 5) by (apply (@takes_of nat nat fib 0 0 0); constructor).
  assert (C : takes fib 2 1 17).
  { apply (@takes_of nat nat fib 2 1 12). apply (@spends_sub nat nat fib 1 _ 1 1 5 6 A). apply (@spends_sub nat nat fib 0 _ 0 1 5 0 B). constructor. }
  apply (@takes_of nat nat fib 3 2 24). apply (@spends_sub nat nat fib 2 _ 1 2 17 6 C). apply (@spends_sub nat nat fib 1 _ 1 2 5 0 A). constructor.
Qed.
Print Assumptions cached_values_are_right.
Print Assumptions finished_thread_has_all_answers.
Print Assumptions value_is_unique.
Print Assumptions computed_at_most_once.
Print Assumptions ordered_caches_do_not_deadlock.
Print Assumptions one_cache_does_not_deadlock.
Print Assumptions steps_are_bounded.
Print Assumptions descending_calls_end.
Print Assumptions all_threads_can_finish.
Print Assumptions no_lock_is_left.
Print Assumptions deadlock_is_forever.
Print Assumptions crossing_caches_finish_refuted.
