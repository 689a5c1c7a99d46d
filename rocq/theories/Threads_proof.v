(** Every schedule of threads that use the cache amounts to a sequential history. *)
From Verif Require Import Py PyLemmas Cache_spec Cache_model Cache_proof1 Cache_proof2 Cache_proof3 Cachem_spec Cachem_proof Threads_spec Threads_model.
Set Implicit Arguments.

Section T.
Variables K V : Type.
Variable keqb : K -> K -> bool.
Hypothesis keq : forall x y, keqb x y = true <-> x = y.
Variable none_key : K.
Notation cache := (cache K V). Notation prog := (prog K V). Notation top := (top K V). Notation sop := (sop K V).
Notation method := (method keqb none_key). Notation tstep := (tstep keqb none_key). Notation run := (run keqb none_key).
Notation seq_op := (seq_op keqb none_key). Notation seq_run := (seq_run keqb none_key).

(** The lock is given back exactly at the end: [d] is the number of times it is held. *)
Fixpoint bal (n d : nat) (p : prog) : Prop :=
  match n with
  | O => True
  | S n' => match p with
            | Ret _ => d = 0
            | Act f => d <> 0 /\ forall c, bal n' d (snd (f c))
            | Acq q => d <> 0 /\ bal n' (S d) q
            | Rel q => match d with O => False | S d' => bal n' d' q end
            end
  end.
Lemma bal_S n : forall d p, bal (S n) d p -> bal n d p.
Proof.
  induction n as [|n IH]; intros d p; [intros _; exact I|]. cbn [bal]. destruct p as [a|f|q|q]; [auto| | |].
  - intros [H1 H2]. split; [exact H1|]. intros c. apply IH. exact (H2 c).
  - intros [H1 H2]. split; [exact H1|]. apply IH. exact H2.
  - destruct d as [|d]; [auto|]. intros H. apply IH. exact H.
Qed.
Lemma bal_le n n' d p : n' <= n -> bal n d p -> bal n' d p.
Proof. induction 1; auto. intros H'. apply IHle. now apply bal_S. Qed.
Ltac bl := first [assumption | match goal with H : bal ?n ?d ?p |- bal ?m ?d ?p => apply (@bal_le n m d p); [lia|exact H] end].
Lemma bal_discard n d k p : d <> 0 -> bal n d p -> bal n d (discard_prog keqb k p).
Proof.
  intros D H. destruct n as [|n]; [exact I|]. cbn. split; auto. intros c. destruct (dget _ _ _) as [m|]; cbn [snd]; [|bl].
  destruct n as [|n]; [exact I|]. cbn. split; auto. intros _. destruct n as [|n]; [exact I|]. cbn. split; auto. intros _.
  destruct n as [|n]; [exact I|]. cbn. split; auto. intros _. bl.
Qed.
Lemma bal_add n d k p : d <> 0 -> bal n d p -> bal n d (add_prog keqb k p).
Proof.
  intros D H. destruct n as [|n]; [exact I|]. cbn. split; auto. intros c.
  destruct n as [|n]; [exact I|]. cbn. split; auto. intros _. destruct n as [|n]; [exact I|]. cbn. split; auto. intros _.
  destruct n as [|n]; [exact I|]. cbn. split; auto. intros _. destruct n as [|n]; [exact I|]. cbn. split; auto. intros _. bl.
Qed.
(** the body of remove, after the lock is taken *)
Definition opened (p : prog) : prog := match p with Acq q => q | _ => p end.
Lemma bal_rel n d p : bal n d p -> bal n (S d) (Rel p).
Proof. intros H. destruct n; [exact I|]. cbn. bl. Qed.
Lemma bal_act n d f : d <> 0 -> (forall c, bal n d (snd (f c))) -> bal n d (Act f).
Proof. intros D H. destruct n; [exact I|]. cbn. split; auto. intros c. apply bal_S, H. Qed.
Lemma bal_acq n d p : d <> 0 -> bal n (S d) p -> bal n d (Acq p).
Proof. intros D H. destruct n; [exact I|]. cbn. split; auto. now apply bal_S. Qed.
Lemma bal_remove' n d k p : bal n d p -> bal n (S d) (opened (remove_prog keqb k p)).
Proof.
  intros H. cbn [remove_prog opened]. apply bal_act; auto. intros c. destruct (dhas _ _ _); cbn [snd].
  - apply bal_discard; auto. apply bal_act; auto. intros c'. cbn [snd]. now apply bal_rel.
  - now apply bal_rel.
Qed.
Lemma bal_remove n d k p : d <> 0 -> bal n d p -> bal n d (remove_prog keqb k p).
Proof. intros D H. apply (@bal_acq n d (opened (remove_prog keqb k p))); auto. now apply bal_remove'. Qed.
Lemma bal_shrink n d m nb p : d <> 0 -> bal n d p -> bal n d (shrink_prog keqb none_key m nb p).
Proof.
  intros D. induction n as [|n IH]; intros H; [exact I|]. cbn. split; auto. destruct n as [|n]; [exact I|]. cbn. split; auto. intros c.
  apply bal_rel. match goal with |- context [if ?b then _ else _] => destruct b end; [|bl]. apply bal_act; auto. intros c'. cbn [snd]. apply bal_remove; auto. apply bal_S, IH. bl.
Qed.
Lemma bal_shrink_if n d nb p : d <> 0 -> bal n d p -> bal n d (shrink_if keqb none_key nb p).
Proof.
  intros D H. apply bal_act; auto. intros c. cbn [snd]. destruct (maxsize c) as [[|m]|]; auto. now apply bal_shrink.
Qed.
Lemma bal_fetch' n d k now next : (forall b r, bal n d (next b r)) -> bal n (S d) (opened (fetch_prog keqb k now next)).
Proof.
  intros H. cbn [fetch_prog opened]. apply bal_act; auto. intros c. cbn [snd]. apply bal_act; auto. intros c'.
  destruct (dget _ _ _) as [[v t]|]; cbn [snd].
  - apply bal_act; auto. intros c''. destruct (has_expired _ _ _); cbn [snd].
    + apply bal_remove; auto. now apply bal_rel.
    + apply bal_discard; auto. apply bal_add; auto. now apply bal_rel.
  - now apply bal_rel.
Qed.
Lemma bal_fetch n d k now next : d <> 0 -> (forall b r, bal n d (next b r)) -> bal n d (fetch_prog keqb k now next).
Proof. intros D H. apply (@bal_acq n d (opened (fetch_prog keqb k now next))); auto. now apply bal_fetch'. Qed.
Lemma bal_store n d k v now p : d <> 0 -> bal n d p -> bal n d (store_prog keqb k v now p).
Proof. intros D H. apply bal_act; auto. intros c. cbn [snd]. now apply bal_add. Qed.
Lemma bal_insert' n d k v now p : bal n d p -> bal n (S d) (opened (insert_prog keqb none_key k v now p)).
Proof.
  intros H. cbn [insert_prog opened]. apply bal_act; auto. intros c. cbn [snd]. pose proof (@bal_rel n d p H) as R.
  destruct (dhas _ _ _); [now apply bal_store|]. apply bal_shrink_if; auto. now apply bal_store.
Qed.
Lemma bal_insert n d k v now p : d <> 0 -> bal n d p -> bal n d (insert_prog keqb none_key k v now p).
Proof. intros D H. apply (@bal_acq n d (opened (insert_prog keqb none_key k v now p))); auto. now apply bal_insert'. Qed.
Lemma bal_collect_loop n d now ks p : d = 1 -> bal n d p -> bal n d (collect_loop keqb now ks p).
Proof.
  intros -> H. revert n H. induction ks as [|k ks IH]; intros n H; cbn [collect_loop]; auto. apply bal_act; auto. intros c.
  destruct (dget _ _ _) as [[v t]|]; cbn [snd].
  - apply bal_act; auto. intros c'. cbn [snd]. destruct (has_expired _ _ _); auto. apply bal_remove; auto.
  - apply bal_rel. destruct n; [exact I|reflexivity].
Qed.
Lemma bal_ret n a : bal n 0 (Ret a).
Proof. destruct n; [exact I|reflexivity]. Qed.
Lemma bal_method n o : exists q, method (TSync o) = Acq q /\ bal n 1 q.
Proof.
  destruct o as [[k now|k v now|k| |now|m x|k v now now']|]; eexists; (split; [reflexivity|]).
  - apply bal_fetch' with (d := 0). intros b r. apply bal_ret.
  - apply bal_insert' with (d := 0). apply bal_ret.
  - apply bal_remove' with (d := 0). apply bal_ret.
  - do 4 (apply bal_act; auto; intros ?; cbn [snd]). apply bal_rel, bal_ret.
  - apply bal_act; auto. intros c. cbn [snd]. apply bal_collect_loop; auto. apply bal_rel, bal_ret.
  - do 2 (apply bal_act; auto; intros ?; cbn [snd]). apply bal_shrink_if; auto. apply bal_rel, bal_ret.
  - apply (@bal_fetch n 1 k now (fun fail r => match r with
      | Some w => Rel (answer K (CFound w))
      | None => if fail then Rel (answer K CKeyError) else insert_prog keqb none_key k v now' (Rel (answer K (CFound v)))
      end)); auto.
    intros b r. destruct r as [w|]; [apply bal_rel, bal_ret|].
    destruct b; [apply bal_rel, bal_ret|]. apply bal_insert; auto. apply bal_rel, bal_ret.
  - apply bal_act; auto. intros c. cbn [snd]. apply bal_rel, bal_ret.
Qed.
Lemma bal_zero p : (forall n, bal n 0 p) -> exists a, p = Ret a.
Proof.
  intros H. specialize (H 1). destruct p as [a|f|q|q]; cbn in H; [eauto| | |]; tauto.
Qed.

(** Running alone. *)
Fixpoint fin (n : nat) (p : prog) (c : cache) : option (tans K V * cache) :=
  match p with
  | Ret a => Some (a, c)
  | _ => match n with
         | O => None
         | S n' => match p with
                   | Ret a => Some (a, c)
                   | Act f => fin n' (snd (f c)) (fst (f c))
                   | Acq q => fin n' q c
                   | Rel q => fin n' q c
                   end
         end
  end.
Definition leads (p : prog) (c : cache) (q : prog) (c' : cache) (n : nat) (r : tans K V * cache) : Prop :=
  fin n p c = Some r -> exists n', n' <= n /\ fin n' q c' = Some r.
Ltac fs n := destruct n as [|n]; [discriminate|]; cbn [fin fst snd].
Lemma fin_act n f c r : fin n (Act f) c = Some r -> exists n', n = S n' /\ fin n' (snd (f c)) (fst (f c)) = Some r.
Proof. destruct n as [|n]; [discriminate|]. cbn [fin]. eauto. Qed.
Lemma fin_acq n q c r : fin n (Acq q) c = Some r -> exists n', n = S n' /\ fin n' q c = Some r.
Proof. destruct n as [|n]; [discriminate|]. cbn [fin]. eauto. Qed.
Lemma fin_rel n q c r : fin n (Rel q) c = Some r -> exists n', n = S n' /\ fin n' q c = Some r.
Proof. destruct n as [|n]; [discriminate|]. cbn [fin]. eauto. Qed.
Lemma with_lru_same (c : cache) : with_lru c (lru_of c) = c.
Proof. now destruct c. Qed.
Lemma fin_discard n k p c r : fin n (discard_prog keqb k p) c = Some r ->
  exists n', n' < n /\ fin n' p (with_lru c (discard keqb (lru_of c) k)) = Some r.
Proof.
  intros H. apply fin_act in H as (n1 & -> & H). unfold discard. destruct (dget keqb (lkeys (lru_of c)) k) as [m|]; cbn [fst snd] in H.
  - apply fin_act in H as (n2 & -> & H). cbn [fst snd] in H. apply fin_act in H as (n3 & -> & H). cbn [fst snd] in H.
    apply fin_act in H as (n4 & -> & H). cbn [fst snd] in H. exists n4. split; [lia|exact H].
  - exists n1. split; [lia|]. now rewrite with_lru_same.
Qed.
Lemma fin_add n k p c r : fin n (add_prog keqb k p) c = Some r ->
  exists n', n' < n /\ fin n' p (with_lru c (add keqb (lru_of c) k)) = Some r.
Proof.
  intros H. apply fin_act in H as (n1 & -> & H). cbn [fst snd] in H. apply fin_act in H as (n2 & -> & H). cbn [fst snd] in H.
  apply fin_act in H as (n3 & -> & H). cbn [fst snd] in H. apply fin_act in H as (n4 & -> & H). cbn [fst snd] in H.
  apply fin_act in H as (n5 & -> & H). cbn [fst snd] in H. exists n5. split; [lia|exact H].
Qed.
Lemma fin_remove n k p c r : fin n (remove_prog keqb k p) c = Some r ->
  exists n', n' < n /\ fin n' p (remove keqb c k) = Some r.
Proof.
  intros H. apply fin_acq in H as (n1 & -> & H). apply fin_act in H as (n2 & -> & H). unfold remove.
  destruct (dhas keqb (values c) k); cbn [fst snd] in H.
  - apply fin_discard in H as (n3 & L & H). apply fin_act in H as (n4 & -> & H). cbn [fst snd] in H. apply fin_rel in H as (n5 & -> & H).
    exists n5. split; [lia|exact H].
  - apply fin_rel in H as (n5 & -> & H). exists n5. split; [lia|exact H].
Qed.
Lemma fin_shrink m nb p r n : forall c, fin n (shrink_prog keqb none_key m nb p) c = Some r ->
  exists f c1 n', n' < n /\ shrink_loop keqb none_key f m nb c = Ok c1 /\ fin n' p c1 = Some r.
Proof.
  induction n as [n IH] using lt_wf_ind. intros c H. destruct n as [|n]; [discriminate|]. destruct n as [|n]; [discriminate|].
  destruct n as [|n]; [discriminate|]. cbn [fin shrink_prog fst snd] in H.
  destruct (m <? length (values c) + nb) eqn:E.
  - apply fin_act in H as (n2 & -> & H). cbn [fst snd] in H. apply fin_remove in H as (n3 & L & H).
    destruct (IH n3 ltac:(lia) _ H) as (f & c1 & n' & L' & R & F). exists (S f), c1, n'. split; [lia|]. split; auto.
    cbn [shrink_loop]. rewrite E. unfold remove_popped. destruct (pop (lru_of c)); exact R.
  - exists 0, c, n. split; [lia|]. split; auto. cbn [shrink_loop]. now rewrite E.
Qed.
Lemma fin_shrink_if n nb p c r : fin n (shrink_if keqb none_key nb p) c = Some r ->
  exists f c1 n', n' < n /\ shrink keqb none_key f nb c = Ok c1 /\ fin n' p c1 = Some r.
Proof.
  intros H. apply fin_act in H as (n1 & -> & H). cbn [fst snd] in H. unfold shrink. destruct (maxsize c) as [[|m]|].
  - exists 0, c, n1. split; [lia|auto].
  - apply fin_shrink in H as (f & c1 & n' & L & R & F). exists f, c1, n'. split; [lia|auto].
  - exists 0, c, n1. split; [lia|auto].
Qed.
Lemma fin_fetch n k now next c r : fin n (fetch_prog keqb k now next) c = Some r ->
  exists n', n' < n /\ fin n' (next (default_fail c) (snd (fetch keqb c k now))) (fst (fetch keqb c k now)) = Some r.
Proof.
  intros H. apply fin_acq in H as (n1 & -> & H). apply fin_act in H as (n2 & -> & H). cbn [fst snd] in H.
  apply fin_act in H as (n3 & -> & H). unfold fetch. destruct (dget keqb (values c) k) as [[v t]|]; cbn [fst snd] in *.
  - apply fin_act in H as (n4 & -> & H). destruct (has_expired c now t); cbn [fst snd] in *.
    + apply fin_remove in H as (n5 & L & H). apply fin_rel in H as (n6 & -> & H). exists n6. split; [lia|auto].
    + apply fin_discard in H as (n5 & L & H). apply fin_add in H as (n6 & L' & H). apply fin_rel in H as (n7 & -> & H).
      exists n7. split; [lia|]. exact H.
  - apply fin_rel in H as (n7 & -> & H). exists n7. split; [lia|auto].
Qed.
Lemma fin_store n k v now p c r : fin n (store_prog keqb k v now p) c = Some r ->
  exists n', n' < n /\ fin n' p (with_content c (dset keqb (values c) k (v, now)) (add keqb (lru_of c) k)) = Some r.
Proof.
  intros H. apply fin_act in H as (n1 & -> & H). cbn [fst snd] in H. apply fin_add in H as (n2 & L & H). exists n2. split; [lia|exact H].
Qed.
Lemma fin_insert n k v now p c r : fin n (insert_prog keqb none_key k v now p) c = Some r ->
  exists f c1 n', n' < n /\ insert keqb none_key f c k v now = Ok c1 /\ fin n' p c1 = Some r.
Proof.
  intros H. apply fin_acq in H as (n1 & -> & H). apply fin_act in H as (n2 & -> & H). cbn [fst snd] in H. unfold insert.
  destruct (dhas keqb (values c) k).
  - apply fin_store in H as (n3 & L & H). apply fin_rel in H as (n4 & -> & H). exists 0. eexists. exists n4. split; [lia|]. split; [reflexivity|exact H].
  - apply fin_shrink_if in H as (f & c1 & n3 & L & R & H). apply fin_store in H as (n4 & L' & H). apply fin_rel in H as (n5 & -> & H).
    exists f. eexists. exists n5. split; [lia|]. rewrite R. cbn [bind]. split; [reflexivity|exact H].
Qed.
Lemma fin_collect_loop now p r ks : forall n c, fin n (collect_loop keqb now ks p) c = Some r ->
  (exists n' c1, foldM (collect_one keqb now) c ks = Ok c1 /\ fin n' p c1 = Some r) \/ foldM (collect_one keqb now) c ks = Err KeyError.
Proof.
  induction ks as [|k ks IH]; intros n c H; cbn [collect_loop foldM] in *.
  - left. exists n, c. auto.
  - apply fin_act in H as (n1 & -> & H). unfold collect_one at 1 3, dread. destruct (dget keqb (values c) k) as [[v t]|]; cbn [fst snd bind] in *.
    + apply fin_act in H as (n2 & -> & H). cbn [fst snd] in H. destruct (has_expired c (now k) t).
      * apply fin_remove in H as (n3 & L & H). apply IH in H. exact H.
      * apply IH in H. exact H.
    + right. reflexivity.
Qed.
Lemma fin_method n o c a c' : fin n (method (TSync o)) c = Some (a, c') ->
  (exists f b, seq_op f c o = Ok (c', b) /\ a = TAns b) \/ (forall f, seq_op f c o = Err KeyError).
Proof.
  destruct o as [[k now|k v now|k| |now|m x|k v now now']|]; cbn [method Threads_model.method]; intros H.
  - left. apply fin_fetch in H as (n' & _ & H). cbn [seq_op Threads_model.seq_op do_call]. unfold missing in H. destruct (fetch keqb c k now) as [c1 r]. cbn [fst snd] in H.
    exists 0. eexists. cbn [bind fst snd]. unfold answer in H. destruct n'; cbn [fin] in H; injection H as <- <-; split; auto; destruct r, (default_fail c); reflexivity.
  - left. apply fin_insert in H as (f & c1 & n' & _ & R & H). exists f. eexists. cbn [Threads_model.seq_op do_call]. rewrite R. cbn [bind fst snd].
    destruct n'; cbn in H; injection H as <- <-; split; reflexivity.
  - left. apply fin_remove in H as (n' & _ & H). exists 0. eexists. cbn [Threads_model.seq_op do_call bind fst snd].
    destruct n'; cbn in H; injection H as <- <-; split; reflexivity.
  - left. apply fin_acq in H as (n1 & -> & H). do 4 (apply fin_act in H as (? & -> & H); cbn [fst snd] in H). apply fin_rel in H as (n2 & -> & H).
    exists 0. eexists. cbn [Threads_model.seq_op do_call bind fst snd]. destruct n2; cbn in H; injection H as <- <-; split; reflexivity.
  - apply fin_acq in H as (n1 & -> & H). apply fin_act in H as (n2 & -> & H). cbn [fst snd] in H. apply fin_collect_loop in H as [(n' & c1 & R & H)|R].
    + left. apply fin_rel in H as (n3 & -> & H). exists 0. eexists. cbn [Threads_model.seq_op do_call]. unfold collect. rewrite R. cbn [bind fst snd].
      destruct n3; cbn in H; injection H as <- <-; split; reflexivity.
    + right. intros f. cbn [Threads_model.seq_op do_call]. unfold collect. now rewrite R.
  - left. apply fin_acq in H as (n1 & -> & H). do 2 (apply fin_act in H as (? & -> & H); cbn [fst snd] in H). cbn [maxsize default_fail values lru_of expiry] in H.
    apply fin_shrink_if in H as (f & c1 & n' & _ & R & H). apply fin_rel in H as (n2 & -> & H). exists f. eexists. cbn [Threads_model.seq_op do_call].
    unfold reconfigure. rewrite R. cbn [bind fst snd]. destruct n2; cbn in H; injection H as <- <-; split; reflexivity.
  - left. apply fin_acq in H as (n1 & -> & H). apply fin_fetch in H as (n2 & _ & H). cbn [Threads_model.seq_op do_call]. unfold fetch_gen.
    assert (D : default_fail (fst (fetch keqb c k now)) = default_fail c).
    { unfold fetch. destruct (dget keqb (values c) k) as [[w t]|]; auto. destruct (has_expired c now t); auto. apply remove_fields. }
    destruct (fetch keqb c k now) as [c1 [w|]]; cbn [fst snd] in *.
    + apply fin_rel in H as (n3 & -> & H). exists 0. eexists. cbn [bind fst snd]. destruct n3; cbn in H; injection H as <- <-; split; reflexivity.
    + rewrite D. destruct (default_fail c).
      * apply fin_rel in H as (n3 & -> & H). exists 0. eexists. cbn [bind fst snd]. destruct n3; cbn in H; injection H as <- <-; split; reflexivity.
      * apply fin_insert in H as (f & c2 & n3 & _ & R & H). apply fin_rel in H as (n4 & -> & H). exists f. eexists. rewrite R. cbn [bind fst snd].
        destruct n4; cbn in H; injection H as <- <-; split; reflexivity.
  - left. apply fin_acq in H as (n1 & -> & H). apply fin_act in H as (n2 & -> & H). cbn [fst snd] in H. apply fin_rel in H as (n3 & -> & H).
    exists 0. eexists. cbn. destruct n3; cbn in H; injection H as <- <-; split; reflexivity.
Qed.

(** Sequential runs: more fuel, one call more, no exception. *)
Lemma shrink_loop_more m nb f f' : f <= f' -> forall (c c' : cache), shrink_loop keqb none_key f m nb c = Ok c' -> shrink_loop keqb none_key f' m nb c = Ok c'.
Proof.
  revert f'. induction f as [|f IH]; intros f' L c c'; destruct f' as [|f']; try lia; cbn [shrink_loop]; destruct (_ <? _); auto; try discriminate.
  apply IH. lia.
Qed.
Lemma shrink_more nb f f' (c c' : cache) : f <= f' -> shrink keqb none_key f nb c = Ok c' -> shrink keqb none_key f' nb c = Ok c'.
Proof. intros L. unfold shrink. destruct (maxsize c) as [[|m]|]; auto. now apply shrink_loop_more. Qed.
Lemma insert_more f f' (c c' : cache) k v now : f <= f' -> insert keqb none_key f c k v now = Ok c' -> insert keqb none_key f' c k v now = Ok c'.
Proof.
  intros L. unfold insert. destruct (dhas keqb (values c) k); auto. destruct (shrink keqb none_key f 1 c) as [c1|] eqn:E; [|discriminate].
  now rewrite (@shrink_more _ f f' _ _ L E).
Qed.
Lemma seq_op_more f f' (c : cache) (o : sop) r : f <= f' -> seq_op f c o = Ok r -> seq_op f' c o = Ok r.
Proof.
  intros L. destruct o as [[k now|k v now|k| |now|m x|k v now now']|]; cbn [Threads_model.seq_op do_call]; auto.
  - destruct (insert keqb none_key f c k v now) as [c1|] eqn:E; [|discriminate]. now rewrite (@insert_more f f' _ _ _ _ _ L E).
  - unfold reconfigure. destruct (shrink keqb none_key f 0 _) as [c1|] eqn:E; [|discriminate]. now rewrite (@shrink_more _ f f' _ _ L E).
  - unfold fetch_gen. destruct (fetch keqb c k now) as [c1 [w|]]; auto. destruct (default_fail c1); auto.
    destruct (insert keqb none_key f c1 k v now') as [c2|] eqn:E; [|discriminate]. now rewrite (@insert_more f f' _ _ _ _ _ L E).
Qed.
Lemma seq_run_more f f' (os : list sop) : f <= f' -> forall (c : cache) r, seq_run f c os = Ok r -> seq_run f' c os = Ok r.
Proof.
  intros L. induction os as [|o os IH]; intros c r; cbn [Threads_model.seq_run]; auto.
  destruct (seq_op f c o) as [[c1 a]|] eqn:E; [|discriminate]. cbn [bind fst snd]. rewrite (@seq_op_more f f' _ _ _ L E). cbn [bind fst snd].
  destruct (seq_run f c1 os) as [q|] eqn:E2; [|discriminate]. rewrite (IH _ _ E2). auto.
Qed.
Lemma seq_run_snoc f (os : list sop) o : forall (c c1 : cache) l r, seq_run f c os = Ok (c1, l) -> seq_op f c1 o = Ok r -> seq_run f c (os ++ [o]) = Ok (fst r, l ++ [snd r]).
Proof.
  induction os as [|x os IH]; intros c c1 l r; cbn [Threads_model.seq_run app].
  - intros E; injection E as <- <-. intros ->. reflexivity.
  - destruct (seq_op f c x) as [[c2 a]|]; [|discriminate]. cbn [bind fst snd]. destruct (seq_run f c2 os) as [[c3 l3]|] eqn:E2; [|discriminate].
    cbn [bind fst snd]. intros E R. injection E as <- <-. rewrite (IH _ _ _ _ E2 R). reflexivity.
Qed.
Lemma op_follows f (c : cache) s (o : sop) c' a : follows keqb c s -> seq_op f c o = Ok (c', a) -> exists s', follows keqb c' s'.
Proof.
  intros C. destruct o as [call|]; cbn [Threads_model.seq_op]; [|intros E; injection E as <- _; eauto].
  pose proof (@follows_call K V keqb keq none_key f c s call C) as H. destruct (mcall keqb (default_fail c) s call) as [[s' a']|].
  - destruct H as [(c1 & R & F & _)|[_ R]]; rewrite R; [|discriminate]. cbn [bind fst]. intros E; injection E as <- _. eauto.
  - rewrite H. discriminate.
Qed.
Lemma op_no_error f (c : cache) s (o : sop) : follows keqb c s -> seq_op f c o <> Err KeyError.
Proof.
  intros C. destruct o as [call|]; cbn [Threads_model.seq_op]; [|discriminate].
  pose proof (@follows_call K V keqb keq none_key f c s call C) as H. destruct (mcall keqb (default_fail c) s call) as [[s' a']|].
  - destruct H as [(c1 & R & F & _)|[_ R]]; rewrite R; discriminate.
  - rewrite H. discriminate.
Qed.

(** The account of a schedule: calls in the order in which they give back the lock. *)
Notation world := (world K V). Notation thread := (thread K V).
Definition emit (w : world) (i : nat) : list (nat * (sop * sans V)) :=
  match cur (threads w i), todo (threads w i), lock w with
  | Some (Rel (Ret (TAns a))), TSync o :: _, Some (_, 0) => [(i, (o, a))]
  | _, _, _ => []
  end.
Fixpoint account (w : world) (sched : list nat) : list (nat * (sop * sans V)) :=
  match sched with [] => [] | i :: s => emit w i ++ account (tstep w i) s end.
Lemma account_app s1 : forall w s2, account w (s1 ++ s2) = account w s1 ++ account (run w s1) s2.
Proof. induction s1 as [|i s1 IH]; intros w s2; cbn; auto. rewrite IH. now rewrite app_assoc. Qed.

Definition pend (t : thread) : list (sop * sans V) :=
  match cur t, todo t with Some (Ret (TAns a)), TSync o :: _ => [(o, a)] | _, _ => [] end.
Definition quiet (t : thread) : Prop :=
  cur t = None \/ (exists o rest a, todo t = o :: rest /\ cur t = Some (Ret a) /\ in_kind o a) \/ exists o rest, todo t = o :: rest /\ cur t = Some (method o).
Variable progs : nat -> list top.
Variable c00 : cache.
Hypothesis start_ok : exists s, follows keqb c00 s.
Definition busy (w : world) (c : cache) (j d : nat) : Prop :=
  exists o rest p, todo (threads w j) = TSync o :: rest /\ cur (threads w j) = Some p /\ (forall n, bal n (S d) p) /\
    (forall n r, fin n p (mem w) = Some r -> exists n', fin n' (method (TSync o)) c = Some r) /\
    (forall n r, fin n (method (TSync o)) c = Some r -> exists n', fin n' p (mem w) = Some r).
Definition lock_ok (w : world) (c : cache) : Prop :=
  match lock w with
  | None => mem w = c /\ forall i, quiet (threads w i)
  | Some (j, d) => (forall i, i <> j -> quiet (threads w i)) /\ busy w c j d
  end.
Definition book (w : world) (h : list (nat * (sop * sans V))) (i : nat) : Prop :=
  exists done, progs i = done ++ todo (threads w i) /\ Forall2 (@in_kind K V) done (outs (threads w i)) /\
    of_thread i h = synced done (outs (threads w i)) ++ pend (threads w i).
Definition seq_ok (h : list (nat * (sop * sans V))) (c : cache) : Prop :=
  (exists f, seq_run f c00 (map (fun e => fst (snd e)) h) = Ok (c, map (fun e => snd (snd e)) h)) /\ exists s, follows keqb c s.
Definition inv (w : world) (h : list (nat * (sop * sans V))) : Prop :=
  (forall i, book w h i) /\ exists c, seq_ok h c /\ lock_ok w c.

Lemma set_same (w : world) c l i t : threads (set_thread w c l i t) i = t.
Proof. cbn. now rewrite Nat.eqb_refl. Qed.
Lemma set_other (w : world) c l i t j : j <> i -> threads (set_thread w c l i t) j = threads w j.
Proof. intros H. cbn. now rewrite (proj2 (Nat.eqb_neq j i)). Qed.
Lemma of_thread_app i (a b : list (nat * (sop * sans V))) : of_thread i (a ++ b) = of_thread i a ++ of_thread i b.
Proof. unfold of_thread. now rewrite filter_app, map_app. Qed.
Lemma synced_snoc (ops : list top) : forall (outs : list (tans K V)) o a, length ops = length outs ->
  synced (ops ++ [o]) (outs ++ [a]) = synced ops outs ++ match o, a with TSync o, TAns a => [(o, a)] | _, _ => [] end.
Proof.
  induction ops as [|x ops IH]; intros [|y outs] o a L; try discriminate; cbn [app synced].
  - destruct o, a; reflexivity.
  - injection L as L. rewrite (IH outs o a L). destruct x, y; reflexivity.
Qed.
(** book-keeping when thread i changes only its program *)
Lemma book_move w h c l i p : book w h i -> pend (threads w i) = [] -> forall e,
  (forall j, j <> i -> of_thread j e = []) -> of_thread i e = pend (at_ (threads w i) p) ->
  (forall j, j <> i -> book w h j) ->
  forall j, book (set_thread w c l i (at_ (threads w i) p)) (h ++ e) j.
Proof.
  intros B P e E1 E2 Bo j. destruct (Nat.eq_dec j i) as [->|N].
  - destruct B as (done & B1 & B2 & B3). exists done. rewrite set_same. cbn [at_ todo outs]. split; auto. split; auto.
    rewrite of_thread_app, E2, B3, P, app_nil_r. reflexivity.
  - destruct (Bo j N) as (done & B1 & B2 & B3). exists done. rewrite set_other by auto. split; auto. split; auto.
    rewrite of_thread_app, E1, app_nil_r by auto. exact B3.
Qed.
Lemma busy_other w c j d i t l : i <> j -> busy w c j d -> busy (set_thread w (mem w) l i t) c j d.
Proof.
  intros N (o & rest & p & H). exists o, rest, p. rewrite set_other by auto. exact H.
Qed.
Lemma lock_ok_quiet w c i t : quiet t -> quiet (threads w i) -> lock_ok w c -> (match lock w with Some (j, _) => i <> j | None => True end) ->
  lock_ok (set_thread w (mem w) (lock w) i t) c.
Proof.
  intros Q _ L N. unfold lock_ok in *. cbn [lock set_thread mem]. destruct (lock w) as [[j d]|].
  - destruct L as [L1 L2]. split; [|now apply busy_other].
    intros k Nk. destruct (Nat.eq_dec k i) as [->|Ni]; [now rewrite set_same|rewrite set_other by auto; auto].
  - destruct L as [L1 L2]. split; auto. intros k. destruct (Nat.eq_dec k i) as [->|Ni]; [now rewrite set_same|rewrite set_other by auto; auto].
Qed.
Lemma pend_nil t p : cur t = Some p -> (forall a, p <> Ret a) -> pend t = [].
Proof. intros E N. unfold pend. rewrite E. destruct p; auto. destruct (N a eq_refl). Qed.
Lemma of_nil i : of_thread (K:=K) (V:=V) i [] = [].
Proof. reflexivity. Qed.
Lemma method_no_ret (o : top) : forall a, method o <> Ret a.
Proof. destruct o as [[[]|]| |]; discriminate. Qed.

Lemma step_quiet w h c i : (forall i, book w h i) -> seq_ok h c -> lock_ok w c -> quiet (threads w i) ->
  (match lock w with Some (j, _) => i <> j | None => True end) -> inv (tstep w i) (h ++ emit w i).
Proof.
  intros B S0 L Q N. destruct Q as [Q|[(o & rest & a & T & Q & Ka)|(o & rest & T & Q)]].
  - (* idle *)
    assert (E : emit w i = []) by (unfold emit; now rewrite Q). rewrite E, app_nil_r. unfold Threads_model.tstep. rewrite Q.
    destruct (todo (threads w i)) as [|o rest] eqn:T; [split; eauto|]. split.
    + rewrite <- (app_nil_r h). apply book_move; auto; [unfold pend; now rewrite Q|]. rewrite of_nil.
      symmetry. eapply pend_nil; [reflexivity|]. apply method_no_ret.
    + exists c. split; auto. apply lock_ok_quiet; auto; [|now left]. right; right. exists o, rest. cbn. auto.
  - (* returns *)
    assert (E : emit w i = []) by (unfold emit; now rewrite Q). rewrite E, app_nil_r. unfold Threads_model.tstep. rewrite Q. split.
    + intros j. destruct (Nat.eq_dec j i) as [->|Nj].
      * destruct (B i) as (done & B1 & B2 & B3). rewrite T in B1.
        exists (done ++ [o]). rewrite set_same. cbn [todo outs tl]. rewrite T. cbn [tl]. rewrite <- app_assoc. split; auto. split; [apply Forall2_app; auto|].
        rewrite synced_snoc by exact (Forall2_length B2). rewrite B3. unfold pend. rewrite Q, T. cbn [cur]. destruct o, a; now rewrite ?app_nil_r.
      * destruct (B j) as (done & B'). exists done. rewrite set_other by auto. exact B'.
    + exists c. split; auto. apply lock_ok_quiet; auto; [now left|]. right; left. eauto 8.
  - (* about to begin *)
    assert (E : emit w i = []).
    { unfold emit. rewrite Q. destruct o as [[[]|]| |]; reflexivity. }
    rewrite E, app_nil_r. unfold Threads_model.tstep. rewrite Q.
    assert (P : pend (threads w i) = []) by (eapply pend_nil; [exact Q|apply method_no_ret]).
    destruct o as [o|k|].
    + destruct (bal_method 0 o) as (q & Eq & _). assert (Bq : forall n, bal n 1 q).
      { intros n. destruct (bal_method n o) as (q' & Eq' & B'). assert (q' = q) by congruence. now subst. }
      rewrite Eq in *. destruct (lock w) as [[j d]|] eqn:Lw.
      * rewrite (proj2 (Nat.eqb_neq j i)) by auto. split; eauto.
      * unfold lock_ok in L. rewrite Lw in L. destruct L as [<- L]. split.
        -- rewrite <- (app_nil_r h). apply book_move; auto. rewrite of_nil. unfold pend, at_. cbn [cur todo].
           destruct q as [a|f|q|q]; auto. specialize (Bq 1). cbn in Bq. discriminate.
        -- exists (mem w). split; auto. unfold lock_ok. cbn [lock set_thread]. split.
           ++ intros k Nk. rewrite set_other by auto. auto.
           ++ exists o, rest, q. rewrite set_same. cbn [at_ todo cur mem set_thread]. split; auto. split; auto. split; auto. split.
              ** intros n r F. exists (S n). rewrite Eq. exact F.
              ** intros n r F. rewrite Eq in F. apply fin_acq in F as (n' & _ & F). eauto.
    + cbn [Threads_model.method]. split.
      * rewrite <- (app_nil_r h). apply book_move; auto. 
      * exists c. split; auto. apply lock_ok_quiet; auto; [|right; right; eauto].
        right; left. cbn [at_ todo cur]. do 3 eexists. split; [exact T|]. split; [reflexivity|exact I].
    + cbn [Threads_model.method]. split.
      * rewrite <- (app_nil_r h). apply book_move; auto. 
      * exists c. split; auto. apply lock_ok_quiet; auto; [|right; right; eauto].
        right; left. cbn [at_ todo cur]. do 3 eexists. split; [exact T|]. split; [reflexivity|exact I].
Qed.
Lemma seq_kind f (c : cache) (o : sop) c' b : seq_op f c o = Ok (c', b) -> in_kind (TSync o) (TAns b).
Proof.
  destruct o as [call|]; cbn [Threads_model.seq_op].
  - destruct (do_call keqb none_key f c call) as [p|]; [|discriminate]. intros E. injection E as _ <-. exact I.
  - intros E. injection E as _ <-. exact I.
Qed.
Lemma step_busy w h c j d : (forall i, book w h i) -> seq_ok h c -> lock w = Some (j, d) -> (forall i, i <> j -> quiet (threads w i)) ->
  busy w c j d -> inv (tstep w j) (h ++ emit w j).
Proof.
  intros B S0 Lw Qo (o & rest & p & T & Q & Bp & F & F'). unfold Threads_model.tstep, emit. rewrite Q, T, Lw.
  assert (Qo' : forall c' l p' i, i <> j -> quiet (threads (set_thread w c' l j (at_ (threads w j) p')) i)).
  { intros c' l p' i Ni. rewrite set_other by auto. auto. }
  destruct p as [a|f|q|q].
  - specialize (Bp 1). discriminate.
  - assert (P : pend (threads w j) = []) by (eapply pend_nil; [exact Q|discriminate]).
    destruct (f (mem w)) as [c' p'] eqn:Ef. rewrite app_nil_r.
    assert (Bp' : forall n, bal n (S d) p').
    { intros n. specialize (Bp (S n)). cbn in Bp. destruct Bp as [_ Bp]. specialize (Bp (mem w)). now rewrite Ef in Bp. }
    split.
    + rewrite <- (app_nil_r h). apply book_move; auto. rewrite of_nil. unfold pend, at_. cbn [cur todo].
      destruct p' as [a|?|?|?]; auto. specialize (Bp' 1). discriminate.
    + exists c. split; auto. unfold lock_ok. cbn [lock set_thread]. split; [auto|].
      exists o, rest, p'. rewrite set_same. cbn [at_ todo cur mem set_thread]. split; auto. split; auto. split; auto. split.
      * intros n r Fr. apply (F (S n)). cbn [fin]. now rewrite Ef.
      * intros n r Fr. destruct (F' _ _ Fr) as [n' Fn]. apply fin_act in Fn as (n2 & _ & Fn). rewrite Ef in Fn. eauto.
  - assert (P : pend (threads w j) = []) by (eapply pend_nil; [exact Q|discriminate]).
    rewrite Nat.eqb_refl, app_nil_r. assert (Bp' : forall n, bal n (S (S d)) q) by (intros n; apply (Bp (S n))). split.
    + rewrite <- (app_nil_r h). apply book_move; auto. rewrite of_nil. unfold pend, at_. cbn [cur todo].
      destruct q as [a|?|?|?]; auto. specialize (Bp' 1). discriminate.
    + exists c. split; auto. unfold lock_ok. cbn [lock set_thread]. split; [auto|].
      exists o, rest, q. rewrite set_same. cbn [at_ todo cur mem set_thread]. split; auto. split; auto. split; auto. split.
      * intros n r Fr. apply (F (S n)). exact Fr.
      * intros n r Fr. destruct (F' _ _ Fr) as [n' Fn]. apply fin_acq in Fn as (n2 & _ & Fn). eauto.
  - assert (P : pend (threads w j) = []) by (eapply pend_nil; [exact Q|discriminate]).
    assert (Bp' : forall n, bal n d q) by (intros n; apply (Bp (S n))).
    destruct d as [|d].
    + destruct (@bal_zero q Bp') as [a Ea]. subst q.
      destruct (F 1 (a, mem w) eq_refl) as [n' Fn]. destruct S0 as [[f1 R1] [s Fs]].
      destruct (@fin_method n' o c a (mem w) Fn) as [(f2 & b & R2 & Eb)|Err]; [|exfalso; eapply op_no_error; [exact Fs|apply (Err 0)]].
      subst a. split.
      * apply book_move; auto.
        -- intros i Ni. unfold of_thread. cbn [filter fst]. rewrite (proj2 (Nat.eqb_neq j i)) by auto. reflexivity.
        -- unfold of_thread. cbn [filter fst]. rewrite Nat.eqb_refl. unfold pend, at_. cbn [cur todo]. rewrite T. reflexivity.
      * exists (mem w). split.
        -- split; [|eapply op_follows; eauto]. exists (max f1 f2). rewrite !map_app. cbn [map fst snd].
           apply seq_run_more with (f' := max f1 f2) in R1; [|lia]. apply seq_op_more with (f' := max f1 f2) in R2; [|lia].
           exact (@seq_run_snoc _ _ _ _ _ _ _ R1 R2).
        -- unfold lock_ok. cbn [lock set_thread mem]. split; auto. intros i. destruct (Nat.eq_dec i j) as [->|Ni]; [|apply Qo'; auto].
           rewrite set_same. right; left. cbn [at_ todo cur]. do 3 eexists. split; [exact T|]. split; [reflexivity|].
           eapply seq_kind; exact R2.
    + assert (Em : (match q with Ret (TAns _) => @nil (nat * (sop * sans V)) | _ => [] end) = []) by (destruct q as [[]|?|?|?]; reflexivity).
      replace (match q with Ret (TAns a) => match Some (j, S d) with Some (_, 0) => [(j, (o, a))] | _ => [] end | _ => [] end) with (@nil (nat * (sop * sans V))) by (destruct q as [[]|?|?|?]; reflexivity).
      rewrite app_nil_r. split.
      * rewrite <- (app_nil_r h). apply book_move; auto. rewrite of_nil. unfold pend, at_. cbn [cur todo].
        destruct q as [a|?|?|?]; auto. specialize (Bp' 1). discriminate.
      * exists c. split; auto. unfold lock_ok. cbn [lock set_thread]. split; [auto|].
        exists o, rest, q. rewrite set_same. cbn [at_ todo cur mem set_thread]. split; auto. split; auto. split; auto. split.
        -- intros n r Fr. apply (F (S n)). exact Fr.
        -- intros n r Fr. destruct (F' _ _ Fr) as [n' Fn]. apply fin_rel in Fn as (n2 & _ & Fn). eauto.
Qed.
Lemma inv_step w h i : inv w h -> inv (tstep w i) (h ++ emit w i).
Proof.
  intros [B (c & S0 & L)]. pose proof L as L'. unfold lock_ok in L. destruct (lock w) as [[j d]|] eqn:Lw.
  - destruct L as [Q Bu]. destruct (Nat.eq_dec i j) as [->|N]; [eapply step_busy; eauto|].
    eapply step_quiet; eauto. now rewrite Lw.
  - destruct L as [_ Q]. eapply step_quiet; eauto. now rewrite Lw.
Qed.
Lemma inv_run s : forall w h, inv w h -> inv (run w s) (h ++ account w s).
Proof.
  induction s as [|i s IH]; intros w h H; cbn [account]; [now rewrite app_nil_r|].
  rewrite app_assoc. apply IH. now apply inv_step.
Qed.
End T.
