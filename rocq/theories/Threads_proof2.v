(** Consequences: linearizability, no deadlock, blocking, memoised functions in threads. *)
From Verif Require Import Py PyLemmas Cache_spec Cache_model Cache_proof1 Cache_proof2 Cache_proof3 Cachem_spec Cachem_proof Threads_spec Threads_model Threads_proof.
Set Implicit Arguments.

Section T.
Variables K V : Type.
Variable keqb : K -> K -> bool.
Hypothesis keq : forall x y, keqb x y = true <-> x = y.
Variable none_key : K.
Notation cache := (cache K V). Notation prog := (prog K V). Notation top := (top K V). Notation sop := (sop K V).
Notation method := (method keqb none_key). Notation tstep := (tstep keqb none_key). Notation run := (run keqb none_key).
Notation seq_op := (seq_op keqb none_key). Notation seq_run := (seq_run keqb none_key).
Notation world := (world K V). Notation thread := (thread K V).
Notation fin := (@fin K V). Notation account := (account keqb none_key).

Lemma inv_start m x fail (progs : nat -> list top) : inv keqb none_key progs (new_cache K V m x fail) (start m x fail progs) [].
Proof.
  split.
  - intros i. exists []. cbn. repeat split. constructor.
  - exists (new_cache K V m x fail). split.
    + split; [exists 0; reflexivity|]. eexists. apply follows_new.
    + unfold lock_ok. cbn. split; auto. intros i. now left.
Qed.
Lemma inv_schedule m x fail progs s :
  inv keqb none_key progs (new_cache K V m x fail) (run (start m x fail progs) s) (account (start m x fail progs) s).
Proof. apply (@inv_run K V keqb keq none_key progs _ s _ [] (inv_start m x fail progs)). Qed.
Lemma pend_short (t : thread) : pend t = [] \/ exists o a rest, pend t = [(o, a)] /\ todo t = TSync o :: rest /\ cur t <> None.
Proof.
  unfold pend. destruct (cur t) as [[[]|?|?|?]|]; auto. destruct (todo t) as [|[]]; auto. right. do 3 eexists. repeat split. discriminate.
Qed.
Lemma linearizable m x fail (progs : nat -> list top) :
  exists account : list nat -> list (nat * (sop * sans V)),
  (forall s1 s2, extends (account s1) (account (s1 ++ s2))) /\
  forall s, let w := run (start m x fail progs) s in
  (exists fuel c, seq_run fuel (new_cache K V m x fail) (map (fun e => fst (snd e)) (account s)) = Ok (c, map (fun e => snd (snd e)) (account s)) /\
                  (lock w = None -> mem w = c)) /\
  forall i, exists done pending, progs i = done ++ todo (threads w i) /\ Forall2 (@in_kind K V) done (outs (threads w i)) /\
    of_thread i (account s) = synced done (outs (threads w i)) ++ pending /\
    (pending = [] \/ exists o a rest, pending = [(o, a)] /\ todo (threads w i) = TSync o :: rest /\ cur (threads w i) <> None).
Proof.
  exists (account (start m x fail progs)). split.
  - intros s1 s2. rewrite account_app. eexists. reflexivity.
  - intros s w. destruct (inv_schedule m x fail progs s) as [B (c & [[f R] _] & L)]. fold w in B, L. split.
    + exists f, c. split; auto. unfold lock_ok in L. destruct (lock w); [discriminate|]. tauto.
    + intros i. destruct (B i) as (done & B1 & B2 & B3). exists done, (pend (threads w i)). repeat split; auto. apply pend_short.
Qed.
Lemma no_deadlock m x fail (progs : nat -> list top) s i : let w := run (start m x fail progs) s in
  has_work w i = true -> exists j, has_work w j = true /\ waits w j = false.
Proof.
  intros w Wi. destruct (inv_schedule m x fail progs s) as [_ (c & _ & L)]. fold w in L. unfold lock_ok in L. unfold waits.
  destruct (lock w) as [[j d]|].
  - destruct L as [_ (o & rest & p & T & Q & _)]. exists j. unfold has_work. rewrite Q. split; auto. destruct p; auto. now rewrite Nat.eqb_refl.
  - exists i. split; auto. destruct (cur (threads w i)) as [[]|]; auto.
Qed.

(** A call that does not return keeps the lock for ever. *)
Lemma fin_S n p (c : cache) r : fin n p c = Some r -> fin (S n) p c = Some r.
Proof.
  revert p c. induction n as [|n IH]; intros p c; destruct p as [a|f|q|q]; try discriminate; auto.
  - intros H. apply (IH _ _ H).
  - intros H. apply (IH _ _ H).
  - intros H. apply (IH _ _ H).
Qed.
Definition stuck_at progs c00 (w : world) (h : list (nat * (sop * sans V))) (j : nat) : Prop :=
  (forall i, book progs w h i) /\ exists c d, seq_ok keqb none_key c00 h c /\ lock w = Some (j, d) /\ lock_ok keqb none_key w c /\
  exists o rest, todo (threads w j) = TSync o :: rest /\ forall f r, seq_op f c o <> Ok r.
Lemma stuck_step progs c00 w h j i : stuck_at progs c00 w h j -> stuck_at progs c00 (tstep w i) h j /\ emit w i = [].
Proof.
  intros (B & c & d & S0 & Lw & L & o & rest & T & Hang).
  assert (I0 : inv keqb none_key progs c00 w h) by (split; eauto).
  pose proof (@inv_step K V keqb keq none_key progs c00 w h i I0) as I1.
  pose proof L as L'. unfold lock_ok in L'. rewrite Lw in L'. destruct L' as [Q Bu].
  assert (E : emit w i = []).
  { unfold emit. destruct (Nat.eq_dec i j) as [->|N].
    - destruct Bu as (o' & rest' & p & T' & Q' & Bp & F & _). rewrite Q', T', Lw. rewrite T in T'. injection T' as <- <-.
      destruct p as [a|f|q|q]; auto. destruct q as [[a|?|?|?]|?|?|?]; auto. destruct d as [|d]; auto. exfalso.
      destruct (F 1 _ eq_refl) as [n' Fn]. apply (@fin_method K V keqb none_key) in Fn as [(f & b & R & _)|Er].
      + eapply Hang; eauto.
      + destruct S0 as [_ [s Fs]]. apply (@op_no_error K V keqb keq none_key 0 _ _ o Fs). apply Er.
    - destruct (Q i N) as [Qi|[(? & ? & a & _ & Qi & _)|(o' & rest' & _ & Qi)]]; rewrite Qi; auto. destruct o' as [[[]|]| |]; reflexivity. }
  split; [|exact E]. rewrite E, app_nil_r in I1. destruct I1 as [B1 (c1 & S1 & L1)]. split; [exact B1|].
  assert (Ec : c1 = c).
  { destruct S0 as [[f0 R0] _]. destruct S1 as [[f1 R1] _].
    apply seq_run_more with (f' := max f0 f1) in R0; [|lia]. apply seq_run_more with (f' := max f0 f1) in R1; [|lia]. congruence. }
  subst c1. exists c.
  (* the lock is still j's *)
  assert (G : exists d', lock (tstep w i) = Some (j, d') /\ todo (threads (tstep w i) j) = todo (threads w j)).
  { destruct (Nat.eq_dec i j) as [->|N].
    - destruct Bu as (o' & rest' & p & T' & Q' & Bp & F & _). unfold Threads_model.tstep. rewrite Q', Lw. destruct p as [a|f|q|q].
      + specialize (Bp 1). discriminate.
      + destruct (f (mem w)) as [c' p']. exists d. cbn. now rewrite Nat.eqb_refl.
      + rewrite Nat.eqb_refl. exists (S d). cbn. now rewrite Nat.eqb_refl.
      + destruct d as [|d]; [|exists d; cbn; now rewrite Nat.eqb_refl]. exfalso.
        assert (Bq : forall n, bal n 0 q) by (intros n; apply (Bp (S n))). destruct (@bal_zero K V q Bq) as [a ->].
        rewrite T in T'. injection T' as <- <-. destruct (F 1 _ eq_refl) as [n' Fn].
        apply (@fin_method K V keqb none_key) in Fn as [(f & b & R & _)|Er].
        * eapply Hang; eauto.
        * destruct S0 as [_ [s Fs]]. apply (@op_no_error K V keqb keq none_key 0 _ _ o Fs). apply Er.
    - exists d. destruct (Q i N) as [Qi|[(? & ? & a & _ & Qi & _)|(o' & rest' & _ & Qi)]]; unfold Threads_model.tstep; rewrite Qi.
      + destruct (todo (threads w i)); [auto|]. rewrite set_other by auto. auto.
      + rewrite set_other by auto. auto.
      + destruct o' as [o'|k|].
        * destruct (bal_method keqb none_key 0 o') as (q & -> & _). rewrite Lw. rewrite (proj2 (Nat.eqb_neq j i)) by auto. auto.
        * cbn [Threads_model.method]. rewrite set_other by auto. auto.
        * cbn [Threads_model.method]. rewrite set_other by auto. auto. }
  destruct G as (d' & G1 & G2). exists d'. split; auto. split; auto. split; auto. exists o, rest. split; auto. congruence.
Qed.
Lemma stuck_run progs c00 j s : forall w h, stuck_at progs c00 w h j -> stuck_at progs c00 (run w s) h j /\ account w s = [].
Proof.
  induction s as [|i s IH]; intros w h St; cbn [Threads_proof.account]; [auto|].
  destruct (@stuck_step progs c00 w h j i St) as [St' E]. rewrite E. exact (IH _ _ St').
Qed.
Lemma synced_app : forall (d1 d2 : list top) (o1 o2 : list (tans K V)), length d1 = length o1 -> synced (d1 ++ d2) (o1 ++ o2) = synced d1 o1 ++ synced d2 o2.
Proof.
  induction d1 as [|x d1 IH]; intros d2 [|y o1] o2 L; try discriminate; auto. injection L as L. cbn [app synced]. rewrite (IH d2 o1 o2 L).
  destruct x, y; reflexivity.
Qed.
Lemma tstep_grows (w : world) i j : exists l, outs (threads (tstep w i) j) = outs (threads w j) ++ l.
Proof.
  destruct (Nat.eq_dec j i) as [->|N].
  - unfold Threads_model.tstep. destruct (cur (threads w i)) as [[a|f|q|q]|].
    + rewrite set_same. cbn. eauto.
    + destruct (f (mem w)). rewrite set_same. exists []. cbn. now rewrite app_nil_r.
    + destruct (lock w) as [[o d]|]; [destruct (o =? i)|]; try rewrite set_same; exists []; cbn; now rewrite app_nil_r.
    + destruct (lock w) as [[o [|d]]|]; rewrite set_same; exists []; cbn; now rewrite app_nil_r.
    + destruct (todo (threads w i)); try rewrite set_same; exists []; cbn; now rewrite app_nil_r.
  - exists []. rewrite app_nil_r. unfold Threads_model.tstep. destruct (cur (threads w i)) as [[a|f|q|q]|].
    + now rewrite set_other.
    + destruct (f (mem w)). now rewrite set_other.
    + destruct (lock w) as [[o d]|]; [destruct (o =? i)|]; now rewrite ?set_other.
    + destruct (lock w) as [[o [|d]]|]; now rewrite set_other.
    + destruct (todo (threads w i)); now rewrite ?set_other.
Qed.
Lemma hang_blocks m x fail (progs : nat -> list top) s j d o rest : let w := run (start m x fail progs) s in
  lock w = Some (j, d) -> todo (threads w j) = TSync o :: rest ->
  (forall fuel c l, seq_run fuel (new_cache K V m x fail) (map (fun e => fst (snd e)) (account (start m x fail progs) s)) = Ok (c, l) ->
     forall r, seq_op fuel c o <> Ok r) ->
  forall s2, account (start m x fail progs) (s ++ s2) = account (start m x fail progs) s /\
             exists d', lock (run w s2) = Some (j, d').
Proof.
  intros w Lw T Hang s2. destruct (inv_schedule m x fail progs s) as [B (c & S0 & L)]. fold w in B, L.
  assert (St : stuck_at progs (new_cache K V m x fail) w (account (start m x fail progs) s) j).
  { split; auto. exists c, d. split; auto. split; auto. split; auto. exists o, rest. split; auto. intros f r R. destruct S0 as [[f0 R0] _].
    apply seq_run_more with (f' := max f0 f) in R0; [|lia]. apply seq_op_more with (f' := max f0 f) in R; [|lia]. eapply Hang; eauto. }
  destruct (@stuck_run progs _ j s2 _ _ St) as [(_ & c' & d' & _ & Lw' & _) E]. split.
  - rewrite account_app. fold w. rewrite E. apply app_nil_r.
  - eauto.
Qed.

(** Running alone to the end. *)
Lemma fc_act n f (c : cache) r : fin n (snd (f c)) (fst (f c)) = Some r -> fin (S n) (Act f) c = Some r.
Proof. auto. Qed.
Lemma fc_acq n q (c : cache) r : fin n q c = Some r -> fin (S n) (Acq q) c = Some r.
Proof. auto. Qed.
Lemma fc_rel n q (c : cache) r : fin n q c = Some r -> fin (S n) (Rel q) c = Some r.
Proof. auto. Qed.
Definition ends (p : prog) (c : cache) : Prop := exists n r, fin n p c = Some r.
Lemma ends_act f c : ends (snd (f c)) (fst (f c)) -> ends (Act f) c.
Proof. intros (n & r & H). exists (S n), r. now apply fc_act. Qed.
Lemma ends_acq q c : ends q c -> ends (Acq q) c.
Proof. intros (n & r & H). exists (S n), r. now apply fc_acq. Qed.
Lemma ends_rel q c : ends q c -> ends (Rel q) c.
Proof. intros (n & r & H). exists (S n), r. now apply fc_rel. Qed.
Lemma ends_ret a c : ends (Ret a) c.
Proof. exists 0. eexists. reflexivity. Qed.
Lemma ends_discard k p c : ends p (with_lru c (discard keqb (lru_of c) k)) -> ends (discard_prog keqb k p) c.
Proof.
  intros H. apply ends_act. unfold discard in H. destruct (dget keqb (lkeys (lru_of c)) k) as [m|]; cbn [fst snd].
  - do 3 (apply ends_act; cbn [fst snd]). exact H.
  - now rewrite with_lru_same in H.
Qed.
Lemma ends_add k p c : ends p (with_lru c (add keqb (lru_of c) k)) -> ends (add_prog keqb k p) c.
Proof. intros H. do 5 (apply ends_act; cbn [fst snd]). exact H. Qed.
Lemma ends_remove k p c : ends p (remove keqb c k) -> ends (remove_prog keqb k p) c.
Proof.
  intros H. apply ends_acq, ends_act. unfold remove in H. destruct (dhas keqb (values c) k); cbn [fst snd].
  - apply ends_discard, ends_act. cbn [fst snd]. apply ends_rel. exact H.
  - now apply ends_rel.
Qed.
Lemma ends_shrink m nb p f : forall c c1, shrink_loop keqb none_key f m nb c = Ok c1 -> ends p c1 -> ends (shrink_prog keqb none_key m nb p) c.
Proof.
  assert (U : forall c, ends (Acq (Act (fun c => (c, Rel (if m <? length (values c) + nb
    then Act (fun c => (c, remove_prog keqb (match pop (lru_of c) with Some k => k | None => none_key end) (shrink_prog keqb none_key m nb p)))
    else p))))) c -> ends (shrink_prog keqb none_key m nb p) c).
  { intros c (n & r & H). exists n, r. destruct n; [discriminate|]. exact H. }
  induction f as [|f IH]; intros c c1; cbn [shrink_loop]; destruct (m <? length (values c) + nb) eqn:E; try discriminate.
  - intros R H. injection R as <-. apply U. apply ends_acq, ends_act. cbn [fst snd]. rewrite E. now apply ends_rel.
  - intros R H. apply U. apply ends_acq, ends_act. cbn [fst snd]. rewrite E. apply ends_rel, ends_act. cbn [fst snd]. apply ends_remove.
    apply (IH _ c1); auto. unfold remove_popped in R. destruct (pop (lru_of c)); exact R.
  - intros R H. injection R as <-. apply U. apply ends_acq, ends_act. cbn [fst snd]. rewrite E. now apply ends_rel.
Qed.
Lemma ends_shrink_if nb p f c c1 : shrink keqb none_key f nb c = Ok c1 -> ends p c1 -> ends (shrink_if keqb none_key nb p) c.
Proof.
  intros R H. apply ends_act. cbn [fst snd]. unfold shrink in R. destruct (maxsize c) as [[|m]|]; try (injection R as <-; exact H).
  eapply ends_shrink; eauto.
Qed.
Lemma ends_fetch k now next c : ends (next (default_fail c) (snd (fetch keqb c k now))) (fst (fetch keqb c k now)) -> ends (fetch_prog keqb k now next) c.
Proof.
  intros H. apply ends_acq, ends_act. cbn [fst snd]. apply ends_act. unfold fetch in H. destruct (dget keqb (values c) k) as [[v t]|]; cbn [fst snd] in *.
  - apply ends_act. destruct (has_expired c now t); cbn [fst snd] in *.
    + apply ends_remove, ends_rel. exact H.
    + apply ends_discard, ends_add, ends_rel. exact H.
  - now apply ends_rel.
Qed.
Lemma ends_insert k v now p f c c1 : insert keqb none_key f c k v now = Ok c1 -> ends p c1 -> ends (insert_prog keqb none_key k v now p) c.
Proof.
  intros R H. apply ends_acq, ends_act. cbn [fst snd]. unfold insert in R. destruct (dhas keqb (values c) k).
  - cbn [bind] in R. injection R as <-. apply ends_act. cbn [fst snd]. apply ends_add, ends_rel. exact H.
  - destruct (shrink keqb none_key f 1 c) as [c0|] eqn:E; [|discriminate]. cbn [bind] in R. injection R as <-.
    eapply ends_shrink_if; [exact E|]. apply ends_act. cbn [fst snd]. apply ends_add, ends_rel. exact H.
Qed.
Lemma ends_collect_loop now p ks : forall c c1, foldM (collect_one keqb now) c ks = Ok c1 -> ends p c1 -> ends (collect_loop keqb now ks p) c.
Proof.
  induction ks as [|k ks IH]; intros c c1; cbn [foldM collect_loop].
  - intros R H. injection R as <-. exact H.
  - intros R H. apply ends_act. unfold collect_one at 1, dread in R. destruct (dget keqb (values c) k) as [[v t]|]; cbn [bind fst snd] in *; [|discriminate].
    apply ends_act. cbn [fst snd]. destruct (has_expired c (now k) t); [apply ends_remove|]; eapply IH; eauto.
Qed.
Lemma ends_method f c o r : seq_op f c o = Ok r -> ends (method (TSync o)) c.
Proof.
  destruct o as [[k now|k v now|k| |now|m x|k v now now']|]; cbn [Threads_model.seq_op do_call Threads_model.method]; intros H.
  - apply ends_fetch, ends_ret.
  - destruct (insert keqb none_key f c k v now) as [c1|] eqn:E; [|discriminate]. eapply ends_insert; [exact E|apply ends_ret].
  - apply ends_remove, ends_ret.
  - apply ends_acq. do 4 (apply ends_act; cbn [fst snd]). apply ends_rel, ends_ret.
  - unfold collect in H. destruct (foldM (collect_one keqb now) c (dkeys (values c))) as [c1|] eqn:E; [|discriminate].
    apply ends_acq, ends_act. cbn [fst snd]. eapply ends_collect_loop; [exact E|]. apply ends_rel, ends_ret.
  - unfold reconfigure in H. destruct (shrink keqb none_key f 0 _) as [c1|] eqn:E; [|discriminate].
    apply ends_acq. do 2 (apply ends_act; cbn [fst snd]). eapply ends_shrink_if; [exact E|]. apply ends_rel, ends_ret.
  - apply ends_acq, ends_fetch. unfold fetch_gen in H.
    assert (D : default_fail (fst (fetch keqb c k now)) = default_fail c).
    { unfold fetch. destruct (dget keqb (values c) k) as [[w t]|]; auto. destruct (has_expired c now t); auto. apply remove_fields. }
    destruct (fetch keqb c k now) as [c1 [w|]]; cbn [fst snd] in *; [apply ends_rel, ends_ret|]. rewrite D in H.
    destruct (default_fail c); [apply ends_rel, ends_ret|]. destruct (insert keqb none_key f c1 k v now') as [c2|] eqn:E; [|discriminate].
    eapply ends_insert; [exact E|]. apply ends_rel, ends_ret.
  - apply ends_acq, ends_act. cbn [fst snd]. apply ends_rel, ends_ret.
Qed.
Lemma run_cons (w : world) i s : run w (i :: s) = run (tstep w i) s.
Proof. reflexivity. Qed.
Lemma run_app (w : world) s1 s2 : run w (s1 ++ s2) = run (run w s1) s2.
Proof. apply fold_left_app. Qed.
(** the owner of the lock, running alone, gives it back *)
Lemma solo j n : forall (w : world) p d r, cur (threads w j) = Some p -> lock w = Some (j, d) -> (forall n, bal n (S d) p) -> fin n p (mem w) = Some r ->
  exists s, lock (run w s) = None /\ (exists a, cur (threads (run w s) j) = Some (Ret a)) /\ todo (threads (run w s) j) = todo (threads w j) /\
    forall i, i <> j -> threads (run w s) i = threads w i.
Proof.
  induction n as [|n IH]; intros w p d r Q L B F; destruct p as [a|f|q|q]; try discriminate; try (specialize (B 1); discriminate).
  - destruct (f (mem w)) as [c' p'] eqn:Ef. set (w' := set_thread w c' (lock w) j (at_ (threads w j) p')).
    destruct (IH w' p' d r) as (s & A1 & A2 & A3 & A4).
    + unfold w'. now rewrite set_same.
    + exact L.
    + intros k. specialize (B (S k)). cbn in B. destruct B as [_ B]. specialize (B (mem w)). now rewrite Ef in B.
    + cbn [Threads_proof.fin] in F. rewrite Ef in F. exact F.
    + exists (j :: s). rewrite run_cons. assert (E : tstep w j = w') by (unfold Threads_model.tstep; rewrite Q, Ef; reflexivity).
      rewrite E. split; auto. split; auto. split; [rewrite A3; unfold w'; now rewrite set_same|].
      intros i Ni. rewrite A4 by auto. unfold w'. now rewrite set_other.
  - set (w' := set_thread w (mem w) (Some (j, S d)) j (at_ (threads w j) q)).
    destruct (IH w' q (S d) r) as (s & A1 & A2 & A3 & A4).
    + unfold w'. now rewrite set_same.
    + reflexivity.
    + intros k. apply (B (S k)).
    + exact F.
    + exists (j :: s). rewrite run_cons. assert (E : tstep w j = w') by (unfold Threads_model.tstep; rewrite Q, L, Nat.eqb_refl; reflexivity).
      rewrite E. split; auto. split; auto. split; [rewrite A3; unfold w'; now rewrite set_same|].
      intros i Ni. rewrite A4 by auto. unfold w'. now rewrite set_other.
  - destruct d as [|d].
    + assert (Bq : forall k, bal k 0 q) by (intros k; apply (B (S k))). destruct (@bal_zero K V q Bq) as [a ->].
      exists [j]. rewrite run_cons. cbn [fold_left]. unfold Threads_model.run; cbn [fold_left]. unfold Threads_model.tstep. rewrite Q, L. rewrite set_same. cbn [lock set_thread at_ cur todo].
      repeat split; eauto. intros i Ni. cbn. now rewrite (proj2 (Nat.eqb_neq i j)).
    + set (w' := set_thread w (mem w) (Some (j, d)) j (at_ (threads w j) q)).
      destruct (IH w' q d r) as (s & A1 & A2 & A3 & A4).
      * unfold w'. now rewrite set_same.
      * reflexivity.
      * intros k. apply (B (S k)).
      * exact F.
      * exists (j :: s). rewrite run_cons. assert (E : tstep w j = w') by (unfold Threads_model.tstep; rewrite Q, L; reflexivity).
        rewrite E. split; auto. split; auto. split; [rewrite A3; unfold w'; now rewrite set_same|].
        intros i Ni. rewrite A4 by auto. unfold w'. now rewrite set_other.
Qed.
End T.
