(** Fair schedules end, when every sequential order of the calls does; memoised functions in threads. *)
From Verif Require Import Py PyLemmas Cache_spec Cache_model Cache_proof1 Cache_proof2 Cache_proof3 Cachem_spec Cachem_proof Threads_spec Threads_model Threads_proof Threads_proof2.
Set Implicit Arguments.

Fixpoint tot (n : nat) (f : nat -> nat) : nat := match n with O => 0 | S n' => tot n' f + f n' end.
Lemma tot_same n f g : (forall k, k < n -> f k = g k) -> tot n f = tot n g.
Proof. induction n as [|n IH]; intros H; cbn; auto. rewrite IH by (intros; apply H; lia). now rewrite H by lia. Qed.
Lemma tot_less n f g i : i < n -> (forall k, k <> i -> f k = g k) -> f i < g i -> tot n f < tot n g.
Proof.
  induction n as [|n IH]; intros L E D; [lia|]. cbn. destruct (Nat.eq_dec i n) as [->|N].
  - rewrite (@tot_same n f g) by (intros k Lk; apply E; lia). lia.
  - specialize (IH ltac:(lia) E D). rewrite (E n) by auto. lia.
Qed.
Lemma tot_eq n f g i : (forall k, k <> i -> f k = g k) -> f i = g i -> tot n f = tot n g.
Proof. intros E D. apply tot_same. intros k _. destruct (Nat.eq_dec k i) as [->|N]; auto. Qed.

Section T.
Variables K V : Type.
Variable keqb : K -> K -> bool.
Hypothesis keq : forall x y, keqb x y = true <-> x = y.
Variable none_key : K.
Notation cache := (cache K V). Notation prog := (prog K V). Notation top := (top K V). Notation sop := (sop K V).
Notation method := (method keqb none_key). Notation tstep := (tstep keqb none_key). Notation run := (run keqb none_key).
Notation seq_op := (seq_op keqb none_key). Notation seq_run := (seq_run keqb none_key).
Notation world := (world K V). Notation thread := (thread K V).
Notation fin := (@fin K V). Notation account := (account keqb none_key).
Notation inv := (inv keqb none_key).

Lemma seq_run_app f (os1 os2 : list sop) : forall (c : cache) r, seq_run f c (os1 ++ os2) = Ok r ->
  exists c1 l1 l2, seq_run f c os1 = Ok (c1, l1) /\ seq_run f c1 os2 = Ok (fst r, l2) /\ snd r = l1 ++ l2.
Proof.
  induction os1 as [|o os1 IH]; intros c r; cbn [app Threads_model.seq_run].
  - intros H. exists c, [], (snd r). repeat split. rewrite H. now destruct r.
  - destruct (seq_op f c o) as [[c1 a]|]; [|discriminate]. cbn [bind fst snd]. destruct (seq_run f c1 (os1 ++ os2)) as [q|] eqn:E; [|discriminate].
    cbn [bind]. intros R. injection R as <-. destruct (IH _ _ E) as (c2 & l1 & l2 & A & B & C). cbn [fst snd]. rewrite A. cbn [bind fst snd].
    exists c2, (a :: l1), l2. repeat split; auto. cbn. congruence.
Qed.

Section Fair.
Variable progs : nat -> list top.
Variable N : nat.
Hypothesis bounded : forall i, N <= i -> progs i = [].
Variable c00 : cache.
Hypothesis returns : forall os, (forall o, In o os -> exists i, In (TSync o) (progs i)) -> exists fuel r, seq_run fuel c00 os = Ok r.

Definition owns (w : world) (i : nat) : bool := match lock w with Some (j, _) => j =? i | None => false end.
Definition rank (w : world) (i : nat) : nat :=
  let l := 4 * length (todo (threads w i)) in
  match cur (threads w i) with None => l | Some (Ret _) => l - 3 | Some _ => if owns w i then l - 2 else l - 1 end.
Definition work (w : world) : nat := tot N (rank w).
Definition level (w : world) (b : nat) : Prop :=
  match lock w with None => True | Some (j, _) => exists p r, cur (threads w j) = Some p /\ fin b p (mem w) = Some r end.

Lemma in_of_thread i (h : list (nat * (sop * sans V))) e : In (i, e) h -> In e (of_thread i h).
Proof. intros H. unfold of_thread. apply in_map_iff. exists (i, e). split; auto. apply filter_In. split; auto. cbn. apply Nat.eqb_refl. Qed.
Lemma synced_in (done : list top) : forall outs o a, In (o, a) (synced done outs) -> In (TSync o) done.
Proof.
  induction done as [|t done IH]; intros [|b outs] o a; try (now destruct t); try tauto.
  destruct t as [o'|k|]; destruct b; cbn [synced]; try (intros H; right; eapply IH; exact H).
  intros [E|H]; [injection E as <- <-; now left|right; eapply IH; exact H].
Qed.
Lemma account_from (w : world) h i o a : inv progs c00 w h -> In (i, (o, a)) h -> In (TSync o) (progs i).
Proof.
  intros [B _] H. destruct (B i) as (done & P & _ & E). apply in_of_thread in H. rewrite E in H. rewrite P. apply in_or_app.
  apply in_app_or in H as [H|H]; [left; eapply synced_in; exact H|right].
  destruct (pend_short (threads w i)) as [Ep|(o' & a' & rest & Ep & Et & _)]; rewrite Ep in H; [destruct H|]. destruct H as [H|[]].
  injection H as <- <-. rewrite Et. now left.
Qed.
Lemma level_ex (w : world) h : inv progs c00 w h -> exists b, level w b.
Proof.
  intros I0. pose proof I0 as [B (c & S0 & L)]. unfold level. unfold lock_ok in L. destruct (lock w) as [[j d]|]; [|now exists 0].
  destruct L as [_ (o & rest & p & T & Q & Bp & _ & F)].
  destruct (returns (map (fun e => fst (snd e)) h ++ [o])) as (f1 & r & R).
  { intros o' Ho. apply in_app_or in Ho as [Ho|[<-|[]]].
    - apply in_map_iff in Ho as ([i [o1 a1]] & <- & Ho). exists i. eapply account_from; eauto.
    - exists j. destruct (B j) as (done & P & _). rewrite P. apply in_or_app. right. rewrite T. now left. }
  apply seq_run_app in R as (c1 & l1 & l2 & R1 & R2 & _). destruct S0 as [[f0 R0] _].
  assert (c1 = c).
  { apply seq_run_more with (f' := max f0 f1) in R0; [|lia]. apply seq_run_more with (f' := max f0 f1) in R1; [|lia]. congruence. }
  subst c1. cbn [Threads_model.seq_run] in R2. destruct (seq_op f1 c o) as [x|] eqn:R3; [|discriminate].
  apply (@ends_method K V keqb none_key) in R3 as (n & y & Fn). destruct (F _ _ Fn) as [n' Fn']. exists n'. eauto.
Qed.
Lemma rank_other (w : world) c l i t k : k <> i -> (forall j d, l = Some (j, d) -> j = i) -> (forall j d, lock w = Some (j, d) -> j = i \/ l = lock w) ->
  rank (set_thread w c l i t) k = rank w k \/ l = lock w.
Proof.
  intros Nk L1 L2. destruct (lock w) as [[j d]|] eqn:Lw.
  - destruct (L2 _ _ eq_refl) as [->|E]; [|now right]. left. unfold rank, owns. rewrite set_other by auto. rewrite Lw. cbn [lock set_thread].
    destruct l as [[j' d']|]; [rewrite (L1 _ _ eq_refl)|]; rewrite ?(proj2 (Nat.eqb_neq i k)) by auto; reflexivity.
  - left. unfold rank, owns. rewrite set_other by auto. rewrite Lw. cbn [lock set_thread].
    destruct l as [[j' d']|]; [rewrite (L1 _ _ eq_refl)|]; rewrite ?(proj2 (Nat.eqb_neq i k)) by auto; reflexivity.
Qed.
Lemma rank_keep (w : world) c i t k : k <> i -> rank (set_thread w c (lock w) i t) k = rank w k.
Proof. intros Nk. unfold rank, owns. rewrite set_other by auto. reflexivity. Qed.
Definition mine (i : nat) (l : option (nat * nat)) : Prop := match l with Some (j, _) => j = i | None => True end.
Lemma rank_move (w : world) c l i t k : k <> i -> mine i l -> mine i (lock w) -> rank (set_thread w c l i t) k = rank w k.
Proof.
  intros Nk L1 L2. unfold rank, owns. rewrite set_other by auto. cbn [lock set_thread].
  assert (E : forall x, mine i x -> (match x with Some (j, _) => j =? k | None => false end) = false).
  { intros [[j d]|]; auto. cbn. intros ->. apply Nat.eqb_neq; auto. }
  now rewrite (E l), (E (lock w)).
Qed.
Lemma idle_stays (w : world) i : has_work w i = false \/ waits w i = true -> tstep w i = w.
Proof.
  unfold has_work, waits, Threads_model.tstep. destruct (cur (threads w i)) as [[a|f|q|q]|].
  - intros [H|H]; discriminate.
  - intros [H|H]; discriminate.
  - intros [H|H]; [discriminate|]. destruct (lock w) as [[j d]|]; [|discriminate]. apply Bool.negb_true_iff in H. now rewrite H.
  - intros [H|H]; discriminate.
  - intros [H|H]; [|discriminate]. destruct (todo (threads w i)); [auto|discriminate].
Qed.
Lemma step_down (w : world) h i b : inv progs c00 w h -> level w b -> i < N -> has_work w i = true -> waits w i = false ->
  work (tstep w i) < work w \/ work (tstep w i) = work w /\ exists b', b = S b' /\ level (tstep w i) b'.
Proof.
  intros [B (c & S0 & L)] Lv Li Wi Wt. unfold lock_ok in L.
  assert (Quiet : owns w i = false -> quiet keqb none_key (threads w i)).
  { unfold owns. destruct (lock w) as [[j d]|]; [|intros _; apply L]. destruct L as [Q _]. intros E. apply Q. intros ->. now rewrite Nat.eqb_refl in E. }
  destruct (owns w i) eqn:Ow.
  - unfold owns in Ow. destruct (lock w) as [[j d]|] eqn:Lw; [|discriminate]. apply Nat.eqb_eq in Ow as ->. destruct L as [_ (o & rest & p & T & Q & Bp & _)].
    unfold level in Lv. rewrite Lw in Lv. destruct Lv as (p' & r & Q' & F). rewrite Q in Q'. injection Q' as <-.
    assert (Mi : mine i (lock w)) by now rewrite Lw.
    unfold Threads_model.tstep. rewrite Q. rewrite Lw. destruct p as [a|f|q|q].
    + specialize (Bp 1). discriminate.
    + right. destruct (f (mem w)) as [c' p'] eqn:Ef.
      assert (Bp' : bal 1 (S d) p') by (specialize (Bp 2); destruct Bp as [_ Bp]; specialize (Bp (mem w)); now rewrite Ef in Bp).
      split.
      * apply tot_eq with (i := i); [intros k Nk; rewrite <- Lw; now apply rank_keep|].
        unfold rank, owns. rewrite set_same. cbn [lock set_thread at_ cur todo]. rewrite Q, Lw, Nat.eqb_refl. destruct p'; [discriminate|reflexivity..].
      * destruct b as [|b]; [discriminate|]. exists b. split; auto. unfold level. cbn [lock set_thread]. rewrite set_same.
        cbn [at_ cur mem set_thread]. exists p', r. split; auto. cbn [Threads_proof.fin] in F. now rewrite Ef in F.
    + right. rewrite Nat.eqb_refl. split.
      * apply tot_eq with (i := i); [intros k Nk; apply rank_move; auto; reflexivity|].
        unfold rank, owns. rewrite set_same. cbn [lock set_thread at_ cur todo]. rewrite Q, Lw, Nat.eqb_refl.
        specialize (Bp 2). destruct Bp as [_ Bp]. destruct q; [discriminate|reflexivity..].
      * destruct b as [|b]; [discriminate|]. exists b. split; auto. unfold level. cbn [lock set_thread]. rewrite set_same.
        cbn [at_ cur mem set_thread]. exists q, r. split; auto.
    + destruct d as [|d].
      * left. assert (Bq : forall n, bal n 0 q) by (intros n; apply (Bp (S n))). destruct (@bal_zero K V q Bq) as [a ->].
        apply tot_less with (i := i); auto; [intros k Nk; apply rank_move; auto; exact I|].
        unfold rank, owns. rewrite set_same. cbn [lock set_thread at_ cur todo]. rewrite Q, Lw, Nat.eqb_refl, T. cbn [length]. lia.
      * right. split.
        -- apply tot_eq with (i := i); [intros k Nk; apply rank_move; auto; reflexivity|].
           unfold rank, owns. rewrite set_same. cbn [lock set_thread at_ cur todo]. rewrite Q, Lw, Nat.eqb_refl.
           specialize (Bp 2). cbn in Bp. destruct q; [discriminate|reflexivity..].
        -- destruct b as [|b]; [discriminate|]. exists b. split; auto. unfold level. cbn [lock set_thread]. rewrite set_same.
           cbn [at_ cur mem set_thread]. exists q, r. split; auto.
  - left. specialize (Quiet eq_refl). destruct Quiet as [Q|[(o & rest & a & T & Q & _)|(o & rest & T & Q)]]; unfold Threads_model.tstep; rewrite Q.
    + unfold has_work in Wi. rewrite Q in Wi. destruct (todo (threads w i)) as [|o rest] eqn:T; [discriminate|].
      apply tot_less with (i := i); auto; [intros k Nk; now apply rank_keep|].
      unfold rank, owns. rewrite set_same. cbn [lock set_thread at_ cur todo]. rewrite Q, T. unfold owns in Ow. rewrite Ow. cbn [length].
      destruct o as [o|k|]; [destruct (bal_method keqb none_key 0 o) as (q & -> & _)| |]; cbn [Threads_model.method]; lia.
    + apply tot_less with (i := i); auto; [intros k Nk; now apply rank_keep|].
      unfold rank, owns. rewrite set_same. cbn [lock set_thread cur todo]. rewrite Q, T. cbn [length tl]. lia.
    + destruct o as [o|k|].
      * destruct (bal_method keqb none_key 0 o) as (q & E & _). unfold waits in Wt. rewrite E in *. rewrite Q in Wt.
        destruct (lock w) as [[j d]|] eqn:Lw.
        -- apply Bool.negb_false_iff in Wt. unfold owns in Ow. rewrite Lw in Ow. congruence.
        -- assert (Mi : mine i (lock w)) by now rewrite Lw.
           apply tot_less with (i := i); auto; [intros k Nk; apply rank_move; auto; reflexivity|].
           unfold rank, owns. rewrite set_same. cbn [lock set_thread at_ cur todo]. rewrite Q, Lw, Nat.eqb_refl, T. cbn [length]. destruct q; lia.
      * cbn [Threads_model.method]. apply tot_less with (i := i); auto; [intros k' Nk; now apply rank_keep|].
        unfold rank, owns. rewrite set_same. cbn [lock set_thread at_ cur todo]. rewrite Q, T. cbn [length Threads_model.method]. unfold owns in Ow. rewrite Ow. lia.
      * cbn [Threads_model.method]. apply tot_less with (i := i); auto; [intros k' Nk; now apply rank_keep|].
        unfold rank, owns. rewrite set_same. cbn [lock set_thread at_ cur todo]. rewrite Q, T. cbn [length Threads_model.method]. unfold owns in Ow. rewrite Ow. lia.
Qed.
Lemma beyond (w : world) h i : inv progs c00 w h -> N <= i -> has_work w i = false.
Proof.
  intros [B (c & S0 & L)] G. destruct (B i) as (done & P & _). rewrite bounded in P by auto. symmetry in P. apply app_eq_nil in P as [_ T].
  unfold has_work. rewrite T. unfold lock_ok in L. destruct (lock w) as [[j d]|].
  - destruct (Nat.eq_dec i j) as [->|Ni].
    + destruct L as [_ (o & rest & p & T' & _)]. congruence.
    + destruct (proj1 L i Ni) as [Q|[(o & rest & a & T' & _)|(o & rest & T' & _)]]; [now rewrite Q|congruence..].
  - destruct (proj2 L i) as [Q|[(o & rest & a & T' & _)|(o & rest & T' & _)]]; [now rewrite Q|congruence..].
Qed.
Lemma some_ready (w : world) h i : inv progs c00 w h -> has_work w i = true -> exists j, has_work w j = true /\ waits w j = false.
Proof.
  intros [_ (c & _ & L)] Wi. unfold lock_ok in L. unfold waits.
  destruct (lock w) as [[j d]|].
  - destruct L as [_ (o & rest & p & T & Q & _)]. exists j. unfold has_work. rewrite Q. split; auto. destruct p; auto. now rewrite Nat.eqb_refl.
  - exists i. split; auto. destruct (cur (threads w i)) as [[]|]; auto.
Qed.
Variable sched : nat -> nat.
Hypothesis fair : forall i t, i < N -> exists t', t <= t' /\ sched t' = i.
Variable w0 : world.
Variable h0 : list (nat * (sop * sans V)).
Hypothesis inv0 : inv progs c00 w0 h0.
Definition at_time (n : nat) : world := run w0 (map sched (seq 0 n)).
Lemma at_S n : at_time (S n) = tstep (at_time n) (sched n).
Proof. unfold at_time. rewrite seq_S, map_app, run_app. reflexivity. Qed.
Lemma at_inv n : exists h, inv progs c00 (at_time n) h.
Proof. eexists. apply (@inv_run K V keqb keq none_key progs c00 _ _ _ inv0). Qed.
Definition better (w' w : world) (b : nat) : Prop := work w' < work w \/ work w' = work w /\ exists b', b' < b /\ level w' b'.
Lemma next_time j b : forall k n, sched (n + k) = j -> has_work (at_time n) j = true -> waits (at_time n) j = false -> level (at_time n) b ->
  exists n', better (at_time n') (at_time n) b.
Proof.
  induction k as [|k IH]; intros n E Wj Wt Lv; destruct (at_inv n) as [h I0].
  - rewrite Nat.add_0_r in E. exists (S n). rewrite at_S, E. destruct (Nat.lt_ge_cases j N) as [Lj|G]; [|rewrite (@beyond _ _ _ I0 G) in Wj; discriminate].
    destruct (@step_down _ _ _ _ I0 Lv Lj Wj Wt) as [D|[D (b' & -> & Lv')]]; [now left|right]. split; auto. exists b'. split; auto.
  - destruct (has_work (at_time n) (sched n)) eqn:W1; [|destruct (IH (S n)) as (n' & Bn)].
    + destruct (waits (at_time n) (sched n)) eqn:W2; [destruct (IH (S n)) as (n' & Bn)|].
      * rewrite <- E. f_equal. lia.
      * rewrite at_S, idle_stays by auto. auto.
      * rewrite at_S, idle_stays by auto. auto.
      * rewrite at_S, idle_stays by auto. auto.
      * rewrite at_S, idle_stays in Bn by auto. eauto.
      * destruct (Nat.lt_ge_cases (sched n) N) as [Lj|G]; [|rewrite (@beyond _ _ _ I0 G) in W1; discriminate].
        exists (S n). rewrite at_S. destruct (@step_down _ _ _ _ I0 Lv Lj W1 W2) as [D|[D (b' & -> & Lv')]]; [now left|right]. split; auto. exists b'. split; auto.
    + rewrite <- E. f_equal. lia.
    + rewrite at_S, idle_stays by auto. auto.
    + rewrite at_S, idle_stays by auto. auto.
    + rewrite at_S, idle_stays by auto. auto.
    + rewrite at_S, idle_stays in Bn by auto. eauto.
Qed.
Lemma all_or (w : world) : (forall i, i < N -> has_work w i = false) \/ exists i, i < N /\ has_work w i = true.
Proof.
  clear. induction N as [|n IH]; [left; intros; lia|]. destruct IH as [H|(i & L & H)]; [|right; exists i; split; auto].
  destruct (has_work w n) eqn:E; [right; exists n; split; auto|left]. intros i L. destruct (Nat.eq_dec i n) as [->|Ni]; auto. apply H. lia.
Qed.
Lemma fair_ends : exists n, forall i, has_work (at_time n) i = false.
Proof.
  assert (G : forall a b n, work (at_time n) <= a -> level (at_time n) b -> exists n', forall i, i < N -> has_work (at_time n') i = false).
  { induction a as [a IHa] using (well_founded_induction lt_wf). induction b as [b IHb] using (well_founded_induction lt_wf). intros n Ha Lv.
    destruct (all_or (at_time n)) as [H|(i & Li & Wi)]; [eauto|]. destruct (at_inv n) as [h I0].
    destruct (@some_ready _ _ _ I0 Wi) as (j & Wj & Wt). destruct (Nat.lt_ge_cases j N) as [Lj|G]; [|rewrite (@beyond _ _ _ I0 G) in Wj; discriminate].
    destruct (@fair j n Lj) as (t & Lt & Et). destruct (@next_time j b (t - n) n) as (n' & [D|(D & b' & Lb & Lv')]); auto.
    - replace (n + (t - n)) with t by lia. auto.
    - destruct (at_inv n') as [h' I']. destruct (@level_ex _ _ I') as [b' Lv']. apply (IHa (work (at_time n'))) with (b := b') (n := n'); auto. lia.
    - apply (IHb b') with (n := n'); auto. lia. }
  destruct (at_inv 0) as [h I0]. destruct (@level_ex _ _ I0) as [b Lb]. destruct (G _ b 0 (le_n _) Lb) as (n & H). exists n. intros i.
  destruct (Nat.lt_ge_cases i N) as [L|L]; auto. destruct (at_inv n) as [h' I']. eapply beyond; eauto.
Qed.
End Fair.

Lemma fair_threads_end m x fail (progs : nat -> list top) N sched :
  (forall i, N <= i -> progs i = []) ->
  (forall os, (forall o, In o os -> exists i, In (TSync o) (progs i)) -> exists fuel r, seq_run fuel (new_cache K V m x fail) os = Ok r) ->
  (forall i t, i < N -> exists t', t <= t' /\ sched t' = i) ->
  exists n, forall i, has_work (run (start m x fail progs) (map sched (seq 0 n))) i = false.
Proof. intros Bd R F. eapply fair_ends; eauto. apply inv_start. Qed.

(** memoised functions *)
Definition calls_of (os : list sop) : list (ccall K V) := flat_map (fun o => match o with SCall c => [c] | SSize => [] end) os.
Definition memo_sop (g : K -> V) (o : sop) : Prop := match o with SCall c => memo_call g c | SSize => True end.
Definition memo_sans (g : K -> V) (o : sop) (a : sans V) : Prop :=
  match o with SCall (CFetchGen k _ _ _) => a = ACall (CFound (g k)) | _ => True end.
Lemma seq_calls g f (os : list sop) : forall (c c' : cache) l, run_calls keqb none_key f c (calls_of os) = Ok (c', l) -> Forall2 (memo_answer g) (calls_of os) l ->
  exists l', seq_run f c os = Ok (c', l') /\ Forall2 (memo_sans g) os l'.
Proof.
  induction os as [|o os IH]; intros c c' l; cbn [Threads_model.seq_run].
  - cbn. intros E _. injection E as <- <-. exists []. auto.
  - destruct o as [call|]; cbn [calls_of flat_map app Threads_model.seq_op].
    + cbn [run_calls]. destruct (do_call keqb none_key f c call) as [[c1 a]|]; [|discriminate]. cbn [bind fst snd].
      destruct (run_calls keqb none_key f c1 _) as [[c2 l2]|] eqn:E; [|discriminate]. cbn [bind fst snd]. intros R F. injection R as <- <-.
      inversion F as [|? ? ? ? A F']; subst. destruct (IH _ _ _ E F') as (l' & -> & Fl). cbn [bind fst snd]. eexists. split; [reflexivity|].
      constructor; auto. destruct call; cbn in A |- *; auto. congruence.
    + intros E F. destruct (IH _ _ _ E F) as (l' & Es & Fl). cbn [bind fst snd]. rewrite Es. cbn [bind fst snd]. eexists. split; [reflexivity|]. constructor; auto. exact I.
Qed.
Lemma seq_memo g m x (os : list sop) : (forall o, In o os -> memo_sop g o) ->
  exists f c l, seq_run f (new_cache K V m x false) os = Ok (c, l) /\ Forall2 (memo_sans g) os l.
Proof.
  intros H. destruct (@memo_ok K V keqb keq none_key g m x (calls_of os) _ (le_n _)) as (c & l & R & F).
  - intros call Hc. apply in_flat_map in Hc as ([c'|] & Ho & Hc); [|destruct Hc]. destruct Hc as [<-|[]]. apply (H _ Ho).
  - destruct (@seq_calls g _ os _ _ _ R F) as (l' & E & Fl). eauto.
Qed.
Lemma forall2_in {A B} (R : A -> B -> Prop) (f : nat * (A * B) -> Prop) (h : list (nat * (A * B))) :
  Forall2 R (map (fun e => fst (snd e)) h) (map (fun e => snd (snd e)) h) -> forall i a b, In (i, (a, b)) h -> R a b.
Proof.
  induction h as [|[j [a' b']] h IH]; cbn; intros F i a b; [tauto|]. inversion F; subst. intros [E|H]; [injection E as <- <- <-; auto|eauto].
Qed.
Lemma synced_nth (R : sop -> sans V -> Prop) (done : list top) : forall outs n o r, Forall2 (@in_kind K V) done outs -> (forall o a, In (o, a) (synced done outs) -> R o a) ->
  nth_error done n = Some (TSync o) -> nth_error outs n = Some r -> exists a, r = TAns a /\ R o a.
Proof.
  induction done as [|t done IH]; intros outs n o r F H; inversion F as [|? b ? outs' Kb F']; subst; destruct n; try discriminate; cbn [nth_error].
  - intros E E'. injection E as ->. injection E' as ->. destruct r; try (now destruct o). exists a. split; auto. apply H. now left.
  - intros E E'. apply (IH outs' n o r); auto. intros o' a Ha. apply H. destruct t, b; cbn [synced]; auto. now right.
Qed.
Lemma memo_threads g m x (progs : nat -> list top) s :
  (forall i o, In (TSync o) (progs i) -> memo_sop g o) ->
  let w := run (start m x false progs) s in
  forall i n k v now now' r, nth_error (progs i) n = Some (TSync (SCall (CFetchGen k v now now'))) -> nth_error (outs (threads w i)) n = Some r ->
  r = TAns (ACall (CFound (g k))).
Proof.
  intros M w i n k v now now' r Hn Hr. pose proof (@inv_schedule K V keqb keq none_key m x false progs s) as I0. fold w in I0. pose proof I0 as [B (c & [[f R] _] & _)].
  set (h := account (start m x false progs) s) in *.
  destruct (@seq_memo g m x (map (fun e => fst (snd e)) h)) as (f' & c' & l & R' & F).
  { intros o Ho. apply in_map_iff in Ho as ([j [o1 a1]] & <- & Ho). apply (M j). eapply account_from; eauto. }
  assert (l = map (fun e => snd (snd e)) h).
  { apply seq_run_more with (f' := max f f') in R; [|lia]. apply seq_run_more with (f' := max f f') in R'; [|lia]. congruence. }
  subst l. destruct (B i) as (done & P & Kd & E).
  destruct (@synced_nth (memo_sans g) done (outs (threads w i)) n (SCall (CFetchGen k v now now')) r) as (a & -> & A); auto.
  - intros o a Ha. apply (@forall2_in _ _ (memo_sans g) (fun _ => True) h F i). 
    assert (Hin : In (o, a) (of_thread i h)) by (rewrite E; apply in_or_app; now left).
    unfold of_thread in Hin. apply in_map_iff in Hin as ([j e] & Ee & Hin). apply filter_In in Hin as [Hin Hj]. cbn in Ee, Hj. apply Nat.eqb_eq in Hj. now subst.
  - rewrite P in Hn. rewrite nth_error_app1 in Hn; auto. assert (Ln : length done = length (outs (threads w i))) by (clear - Kd; induction Kd; cbn; congruence).
    rewrite Ln. apply nth_error_Some. congruence.
  - cbn in A. congruence.
Qed.
Lemma memo_fair g m x (progs : nat -> list top) N sched :
  (forall i o, In (TSync o) (progs i) -> memo_sop g o) ->
  (forall i, N <= i -> progs i = []) ->
  (forall i t, i < N -> exists t', t <= t' /\ sched t' = i) ->
  exists n, forall i, has_work (run (start m x false progs) (map sched (seq 0 n))) i = false.
Proof.
  intros M Bd F. eapply fair_threads_end; eauto. intros os Ho. destruct (@seq_memo g m x os) as (f & c & l & R & _); [|eauto].
  intros o Hin. destruct (Ho o Hin) as [i Hi]. eapply M; eauto.
Qed.
(** without a limit every call returns *)
Lemma seq_calls' f (os : list sop) : forall (c c' : cache) l, run_calls keqb none_key f c (calls_of os) = Ok (c', l) -> exists r, seq_run f c os = Ok r.
Proof.
  induction os as [|o os IH]; intros c c' l; cbn [Threads_model.seq_run].
  - eauto.
  - destruct o as [call|]; cbn [calls_of flat_map app Threads_model.seq_op].
    + cbn [run_calls]. destruct (do_call keqb none_key f c call) as [[c1 a]|]; [|discriminate]. cbn [bind fst snd].
      destruct (run_calls keqb none_key f c1 _) as [[c2 l2]|] eqn:E; [|discriminate]. intros _.
      destruct (IH _ _ _ E) as (l' & ->). cbn [bind fst snd]. eauto.
    + intros E. destruct (IH _ _ _ E) as (l' & Es). cbn [bind fst snd]. rewrite Es. cbn [bind]. eauto.
Qed.
Lemma unlimited_fair m x fail (progs : nat -> list top) N sched : (m = None \/ m = Some 0) ->
  (forall i c, In (TSync (SCall c)) (progs i) -> sets_no_limit c) ->
  (forall i, N <= i -> progs i = []) ->
  (forall i t, i < N -> exists t', t <= t' /\ sched t' = i) ->
  exists n, forall i, has_work (run (start m x fail progs) (map sched (seq 0 n))) i = false.
Proof.
  intros Hm M Bd F. eapply fair_threads_end; eauto. intros os Ho.
  destruct (@unlimited K V keqb keq none_key m x fail (calls_of os) (length (calls_of os)) Hm) with (2 := le_n (length (calls_of os))) as (c & R).
  - apply Forall_forall. intros call Hc. apply in_flat_map in Hc as ([c'|] & Hin & Hc); [|destruct Hc]. destruct Hc as [<-|[]].
    destruct (Ho _ Hin) as [i Hi]. eapply M; eauto.
  - destruct (srun _ _ _ _) as [s a]. destruct R as [R _]. exists (length (calls_of os)). eapply seq_calls'. exact R.
Qed.
End T.
