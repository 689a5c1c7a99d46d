(** Proofs about sparse loading. *)
From Coq Require Import String Permutation.
From Verif Require Import Py PyLemmas Sparse_spec Sparse_model.
Set Implicit Arguments.

Lemma seqb_spec (x y : string) : String.eqb x y = true <-> x = y.
Proof. apply String.eqb_eq. Qed.
Lemma key_dec (a b : key) : {a = b} + {a <> b}.
Proof. decide equality; [apply string_dec|apply Nat.eq_dec]. Qed.
Lemma key_eqb_spec k j : key_eqb k j = true <-> k = j.
Proof.
  unfold key_eqb. rewrite andb_true_iff, Nat.eqb_eq, String.eqb_eq. destruct k, j; cbn. intuition congruence.
Qed.
Lemma snoc_nth A (l : list A) x n y : nth_error (l ++ [x]) n = Some y -> nth_error l n = Some y \/ (n = length l /\ x = y).
Proof.
  intros H. destruct (Nat.lt_ge_cases n (length l)) as [L|L].
  - left. now rewrite nth_error_app1 in H.
  - rewrite nth_error_app2 in H by auto. destruct (n - length l) as [|m] eqn:E; cbn in H.
    + right. split; [lia|congruence].
    + destruct m; discriminate.
Qed.
Lemma nth_lt A (l : list A) n x : nth_error l n = Some x -> n < length l.
Proof. intros H. apply nth_error_Some. congruence. Qed.
Lemma nth_app_l A (l m : list A) n x : nth_error l n = Some x -> nth_error (l ++ m) n = Some x.
Proof. intros H. rewrite nth_error_app1; auto. eapply nth_lt; eauto. Qed.
Lemma nodup_nth A (l : list A) a b x : NoDup l -> nth_error l a = Some x -> nth_error l b = Some x -> a = b.
Proof. intros N Ha Hb. apply (proj1 (NoDup_nth_error l) N a b); [eapply nth_lt; eauto|congruence]. Qed.
Lemma f2_imp A B (P Q : A -> B -> Prop) l m : (forall a b, P a b -> Q a b) -> Forall2 P l m -> Forall2 Q l m.
Proof. intros H F; induction F; constructor; auto. Qed.
Lemma f2_nth_l A B (P : A -> B -> Prop) l m n a : Forall2 P l m -> nth_error l n = Some a -> exists b, nth_error m n = Some b /\ P a b.
Proof.
  intros F; revert n; induction F; intros [|n]; cbn; try discriminate; intros E.
  - injection E as <-. eauto.
  - eauto.
Qed.
Lemma f2_len A B (P : A -> B -> Prop) l m : Forall2 P l m -> length l = length m.
Proof. induction 1; cbn; auto. Qed.
Lemma f2_snoc A B (P : A -> B -> Prop) l m a b : Forall2 P l m -> P a b -> Forall2 P (l ++ [a]) (m ++ [b]).
Proof. intros; apply Forall2_app; auto. Qed.

Definition clients_at (k : key) (n : nat) (r : request) : list nat :=
  (if key_dec (fst r) k then [n] else []) ++ (if key_dec (snd r) k then [n] else []).
Fixpoint clients_of (k : key) (n : nat) (reqs : list request) : list nat :=
  match reqs with [] => [] | r :: reqs' => clients_at k n r ++ clients_of k (S n) reqs' end.
Lemma clients_snoc k reqs r : forall n, clients_of k n (reqs ++ [r]) = clients_of k n reqs ++ clients_at k (n + length reqs) r.
Proof.
  induction reqs as [|q reqs IH]; intros n; cbn.
  - now rewrite app_nil_r, Nat.add_0_r.
  - rewrite IH, <- app_assoc. now replace (S n + length reqs) with (n + S (length reqs)) by lia.
Qed.
Lemma clients_nonempty k reqs n : requested reqs k -> clients_of k n reqs <> [].
Proof.
  revert n; induction reqs as [|q reqs IH]; intros n (r & H & E); [destruct H|]. cbn.
  destruct H as [->|H].
  - unfold clients_at. destruct (key_dec (fst r) k); [discriminate|]. destruct (key_dec (snd r) k); [discriminate|]. tauto.
  - intros X. apply app_eq_nil in X. apply (IH (S n)); [exists r; auto|tauto].
Qed.

Section P.
Variable G : Type.
Variable file : nat -> option (list (string * G)).
Notation heap := (@heap G).
Implicit Types (h : heap) (K : list key) (R : nat -> option nat).
Notation content := (content file).

Definition sub R (s : nat) : ref := match R s with Some g => Graph g | None => Stub s end.
Definition prel K R (r : request) (pr : ref * ref) : Prop :=
  exists s t, nth_error K s = Some (fst r) /\ nth_error K t = Some (snd r) /\ pr = (sub R s, sub R t).
Definition inj R := forall a b g, R a = Some g -> R b = Some g -> a = b.

Lemma sub_inj R a b : inj R -> sub R a = sub R b -> a = b.
Proof. unfold sub; intros I. destruct (R a) eqn:A, (R b) eqn:B; intros E; try congruence. injection E as ->. eapply I; eauto. Qed.
Lemma is_spec a b : is_ a b = true <-> a = b.
Proof. destruct a, b; cbn; rewrite ?Nat.eqb_eq; split; intros; congruence. Qed.
Lemma is_false a b : a <> b -> is_ a b = false.
Proof. intros H. destruct (is_ a b) eqn:E; auto. apply is_spec in E. congruence. Qed.
Lemma is_true a : is_ a a = true.
Proof. now apply is_spec. Qed.
Lemma sub_stub R a s : R s = None -> sub R a = Stub s -> a = s.
Proof. unfold sub; intros Z. destruct (R a); congruence. Qed.
Lemma upd_same A (f : nat -> A) k a : upd f k a k = a.
Proof. unfold upd. now rewrite Nat.eqb_refl. Qed.
Lemma upd_other A (f : nat -> A) k a j : j <> k -> upd f k a j = f j.
Proof. unfold upd; intros H. apply Nat.eqb_neq in H. now rewrite H. Qed.
Lemma sub_upd_same R s g : sub (upd R s (Some g)) s = Graph g.
Proof. unfold sub. now rewrite upd_same. Qed.
Lemma sub_upd_other R s g a : a <> s -> sub (upd R s (Some g)) a = sub R a.
Proof. unfold sub; intros. now rewrite upd_other. Qed.

Lemma set_nth_mid A (l m : list A) x y : set_nth (l ++ x :: m) (length l) y = l ++ y :: m.
Proof. induction l; cbn; congruence. Qed.
Lemma nth_mid A (l m : list A) x : nth_error (l ++ x :: m) (length l) = Some x.
Proof. rewrite nth_error_app2, Nat.sub_diag; auto. Qed.

(** One step: a client that does not mention the stub twice. *)
Lemma replace_all K R s k g : NoDup K -> nth_error K s = Some k -> R s = None -> inj R ->
  forall reqs ps pre, Forall2 (prel K R) reqs ps ->
  match foldM (replace_in_client s g) (pre ++ ps) (clients_of k (length pre) reqs) with
  | Ok qs => (forall r, In r reqs -> ~ (fst r = k /\ snd r = k)) /\
             exists ps', qs = pre ++ ps' /\ Forall2 (prel K (upd R s (Some g))) reqs ps'
  | Err e => e = AssertionError /\ exists r, In r reqs /\ fst r = k /\ snd r = k
  end.
Proof.
  intros N Hs HR I. induction reqs as [|r reqs IH]; intros ps pre F; inversion F as [|? p ? ps0 Hp F']; subst.
  - cbn. split; [tauto|]. exists []. split; auto.
  - cbn [clients_of]. rewrite foldM_app. destruct Hp as (a & b & Ha & Hb & ->).
    unfold clients_at.
    assert (Ea : fst r = k <-> a = s).
    { split; intros E; [eapply nodup_nth; eauto; congruence|subst; congruence]. }
    assert (Eb : snd r = k <-> b = s).
    { split; intros E; [eapply nodup_nth; eauto; congruence|subst; congruence]. }
    assert (SS : sub R s = Stub s) by (unfold sub; now rewrite HR).
    assert (STEP : forall X, prel K (upd R s (Some g)) r X ->
        match foldM (replace_in_client s g) (pre ++ X :: ps0) (clients_of k (S (length pre)) reqs) with
        | Ok qs => (forall r, In r reqs -> ~ (fst r = k /\ snd r = k)) /\
             exists ps', qs = pre ++ ps' /\ Forall2 (prel K (upd R s (Some g))) (r :: reqs) ps'
        | Err e => e = AssertionError /\ exists r, In r reqs /\ fst r = k /\ snd r = k
        end).
    { intros X HX. specialize (IH ps0 (pre ++ [X]) F'). rewrite app_length, Nat.add_1_r, <- app_assoc in IH. cbn [app] in IH.
      destruct (foldM _ _ _) as [qs|e]; auto. destruct IH as (H1 & ps' & -> & H2). split; auto.
      exists (X :: ps'). rewrite <- app_assoc. cbn. split; auto. }
    destruct (key_dec (fst r) k) as [E1|E1].
    + assert (a = s) by now apply Ea. subst a.
      destruct (key_dec (snd r) k) as [E2|E2].
      * assert (b = s) by now apply Eb. subst b.
        cbn [app foldM]. unfold replace_in_client. rewrite nth_mid, SS, is_true. cbn. split; auto. exists r; cbn; auto.
      * assert (b <> s) by (intros X; apply E2; now apply Eb).
        cbn [app foldM]. unfold replace_in_client at 1. rewrite nth_mid, SS, is_false, is_true, set_nth_mid.
        2: { rewrite <- SS. intros X. apply sub_inj in X; auto. }
        cbn [bind]. specialize (STEP (Graph g, sub R b)).
        match type of STEP with ?P -> _ => assert (HP : P) end.
        { exists s, b. rewrite sub_upd_same, sub_upd_other by auto. auto. }
        specialize (STEP HP). destruct (foldM _ _ _) as [qs|e].
        -- destruct STEP as (H1 & H2). split; auto. intros r' [<-|H']; [tauto|auto].
        -- destruct STEP as (H1 & r' & H2 & H3). split; auto. exists r'; cbn; auto.
    + assert (a <> s) by (intros X; apply E1; now apply Ea).
      destruct (key_dec (snd r) k) as [E2|E2].
      * assert (b = s) by now apply Eb. subst b.
        cbn [app foldM]. unfold replace_in_client at 1. rewrite nth_mid, SS, is_false, is_true, set_nth_mid.
        2: { intros X. apply sub_stub in X; auto. }
        cbn [bind]. specialize (STEP (sub R a, Graph g)).
        match type of STEP with ?P -> _ => assert (HP : P) end.
        { exists a, s. rewrite sub_upd_same, sub_upd_other by auto. auto. }
        specialize (STEP HP). destruct (foldM _ _ _) as [qs|e].
        -- destruct STEP as (H1 & H2). split; auto. intros r' [<-|H']; [tauto|auto].
        -- destruct STEP as (H1 & r' & H2 & H3). split; auto. exists r'; cbn; auto.
      * assert (b <> s) by (intros X; apply E2; now apply Eb).
        cbn [app foldM bind]. specialize (STEP (sub R a, sub R b)).
        match type of STEP with ?P -> _ => assert (HP : P) end.
        { exists a, b. rewrite !sub_upd_other by auto. auto. }
        specialize (STEP HP). destruct (foldM _ _ _) as [qs|e].
        -- destruct STEP as (H1 & H2). split; auto. intros r' [<-|H']; [tauto|auto].
        -- destruct STEP as (H1 & r' & H2 & H3). split; auto. exists r'; cbn; auto.
Qed.

Record Inv (reqs : list request) K R h : Prop := {
  i_nd : NoDup K;
  i_n : n_stubs h = length K;
  i_req : forall k, In k K <-> requested reqs k;
  i_pairs : Forall2 (prel K R) reqs (pairs h);
  i_keys : forall b, NoDup (dkeys (bank h b));
  i_bank : forall b i r, dget String.eqb (bank h b) i = Some r <-> exists s, nth_error K s = Some (b, i) /\ r = sub R s;
  i_id : forall s k, nth_error K s = Some k -> stub_id h s = snd k;
  i_cl : forall s k, nth_error K s = Some k -> R s = None -> clients h s = Some (clients_of k 0 reqs);
  i_inj : inj R;
  i_dom : forall s g, R s = Some g -> exists k x, nth_error K s = Some k /\ content k = Some x /\ nth_error (graphs h) g = Some x
}.

(** Reading the pairs. *)
Lemma stub_step reqs K h b i extra :
  NoDup K -> n_stubs h = length K ->
  (forall b, NoDup (dkeys (bank h b))) ->
  (forall b i r, dget String.eqb (bank h b) i = Some r <-> exists s, nth_error K s = Some (b, i) /\ r = Stub s) ->
  (forall s k, nth_error K s = Some k -> stub_id h s = snd k) ->
  (forall s k, nth_error K s = Some k -> clients h s = Some (clients_of k 0 reqs)) ->
  (forall k, In k K <-> requested reqs k \/ extra = Some k) ->
  loaded h b = false -> i <> ""%string ->
  exists h' K' s, get_graph_stub h b i = Ok (h', Stub s) /\ (exists t, K' = K ++ t) /\ nth_error K' s = Some (b, i) /\
    NoDup K' /\ n_stubs h' = length K' /\
    (forall b, NoDup (dkeys (bank h' b))) /\
    (forall b i r, dget String.eqb (bank h' b) i = Some r <-> exists s, nth_error K' s = Some (b, i) /\ r = Stub s) /\
    (forall s k, nth_error K' s = Some k -> stub_id h' s = snd k) /\
    (forall s k, nth_error K' s = Some k -> clients h' s = Some (clients_of k 0 reqs)) /\
    (forall k, In k K' <-> requested reqs k \/ extra = Some k \/ k = (b, i)) /\
    loaded h' = loaded h /\ n_banks h' = n_banks h /\ graphs h' = graphs h /\ pairs h' = pairs h.
Proof.
  intros N HN HK HB HI HC HQ HL Hi. unfold get_graph_stub. rewrite HL.
  destruct (String.eqb i "") eqn:E0; [apply String.eqb_eq in E0; contradiction|].
  destruct (dget String.eqb (bank h b) i) as [r|] eqn:E.
  - destruct (proj1 (HB b i r) E) as (s & Hs & ->). exists h, K, s. split; auto. split; [exists []; now rewrite app_nil_r|].
    repeat (split; [assumption|]). split; auto. intros k. rewrite HQ. split; [tauto|].
    intros [?|[?| -> ]]; auto. apply HQ. eapply nth_error_In; eauto.
  - assert (Hnot : ~ In (b, i) K).
    { intros X. apply In_nth_error in X as (s & X). assert (dget String.eqb (bank h b) i = Some (Stub s)) by (apply HB; eauto). congruence. }
    eexists _, (K ++ [(b, i)]), (n_stubs h). split; [reflexivity|]. split; [eauto|].
    assert (NK : nth_error (K ++ [(b, i)]) (n_stubs h) = Some (b, i)) by (rewrite HN; apply nth_mid).
    split; [auto|]. split; [apply nodup_snoc; auto|]. cbn. split; [rewrite app_length, HN; cbn; lia|].
    split.
    { intros c. destruct (Nat.eq_dec c b) as [->|Hc]; [rewrite upd_same|rewrite upd_other by auto; apply HK].
      apply (nodup_dset _ seqb_spec); auto. }
    split.
    { intros c j r. destruct (Nat.eq_dec c b) as [->|Hc]; [rewrite upd_same|rewrite upd_other by auto].
      - destruct (string_dec i j) as [->|Hj].
        + rewrite (dget_dset_same _ seqb_spec). split.
          * intros X; injection X as <-. eauto.
          * intros (s & X & ->). f_equal. f_equal. eapply nodup_nth; [|exact NK|exact X]. apply nodup_snoc; auto.
        + rewrite (dget_dset_other _ seqb_spec) by auto. rewrite HB. split; intros (s & X & ->).
          * exists s; split; auto. now apply nth_app_l.
          * exists s; split; auto. apply snoc_nth in X as [X|[_ X]]; auto. congruence.
      - rewrite HB. split; intros (s & X & ->).
        + exists s; split; auto. now apply nth_app_l.
        + exists s; split; auto. apply snoc_nth in X as [X|[_ X]]; auto. congruence. }
    split.
    { intros s k X. apply snoc_nth in X as [X|[-> <-]].
      - rewrite upd_other; auto. apply nth_lt in X. lia.
      - now rewrite <- HN, upd_same. }
    split.
    { intros s k X. apply snoc_nth in X as [X|[-> <-]].
      - rewrite upd_other; auto. apply nth_lt in X. lia.
      - rewrite <- HN, upd_same. f_equal. symmetry.
        clear - Hnot HQ. assert (Hr : ~ requested reqs (b, i)) by (intros X; apply Hnot, HQ; auto).
        clear Hnot HQ. assert (Z : forall n, clients_of (b, i) n reqs = []); [|auto].
        induction reqs as [|q l IH]; intros n; cbn; auto.
        rewrite IH. 2: { intros (r & X & Y). apply Hr. exists r; cbn; auto. }
        unfold clients_at. destruct (key_dec (fst q) (b, i)) as [X|_]. { destruct Hr. exists q; cbn; auto. }
        destruct (key_dec (snd q) (b, i)) as [X|_]. { destruct Hr. exists q; cbn; auto. } auto. }
    split; auto.
    intros k. rewrite in_app_iff, HQ. cbn. intuition congruence.
Qed.

Definition none : nat -> option nat := fun _ => None.
Definition valid (n : nat) (r : request) : Prop :=
  fst (fst r) < n /\ fst (snd r) < n /\ snd (fst r) <> ""%string /\ snd (snd r) <> ""%string.

Lemma add_client_step h s c p : clients h s = Some c ->
  add_client h (Stub s) p = Ok (set_clients h s (Some (c ++ [p]))).
Proof. cbn. now intros ->. Qed.

Lemma pair_step reqs K h r : Inv reqs K none h -> (forall b, loaded h b = false) -> valid (n_banks h) r ->
  exists h' K', graph_pair_elem h r = Ok h' /\ Inv (reqs ++ [r]) K' none h' /\ (forall b, loaded h' b = false) /\
    graphs h' = graphs h /\ n_banks h' = n_banks h.
Proof.
  intros [N HN HQ HP HK HB HI HC HJ HD] HL (V1 & V2 & V3 & V4).
  unfold graph_pair_elem. apply Nat.ltb_lt in V1, V2. rewrite V1, V2. cbn [andb].
  destruct r as ((b1, i1), (b2, i2)). cbn [fst snd] in *.
  destruct (@stub_step reqs K h b1 i1 None) as (h1 & K1 & s & E1 & (t1 & P1) & Hs & N1 & HN1 & HK1 & HB1 & HI1 & HC1 & HQ1 & L1 & A1 & A2 & A3); auto.
  { intros k. rewrite HQ. intuition congruence. }
  rewrite E1. cbn [bind fst snd].
  destruct (@stub_step reqs K1 h1 b2 i2 (Some (b1, i1))) as (h2 & K2 & t & E2 & (t2 & P2) & Ht & N2 & HN2 & HK2 & HB2 & HI2 & HC2 & HQ2 & L2 & B1 & B2 & B3); auto.
  { intros k. rewrite HQ1. split; [intros [X|[X|X]]|intros [X|X]]; auto; try discriminate; [subst k; auto|injection X as X; auto]. }
  { rewrite L1; auto. }
  rewrite E2. cbn [bind fst snd].
  assert (Hs2 : nth_error K2 s = Some (b1, i1)) by (subst K2; now apply nth_app_l).
  assert (LP : length (pairs h2) = length reqs) by (rewrite B3, A3; symmetry; eapply f2_len; eauto).
  rewrite (@add_client_step (set_pairs h2 (pairs h2 ++ [(Stub s, Stub t)])) s (clients_of (b1, i1) 0 reqs)) by (cbn; auto).
  cbn [bind].
  set (h3 := set_clients _ s _).
  assert (CT : clients h3 t = Some (clients_of (b2, i2) 0 reqs ++ if s =? t then [length reqs] else [])).
  { unfold h3. cbn. unfold upd. rewrite (Nat.eqb_sym t s). destruct (s =? t) eqn:X.
    - apply Nat.eqb_eq in X. subst t. assert ((b1, i1) = (b2, i2)) as Y by congruence. rewrite <- Y, LP. auto.
    - rewrite app_nil_r. auto. }
  rewrite (add_client_step _ _ _ CT).
  eexists _, K2. split; [reflexivity|]. cbn. split; [|split; [intros b; rewrite L2, L1; auto|split; congruence]].
  constructor; cbn; auto.
  - intros k. rewrite HQ2. unfold requested. split.
    + intros [(q & X & Y)|[X|X]].
      * exists q. rewrite in_app_iff. auto.
      * exists ((b1, i1), (b2, i2)). rewrite in_app_iff; cbn. injection X as <-. auto.
      * exists ((b1, i1), (b2, i2)). rewrite in_app_iff; cbn. auto.
    + intros (q & X & Y). apply in_app_iff in X as [X|[<-|[]]]; [left; eauto|]. cbn in Y. destruct Y as [<-|<-]; auto.
  - rewrite B3, A3. apply f2_snoc.
    + eapply f2_imp; [|exact HP]. intros q p (x & y & X & Y & ->). exists x, y. subst K2 K1. repeat split; repeat apply nth_app_l; auto.
    + exists s, t. cbn. auto.
  - intros u k Hu _. rewrite clients_snoc. cbn [plus]. unfold clients_at; cbn [fst snd].
    assert (X1 : (b1, i1) = k <-> u = s).
    { split; intros E; [subst k; eapply nodup_nth; eauto|]. rewrite E in Hu. rewrite Hu in Hs2. now injection Hs2. }
    assert (X2 : (b2, i2) = k <-> u = t).
    { split; intros E; [subst k; eapply nodup_nth; eauto|]. rewrite E in Hu. rewrite Hu in Ht. now injection Ht. }
    rewrite LP. destruct (Nat.eq_dec u t) as [->|Ut].
    + rewrite upd_same. f_equal. destruct (key_dec (b2, i2) k) as [<-|Z]; [|tauto].
      rewrite app_assoc. f_equal. f_equal. destruct (key_dec (b1, i1) (b2, i2)) as [Y|Y]; destruct (s =? t) eqn:Z; auto.
      * apply Nat.eqb_neq in Z. exfalso. apply Z. symmetry. now apply X1.
      * apply Nat.eqb_eq in Z. exfalso. apply Y, X1. auto.
    + rewrite upd_other by auto. destruct (key_dec (b2, i2) k) as [Z|Z]; [tauto|]. rewrite app_nil_r.
      unfold h3. cbn. destruct (Nat.eq_dec u s) as [->|Us].
      * rewrite upd_same. destruct (key_dec (b1, i1) k) as [<-|Y]; [rewrite ?LP; auto|tauto].
      * rewrite upd_other by auto. destruct (key_dec (b1, i1) k) as [Y|Y]; [tauto|]. rewrite app_nil_r. auto.
  - discriminate.
Qed.

Lemma pair_err reqs K h r : Inv reqs K none h -> (forall b, loaded h b = false) -> ~ valid (n_banks h) r ->
  graph_pair_elem h r = Err (if (fst (fst r) <? n_banks h) && (fst (snd r) <? n_banks h) then AssertionError else DaesoError).
Proof.
  intros [N HN HQ HP HK HB HI HC HJ HD] HL V. unfold graph_pair_elem.
  destruct ((fst (fst r) <? n_banks h) && (fst (snd r) <? n_banks h)) eqn:E; auto.
  apply andb_true_iff in E as (V1 & V2). apply Nat.ltb_lt in V1, V2.
  destruct r as ((b1, i1), (b2, i2)). unfold valid in V; cbn [fst snd] in *.
  destruct (string_dec i1 "") as [->|I1].
  - unfold get_graph_stub. rewrite HL. reflexivity.
  - destruct (@stub_step reqs K h b1 i1 None) as (h1 & K1 & s & E1 & _ & Hs & N1 & HN1 & HK1 & HB1 & HI1 & HC1 & HQ1 & L1 & A1 & A2 & A3); auto.
    { intros k. rewrite HQ. intuition congruence. }
    rewrite E1. cbn [bind fst snd]. destruct (string_dec i2 "") as [->|I2].
    + unfold get_graph_stub. rewrite L1, HL. reflexivity.
    + tauto.
Qed.

Lemma inv_empty n : Inv [] [] none (@empty G n).
Proof.
  constructor; cbn; auto; try discriminate.
  - constructor.
  - intros k. split; [tauto|]. intros (r & [] & _).
  - intros _. constructor.
  - intros b i r. split; [discriminate|]. intros ([|s] & E & _); discriminate.
  - intros [|s]; discriminate.
  - intros [|s]; discriminate.
Qed.

Lemma read_from reqs : forall done K h, Inv done K none h -> (forall b, loaded h b = false) ->
  match foldM (@graph_pair_elem G) h reqs with
  | Ok h' => (forall r, In r reqs -> valid (n_banks h) r) /\
             exists K', Inv (done ++ reqs) K' none h' /\ (forall b, loaded h' b = false) /\ graphs h' = graphs h /\ n_banks h' = n_banks h
  | Err e => (exists r, In r reqs /\ ~ valid (n_banks h) r) /\
      ((e = DaesoError /\ exists r, In r reqs /\ (n_banks h <= fst (fst r) \/ n_banks h <= fst (snd r))) \/
       (e = AssertionError /\ exists r, In r reqs /\ (snd (fst r) = ""%string \/ snd (snd r) = ""%string)))
  end.
Proof.
  induction reqs as [|r reqs IH]; intros done K h I L; cbn [foldM].
  - split; [intros r []|]. exists K. rewrite app_nil_r. auto.
  - assert (D : valid (n_banks h) r \/ ~ valid (n_banks h) r).
    { unfold valid. destruct (lt_dec (fst (fst r)) (n_banks h)), (lt_dec (fst (snd r)) (n_banks h)),
        (string_dec (snd (fst r)) ""), (string_dec (snd (snd r)) ""); tauto. }
    destruct D as [V|V].
    + destruct (pair_step I L V) as (h1 & K1 & -> & I1 & L1 & G1 & B1). cbn [bind].
      specialize (IH _ _ _ I1 L1). destruct (foldM _ h1 reqs) as [h2|e].
      * destruct IH as (H1 & K' & H2 & H3 & H4 & H5). rewrite B1 in *. split; [intros q [<-|X]; auto|].
        exists K'. rewrite <- app_assoc in H2. cbn in H2. repeat split; auto; try congruence; apply H2.
      * rewrite B1 in IH. destruct IH as ((q & Q1 & Q2) & [(-> & q' & Q3 & Q4)|(-> & q' & Q3 & Q4)]).
        -- split; [exists q; cbn; auto|]. left. split; auto. exists q'; cbn; auto.
        -- split; [exists q; cbn; auto|]. right. split; auto. exists q'; cbn; auto.
    + rewrite (pair_err I L V). cbn [bind]. split; [exists r; cbn; auto|].
      destruct ((fst (fst r) <? n_banks h) && (fst (snd r) <? n_banks h)) eqn:E.
      * right. split; auto. exists r. split; [cbn; auto|]. apply andb_true_iff in E as (E1 & E2). apply Nat.ltb_lt in E1, E2.
        unfold valid in V. destruct (string_dec (snd (fst r)) ""), (string_dec (snd (snd r)) ""); tauto.
      * left. split; auto. exists r. split; [cbn; auto|]. apply andb_false_iff in E as [E|E]; apply Nat.ltb_ge in E; auto.
Qed.

Lemma last_snoc i (l : list (string * G)) j g : last_graph i (l ++ [(j, g)]) = if String.eqb j i then Some g else last_graph i l.
Proof.
  induction l as [|(j', g') l IH]; cbn; auto. rewrite IH. destruct (String.eqb j i); auto.
Qed.

Lemma parse_spec wanted (l : list (string * G)) (gs gs' : list G) full : NoDup wanted -> parse_file wanted l gs = (gs', full) ->
  dkeys full = wanted /\ gs' = gs ++ map snd (filter (fun x => mem String.eqb (fst x) wanted) l) /\
  (forall i, In i wanted -> exists o, dget String.eqb full i = Some o /\
     match o with None => last_graph i l = None
     | Some g => length gs <= g /\ exists x, last_graph i l = Some x /\ nth_error gs' g = Some x end) /\
  (forall i j g, dget String.eqb full i = Some (Some g) -> dget String.eqb full j = Some (Some g) -> i = j).
Proof.
  intros N. revert gs' full. unfold parse_file. induction l as [|(j, x) l IH] using rev_ind; intros gs' full.
  - cbn. intros E; injection E as <- <-. rewrite app_nil_r. 
    assert (D : forall i, dget String.eqb (map (fun i => (i, @None nat)) wanted) i = if mem String.eqb i wanted then Some None else None).
    { intros i. induction wanted as [|w wanted IH]; cbn; auto. destruct (String.eqb i w); cbn; auto. apply IH. now inversion N. }
    split; [unfold dkeys; rewrite map_map; apply map_id|]. split; auto. split.
    + intros i Hi. exists None. rewrite D. apply (mem_spec _ seqb_spec) in Hi. rewrite Hi. auto.
    + intros i k g. rewrite D. destruct (mem String.eqb i wanted); discriminate.
  - rewrite fold_left_app. cbn [fold_left]. destruct (fold_left _ l _) as (gs1, full1) eqn:EF.
    destruct (IH gs1 full1 eq_refl) as (H1 & H2 & H3 & H4). clear IH EF. cbn [fst snd].
    rewrite filter_app, map_app. cbn [filter].
    unfold dhas. destruct (dget String.eqb full1 j) as [o|] eqn:Ej; cbn [fst snd].
    + assert (Hj : In j wanted).
      { rewrite <- H1. destruct (in_dec string_dec j (dkeys full1)) as [|Z]; auto. apply (dget_none _ seqb_spec) in Z. congruence. }
      intros E; injection E as <- <-. rewrite (proj2 (mem_spec _ seqb_spec j wanted) Hj).
      assert (LT : forall i g, dget String.eqb full1 i = Some (Some g) -> g < length gs1).
      { intros i g X. assert (Hi : In i wanted).
        { rewrite <- H1. destruct (in_dec string_dec i (dkeys full1)) as [|Z]; auto. apply (dget_none _ seqb_spec) in Z. congruence. }
        destruct (H3 i Hi) as (o' & E1 & E2). rewrite X in E1. injection E1 as <-. destruct E2 as (_ & y & _ & E2). eapply nth_lt; eauto. }
      split; [|split; [|split]].
      * rewrite (dkeys_dset_in _ seqb_spec); auto. now rewrite H1.
      * rewrite H2, <- app_assoc. reflexivity.
      * intros i Hi. destruct (string_dec j i) as [->|Hn].
        -- rewrite (dget_dset_same _ seqb_spec), last_snoc, String.eqb_refl. eexists. split; [reflexivity|]. cbn.
           split; [rewrite H2, app_length; lia|]. exists x. split; auto. apply nth_mid.
        -- rewrite (dget_dset_other _ seqb_spec), last_snoc by auto. apply String.eqb_neq in Hn. rewrite Hn.
           destruct (H3 i Hi) as (o' & E1 & E2). exists o'. split; auto. destruct o'; auto.
           destruct E2 as (E2 & y & E3 & E4). split; auto. exists y. split; auto. now apply nth_app_l.
      * intros i k g. destruct (string_dec j i) as [<-|Hn]; destruct (string_dec j k) as [<-|Hk]; auto.
        -- rewrite (dget_dset_same _ seqb_spec), (dget_dset_other _ seqb_spec) by auto. intros X Y. injection X as <-. apply LT in Y. lia.
        -- rewrite (dget_dset_same _ seqb_spec), (dget_dset_other _ seqb_spec) by auto. intros Y X. injection X as <-. apply LT in Y. lia.
        -- rewrite !(dget_dset_other _ seqb_spec) by auto. apply H4.
    + assert (Hj : ~ In j wanted) by (rewrite <- H1; now apply (dget_none _ seqb_spec)).
      intros E; injection E as <- <-. destruct (mem String.eqb j wanted) eqn:M; [apply (mem_spec _ seqb_spec) in M; contradiction|].
      cbn [map]. rewrite app_nil_r. split; auto. split; auto. split; auto.
      intros i Hi. rewrite last_snoc. destruct (String.eqb j i) eqn:X; [apply String.eqb_eq in X; congruence|auto].
Qed.

(** One item of a bank. *)
Definition selfpair (reqs : list request) (k : key) : Prop := exists r, In r reqs /\ fst r = k /\ snd r = k.
Definition out_of R (g : nat) := forall s, R s <> Some g.

Lemma item_step reqs K R h b i s g x full : Inv reqs K R h -> nth_error K s = Some (b, i) -> R s = None ->
  dget String.eqb full i = Some (Some g) -> nth_error (graphs h) g = Some x -> content (b, i) = Some x -> out_of R g ->
  match load_item b full h (i, Stub s) with
  | Ok h' => ~ selfpair reqs (b, i) /\ Inv reqs K (upd R s (Some g)) h' /\ graphs h' = graphs h /\ (forall c, loaded h' c = loaded h c) /\ n_banks h' = n_banks h
  | Err e => e = AssertionError /\ selfpair reqs (b, i)
  end.
Proof.
  intros I Hs HR Ef Eg Ec HO. destruct I as [N HN HQ HP HK HB HI HC HJ HD].
  unfold load_item; cbn [fst snd]. rewrite Ef. unfold replace_stub.
  rewrite (HC _ _ Hs HR).
  assert (NE : clients_of (b, i) 0 reqs <> []) by (apply clients_nonempty, HQ; eapply nth_error_In; eauto).
  pose proof (@replace_all K R s (b, i) g N Hs HR HJ reqs (pairs h) [] HP) as RA. cbn [app length] in RA.
  destruct (clients_of (b, i) 0 reqs) as [|c0 cs]; [congruence|].
  destruct (foldM (replace_in_client s g) (pairs h) (c0 :: cs)) as [qs|e]; cbn [bind].
  2: { destruct RA as (-> & RA). split; auto. }
  destruct RA as (RA & ps' & -> & F). split; [intros (r & X & Y); eapply RA; eauto|].
  split; [|cbn; auto]. constructor; cbn; auto.
  - intros c. destruct (Nat.eq_dec c b) as [->|Hc]; [rewrite upd_same|rewrite upd_other by auto; apply HK]. apply (nodup_dset _ seqb_spec); auto.
  - intros c j r. destruct (Nat.eq_dec c b) as [->|Hc]; [rewrite upd_same|rewrite upd_other by auto].
    + destruct (string_dec i j) as [->|Hj].
      * rewrite (dget_dset_same _ seqb_spec). split.
        -- intros X; injection X as <-. exists s. split; auto. now rewrite sub_upd_same.
        -- intros (t & X & ->). replace t with s by (eapply nodup_nth; eauto). now rewrite sub_upd_same.
      * rewrite (dget_dset_other _ seqb_spec) by auto. rewrite HB. split; intros (t & X & ->); exists t; split; auto;
          (rewrite sub_upd_other; [auto|]); intros ->; rewrite Hs in X; injection X as X; auto.
    + rewrite HB. split; intros (t & X & ->); exists t; split; auto;
          (rewrite sub_upd_other; [auto|]); intros ->; rewrite Hs in X; injection X as X; auto.
  - intros t k Ht. destruct (Nat.eq_dec t s) as [->|X]; [rewrite upd_same; discriminate|]. rewrite !upd_other by auto. apply HC; auto.
  - intros t u y. destruct (Nat.eq_dec t s) as [->|X], (Nat.eq_dec u s) as [->|Y]; auto.
    + rewrite upd_same, upd_other by auto. intros Z W. injection Z as <-. now apply HO in W.
    + rewrite upd_same, upd_other by auto. intros Z W. injection W as <-. now apply HO in Z.
    + rewrite !upd_other by auto. apply HJ.
  - intros t y. destruct (Nat.eq_dec t s) as [->|X].
    + rewrite upd_same. intros Z; injection Z as <-. eauto.
    + rewrite upd_other by auto. apply HD.
Qed.

Lemma items_step reqs K b full its : forall R h, Inv reqs K R h -> NoDup (map fst its) ->
  (forall i r, In (i, r) its -> exists s g x, nth_error K s = Some (b, i) /\ r = Stub s /\ R s = None /\
      dget String.eqb full i = Some (Some g) /\ nth_error (graphs h) g = Some x /\ content (b, i) = Some x /\ out_of R g) ->
  (forall i j g, dget String.eqb full i = Some (Some g) -> dget String.eqb full j = Some (Some g) -> i = j) ->
  match foldM (load_item b full) h its with
  | Ok h' => (forall i r, In (i, r) its -> ~ selfpair reqs (b, i)) /\
      exists R', Inv reqs K R' h' /\ graphs h' = graphs h /\ (forall c, loaded h' c = loaded h c) /\ n_banks h' = n_banks h /\
        (forall s, R' s = None <-> R s = None /\ ~ exists i, In i (map fst its) /\ nth_error K s = Some (b, i))
  | Err e => e = AssertionError /\ exists i r, In (i, r) its /\ selfpair reqs (b, i)
  end.
Proof.
  induction its as [|(i, r) its IH]; intros R h I ND HI FI; cbn [foldM].
  - split; [intros ? ? []|]. exists R. repeat split; auto; try tauto; try apply I. intros (? & [] & _).
  - destruct (HI i r (or_introl eq_refl)) as (s & g & x & Hs & -> & HR & Ef & Eg & Ec & HO).
    pose proof (@item_step reqs K R h b i s g x full I Hs HR Ef Eg Ec HO) as ST.
    destruct (load_item b full h (i, Stub s)) as [h1|e]; cbn [bind].
    2: { destruct ST as (-> & ST). split; auto. exists i, (Stub s). cbn; auto. }
    destruct ST as (S1 & S2 & S3 & S4 & S5). cbn [map fst] in ND. apply NoDup_cons_iff in ND as (N1 & N2).
    specialize (IH _ _ S2 N2).
    match type of IH with ?P -> _ => assert (HP : P) end.
    { intros j r' Hj. destruct (HI j r' (or_intror Hj)) as (t & g' & x' & Ht & -> & HR' & Ef' & Eg' & Ec' & HO').
      exists t, g', x'. split; auto. split; auto. 
      assert (t <> s). { intros ->. rewrite Hs in Ht. injection Ht as Ht. subst j. apply N1. now apply (in_map fst) in Hj. }
      rewrite upd_other by auto. split; auto. split; auto. rewrite S3. split; auto. split; auto.
      intros u. destruct (Nat.eq_dec u s) as [->|U]; [rewrite upd_same|rewrite upd_other; auto].
      intros Z; injection Z as <-. apply N1. rewrite (FI i j g Ef Ef'). now apply (in_map fst) in Hj. }
    specialize (IH HP FI). destruct (foldM (load_item b full) h1 its) as [h2|e].
    + destruct IH as (T1 & R' & T2 & T3 & T4 & T5 & T6). split.
      { intros j r' [E|Hj]; [injection E as <- <-; auto|eauto]. }
      exists R'. split; auto. split; [congruence|]. split; [intros c; rewrite T4; auto|]. split; [congruence|].
      intros t. rewrite T6. destruct (Nat.eq_dec t s) as [->|U].
      * rewrite upd_same. split; [intros (Z & _); discriminate|]. intros (_ & Z). exfalso. apply Z. exists i. cbn; auto.
      * rewrite upd_other by auto. split; intros (Z & W); (split; [exact Z|]).
        -- intros (j & [<-|X] & Y); [|apply W; eauto]. apply U. eapply nodup_nth; [apply I|..]; eauto.
        -- intros (j & X & Y). apply W. exists j. cbn; auto.
    + destruct IH as (-> & j & r' & T1 & T2). split; auto. exists j, r'. cbn; auto.
Qed.

Variable items : list (string * ref) -> list (string * ref).
Hypothesis items_perm : forall d, Permutation (items d) d.

Definition wantedb (reqs : list request) (b : nat) (i : string) : bool :=
  existsb (fun r => key_eqb (fst r) (b, i) || key_eqb (snd r) (b, i)) reqs.
Lemma wantedb_spec reqs b i : wantedb reqs b i = true <-> requested reqs (b, i).
Proof.
  unfold wantedb. rewrite existsb_exists. unfold requested. split; intros (r & H & E); exists r; split; auto.
  - apply orb_true_iff in E as [E|E]; apply key_eqb_spec in E; auto.
  - apply orb_true_iff. destruct E as [E|E]; apply key_eqb_spec in E; auto.
Qed.

(** What makes a bank loadable. *)
Definition goodfile (reqs : list request) (b : nat) : Prop :=
  file b <> None /\ forall i, requested reqs (b, i) -> content (b, i) <> None.
Definition fine (reqs : list request) (b : nat) : Prop := goodfile reqs b /\ forall i, ~ selfpair reqs (b, i).
Definition sync K R h := forall s b i, nth_error K s = Some (b, i) -> (R s = None <-> loaded h b = false).

Lemma bank_step reqs K R h b : Inv reqs K R h -> sync K R h -> loaded h b = false ->
  match load_bank file items h b with
  | Ok h' => fine reqs b /\ exists R', Inv reqs K R' h' /\ sync K R' h' /\ graphs h' = graphs h ++ wanted_graphs file reqs b /\
        (forall c, loaded h' c = upd (loaded h) b true c) /\ n_banks h' = n_banks h
  | Err e => (e = DaesoError /\ ~ goodfile reqs b) \/ (e = AssertionError /\ goodfile reqs b /\ exists i, selfpair reqs (b, i))
  end.
Proof.
  intros I SY L. unfold load_bank. rewrite L. destruct (file b) as [l|] eqn:EF.
  2: { left. split; auto. intros (X & _). auto. }
  destruct (parse_file (dkeys (bank h b)) l (graphs h)) as (gs, full) eqn:EP.
  pose proof (i_keys I b) as NK. destruct (parse_spec l (graphs h) NK EP) as (P1 & P2 & P3 & P4).
  assert (KEYS : forall i, In i (dkeys (bank h b)) <-> requested reqs (b, i)).
  { intros i. rewrite <- (i_req I). split.
    - intros X. destruct (dget String.eqb (bank h b) i) as [r|] eqn:E.
      + apply (i_bank I) in E as (s & E & _). eapply nth_error_In; eauto.
      + apply (dget_none _ seqb_spec) in E. contradiction.
    - intros X. apply In_nth_error in X as (s & X). assert (Y : dget String.eqb (bank h b) i = Some (sub R s)) by (apply (i_bank I); eauto).
      apply (dget_in _ seqb_spec) in Y. now apply (in_map fst) in Y. }
  assert (CT : forall i, content (b, i) = last_graph i l) by (intros i; unfold Sparse_spec.content; cbn; now rewrite EF).
  destruct (existsb _ full) eqn:EX.
  { left. split; auto. intros (_ & X). apply existsb_exists in EX as ((i & o) & E1 & E2). destruct o; [discriminate|].
    assert (Hi : In i (dkeys (bank h b))) by (rewrite <- P1; now apply (in_map fst) in E1).
    destruct (P3 i Hi) as (o & E3 & E4). rewrite (in_dget _ seqb_spec _ _ _ (eq_ind_r (@NoDup string) NK P1) E1) in E3. injection E3 as <-.
    apply (X i); [now apply KEYS|]. now rewrite CT. }
  assert (ALL : forall i, In i (dkeys (bank h b)) -> exists g x, dget String.eqb full i = Some (Some g) /\ length (graphs h) <= g /\
     content (b, i) = Some x /\ nth_error gs g = Some x).
  { intros i Hi. destruct (P3 i Hi) as (o & E3 & E4). destruct o as [g|].
    - destruct E4 as (X & x & Y & Z). exists g, x. rewrite CT. auto.
    - exfalso. assert (existsb (fun x : string * option nat => match snd x with Some _ => false | None => true end) full = true); [|congruence].
      apply existsb_exists. exists (i, None). split; auto. now apply (dget_in _ seqb_spec). }
  assert (GF : goodfile reqs b).
  { split; [congruence|]. intros i Hi. apply KEYS in Hi. destruct (ALL i Hi) as (g & x & _ & _ & E & _). congruence. }
  assert (IG : Inv reqs K R (set_graphs h gs)).
  { destruct I as [N HN HQ HP HK HB HI HC HJ HD]. constructor; cbn; auto. intros s g E. destruct (HD s g E) as (k & x & A & B & C).
    exists k, x. split; auto. split; auto. rewrite P2. now apply nth_app_l. }
  assert (NI : NoDup (map fst (items (bank h b)))).
  { eapply Permutation_NoDup; [|exact NK]. apply Permutation_sym. unfold dkeys. now apply Permutation_map. }
  assert (INI : forall x, In x (items (bank h b)) <-> In x (bank h b)).
  { intros x. split; apply Permutation_in; auto. now apply Permutation_sym. }
  assert (IMI : forall i, In i (map fst (items (bank h b))) <-> In i (dkeys (bank h b))).
  { intros i. unfold dkeys. rewrite !in_map_iff. split; intros (x & E & X); exists x; split; auto; now apply INI. }
  pose proof (@items_step reqs K b full (items (bank h b)) R (set_graphs h gs) IG NI) as IS.
  match type of IS with ?P -> _ => assert (HP : P) end.
  { intros i r X. apply INI in X. pose proof X as X'. apply (in_map fst) in X'. cbn in X'. destruct (ALL i X') as (g & x & A & B & C & D).
    apply (in_dget _ seqb_spec) in X; auto. apply (i_bank I) in X as (s & E1 & ->).
    assert (Z : R s = None) by (apply (SY s b i E1); auto).
    exists s, g, x. split; auto. split; [unfold sub; now rewrite Z|]. split; auto. split; auto. split; auto. split; auto.
    intros t Ht. destruct (i_dom I _ Ht) as (k & y & _ & _ & E). apply nth_lt in E. lia. }
  specialize (IS HP P4). destruct (foldM _ (set_graphs h gs) _) as [h1|e]; cbn [bind].
  2: { right. destruct IS as (-> & i & r & X & Y). split; auto. split; eauto. }
  destruct IS as (S1 & R' & S2 & S3 & S4 & S5 & S6). split.
  { split; auto. intros i SP. assert (X : requested reqs (b, i)) by (destruct SP as (r & A & B & C); exists r; auto).
    apply KEYS, IMI in X. apply in_map_iff in X as ((j, r) & E & X). cbn in E. subst j. eapply S1; eauto. }
  exists R'. split; [|split; [|split; [|split]]].
  - destruct S2 as [N HN HQ HP' HK HB HI HC HJ HD]. constructor; cbn; auto.
  - intros s c i E. rewrite S6. cbn. unfold upd. destruct (c =? b) eqn:X.
    + apply Nat.eqb_eq in X. subst c. split; [|discriminate]. intros (_ & Z). exfalso. apply Z. exists i. split; auto.
      apply IMI, KEYS. apply (i_req I). eapply nth_error_In; eauto.
    + rewrite S4. cbn. split.
      * intros (Z & _). now apply (SY s c i).
      * intros Z. split; [now apply (SY s c i)|]. intros (j & _ & F). apply Nat.eqb_neq in X. congruence.
  - cbn. rewrite S3. cbn. rewrite P2. f_equal. unfold wanted_graphs. rewrite EF. f_equal. apply filter_ext_in. intros (i, y) _. cbn [fst].
    apply Bool.eq_true_iff_eq. rewrite (mem_spec _ seqb_spec), KEYS. symmetry. apply wantedb_spec.
  - intros c. cbn. unfold upd. destruct (c =? b); auto. apply S4.
  - cbn. auto.
Qed.

Lemma banks_step reqs K bs : forall R h, Inv reqs K R h -> sync K R h -> NoDup bs -> (forall b, In b bs -> loaded h b = false) ->
  match foldM (load_bank file items) h bs with
  | Ok h' => (forall b, In b bs -> fine reqs b) /\ exists R', Inv reqs K R' h' /\ sync K R' h' /\
       graphs h' = graphs h ++ flat_map (wanted_graphs file reqs) bs /\ (forall b, loaded h' b = true <-> loaded h b = true \/ In b bs) /\
       n_banks h' = n_banks h
  | Err e => (e = DaesoError /\ exists b, In b bs /\ ~ goodfile reqs b) \/ (e = AssertionError /\ exists b i, In b bs /\ selfpair reqs (b, i))
  end.
Proof.
  induction bs as [|b bs IH]; intros R h I SY ND L; cbn [foldM].
  - split; [intros ? []|]. exists R. cbn. rewrite app_nil_r. repeat (split; [assumption || reflexivity|]). split; auto. intros b. tauto.
  - pose proof (@bank_step reqs K R h b I SY (L b (or_introl eq_refl))) as BS.
    apply NoDup_cons_iff in ND as (N1 & N2).
    destruct (load_bank file items h b) as [h1|e]; cbn [bind].
    + destruct BS as (F & R1 & I1 & SY1 & G1 & L1 & B1). specialize (IH R1 h1 I1 SY1 N2).
      match type of IH with ?P -> _ => assert (HP : P) end.
      { intros c Hc. rewrite L1. rewrite upd_other; [apply L; cbn; auto|]. intros ->. auto. }
      specialize (IH HP). destruct (foldM _ h1 bs) as [h2|e].
      * destruct IH as (F2 & R2 & I2 & SY2 & G2 & L2 & B2). split; [intros c [<-|X]; auto|].
        exists R2. split; auto. split; auto. split; [rewrite G2, G1, <- app_assoc; reflexivity|]. split; [|congruence].
        intros c. rewrite L2, L1. unfold upd. destruct (c =? b) eqn:X.
        -- apply Nat.eqb_eq in X. subst c. cbn. tauto.
        -- apply Nat.eqb_neq in X. cbn. split; [tauto|]. intros [Y|[Y|Y]]; auto.
      * destruct IH as [(-> & c & X & Y)|(-> & c & i & X & Y)]; [left|right]; split; auto; [exists c; cbn; auto|exists c, i; cbn; auto].
    + destruct BS as [(-> & X)|(-> & X & i & Y)]; [left|right]; split; auto; [exists b; cbn; auto|exists b, i; cbn; auto].
Qed.

Variable bank_order : list nat -> list nat.
Hypothesis bank_order_perm : forall l, Permutation (bank_order l) l.

Lemma order_nodup n : NoDup (bank_order (seq 0 n)).
Proof. eapply Permutation_NoDup; [apply Permutation_sym, bank_order_perm|apply seq_NoDup]. Qed.
Lemma order_in n b : In b (bank_order (seq 0 n)) <-> b < n.
Proof.
  split; intros H.
  - eapply Permutation_in in H; [|apply bank_order_perm]. apply in_seq in H. lia.
  - eapply Permutation_in; [apply Permutation_sym, bank_order_perm|]. apply in_seq. lia.
Qed.

Lemma read_spec n reqs :
  match @read_pairs G n reqs with
  | Ok h => (forall r, In r reqs -> valid n r) /\
            exists K, Inv reqs K none h /\ (forall b, loaded h b = false) /\ graphs h = [] /\ n_banks h = n
  | Err e => (exists r, In r reqs /\ ~ valid n r) /\
      ((e = DaesoError /\ exists r, In r reqs /\ (n <= fst (fst r) \/ n <= fst (snd r))) \/
       (e = AssertionError /\ exists r, In r reqs /\ (snd (fst r) = ""%string \/ snd (snd r) = ""%string)))
  end.
Proof. apply (@read_from reqs [] [] (@empty G n)); [apply inv_empty|auto]. Qed.

Lemma sync_none K h : (forall b, loaded h b = false) -> sync K none h.
Proof. intros L s b i _. split; auto. Qed.

Lemma sparse_spec n reqs :
  match load_sparse file items bank_order n reqs with
  | Ok h => (forall r, In r reqs -> valid n r) /\ (forall b, b < n -> fine reqs b) /\
            exists K R, Inv reqs K R h /\ (forall s k, nth_error K s = Some k -> R s <> None) /\
              graphs h = flat_map (wanted_graphs file reqs) (bank_order (seq 0 n))
  | Err e => (e = DaesoError /\ ((exists r, In r reqs /\ (n <= fst (fst r) \/ n <= fst (snd r))) \/ exists b, b < n /\ ~ goodfile reqs b)) \/
             (e = AssertionError /\ ((exists r, In r reqs /\ (snd (fst r) = ""%string \/ snd (snd r) = ""%string)) \/ exists r, In r reqs /\ fst r = snd r))
  end.
Proof.
  unfold load_sparse. pose proof (read_spec n reqs) as RS. destruct (read_pairs G n reqs) as [h|e]; cbn [bind].
  - destruct RS as (V & K & I & L & G0 & B). unfold load_graphbanks. rewrite B.
    pose proof (@banks_step reqs K (bank_order (seq 0 n)) none h I (@sync_none K h L) (order_nodup n) (fun b _ => L b)) as BS.
    destruct (foldM _ h _) as [h'|e].
    + destruct BS as (F & R & I' & SY & G1 & L1 & B1). split; auto. split; [intros b Hb; apply F; now apply order_in|].
      exists K, R. split; auto. split; [|now rewrite G1, G0].
      intros s (b, i) Hs X. apply (SY s b i Hs) in X.
      assert (Y : requested reqs (b, i)) by (apply (i_req I); eapply nth_error_In; eauto).
      assert (loaded h' b = true); [|congruence]. apply L1. right. apply order_in.
      destruct Y as (r & Y1 & Y2). destruct (V r Y1) as (V1 & V2 & _). destruct Y2 as [Y2|Y2]; rewrite Y2 in *; cbn in *; auto.
    + destruct BS as [(-> & b & X & Y)|(-> & b & i & X & Y)].
      * left. split; auto. right. exists b. split; auto. now apply order_in.
      * right. split; auto. right. destruct Y as (r & Y1 & Y2 & Y3). exists r. split; auto. congruence.
  - destruct RS as (_ & [(-> & X)|(-> & X)]); auto.
Qed.

(** All graphs *)
Lemma full_dict (l : list (string * G)) gs : let acc := fold_left (fun acc x => (fst acc ++ [snd x], dset String.eqb (snd acc) (fst x) (Graph (length (fst acc))))) l (gs, []) in
  fst acc = gs ++ map snd l /\
  (forall i, match last_graph i l with
             | None => dget String.eqb (snd acc) i = None
             | Some x => exists g, dget String.eqb (snd acc) i = Some (Graph g) /\ length gs <= g /\ nth_error (fst acc) g = Some x
             end) /\
  (forall i j g, dget String.eqb (snd acc) i = Some (Graph g) -> dget String.eqb (snd acc) j = Some (Graph g) -> i = j).
Proof.
  induction l as [|(j, x) l IH] using rev_ind.
  - cbn. rewrite app_nil_r. split; auto. split; auto. discriminate.
  - rewrite fold_left_app. cbn [fold_left fst snd]. destruct (fold_left _ l _) as (gs1, d1). cbn [fst snd] in *.
    destruct IH as (H1 & H2 & H3). split; [rewrite H1, map_app, <- app_assoc; reflexivity|].
    assert (LT : forall i g, dget String.eqb d1 i = Some (Graph g) -> g < length gs1).
    { intros i g E. specialize (H2 i). destruct (last_graph i l); [|congruence]. destruct H2 as (g' & A & B & C). apply nth_lt in C. congruence. }
    split.
    + intros i. rewrite last_snoc. destruct (string_dec j i) as [<-|N].
      * rewrite String.eqb_refl. rewrite (dget_dset_same _ seqb_spec). eexists; split; [reflexivity|]. split; [rewrite H1, app_length; lia|]. apply nth_mid.
      * rewrite (proj2 (String.eqb_neq j i) N), (dget_dset_other _ seqb_spec) by auto. specialize (H2 i). destruct (last_graph i l); auto.
        destruct H2 as (g' & A & B & C). exists g'. split; auto. split; auto. now apply nth_app_l.
    + intros i k g. destruct (string_dec j i) as [<-|N]; destruct (string_dec j k) as [<-|M]; auto.
      * rewrite (dget_dset_same _ seqb_spec), (dget_dset_other _ seqb_spec) by auto. intros X Y. injection X as <-. apply LT in Y. lia.
      * rewrite (dget_dset_same _ seqb_spec), (dget_dset_other _ seqb_spec) by auto. intros Y X. injection X as <-. apply LT in Y. lia.
      * rewrite !(dget_dset_other _ seqb_spec) by auto. apply H3.
Qed.

Record FInv (done : list nat) h : Prop := {
  f_pairs : pairs h = [];
  f_rest : forall b, ~ In b done -> bank h b = [];
  f_done : forall b, In b done -> file b <> None;
  f_get : forall b i, In b done -> match content (b, i) with
             | None => dget String.eqb (bank h b) i = None
             | Some x => exists g, dget String.eqb (bank h b) i = Some (Graph g) /\ nth_error (graphs h) g = Some x
             end;
  f_lt : forall b i g, dget String.eqb (bank h b) i = Some (Graph g) -> g < length (graphs h);
  f_inj : forall b c i j g, dget String.eqb (bank h b) i = Some (Graph g) -> dget String.eqb (bank h c) j = Some (Graph g) -> (b, i) = (c, j) }.

Lemma full_banks bs : forall done h, FInv done h -> NoDup bs -> (forall b, In b bs -> ~ In b done) ->
  match foldM (load_full_bank file) h bs with
  | Ok h' => exists done', FInv done' h' /\ (forall b, In b done' <-> In b done \/ In b bs) /\ n_banks h' = n_banks h
  | Err e => e = DaesoError /\ exists b, In b bs /\ file b = None
  end.
Proof.
  induction bs as [|b bs IH]; intros done h F N D; cbn [foldM].
  - exists done. split; auto. split; auto. cbn. tauto.
  - unfold load_full_bank at 1. destruct (file b) as [l|] eqn:EF; cbn [bind]; [|split; auto; exists b; cbn; auto].
    pose proof (full_dict l (graphs h)) as FD. cbn zeta in FD.
    destruct (fold_left _ l _) as (gs, d). cbn [fst snd] in *. destruct FD as (D1 & D2 & D3).
    apply NoDup_cons_iff in N as (N1 & N2).
    set (h1 := set_loaded _ b). specialize (IH (b :: done) h1).
    assert (Hb : ~ In b done) by (apply D; cbn; auto).
    assert (LE : forall i g, dget String.eqb d i = Some (Graph g) -> length (graphs h) <= g < length gs).
    { intros i g X. specialize (D2 i). destruct (last_graph i l); [|congruence]. destruct D2 as (g' & A & B & C). apply nth_lt in C.
      assert (g = g') by congruence. lia. }
    assert (F1 : FInv (b :: done) h1).
    { destruct F as [A1 A2 A3 A4 A5 A6]. unfold h1; constructor; cbn; auto.
      - intros c Hc. rewrite upd_other; [apply A2; tauto|]. intros ->. tauto.
      - intros c [<-|Hc]; [congruence|auto].
      - intros c i Hc. destruct (Nat.eq_dec c b) as [->|Nc].
        + rewrite upd_same. specialize (D2 i). replace (content (b, i)) with (last_graph i l) by (unfold Sparse_spec.content; cbn; now rewrite EF).
          destruct (last_graph i l); auto. destruct D2 as (g0 & B1 & _ & B2). eauto.
        + rewrite upd_other by auto. destruct Hc as [->|Hc]; [congruence|]. specialize (A4 c i Hc). destruct (content (c, i)); auto.
          destruct A4 as (g0 & B1 & B2). exists g0. split; auto. rewrite D1. now apply nth_app_l.
      - intros c i g. destruct (Nat.eq_dec c b) as [->|Nc]; [rewrite upd_same|rewrite upd_other by auto].
        + apply LE.
        + intros X. apply A5 in X. rewrite D1, app_length. lia.
      - intros c e i j g. destruct (Nat.eq_dec c b) as [->|Nc]; [rewrite upd_same|rewrite upd_other by auto];
          (destruct (Nat.eq_dec e b) as [->|Ne]; [rewrite upd_same|rewrite upd_other by auto]).
        + intros X Y. f_equal. eapply D3; eauto.
        + intros X Y. apply LE in X. apply A5 in Y. lia.
        + intros X Y. apply LE in Y. apply A5 in X. lia.
        + apply A6. }
    specialize (IH F1 N2). match type of IH with ?P -> _ => assert (HP : P) end.
    { intros c Hc [<-|X]; [auto|]. apply (D c); cbn; auto. }
    specialize (IH HP). destruct (foldM _ h1 bs) as [h2|e].
    + destruct IH as (done' & B1 & B2 & B3). exists done'. split; auto. split; [|auto]. intros c. rewrite B2. cbn. tauto.
    + destruct IH as (-> & c & X & Y). split; auto. exists c; cbn; auto.
Qed.

Lemma full_get done h b i : FInv done h -> In b done ->
  match content (b, i) with
  | Some x => exists g, get_graph h b i = Ok (Graph g) /\ nth_error (graphs h) g = Some x
  | None => get_graph h b i = Err KeyError
  end.
Proof.
  intros F H. pose proof (f_get F b i H) as X. unfold get_graph, dread. destruct (content (b, i)).
  - destruct X as (g0 & -> & X). eauto.
  - now rewrite X.
Qed.

Definition frel h (r : request) (pr : ref * ref) : Prop :=
  exists g g', pr = (Graph g, Graph g') /\ get_graph h (fst (fst r)) (snd (fst r)) = Ok (Graph g) /\ get_graph h (fst (snd r)) (snd (snd r)) = Ok (Graph g').
Lemma full_pairs n reqs : forall h, n_banks h = n ->
  (forall b i, b < n -> match content (b, i) with
    | Some x => exists g, get_graph h b i = Ok (Graph g) /\ nth_error (graphs h) g = Some x
    | None => get_graph h b i = Err KeyError end) ->
  match foldM (@full_pair_elem G) h reqs with
  | Ok h' => (forall r, In r reqs -> fst (fst r) < n /\ fst (snd r) < n /\ content (fst r) <> None /\ content (snd r) <> None) /\
             graphs h' = graphs h /\ bank h' = bank h /\ exists ps, pairs h' = pairs h ++ ps /\ Forall2 (frel h) reqs ps
  | Err e => e = DaesoError /\ exists r, In r reqs /\ ~ (fst (fst r) < n /\ fst (snd r) < n /\ content (fst r) <> None /\ content (snd r) <> None)
  end.
Proof.
  induction reqs as [|r reqs IH]; intros h B H; cbn [foldM].
  - split; [intros ? []|]. split; auto. split; auto. exists []. rewrite app_nil_r. auto.
  - unfold full_pair_elem at 1. rewrite B. destruct ((fst (fst r) <? n) && (fst (snd r) <? n)) eqn:E; cbn [bind].
    2: { split; auto. exists r. split; [cbn; auto|]. intros (X & Y & _). apply Nat.ltb_lt in X, Y. rewrite X, Y in E. discriminate. }
    apply andb_true_iff in E as (E1 & E2). apply Nat.ltb_lt in E1, E2.
    destruct r as ((b1, i1), (b2, i2)); cbn [fst snd] in *.
    pose proof (H b1 i1 E1) as X1. pose proof (H b2 i2 E2) as X2.
    destruct (content (b1, i1)) as [x1|] eqn:C1.
    2: { rewrite X1. cbn. split; auto. exists ((b1, i1), (b2, i2)). cbn. rewrite C1. tauto. }
    destruct (content (b2, i2)) as [x2|] eqn:C2.
    2: { destruct X1 as (g & -> & _). rewrite X2. cbn. split; auto. exists ((b1, i1), (b2, i2)). cbn. rewrite C2. tauto. }
    destruct X1 as (g1 & X1 & Y1), X2 as (g2 & X2 & Y2). rewrite X1, X2. cbn [bind].
    specialize (IH (set_pairs h (pairs h ++ [(Graph g1, Graph g2)])) B H).
    destruct (foldM _ _ reqs) as [h'|e].
    + destruct IH as (Z1 & Z2 & Z3 & ps & Z4 & Z5). split.
      { intros r [<-|Hr]; [cbn; rewrite C1, C2; repeat split; auto; discriminate|auto]. }
      split; auto. split; auto. exists ((Graph g1, Graph g2) :: ps). cbn in Z4. rewrite Z4, <- app_assoc. split; auto.
      constructor; auto. exists g1, g2. auto.
    + destruct IH as (-> & r & Z1 & Z2). split; auto. exists r. cbn; auto.
Qed.

Lemma all_spec n reqs :
  match load_all file bank_order n reqs with
  | Ok h => (forall b, b < n -> file b <> None) /\
            (forall r, In r reqs -> fst (fst r) < n /\ fst (snd r) < n /\ content (fst r) <> None /\ content (snd r) <> None) /\
            exists done, (forall b, In b done <-> b < n) /\
              (exists h0, FInv done h0 /\ graphs h = graphs h0 /\ bank h = bank h0 /\ Forall2 (frel h0) reqs (pairs h))
  | Err e => e = DaesoError /\ ((exists b, b < n /\ file b = None) \/
        exists r, In r reqs /\ ~ (fst (fst r) < n /\ fst (snd r) < n /\ content (fst r) <> None /\ content (snd r) <> None))
  end.
Proof.
  unfold load_all. assert (F0 : FInv [] (@empty G n)).
  { constructor; cbn; auto; try tauto; try discriminate. }
  pose proof (@full_banks (bank_order (seq 0 n)) [] (@empty G n) F0 (order_nodup n) (fun _ _ x => x)) as FB.
  destruct (foldM _ (empty G n) _) as [h|e]; cbn [bind].
  - destruct FB as (done & F & D & B). cbn in B.
    assert (D' : forall b, In b done <-> b < n) by (intros b; rewrite D, order_in; cbn; tauto).
    pose proof (@full_pairs n reqs h B) as FP. match type of FP with ?P -> _ => assert (HP : P) end.
    { intros b i Hb. apply (@full_get done); auto. now apply D'. }
    specialize (FP HP). destruct (foldM _ h reqs) as [h'|e].
    + destruct FP as (Z1 & Z2 & Z3 & ps & Z4 & Z5). split; [intros b Hb; apply (f_done F); now apply D'|]. split; auto.
      exists done. split; auto. exists h. split; auto. split; auto. split; auto. rewrite Z4, (f_pairs F). auto.
    + destruct FP as (-> & X). auto.
  - destruct FB as (-> & b & X & Y). split; auto. left. exists b. split; auto. now apply order_in.
Qed.
End P.
