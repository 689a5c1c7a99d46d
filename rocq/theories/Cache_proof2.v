(** Histories that never overwrite a stored key: the code is the specified LRU cache. *)
From Verif Require Import Py PyLemmas Cache_spec Cache_model Cache_proof1.
Set Implicit Arguments.
Lemma filter_length_le A (f : A -> bool) l : length (filter f l) <= length l.
Proof. induction l as [|x l IH]; cbn; auto. destruct (f x); cbn; lia. Qed.

Lemma Forall2_length A B (P : A -> B -> Prop) l l' : Forall2 P l l' -> length l = length l'.
Proof. induction 1; cbn; auto. Qed.

Section C.
Variables K V : Type.
Variable keqb : K -> K -> bool.
Hypothesis keq : forall x y, keqb x y = true <-> x = y.
Variable none_key : K.
Notation cache := (cache K V). Notation scache := (scache K V). Notation entry := (entry K V).

Lemma keqb_refl k : keqb k k = true.
Proof. now apply keq. Qed.
Lemma keqb_false k k' : keqb k k' = false <-> k <> k'.
Proof. split; [intros E ->; rewrite keqb_refl in E; discriminate|apply (keqb_neq keqb keq)]. Qed.
Definition wo (k : K) (l : list K) := filter (fun x => negb (keqb k x)) l.
Lemma in_wo k x l : In x (wo k l) <-> In x l /\ x <> k.
Proof. unfold wo. rewrite filter_In, negb_true_iff, keqb_false. intuition. Qed.
Lemma wo_absent k l : ~ In k l -> wo k l = l.
Proof.
  induction l as [|x l IH]; cbn; auto. intros H. rewrite (proj2 (keqb_false k x)) by (intros ->; tauto). cbn. f_equal. unfold wo in IH. tauto.
Qed.
Lemma wo_app k a b : wo k (a ++ b) = wo k a ++ wo k b.
Proof. apply filter_app. Qed.
Lemma wo_mid k a b : NoDup (a ++ k :: b) -> wo k (a ++ k :: b) = a ++ b.
Proof.
  intros N. apply NoDup_remove_2 in N. rewrite in_app_iff in N. rewrite wo_app. cbn. rewrite keqb_refl. cbn.
  f_equal; apply wo_absent; tauto.
Qed.

Record lclean (r : lru K) (ks : list K) : Prop := {
  lc_nodup : NoDup ks;
  lc_rep : exists l, rep keqb r l /\ Forall2 (fun n k => item r n = Some k) l ks;
  lc_dom : forall k, In k ks -> exists n, dget keqb (lkeys r) k = Some n }.

Lemma lclean_new : lclean (new_lru K) [].
Proof. split; [constructor| |intros k []]. exists []. split; [apply rep_new|constructor]. Qed.
Lemma forall2_in A B (P : A -> B -> Prop) l l' x : Forall2 P l l' -> In x l -> exists y, In y l' /\ P x y.
Proof. intros F. induction F; intros []; [subst; eexists; split; [now left|auto]|]. destruct (IHF H0) as (z & Z & W). exists z. split; auto. now right. Qed.
Lemma lclean_discard r ks k : lclean r ks -> lclean (discard keqb r k) (wo k ks).
Proof.
  intros C. destruct (lc_rep C) as (l & R & F). destruct (dget keqb (lkeys r) k) as [n|] eqn:E.
  - destruct (r_keys R _ E) as [I J]. apply in_split in I as (l1 & l2 & ->).
    apply Forall2_app_inv_l in F as (k1 & k2' & F1 & F2 & ->). inversion F2 as [|? k' ? k2 Hk F3]; subst.
    assert (k' = k) by congruence. subst k'. rewrite wo_mid by apply (lc_nodup C). split.
    + eapply NoDup_remove_1. apply (lc_nodup C).
    + exists (l1 ++ l2). split; [eapply rep_discard; eauto|]. unfold discard. rewrite E. cbn [item]. now apply Forall2_app.
    + intros x X. assert (x <> k).
      { intros ->. apply (NoDup_remove_2 _ _ _ (lc_nodup C)). auto. }
      destruct (lc_dom C x) as [m M]. { apply in_app_or in X as [X|X]; apply in_or_app; [now left|right; now right]. }
      exists m. unfold discard. rewrite E. cbn [lkeys]. rewrite (dget_ddel_other keqb keq); auto.
  - rewrite wo_absent; [now rewrite discard_missing|]. intros X. destruct (lc_dom C k X). congruence.
Qed.
Lemma lclean_add r ks k : lclean r ks -> ~ In k ks -> lclean (add keqb r k) (ks ++ [k]).
Proof.
  intros C N. destruct (lc_rep C) as (l & R & F). destruct (rep_add keq k R) as (R' & I1 & I2). split.
  - apply nodup_snoc; auto. apply (lc_nodup C).
  - exists (l ++ [fresh r]). split; auto. apply Forall2_app; [|constructor; [auto|constructor]].
    clear -F I2. induction F; constructor; [rewrite I2; auto; now left|]. apply IHF. intros; apply I2; now right.
  - intros x X. unfold add; cbn [lkeys]. destruct (k_dec keqb keq k x) as [<-|Ne].
    + rewrite (dget_dset_same keqb keq). eauto.
    + rewrite (dget_dset_other keqb keq) by auto. apply (lc_dom C). apply in_app_or in X as [X|[X|[]]]; auto. congruence.
Qed.
Lemma lclean_update r ks k : lclean r ks -> lclean (lru_update keqb r k) (wo k ks ++ [k]).
Proof. intros C. apply lclean_add; [now apply lclean_discard|]. rewrite in_wo. tauto. Qed.
Lemma lclean_clear r ks : lclean r ks -> lclean (lru_clear r) [].
Proof.
  intros C. destruct (lc_rep C) as (l & R & F). split; [constructor| |intros k []]. exists [].
  split; [eapply rep_clear; eauto|constructor].
Qed.
Lemma lclean_pop r ks : lclean r ks -> pop r = match ks with [] => None | k :: _ => Some k end.
Proof.
  intros C. destruct (lc_rep C) as (l & R & F). rewrite (rep_pop R). destruct F; auto.
Qed.

(** the dict of values against the entries *)
Definition keys_of (es : list entry) := map fst es.
Record vclean (vs : list (K * (V * Z))) (es : list entry) : Prop := {
  vc_dict : NoDup (dkeys vs); vc_nodup : NoDup (keys_of es);
  vc_get : forall k x, dget keqb vs k = Some x <-> In (k, x) es }.
Lemma vclean_nil : vclean [] [].
Proof. split; [constructor|constructor|]. intros; cbn; split; [discriminate|tauto]. Qed.
Lemma in_keys (es : list entry) k : In k (keys_of es) <-> exists x, In (k, x) es.
Proof.
  unfold keys_of. rewrite in_map_iff. split.
  - intros ([k' x] & <- & H). eauto.
  - intros [x H]. now exists (k, x).
Qed.
Lemma in_without k k' x (es : list entry) : In (k', x) (without keqb k es) <-> In (k', x) es /\ k' <> k.
Proof. unfold without. rewrite filter_In, negb_true_iff. cbn [fst]. rewrite keqb_false. intuition. Qed.
Lemma keys_without k (es : list entry) : keys_of (without keqb k es) = wo k (keys_of es).
Proof. induction es as [|[k' x] es IH]; cbn; auto. destruct (keqb k k'); cbn; [exact IH|]. f_equal. exact IH. Qed.
Lemma vclean_get vs es k : vclean vs es -> dget keqb vs k = lookup keqb k es.
Proof.
  intros C. unfold lookup. destruct (find (fun e => keqb k (fst e)) es) as [[k' x]|] eqn:E; cbn.
  - apply find_some in E as [I J]. cbn in J. apply keq in J. subst. now apply (vc_get C).
  - destruct (dget keqb vs k) as [x|] eqn:E'; auto. apply (vc_get C) in E'.
    apply (find_none _ _ E) in E'. cbn in E'. rewrite keqb_refl in E'. discriminate.
Qed.
Lemma vclean_has vs es k : vclean vs es -> dhas keqb vs k = true <-> In k (keys_of es).
Proof.
  intros C. unfold dhas. rewrite in_keys. destruct (dget keqb vs k) as [x|] eqn:E.
  - split; auto. intros _. exists x. now apply (vc_get C).
  - split; [discriminate|]. intros [x X]. apply (vc_get C) in X. congruence.
Qed.
Lemma vclean_len vs es : vclean vs es -> length vs = length es.
Proof.
  intros C. assert (P : forall x, In x (dkeys vs) <-> In x (keys_of es)).
  { intros k. rewrite <- (vclean_has k C). unfold dhas. destruct (dget keqb vs k) eqn:E.
    - split; auto. intros _. apply (dget_in keqb keq) in E. unfold dkeys. apply in_map_iff. now exists (k, p).
    - apply (dget_none keqb keq) in E. split; [contradiction|discriminate]. }
  assert (E1 : length (dkeys vs) = length vs) by apply map_length.
  assert (E2 : length (keys_of es) = length es) by apply map_length. rewrite <- E1, <- E2.
  apply Nat.le_antisymm; apply NoDup_incl_length.
  - apply (vc_dict C).
  - intros x X; apply P; auto.
  - apply (vc_nodup C).
  - intros x X; apply P; auto.
Qed.
Lemma vclean_del vs es k : vclean vs es -> vclean (ddel keqb vs k) (without keqb k es).
Proof.
  intros C. split.
  - apply nodup_ddel, (vc_dict C).
  - rewrite keys_without. apply NoDup_filter, (vc_nodup C).
  - intros k' x. rewrite in_without, <- (vc_get C). destruct (k_dec keqb keq k' k) as [->|Ne].
    + rewrite (dget_ddel_same keqb keq) by apply (vc_dict C). split; [discriminate|tauto].
    + rewrite (dget_ddel_other keqb keq) by auto. tauto.
Qed.
Lemma vclean_set vs es k x : vclean vs es -> ~ In k (keys_of es) -> vclean (dset keqb vs k x) (es ++ [(k, x)]).
Proof.
  intros C N. split.
  - apply (nodup_dset keqb keq), (vc_dict C).
  - unfold keys_of in *. rewrite map_app. apply nodup_snoc; auto. apply (vc_nodup C).
  - intros k' y. rewrite in_app_iff, <- (vc_get C). cbn [In]. destruct (k_dec keqb keq k k') as [<-|Ne].
    + rewrite (dget_dset_same keqb keq). assert (dget keqb vs k = None).
      { destruct (dget keqb vs k) eqn:E; auto. apply (vc_get C) in E. exfalso. apply N, in_keys. eauto. }
      split; [intros E; injection E as <-; auto|]. intros [E|[E|[]]]; congruence.
    + rewrite (dget_dset_other keqb keq) by auto. intuition congruence.
Qed.
Lemma vclean_move vs es k x : vclean vs es -> In (k, x) es -> vclean vs (without keqb k es ++ [(k, x)]).
Proof.
  intros C I. split; [apply (vc_dict C)| |].
  - unfold keys_of in *. rewrite map_app. apply nodup_snoc.
    + fold (keys_of (without keqb k es)). rewrite keys_without. apply NoDup_filter, (vc_nodup C).
    + fold (keys_of (without keqb k es)). rewrite keys_without, in_wo. tauto.
  - intros k' y. rewrite in_app_iff, in_without, <- (vc_get C). cbn [In].
    destruct (k_dec keqb keq k' k) as [->|Ne].
    + rewrite (proj2 (vc_get C k x) I). split; [intros E; injection E as <-; auto|].
      intros [[_ E]|[E|[]]]; congruence.
    + intuition congruence.
Qed.

Definition sstate (c : cache) (es : list entry) : scache := {| cap := maxsize c; ttl := expiry c; entries := es |}.
Record clean (c : cache) (s : scache) : Prop := {
  cl_cap : cap s = maxsize c; cl_ttl : ttl s = expiry c;
  cl_l : lclean (lru_of c) (keys_of (entries s)); cl_v : vclean (values c) (entries s) }.

Lemma without_absent k (es : list entry) : ~ In k (keys_of es) -> without keqb k es = es.
Proof.
  induction es as [|[k' x] es IH]; cbn; auto. intros H. rewrite (proj2 (keqb_false k k')) by (intros ->; tauto). cbn.
  f_equal. unfold without in IH. tauto.
Qed.
Definition with_e (s : scache) es : scache := {| cap := cap s; ttl := ttl s; entries := es |}.
Lemma clean_remove c s k : clean c s -> clean (remove keqb c k) (with_e s (without keqb k (entries s))).
Proof.
  intros C. unfold remove. destruct (dhas keqb (values c) k) eqn:E.
  - split; cbn [with_content with_e cap ttl entries maxsize expiry lru_of values]; try apply C.
    + rewrite keys_without. apply lclean_discard, C.
    + apply vclean_del, C.
  - rewrite without_absent. { destruct s. exact C. }
    rewrite <- (vclean_has k (cl_v C)). congruence.
Qed.
Lemma remove_fields c k : maxsize (remove (V:=V) keqb c k) = maxsize c /\ expiry (remove keqb c k) = expiry c /\ default_fail (remove keqb c k) = default_fail c.
Proof. unfold remove. destruct (dhas keqb (values c) k); auto. Qed.
Lemma shrink_loop_fields m nb fuel : forall c c', shrink_loop keqb none_key fuel m nb c = Ok c' ->
  maxsize c' = maxsize (V:=V) c /\ expiry c' = expiry c /\ default_fail c' = default_fail c.
Proof.
  induction fuel as [|fuel IH]; intros c c'; cbn [shrink_loop]; destruct (m <? length (values c) + nb).
  - discriminate.
  - intros E; injection E as <-; auto.
  - intros E. apply IH in E as (E1 & E2 & E3). rewrite E1, E2, E3. unfold remove_popped. destruct (pop _); apply remove_fields.
  - intros E; injection E as <-; auto.
Qed.
Lemma newest_all n (l : list entry) : length l <= n -> newest n l = l.
Proof. intros H. unfold newest. replace (length l - n) with 0 by lia. reflexivity. Qed.
Lemma newest_cons n e (l : list entry) : n <= length l -> newest n (e :: l) = newest n l.
Proof. intros H. unfold newest. cbn [length]. replace (S (length l) - n) with (S (length l - n)) by lia. reflexivity. Qed.
Lemma clean_shrink_loop m nb fuel : nb <= m -> forall c s, clean c s -> length (entries s) <= fuel ->
  exists c', shrink_loop keqb none_key fuel m nb c = Ok c' /\ clean c' (with_e s (newest (m - nb) (entries s))).
Proof.
  intros Hm. induction fuel as [|fuel IH]; intros c s C Lf; cbn [shrink_loop]; rewrite (vclean_len (cl_v C)).
  - destruct (entries s) eqn:E; cbn in Lf; [|lia]. destruct (Nat.ltb_spec m (length (A:=entry) [] + nb)) as [H|H]; cbn in H; [lia|].
    exists c. split; auto. unfold newest. cbn. rewrite <- E. destruct s; exact C.
  - destruct (Nat.ltb_spec m (length (entries s) + nb)) as [H|H].
    + destruct (entries s) as [|[k x] es] eqn:E; cbn [length] in *; [lia|].
      unfold remove_popped. rewrite (lclean_pop (cl_l C)), E. cbn [keys_of map fst].
      pose proof (clean_remove k C) as C'. rewrite E in C'. unfold without in C'. cbn [filter fst] in C'. rewrite keqb_refl in C'. cbn [negb] in C'.
      pose proof (vc_nodup (cl_v C)) as N. rewrite E in N. inversion N; subst.
      fold (without keqb k es) in C'. rewrite without_absent in C' by auto.
      destruct (IH _ _ C') as (c' & R & Cc); [cbn; lia|]. exists c'. split; auto.
      rewrite newest_cons by lia. exact Cc.
    + exists c. split; auto. rewrite newest_all by lia. destruct s; exact C.
Qed.
Lemma clean_shrink fuel nb c s : nb <= 1 -> clean c s -> length (entries s) <= fuel ->
  exists c', shrink keqb none_key fuel nb c = Ok c' /\ clean c' (with_e s (make_room (cap s) nb (entries s))) /\
    default_fail c' = default_fail c.
Proof.
  intros Hn C Lf. unfold shrink, make_room. rewrite (cl_cap C). destruct (maxsize c) as [[|m]|].
  - exists c. split; auto. split; auto. destruct s; exact C.
  - destruct (@clean_shrink_loop (S m) nb fuel ltac:(lia) c s C Lf) as (c' & R & C'). exists c'. split; auto. split; auto.
    apply shrink_loop_fields in R. tauto.
  - exists c. split; auto. split; auto. destruct s; exact C.
Qed.
Lemma outdated_eq c s now t : clean c s -> has_expired c now t = outdated (ttl s) now t.
Proof.
  intros C. unfold has_expired, outdated. rewrite (cl_ttl C). destruct (expiry c) as [x|]; auto. destruct (x =? 0)%Z; auto.
Qed.
Lemma clean_fetch c s k now : clean c s ->
  let (c', r) := fetch keqb c k now in let (s', r') := sfetch keqb s k now in
  r = r' /\ clean c' s' /\ default_fail c' = default_fail c /\ length (entries s') <= length (entries s) /\
  (r = None -> lookup keqb k (entries s') = None).
Proof.
  intros C. unfold fetch, sfetch. rewrite (vclean_get k (cl_v C)). destruct (lookup keqb k (entries s)) as [[v t]|] eqn:E.
  - rewrite (outdated_eq now t C). assert (I : In (k, (v, t)) (entries s)).
    { apply (vc_get (cl_v C)). now rewrite (vclean_get k (cl_v C)). }
    assert (LE : length (without keqb k (entries s)) < length (entries s)).
    { apply in_split in I as (l1 & l2 & I). rewrite I. unfold without. rewrite filter_app. cbn [filter fst]. rewrite keqb_refl. cbn [negb].
      rewrite !app_length. cbn [length]. clear. 
      pose proof (filter_length_le (fun e : entry => negb (keqb k (fst e))) l1) as A1.
      pose proof (filter_length_le (fun e : entry => negb (keqb k (fst e))) l2) as A2.
      rewrite Nat.add_succ_r. apply le_n_S. exact (Nat.add_le_mono _ _ _ _ A1 A2). }
    destruct (outdated (ttl s) now t).
    + split; auto. split; [apply (clean_remove k C)|]. split; [apply remove_fields|]. split; [apply Nat.lt_le_incl, LE|].
      intros _. cbn [entries]. destruct (lookup keqb k (without keqb k (entries s))) eqn:E'; auto. exfalso.
      unfold lookup in E'. destruct (find _ _) as [[k' x]|] eqn:F; [|discriminate]. apply find_some in F as [F1 F2].
      cbn in F2. apply keq in F2. subst k'. apply in_without in F1. tauto.
    + split; auto. split; [|split; [reflexivity|]].
      * split; cbn [with_content with_e cap ttl entries maxsize expiry lru_of values]; try apply C.
        -- unfold keys_of. rewrite map_app. fold (keys_of (without keqb k (entries s))). rewrite keys_without. apply lclean_update, C.
        -- now apply vclean_move; [apply C|].
      * cbn [entries]. rewrite app_length. cbn [length]. split; [lia|discriminate].
  - repeat split; auto; apply C.
Qed.
Lemma lookup_none k (es : list entry) : lookup keqb k es = None <-> ~ In k (keys_of es).
Proof.
  unfold lookup. rewrite in_keys. destruct (find (fun e => keqb k (fst e)) es) as [[k' x]|] eqn:F; cbn.
  - apply find_some in F as [F1 F2]. cbn in F2. apply keq in F2. subst. split; [discriminate|]. intros H. exfalso. eauto.
  - split; auto. intros _ [x X]. apply (find_none _ _ F) in X. cbn in X. rewrite keqb_refl in X. discriminate.
Qed.
Lemma room_le m n (es : list entry) : length (make_room m n es) <= length es.
Proof. unfold make_room. destruct m as [[|m]|]; auto. unfold newest. rewrite skipn_length. lia. Qed.
Lemma in_room m n (es : list entry) x : In x (make_room m n es) -> In x es.
Proof.
  unfold make_room. destruct m as [[|m]|]; auto. unfold newest. intros H.
  rewrite <- (firstn_skipn (length es - (S m - n)) es). apply in_or_app; auto.
Qed.
Lemma clean_insert fuel c s k v now : clean c s -> lookup keqb k (entries s) = None -> length (entries s) <= fuel ->
  exists c', insert keqb none_key fuel c k v now = Ok c' /\ clean c' (sinsert keqb s k v now) /\
    default_fail c' = default_fail c /\ length (entries (sinsert keqb s k v now)) <= S (length (entries s)).
Proof.
  intros C N Lf. apply lookup_none in N. unfold insert. destruct (dhas keqb (values c) k) eqn:E.
  { apply (vclean_has k (cl_v C)) in E. contradiction. }
  destruct (@clean_shrink fuel 1 c s ltac:(lia) C Lf) as (c1 & R & C1 & D). rewrite R. cbn [bind].
  eexists. split; [reflexivity|]. unfold sinsert. rewrite without_absent by auto.
  assert (N1 : ~ In k (keys_of (make_room (cap s) 1 (entries s)))).
  { intros X. apply N. apply in_keys in X as [x X]. apply in_keys. exists x. eapply in_room; eauto. }
  split; [|split].
  - split; cbn [with_content with_e cap ttl entries maxsize expiry lru_of values]; try apply C1.
    + unfold keys_of. rewrite map_app. apply lclean_add; [apply C1|exact N1].
    + apply vclean_set; [apply C1|exact N1].
  - exact D.
  - cbn [entries]. rewrite app_length. cbn [length]. pose proof (room_le (cap s) 1 (entries s)). lia.
Qed.
Lemma collect_ok c s now : clean c s -> exists c', collect keqb c now = Ok c' /\ default_fail c' = default_fail c /\
  clean c' (with_e s (filter (fun e => negb (outdated (ttl s) (now (fst e)) (snd (snd e)))) (entries s))).
Proof.
  intros C. unfold collect.
  set (P := fun done (e : entry) => negb (mem keqb (fst e) done && outdated (ttl s) (now (fst e)) (snd (snd e)))).
  assert (G : forall rest done c', dkeys (values c) = done ++ rest -> default_fail c' = default_fail c ->
    clean c' (with_e s (filter (P done) (entries s))) ->
    exists c'', foldM (collect_one keqb now) c' rest = Ok c'' /\ default_fail c'' = default_fail c /\
      clean c'' (with_e s (filter (P (done ++ rest)) (entries s)))).
  { induction rest as [|k rest IH]; intros done c' E D Cd; cbn [foldM].
    - rewrite app_nil_r. eauto.
    - pose proof (vc_dict (cl_v C)) as ND. rewrite E in ND.
      assert (Nk : ~ In k done). { apply NoDup_remove_2 in ND. intros X. apply ND, in_or_app. auto. }
      assert (I0 : exists x, In (k, x) (entries s)).
      { apply in_keys, (vclean_has k (cl_v C)). unfold dhas. destruct (dget keqb (values c) k) eqn:Q; auto.
        apply (dget_none keqb keq) in Q. exfalso. apply Q. rewrite E. apply in_or_app. right; now left. }
      destruct I0 as [[v t] I0].
      assert (I1 : dget keqb (values c') k = Some (v, t)).
      { apply (vc_get (cl_v Cd)). cbn [with_e entries]. apply filter_In. split; auto. unfold P. cbn [fst].
        destruct (mem keqb k done) eqn:M; auto. apply (mem_spec keqb keq) in M. contradiction. }
      unfold collect_one at 1, dread at 1. rewrite I1. cbn [bind snd]. rewrite (outdated_eq (now k) t Cd). cbn [with_e ttl].
      replace (done ++ k :: rest) with ((done ++ [k]) ++ rest) by (rewrite <- app_assoc; reflexivity).
      apply IH.
      + rewrite <- app_assoc. exact E.
      + destruct (outdated _ _ _); auto. rewrite (proj2 (proj2 (remove_fields c' k))). auto.
      + assert (Q : forall (b : bool), b = outdated (ttl s) (now k) t ->
           filter (P (done ++ [k])) (entries s) = if b then without keqb k (filter (P done) (entries s)) else filter (P done) (entries s)).
        { intros b Hb. assert (W : forall e, In e (entries s) -> P (done ++ [k]) e = if b then negb (keqb k (fst e)) && P done e else P done e).
          { intros [k' [v' t']] I. unfold P. cbn [fst snd]. destruct (k_dec keqb keq k k') as [<-|Ne].
            - assert ((v', t') = (v, t)).
              { apply (vc_get (cl_v C)) in I. apply (vc_get (cl_v C)) in I0. congruence. }
              injection H as -> ->. rewrite <- Hb. rewrite (proj2 (mem_spec keqb keq k (done ++ [k]))) by (apply in_or_app; right; now left).
              rewrite keqb_refl. destruct b; cbn; auto. now rewrite andb_false_r.
            - assert (M : mem keqb k' (done ++ [k]) = mem keqb k' done).
              { destruct (mem keqb k' done) eqn:M.
                - apply (mem_spec keqb keq). apply (mem_spec keqb keq) in M. apply in_or_app; auto.
                - destruct (mem keqb k' (done ++ [k])) eqn:M'; auto. apply (mem_spec keqb keq) in M'.
                  apply in_app_or in M' as [M'|[M'|[]]]; [|congruence]. apply (mem_spec keqb keq) in M'. congruence. }
              rewrite M, (proj2 (keqb_false k k')) by auto. destruct b; reflexivity. }
          clear -W. unfold without. destruct b.
          - induction (entries s) as [|e l IH]; auto. cbn [filter]. rewrite (W e) by (now left).
            assert (IH' := IH (fun x X => W x (or_intror X))). destruct (P done e); cbn [filter].
            + rewrite andb_true_r. destruct (negb _); [f_equal|]; auto.
            + rewrite andb_false_r. auto.
          - apply filter_ext_in. auto. }
        rewrite (Q _ eq_refl). destruct (outdated (ttl s) (now k) t); auto. apply (clean_remove k Cd). }
  destruct (G (dkeys (values c)) [] c eq_refl eq_refl) as (c'' & R & D & Cc).
  { replace (filter (P []) (entries s)) with (entries s); [destruct s; exact C|]. clear.
    symmetry. induction (entries s) as [|e l IH]; cbn; auto. now rewrite IH. }
  exists c''. split; auto. split; auto. cbn [app] in Cc.
  replace (filter (fun e => negb (outdated (ttl s) (now (fst e)) (snd (snd e)))) (entries s)) with (filter (P (dkeys (values c))) (entries s)); auto.
  apply filter_ext_in. intros [k [v t]] I. unfold P. cbn [fst snd].
  rewrite (proj2 (mem_spec keqb keq k (dkeys (values c)))); auto.
  apply (vc_get (cl_v C)) in I. apply (dget_in keqb keq) in I. unfold dkeys. apply in_map_iff. now exists (k, (v, t)).
Qed.
Lemma filter_len A (f : A -> bool) l : length (filter f l) <= length l.
Proof. apply filter_length_le. Qed.

Lemma clean_call fuel c s call : clean c s -> length (entries s) < fuel ->
  match call with CInsert k _ _ => lookup keqb k (entries s) = None | _ => True end ->
  exists c', do_call keqb none_key fuel c call = Ok (c', snd (scall keqb (default_fail c) s call)) /\
    clean c' (fst (scall keqb (default_fail c) s call)) /\ default_fail c' = default_fail c /\
    length (entries (fst (scall keqb (default_fail c) s call))) <= S (length (entries s)).
Proof.
  intros C Lf NO. destruct call as [k now|k v now|k| |now|m x|k v now now']; cbn [do_call scall].
  - pose proof (clean_fetch k now C) as H. destruct (fetch keqb c k now) as [c' r]. destruct (sfetch keqb s k now) as [s' r'].
    destruct H as (<- & C' & D & L & _). exists c'. cbn [fst snd]. split; [destruct r; auto|]. split; auto.
  - destruct (@clean_insert fuel c s k v now C NO ltac:(lia)) as (c' & R & C' & D & L). rewrite R. cbn [bind fst snd]. exists c'. auto.
  - eexists. split; [reflexivity|]. cbn [fst snd]. split; [apply (clean_remove k C)|]. split; [apply remove_fields|].
    cbn [entries]. apply le_S. apply filter_length_le.
  - eexists. split; [reflexivity|]. cbn [fst snd]. split; [|split; [reflexivity|cbn; lia]]. split; cbn; try apply C.
    + eapply lclean_clear. apply C.
    + apply vclean_nil.
  - destruct (collect_ok now C) as (c' & R & D & C'). rewrite R. cbn [bind fst snd]. exists c'. split; auto. split; [exact C'|].
    split; auto. cbn [entries]. apply le_S. apply filter_length_le.
  - unfold reconfigure. set (c0 := {| maxsize := m |}). set (s0 := {| cap := m; ttl := x; entries := entries s |}).
    assert (C0 : clean c0 s0) by (split; cbn; auto; apply C).
    destruct (@clean_shrink fuel 0 c0 s0 ltac:(lia) C0) as (c' & R & C' & D); [cbn; lia|]. rewrite R. cbn [bind fst snd]. exists c'. split; auto.
    split; [exact C'|]. split; [exact D|]. cbn [entries]. pose proof (room_le m 0 (entries s)). lia.
  - unfold fetch_gen. pose proof (clean_fetch k now C) as H. destruct (fetch keqb c k now) as [c' r]. destruct (sfetch keqb s k now) as [s' r'].
    destruct H as (<- & C' & D & L & N). rewrite D. destruct r as [w|].
    + exists c'. cbn [fst snd]. auto.
    + destruct (default_fail c).
      * exists c'. cbn [fst snd]. auto.
      * destruct (@clean_insert fuel c' s' k v now' C' (N eq_refl) ltac:(lia)) as (c2 & R & C2 & D2 & L2). rewrite R. cbn [bind fst snd].
        exists c2. split; auto. split; auto. split; [congruence|]. lia.
Qed.
Lemma clean_run fuel cs : forall c s, clean c s -> length (entries s) + length cs <= fuel ->
  never_overwrites keqb (default_fail c) s cs ->
  exists c', run_calls keqb none_key fuel c cs = Ok (c', snd (srun keqb (default_fail c) s cs)) /\
    clean c' (fst (srun keqb (default_fail c) s cs)).
Proof.
  induction cs as [|call cs IH]; intros c s C Lf NO; cbn [run_calls srun].
  - exists c. cbn. auto.
  - destruct NO as [N1 N2]. cbn [length] in Lf.
    destruct (@clean_call fuel c s call C ltac:(lia) N1) as (c1 & R & C1 & D1 & L1). rewrite R. cbn [bind fst snd].
    destruct (scall keqb (default_fail c) s call) as [s1 a] eqn:S1. cbn [fst snd] in *.
    destruct (IH c1 s1 C1 ltac:(lia)) as (c2 & R2 & C2). { now rewrite D1. }
    rewrite R2. cbn [bind fst snd]. rewrite D1 in *. destruct (srun keqb (default_fail c) s1 cs) as [s2 l] eqn:S2.
    cbn [fst snd] in *. exists c2. auto.
Qed.
Lemma clean_new m x fail : clean (new_cache K V m x fail) {| cap := m; ttl := x; entries := [] |}.
Proof. split; cbn; auto; [apply lclean_new|apply vclean_nil]. Qed.

Lemma cache_exact m x fail cs fuel : length cs <= fuel ->
  never_overwrites keqb fail {| cap := m; ttl := x; entries := [] |} cs ->
  exists c, let (s, answers) := srun keqb fail {| cap := m; ttl := x; entries := [] |} cs in
    run_calls keqb none_key fuel (new_cache K V m x fail) cs = Ok (c, answers) /\
    size c = length (entries s) /\
    (forall k, In k (stored_keys c) <-> exists y, In (k, y) (entries s)) /\
    (forall k, has_key keqb c k = true <-> exists y, In (k, y) (entries s)) /\
    (forall fuel', length (entries s) < fuel' -> lru_tolist fuel' (lru_of c) 0 = Ok (map (fun e => Some (fst e)) (entries s))).
Proof.
  intros Lf NO. destruct (@clean_run fuel cs (new_cache K V m x fail) {| cap := m; ttl := x; entries := [] |} (clean_new m x fail)) as (c & R & C); auto.
  exists c. cbn [default_fail new_cache] in *. destruct (srun keqb fail {| cap := m; ttl := x; entries := [] |} cs) as [s a]. cbn [fst snd] in *.
  split; auto. split; [apply vclean_len, C|]. 
  assert (HK : forall k, has_key keqb c k = true <-> exists y, In (k, y) (entries s)).
  { intros k. unfold has_key. rewrite (vclean_has k (cl_v C)). apply in_keys. }
  split; [|split; auto].
  - intros k. rewrite <- HK. unfold has_key, stored_keys, dhas. destruct (dget keqb (values c) k) eqn:E.
    + split; auto. intros _. apply (dget_in keqb keq) in E. unfold dkeys. apply in_map_iff. now exists (k, p).
    + apply (dget_none keqb keq) in E. split; [contradiction|discriminate].
  - intros fuel' Lf'. destruct (lc_rep (cl_l C)) as (l & R' & F). rewrite (rep_tolist R').
    + f_equal. unfold keys_of in F. clear -F. remember (map fst (entries s)) as ks. revert Heqks. generalize (entries s). induction F; intros [|e es] E; try discriminate; auto.
      injection E as -> E. cbn [map]. f_equal; auto.
    + apply Forall2_length in F. rewrite F. unfold keys_of. rewrite map_length. exact Lf'.
Qed.
End C.
