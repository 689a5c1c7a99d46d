(** The cache follows its list of marks, for every history. *)
From Verif Require Import Py PyLemmas Cache_spec Cache_model Cache_proof1 Cache_proof2 Cache_proof3 Cachem_spec.
Set Implicit Arguments.

Section C.
Variables K V : Type.
Variable keqb : K -> K -> bool.
Hypothesis keq : forall x y, keqb x y = true <-> x = y.
Variable none_key : K.
Notation cache := (cache K V). Notation mark := (mark K V). Notation mcache := (mcache K V). Notation entry := (entry K V).
Notation krefl := (keqb_refl keqb keq). Notation kfalse := (keqb_false keqb keq).

Lemma live_app (a b : list mark) : live (a ++ b) = live a ++ live b.
Proof. apply flat_map_app. Qed.
Lemma live_snoc (a : list mark) e : live (a ++ [Live e]) = live a ++ [e].
Proof. apply live_app. Qed.
Lemma in_live e (l : list mark) : In e (live l) <-> In (Live e) l.
Proof.
  unfold live. rewrite in_flat_map. split.
  - intros ([e'|k] & I & J); cbn in J; [|destruct J]. destruct J as [->|[]]. exact I.
  - intros I. exists (Live e). split; auto. now left.
Qed.
Lemma live_forget k (l : list mark) : live (forget keqb k l) = without keqb k (live l).
Proof. induction l as [|[e|k'] l IH]; cbn; auto. destruct (keqb k (fst e)); cbn; [exact IH|]. f_equal. exact IH. Qed.
Lemma live_leave k (l : list mark) : live (leave keqb k l) = without keqb k (live l).
Proof. induction l as [|[e|k'] l IH]; cbn; auto. destruct (keqb k (fst e)); cbn; [exact IH|]. f_equal. exact IH. Qed.
Lemma forget_absent k (l : list mark) : ~ In k (keys_of (live l)) -> forget keqb k l = l.
Proof.
  induction l as [|[e|k'] l IH]; cbn; auto.
  - intros H. rewrite (proj2 (kfalse k (fst e))) by (intros ->; tauto). cbn. f_equal. apply IH. tauto.
  - intros H. f_equal. auto.
Qed.
Lemma leave_absent k (l : list mark) : ~ In k (keys_of (live l)) -> leave keqb k l = l.
Proof.
  induction l as [|[e|k'] l IH]; cbn; auto.
  - intros H. rewrite (proj2 (kfalse k (fst e))) by (intros ->; tauto). f_equal. apply IH. tauto.
  - intros H. f_equal. auto.
Qed.
Lemma stored_spec k (l : list mark) : stored keqb k l = true <-> In k (keys_of (live l)).
Proof.
  unfold stored, keys_of. rewrite existsb_exists, in_map_iff. split.
  - intros (e & I & J). apply keq in J. eauto.
  - intros (e & <- & I). exists e. split; auto. apply krefl.
Qed.

Lemma nodup_moved k (es : list entry) : NoDup (keys_of es) -> NoDup (map fst (without keqb k es) ++ [k]).
Proof.
  intros N. apply nodup_snoc.
  - change (NoDup (keys_of (without keqb k es))). rewrite keys_without. now apply NoDup_filter.
  - change (~ In k (keys_of (without keqb k es))). rewrite keys_without, (in_wo keqb keq). tauto.
Qed.

(** the ring against the marks *)
Definition marks_node (r : lru K) (n : nat) (m : mark) : Prop :=
  item r n = Some (mark_key m) /\
  match m with Live e => dget keqb (lkeys r) (fst e) = Some n | Leftover k => dget keqb (lkeys r) k <> Some n end.
Record lmarks (r : lru K) (l : list mark) : Prop := {
  lm_nodup : NoDup (keys_of (live l));
  lm_rep : exists ns, rep keqb r ns /\ Forall2 (marks_node r) ns l }.
Lemma lmarks_new : lmarks (new_lru K) [].
Proof. split; [constructor|]. exists []. split; [apply rep_new|constructor]. Qed.
Lemma lmarks_clear r l : lmarks r l -> lmarks (lru_clear r) [].
Proof.
  intros C. destruct (lm_rep C) as (ns & R & F). split; [constructor|]. exists []. split; [eapply rep_clear; eauto|constructor].
Qed.
Lemma registered r l k : lmarks r l -> In k (keys_of (live l)) -> exists n, dget keqb (lkeys r) k = Some n.
Proof.
  intros C I. apply in_keys in I as [x I]. apply in_live in I. destruct (lm_rep C) as (ns & R & F).
  clear R C. induction F as [|n m ns l H F IH]; [destruct I|]. destruct I as [->|I]; [|auto].
  destruct H as [_ H]. cbn in H. eauto.
Qed.
Lemma forall2_weak A B (P Q : A -> B -> Prop) l l' : (forall x y, In x l -> In y l' -> P x y -> Q x y) -> Forall2 P l l' -> Forall2 Q l l'.
Proof.
  intros H F. induction F; constructor.
  - apply H; auto; now left.
  - apply IHF. intros; apply H; auto; now right.
Qed.
Lemma lmarks_discard r l k : lmarks r l -> lmarks (discard keqb r k) (forget keqb k l).
Proof.
  intros C. destruct (dget keqb (lkeys r) k) as [n|] eqn:E.
  - destruct (lm_rep C) as (ns & R & F). destruct (r_keys R _ E) as [I J]. apply in_split in I as (n1 & n2 & ->).
    apply Forall2_app_inv_l in F as (l1 & l2' & F1 & F2 & El). inversion F2 as [|? m ? l2 Hm F3]; subst l2' l. subst.
    assert (M : exists x, m = Live (k, x)).
    { destruct Hm as [H1 H2]. destruct m as [[k' x]|k']; cbn in *.
      - exists x. congruence.
      - congruence. }
    destruct M as [x ->].
    pose proof (lm_nodup C) as N. rewrite live_app in N. change (live (Live (k, x) :: l2)) with ((k, x) :: live l2) in N. unfold keys_of in N. rewrite map_app in N. cbn [map fst] in N.
    assert (FA : forget keqb k (l1 ++ Live (k, x) :: l2) = l1 ++ l2).
    { unfold forget. rewrite filter_app. cbn [filter is_live fst]. rewrite krefl. cbn [negb].
      apply NoDup_remove_2 in N. rewrite in_app_iff in N.
      pose proof (@forget_absent k l1) as A1. pose proof (@forget_absent k l2) as A2. unfold forget in A1, A2.
      rewrite A1, A2; auto. }
    rewrite FA. split.
    + unfold keys_of. rewrite live_app, map_app. eapply NoDup_remove_1. exact N.
    + exists (n1 ++ n2). split; [eapply rep_discard; eauto|].
      assert (W : forall n' m', In n' (n1 ++ n2) -> In m' (l1 ++ l2) -> marks_node r n' m' -> marks_node (discard keqb r k) n' m').
      { intros n' m' In' Im [H1 H2]. unfold marks_node, discard. rewrite E. cbn [item lkeys]. split; auto.
        destruct m' as [[k' x']|k']; cbn [fst] in *.
        - rewrite (dget_ddel_other keqb keq); auto. intros Ek. apply NoDup_remove_2 in N. apply N. rewrite <- map_app, <- live_app.
          apply in_map_iff. exists (k', x'). split; auto. now apply in_live.
        - destruct (k_dec keqb keq k' k) as [->|Ne].
          + rewrite (dget_ddel_same keqb keq) by apply (r_dict R). discriminate.
          + rewrite (dget_ddel_other keqb keq) by auto. auto. }
      eapply forall2_weak; [exact W|]. now apply Forall2_app.
  - rewrite forget_absent; [now rewrite discard_missing|]. intros X. destruct (registered _ C X). congruence.
Qed.
Lemma lmarks_add r l k x : lmarks r l -> lmarks (add keqb r k) (leave keqb k l ++ [Live (k, x)]).
Proof.
  intros C. destruct (lm_rep C) as (ns & R & F). destruct (rep_add keq k R) as (R' & I1 & I2). split.
  - unfold keys_of. rewrite live_snoc, live_leave, map_app. cbn [map fst]. apply nodup_moved, (lm_nodup C).
  - exists (ns ++ [fresh r]). split; auto. apply Forall2_app.
    + assert (Fr : forall n, In n ns -> n < fresh r) by (intros; apply (r_fresh R); now right).
      assert (G : forall n m, In n ns -> marks_node r n m -> marks_node (add keqb r k) n (if is_live keqb k m then Leftover k else m)).
      { intros n m Nn [H1 H2]. unfold marks_node. rewrite I2 by auto. unfold add. cbn [lkeys].
        destruct m as [[k' x']|k']; cbn [is_live mark_key fst] in *.
        - destruct (keqb k k') eqn:Ek.
          + apply keq in Ek. subst k'. cbn [mark_key]. split; auto. rewrite (dget_dset_same keqb keq). intros Q. injection Q as Q.
            apply Fr in Nn. lia.
          + cbn [mark_key fst]. split; auto. apply kfalse in Ek. now rewrite (dget_dset_other keqb keq) by auto.
        - split; auto. destruct (k_dec keqb keq k k') as [<-|Ne].
          + rewrite (dget_dset_same keqb keq). intros Q. injection Q as Q. apply Fr in Nn. lia.
          + now rewrite (dget_dset_other keqb keq) by auto. }
      clear -F G. induction F as [|n m ns l H F IH]; cbn [leave map]; constructor.
      * apply G; auto. now left.
      * apply IH. intros; apply G; auto. now right.
    + constructor; [|constructor]. split; auto. cbn [fst]. unfold add; cbn [lkeys]. apply (dget_dset_same keqb keq).
Qed.
Lemma lmarks_update r l k x : lmarks r l -> lmarks (lru_update keqb r k) (forget keqb k l ++ [Live (k, x)]).
Proof.
  intros C. unfold lru_update. pose proof (lmarks_add k x (lmarks_discard k C)) as H. rewrite leave_absent in H; auto.
  rewrite live_forget, keys_without, (in_wo keqb keq). tauto.
Qed.
Lemma lmarks_pop r l : lmarks r l -> pop r = match l with [] => None | m :: _ => Some (mark_key m) end.
Proof.
  intros C. destruct (lm_rep C) as (ns & R & F). rewrite (rep_pop R). destruct F as [|n m ns l H F]; auto. apply H.
Qed.

Record follows (c : cache) (s : mcache) : Prop := {
  fo_cap : mcap s = maxsize c; fo_ttl : mttl s = expiry c;
  fo_l : lmarks (lru_of c) (marks s); fo_v : vclean keqb (values c) (live (marks s)) }.
Lemma follows_new m x fail : follows (new_cache K V m x fail) {| mcap := m; mttl := x; marks := [] |}.
Proof. split; cbn; auto; [apply lmarks_new|apply vclean_nil]. Qed.
Lemma has_stored c s k : follows c s -> dhas keqb (values c) k = stored keqb k (marks s).
Proof.
  intros C. apply Bool.eq_true_iff_eq. rewrite stored_spec. apply (vclean_has k (fo_v C)).
Qed.
Lemma follows_remove c s k : follows c s -> follows (remove keqb c k) (with_marks s (forget keqb k (marks s))).
Proof.
  intros C. unfold remove. rewrite (has_stored k C). destruct (stored keqb k (marks s)) eqn:E.
  - split; cbn [with_content with_marks mcap mttl marks maxsize expiry lru_of values]; try apply C.
    + apply lmarks_discard, C.
    + rewrite live_forget. apply vclean_del, C. exact keq.
  - rewrite forget_absent. { destruct s. exact C. } rewrite <- stored_spec. congruence.
Qed.
Lemma forget_one k (l : list mark) : NoDup (keys_of (live l)) -> In k (keys_of (live l)) ->
  S (length (live (forget keqb k l))) = length (live l).
Proof.
  intros N I. rewrite live_forget. apply in_keys in I as [x I]. apply in_split in I as (a & b & E). rewrite E in *.
  unfold keys_of in N. rewrite map_app in N. cbn [map fst] in N. apply NoDup_remove_2 in N. rewrite in_app_iff in N.
  unfold without. rewrite filter_app. cbn [filter fst]. rewrite krefl. cbn [negb].
  pose proof (@without_absent K V keqb keq k a) as A. pose proof (@without_absent K V keqb keq k b) as B. unfold without in A, B.
  rewrite A, B by (unfold keys_of; tauto). rewrite !app_length. cbn [length]. lia.
Qed.
Lemma follows_len c s : follows c s -> length (values c) = length (live (marks s)).
Proof. intros C. apply (vclean_len keq (fo_v C)). Qed.
(** eviction: either it succeeds, or it never returns *)
Lemma follows_shrink_loop m nb fuel : nb <= m -> forall c s, follows c s ->
  match evict keqb (length (live (marks s)) + nb - m) (marks s) with
  | Some l => (exists c', shrink_loop keqb none_key fuel m nb c = Ok c' /\ follows c' (with_marks s l)) \/
              (fuel < length (live (marks s)) /\ shrink_loop keqb none_key fuel m nb c = Err OutOfFuel)
  | None => shrink_loop keqb none_key fuel m nb c = Err OutOfFuel
  end.
Proof.
  intros Hm. induction fuel as [|fuel IH]; intros c s C.
  - cbn [shrink_loop]. rewrite (follows_len C). destruct (Nat.ltb_spec m (length (live (marks s)) + nb)) as [H|H].
    + destruct (evict _ _ _) eqn:E; auto. right. split; auto. lia.
    + replace (length (live (marks s)) + nb - m) with 0 by lia. cbn [evict]. left. exists c. split; auto. destruct s; exact C.
  - destruct (Nat.ltb_spec m (length (live (marks s)) + nb)) as [H|H].
    + destruct (length (live (marks s)) + nb - m) as [|n] eqn:En; [lia|]. cbn [evict].
      destruct (marks s) as [|mk l] eqn:Em. { cbn in H, En. lia. }
      assert (P : remove_popped keqb none_key c = remove keqb c (mark_key mk)).
      { unfold remove_popped. rewrite (lmarks_pop (fo_l C)), Em. reflexivity. }
      destruct (stored keqb (mark_key mk) (mk :: l)) eqn:St.
      * pose proof (follows_remove (mark_key mk) C) as C'. rewrite <- P in C'. specialize (IH _ _ C'). rewrite Em in IH.
        cbn [with_marks marks mcap mttl] in IH.
        pose proof (lm_nodup (fo_l C)) as N. rewrite Em in N. apply stored_spec in St. pose proof (@forget_one _ _ N St) as L1.
        replace (length (live (forget keqb (mark_key mk) (mk :: l))) + nb - m) with n in IH by lia.
        cbn [shrink_loop]. rewrite (follows_len C), Em, (proj2 (Nat.ltb_lt _ _) H).
        destruct (evict _ _ _); auto. destruct IH as [IH|[IH1 IH2]]; [left; exact IH|right; split; [lia|exact IH2]].
      * apply stuck; [rewrite (follows_len C), Em; exact H|]. rewrite P. unfold remove. rewrite (has_stored _ C), Em, St. reflexivity.
    + cbn [shrink_loop]. rewrite (follows_len C), (proj2 (Nat.ltb_ge _ _) H).
      replace (length (live (marks s)) + nb - m) with 0 by lia. cbn [evict]. left. exists c. split; auto. destruct s; exact C.
Qed.
Lemma follows_shrink fuel nb c s : nb <= 1 -> follows c s ->
  match evict keqb (excess (mcap s) nb (marks s)) (marks s) with
  | Some l => (exists c', shrink keqb none_key fuel nb c = Ok c' /\ follows c' (with_marks s l) /\ default_fail c' = default_fail c) \/
              (fuel < length (live (marks s)) /\ shrink keqb none_key fuel nb c = Err OutOfFuel)
  | None => shrink keqb none_key fuel nb c = Err OutOfFuel
  end.
Proof.
  intros Hn C. unfold shrink, excess. rewrite (fo_cap C). destruct (maxsize c) as [[|m]|]; cbn [evict].
  - left. exists c. split; auto. split; auto. destruct s; exact C.
  - pose proof (@follows_shrink_loop (S m) nb fuel ltac:(lia) c s C) as H. destruct (evict _ _ _); auto.
    destruct H as [(c' & R & F)|H]; [left|right; exact H]. exists c'. split; auto. split; auto. apply shrink_loop_fields in R. tauto.
  - left. exists c. split; auto. split; auto. destruct s; exact C.
Qed.
Lemma expired_eq c s now t : follows c s -> has_expired c now t = outdated (mttl s) now t.
Proof. intros C. unfold has_expired, outdated. rewrite (fo_ttl C). destruct (expiry c) as [x|]; auto. destruct (x =? 0)%Z; auto. Qed.
Lemma evict_live_le n : forall (l l' : list mark), evict keqb n l = Some l' -> length (live l') <= length (live l).
Proof.
  induction n as [|n IH]; intros l l'; cbn [evict]; [intros E; injection E as <-; auto|].
  destruct l as [|m l]; [discriminate|]. destruct (stored _ _ _); [|discriminate]. intros E. apply IH in E. rewrite live_forget in E.
  etransitivity; [exact E|]. unfold without. apply filter_length_le.
Qed.
Lemma evict_live_in n : forall (l l' : list mark) e, evict keqb n l = Some l' -> In e (live l') -> In e (live l).
Proof.
  induction n as [|n IH]; intros l l' e; cbn [evict]; [intros E; injection E as <-; auto|].
  destruct l as [|m l]; [discriminate|]. destruct (stored _ _ _); [|discriminate]. intros E I. apply (IH _ _ _ E) in I. rewrite live_forget in I.
  unfold without in I. apply filter_In in I. tauto.
Qed.
Lemma follows_fetch c s k now : follows c s ->
  let (c', r) := fetch keqb c k now in let (s', r') := mfetch keqb s k now in
  r = r' /\ follows c' s' /\ default_fail c' = default_fail c /\ length (live (marks s')) <= length (live (marks s)).
Proof.
  intros C. unfold fetch, mfetch. rewrite (vclean_get keq k (fo_v C)). destruct (lookup keqb k (live (marks s))) as [[v t]|] eqn:E.
  - rewrite (expired_eq now t C). assert (I : In (k, (v, t)) (live (marks s))).
    { apply (vc_get (fo_v C)). now rewrite (vclean_get keq k (fo_v C)). }
    assert (L1 : S (length (live (forget keqb k (marks s)))) = length (live (marks s))).
    { apply forget_one; [apply C|]. apply in_keys. eauto. }
    destruct (outdated (mttl s) now t).
    + split; auto. split; [apply (follows_remove k C)|]. split; [apply remove_fields|]. cbn [with_marks marks]. lia.
    + split; auto. split; [|split; [reflexivity|]].
      * split; cbn [with_content with_marks mcap mttl marks maxsize expiry lru_of values]; try apply C.
        -- apply lmarks_update, C.
        -- rewrite live_snoc, live_forget. apply vclean_move; auto. apply C.
      * cbn [with_marks marks]. rewrite live_snoc, app_length. cbn [length]. lia.
  - repeat split; auto; apply C.
Qed.
Lemma follows_insert fuel c s k v now : follows c s ->
  match minsert keqb s k v now with
  | Some s' => (exists c', insert keqb none_key fuel c k v now = Ok c' /\ follows c' s' /\
      default_fail c' = default_fail c /\ length (live (marks s')) <= S (length (live (marks s)))) \/
      (fuel < length (live (marks s)) /\ insert keqb none_key fuel c k v now = Err OutOfFuel)
  | None => insert keqb none_key fuel c k v now = Err OutOfFuel
  end.
Proof.
  intros C. unfold minsert, insert. rewrite (has_stored k C). destruct (stored keqb k (marks s)) eqn:E.
  - left. cbn [bind]. eexists. split; [reflexivity|]. split; [|split; [reflexivity|]].
    + split; cbn [with_content with_marks mcap mttl marks maxsize expiry lru_of values]; try apply C.
      * apply lmarks_add, C.
      * rewrite live_snoc, live_leave.
        assert (N : ~ In k (keys_of (without keqb k (live (marks s))))) by (rewrite keys_without, (in_wo keqb keq); tauto).
        pose proof (fo_v C) as W. split.
        -- apply (nodup_dset keqb keq), (vc_dict W).
        -- unfold keys_of. rewrite map_app. apply nodup_moved, (vc_nodup W).
        -- intros k' y. rewrite in_app_iff, (in_without keqb keq), <- (vc_get W). cbn [In]. destruct (k_dec keqb keq k k') as [<-|Ne].
           ++ rewrite (dget_dset_same keqb keq). split; [intros Q; injection Q as <-; auto|]. intros [[_ Q]|[Q|[]]]; congruence.
           ++ rewrite (dget_dset_other keqb keq) by auto. intuition congruence.
    + cbn [with_marks marks]. rewrite live_snoc, live_leave, app_length. cbn [length].
      pose proof (filter_length_le (fun e : entry => negb (keqb k (fst e))) (live (marks s))) as Q. unfold without.
      rewrite Nat.add_1_r. apply le_n_S. exact Q.
  - pose proof (@follows_shrink fuel 1 c s ltac:(lia) C) as H. destruct (evict _ _ _) as [l|] eqn:Ev; cbn [option_map].
    + destruct H as [(c1 & R & C1 & D)|[L R]]; [left|right; split; [exact L|now rewrite R]]. rewrite R. cbn [bind]. eexists. split; [reflexivity|].
      assert (N : ~ In k (keys_of (live l))).
      { intros X. apply in_keys in X as [x X]. apply (evict_live_in _ _ _ Ev) in X. assert (St : stored keqb k (marks s) = true).
        { apply stored_spec, in_keys. eauto. } congruence. }
      split; [|split; [exact D|]].
      * split; cbn [with_content with_marks mcap mttl marks maxsize expiry lru_of values]; try apply C1.
        -- rewrite <- (leave_absent k l N). apply lmarks_add. apply (fo_l C1).
        -- rewrite live_snoc. apply vclean_set; auto. apply (fo_v C1).
      * cbn [with_marks marks]. rewrite live_snoc, app_length. cbn [length]. apply evict_live_le in Ev. lia.
    + rewrite H. reflexivity.
Qed.
Definition sweep (s : mcache) (P : entry -> bool) (l : list mark) : list mark :=
  filter (fun m => match m with Live e => P e | Leftover _ => true end) l.
Lemma live_sweep s (P : entry -> bool) l : live (sweep s P l) = filter P (live l).
Proof. induction l as [|[e|k] l IH]; cbn; auto. destruct (P e); cbn; [f_equal|]; exact IH. Qed.
Lemma forget_sweep s k (P : entry -> bool) l : forget keqb k (sweep s P l) = sweep s (fun e => negb (keqb k (fst e)) && P e) l.
Proof.
  induction l as [|[e|k'] l IH]; cbn; auto.
  - destruct (P e); cbn.
    + rewrite andb_true_r. destruct (negb (keqb k (fst e))); [f_equal|]; exact IH.
    + rewrite andb_false_r. exact IH.
  - f_equal. exact IH.
Qed.
Lemma sweep_ext s (P Q : entry -> bool) l : (forall e, In e (live l) -> P e = Q e) -> sweep s P l = sweep s Q l.
Proof.
  induction l as [|[e|k'] l IH]; cbn; auto.
  - intros H. rewrite (H e) by (now left). unfold sweep in IH. rewrite IH; auto.
  - intros H. f_equal. auto.
Qed.
Lemma follows_collect c s now : follows c s -> exists c', collect keqb c now = Ok c' /\ default_fail c' = default_fail c /\
  follows c' (with_marks s (sweep s (fun e => negb (outdated (mttl s) (now (fst e)) (snd (snd e)))) (marks s))).
Proof.
  intros C. unfold collect. pose proof (fo_v C) as W.
  set (P := fun done (e : entry) => negb (mem keqb (fst e) done && outdated (mttl s) (now (fst e)) (snd (snd e)))).
  assert (G : forall rest done c', dkeys (values c) = done ++ rest -> default_fail c' = default_fail c ->
    follows c' (with_marks s (sweep s (P done) (marks s))) ->
    exists c'', foldM (collect_one keqb now) c' rest = Ok c'' /\ default_fail c'' = default_fail c /\
      follows c'' (with_marks s (sweep s (P (done ++ rest)) (marks s)))).
  { induction rest as [|k rest IH]; intros done c' E D Cd; cbn [foldM].
    - rewrite app_nil_r. eauto.
    - pose proof (vc_dict W) as ND. rewrite E in ND.
      assert (Nk : ~ In k done). { apply NoDup_remove_2 in ND. intros X. apply ND, in_or_app. auto. }
      assert (I0 : exists x, In (k, x) (live (marks s))).
      { apply in_keys, (vclean_has k W). unfold dhas. destruct (dget keqb (values c) k) eqn:Q; auto.
        apply (dget_none keqb keq) in Q. exfalso. apply Q. rewrite E. apply in_or_app. right; now left. }
      destruct I0 as [[v t] I0].
      assert (I1 : dget keqb (values c') k = Some (v, t)).
      { apply (vc_get (fo_v Cd)). cbn [with_marks marks]. rewrite live_sweep. apply filter_In. split; auto. unfold P. cbn [fst].
        destruct (mem keqb k done) eqn:M; auto. apply (mem_spec keqb keq) in M. contradiction. }
      unfold collect_one at 1, dread at 1. rewrite I1. cbn [bind snd]. rewrite (expired_eq (now k) t Cd). cbn [with_marks mttl].
      replace (done ++ k :: rest) with ((done ++ [k]) ++ rest) by (rewrite <- app_assoc; reflexivity).
      apply IH.
      + rewrite <- app_assoc. exact E.
      + destruct (outdated _ _ _); auto. rewrite (proj2 (proj2 (remove_fields keqb c' k))). auto.
      + assert (Q : forall (b : bool), b = outdated (mttl s) (now k) t ->
           sweep s (P (done ++ [k])) (marks s) = if b then forget keqb k (sweep s (P done) (marks s)) else sweep s (P done) (marks s)).
        { intros b Hb. assert (Wd : forall e, In e (live (marks s)) -> P (done ++ [k]) e = if b then negb (keqb k (fst e)) && P done e else P done e).
          { intros [k' [v' t']] I. unfold P. cbn [fst snd]. destruct (k_dec keqb keq k k') as [<-|Ne].
            - assert (Q : (v', t') = (v, t)).
              { apply (vc_get W) in I. apply (vc_get W) in I0. congruence. }
              injection Q as -> ->. rewrite <- Hb. rewrite (proj2 (mem_spec keqb keq k (done ++ [k]))) by (apply in_or_app; right; now left).
              rewrite krefl. destruct b; cbn; auto. now rewrite andb_false_r.
            - assert (M : mem keqb k' (done ++ [k]) = mem keqb k' done).
              { destruct (mem keqb k' done) eqn:M.
                - apply (mem_spec keqb keq). apply (mem_spec keqb keq) in M. apply in_or_app; auto.
                - destruct (mem keqb k' (done ++ [k])) eqn:M'; auto. apply (mem_spec keqb keq) in M'.
                  apply in_app_or in M' as [M'|[M'|[]]]; [|congruence]. apply (mem_spec keqb keq) in M'. congruence. }
              rewrite M, (proj2 (kfalse k k')) by auto. destruct b; reflexivity. }
          destruct b; [rewrite forget_sweep|]; apply sweep_ext; auto. }
        rewrite (Q _ eq_refl). destruct (outdated (mttl s) (now k) t); auto. apply (follows_remove k Cd). }
  destruct (G (dkeys (values c)) [] c eq_refl eq_refl) as (c'' & R & D & Cc).
  { replace (sweep s (P []) (marks s)) with (marks s); [destruct s; exact C|]. clear.
    symmetry. induction (marks s) as [|[e|k] l IH]; cbn; auto; now f_equal. }
  exists c''. split; auto. split; auto. cbn [app] in Cc.
  replace (sweep s (fun e => negb (outdated (mttl s) (now (fst e)) (snd (snd e)))) (marks s)) with (sweep s (P (dkeys (values c))) (marks s)); auto.
  apply sweep_ext. intros [k [v t]] I. unfold P. cbn [fst snd].
  rewrite (proj2 (mem_spec keqb keq k (dkeys (values c)))); auto.
  apply (vc_get W) in I. apply (dget_in keqb keq) in I. unfold dkeys. apply in_map_iff. now exists (k, (v, t)).
Qed.

Lemma follows_call fuel c s call : follows c s ->
  match mcall keqb (default_fail c) s call with
  | Some (s', a) => (exists c', do_call keqb none_key fuel c call = Ok (c', a) /\ follows c' s' /\
      default_fail c' = default_fail c /\ length (live (marks s')) <= S (length (live (marks s)))) \/
      (fuel <= length (live (marks s)) /\ do_call keqb none_key fuel c call = Err OutOfFuel)
  | None => do_call keqb none_key fuel c call = Err OutOfFuel
  end.
Proof.
  intros C. destruct call as [k now|k v now|k| |now|m x|k v now now']; cbn [do_call mcall].
  - pose proof (follows_fetch k now C) as H. destruct (fetch keqb c k now) as [c' r]. destruct (mfetch keqb s k now) as [s' r'].
    destruct H as (<- & C' & D & L). left. exists c'. split; [destruct r; auto|]. split; auto.
  - pose proof (@follows_insert fuel c s k v now C) as H. destruct (minsert keqb s k v now) as [s'|]; cbn [option_map].
    + destruct H as [(c' & R & Q)|[L R]]; [left|right; split; [lia|now rewrite R]]. exists c'. rewrite R. cbn [bind]. auto.
    + now rewrite H.
  - left. eexists. split; [reflexivity|]. split; [apply (follows_remove k C)|]. split; [apply remove_fields|].
    cbn [with_marks marks]. rewrite live_forget. apply le_S. apply filter_length_le.
  - left. eexists. split; [reflexivity|]. split; [|split; [reflexivity|cbn; lia]]. split; cbn; try apply C.
    + eapply lmarks_clear. apply C.
    + apply vclean_nil.
  - left. destruct (follows_collect now C) as (c' & R & D & C'). rewrite R. cbn [bind]. exists c'. split; auto. split; [exact C'|].
    split; auto. cbn [with_marks marks]. fold (sweep s (fun e => negb (outdated (mttl s) (now (fst e)) (snd (snd e)))) (marks s)).
    rewrite live_sweep. apply le_S. apply filter_length_le.
  - unfold reconfigure. set (c0 := {| maxsize := m |}). set (s0 := {| mcap := m; mttl := x; marks := marks s |}).
    assert (C0 : follows c0 s0) by (split; cbn; auto; apply C).
    pose proof (@follows_shrink fuel 0 c0 s0 ltac:(lia) C0) as H. cbn [s0 mcap marks] in H. destruct (evict _ _ _) as [l|] eqn:Ev; cbn [option_map].
    + destruct H as [(c' & R & C' & D)|[L R]]; [left|right; split; [cbn in L; lia|now rewrite R]]. rewrite R. cbn [bind]. exists c'. split; auto. split; [exact C'|].
      split; [exact D|]. cbn [marks]. apply evict_live_le in Ev. lia.
    + now rewrite H.
  - unfold fetch_gen. pose proof (follows_fetch k now C) as H. destruct (fetch keqb c k now) as [c' r]. destruct (mfetch keqb s k now) as [s' r'].
    destruct H as (<- & C' & D & L). rewrite D. destruct r as [w|].
    + left. exists c'. auto.
    + destruct (default_fail c) eqn:Df.
      * left. exists c'. rewrite <- D in *. auto.
      * pose proof (@follows_insert fuel c' s' k v now' C') as Q. destruct (minsert keqb s' k v now') as [s2|]; cbn [option_map].
        -- destruct Q as [(c2 & R & C2 & D2 & L2)|[Lf R]]; [left|right; split; [lia|now rewrite R]]. rewrite R. cbn [bind]. exists c2. split; auto. split; auto. split; [congruence|]. lia.
        -- rewrite Q. reflexivity.
Qed.
Lemma follows_run fuel cs : forall c s, follows c s ->
  match mrun keqb (default_fail c) s cs with
  | Some (s', l) => (exists c', run_calls keqb none_key fuel c cs = Ok (c', l) /\ follows c' s') \/
      (fuel < length (live (marks s)) + length cs /\ run_calls keqb none_key fuel c cs = Err OutOfFuel)
  | None => run_calls keqb none_key fuel c cs = Err OutOfFuel
  end.
Proof.
  induction cs as [|call cs IH]; intros c s C; cbn [run_calls mrun].
  - left. exists c. auto.
  - pose proof (@follows_call fuel c s call C) as H. destruct (mcall keqb (default_fail c) s call) as [[s1 a]|]; [|now rewrite H].
    destruct H as [(c1 & R & C1 & D1 & L1)|[L R]]; rewrite R; cbn [bind fst snd].
    + specialize (IH c1 s1 C1). rewrite D1 in IH. destruct (mrun keqb (default_fail c) s1 cs) as [[s2 l2]|]; cbn [option_map fst snd].
      * destruct IH as [(c2 & R2 & C2)|[L2 R2]]; rewrite R2; cbn [bind fst snd]; [left; eauto|right; cbn [length]; split; [lia|reflexivity]].
      * rewrite IH. reflexivity.
    + destruct (mrun keqb (default_fail c) s1 cs) as [[s2 l2]|]; cbn [option_map]; [|reflexivity]. right. cbn [length]. split; [lia|reflexivity].
Qed.

Lemma ring_listing c s : follows c s -> forall fuel, length (marks s) < fuel ->
  lru_tolist fuel (lru_of c) 0 = Ok (map (fun m => Some (mark_key m)) (marks s)).
Proof.
  intros C fuel L. destruct (lm_rep (fo_l C)) as (ns & R & F). rewrite (rep_tolist R) by (rewrite (Forall2_length F); exact L).
  f_equal. clear -F. induction F as [|n m ns l H F IH]; cbn [map]; auto. f_equal; auto. apply H.
Qed.
Lemma keys_listing c s k : follows c s -> In k (stored_keys c) <-> exists y, In (k, y) (live (marks s)).
Proof.
  intros C. rewrite <- in_keys, <- (vclean_has k (fo_v C)). unfold stored_keys, dhas. destruct (dget keqb (values c) k) eqn:E.
  - split; auto. intros _. apply (dget_in keqb keq) in E. unfold dkeys. apply in_map_iff. now exists (k, p).
  - apply (dget_none keqb keq) in E. split; [contradiction|discriminate].
Qed.
Lemma marks_exact m x fail cs :
  match mrun keqb fail {| mcap := m; mttl := x; marks := [] |} cs with
  | Some (s, answers) => forall fuel, length cs <= fuel ->
      exists c, run_calls keqb none_key fuel (new_cache K V m x fail) cs = Ok (c, answers) /\
        size c = length (live (marks s)) /\
        (forall k, In k (stored_keys c) <-> exists y, In (k, y) (live (marks s))) /\
        (forall k now, snd (fetch keqb c k now) = snd (mfetch keqb s k now)) /\
        (forall fuel', length (marks s) < fuel' ->
           lru_tolist fuel' (lru_of c) 0 = Ok (map (fun m => Some (mark_key m)) (marks s)))
  | None => forall fuel, run_calls keqb none_key fuel (new_cache K V m x fail) cs = Err OutOfFuel
  end.
Proof.
  pose proof (fun fuel => @follows_run fuel cs _ _ (follows_new m x fail)) as H. cbn [default_fail new_cache] in H.
  destruct (mrun keqb fail {| mcap := m; mttl := x; marks := [] |} cs) as [[s l]|]; [|exact H].
  intros fuel L. destruct (H fuel) as [(c & R & C)|[L' _]]; [|cbn in L'; lia]. exists c. split; [exact R|].
  split; [apply (follows_len C)|]. split; [intros k; apply (keys_listing k C)|]. split; [|apply (ring_listing C)].
  intros k now. pose proof (follows_fetch k now C) as F. destruct (fetch keqb c k now), (mfetch keqb s k now). cbn. tauto.
Qed.

(** without a limit *)
Definition no_limit (m : option nat) : Prop := match m with Some (S _) => False | _ => True end.
Definition plain (s : mcache) : scache K V := {| cap := mcap s; ttl := mttl s; entries := live (marks s) |}.
Lemma free_fetch s k now : let (s', r) := mfetch keqb s k now in sfetch keqb (plain s) k now = (plain s', r) /\ mcap s' = mcap s.
Proof.
  unfold mfetch, sfetch. cbn [plain entries ttl cap]. destruct (lookup keqb k (live (marks s))) as [[v t]|]; auto.
  destruct (outdated (mttl s) now t); cbn; split; auto; unfold plain; cbn [with_marks marks mcap mttl].
  - now rewrite live_forget.
  - now rewrite live_snoc, live_forget.
Qed.
Lemma free_insert s k v now : no_limit (mcap s) ->
  exists s', minsert keqb s k v now = Some s' /\ plain s' = sinsert keqb (plain s) k v now /\ mcap s' = mcap s.
Proof.
  intros NL. unfold minsert, sinsert. cbn [plain entries ttl cap].
  assert (R : forall l : list entry, make_room (mcap s) 1 l = l) by (intros l; destruct (mcap s) as [[|n]|]; auto; destruct NL).
  rewrite R. destruct (stored keqb k (marks s)) eqn:E.
  - eexists. split; [reflexivity|]. unfold plain. cbn [with_marks marks mcap mttl]. now rewrite live_snoc, live_leave.
  - assert (Ex : excess (mcap s) 1 (marks s) = 0) by (unfold excess; destruct (mcap s) as [[|n]|]; auto; destruct NL).
    rewrite Ex. cbn [evict option_map]. eexists. split; [reflexivity|]. unfold plain. cbn [with_marks marks mcap mttl].
    rewrite live_snoc. split; auto. do 2 f_equal. symmetry. apply (without_absent keqb keq). rewrite <- stored_spec. congruence.
Qed.
Lemma free_call fail s call : no_limit (mcap s) -> sets_no_limit call ->
  exists s' a, mcall keqb fail s call = Some (s', a) /\ scall keqb fail (plain s) call = (plain s', a) /\ no_limit (mcap s').
Proof.
  intros NL SN. destruct call as [k now|k v now|k| |now|m x|k v now now']; cbn [mcall scall].
  - pose proof (free_fetch s k now) as F. destruct (mfetch keqb s k now) as [s' r]. destruct F as [F M]. rewrite F, <- M in *. eauto.
  - destruct (free_insert s k v now NL) as (s' & R & P & M). rewrite R, <- P. cbn [option_map]. rewrite <- M in NL. eauto.
  - do 2 eexists. split; [reflexivity|]. split; [|exact NL]. unfold plain. cbn [with_marks marks mcap mttl cap ttl entries]. now rewrite live_forget.
  - do 2 eexists. split; [reflexivity|]. split; [reflexivity|exact NL].
  - do 2 eexists. split; [reflexivity|]. split; [|exact NL]. unfold plain. cbn [with_marks marks mcap mttl cap ttl entries].
    pose proof (live_sweep s (fun e => negb (outdated (mttl s) (now (fst e)) (snd (snd e)))) (marks s)) as Q. unfold sweep in Q. now rewrite Q.
  - assert (Ex : excess m 0 (marks s) = 0) by (unfold excess; destruct m as [[|n]|]; auto; destruct SN).
    rewrite Ex. cbn [evict option_map]. do 2 eexists. split; [reflexivity|]. split; [|exact SN]. unfold plain. cbn [marks mcap mttl cap ttl entries].
    do 2 f_equal. destruct m as [[|n]|]; auto. destruct SN.
  - pose proof (free_fetch s k now) as F. destruct (mfetch keqb s k now) as [s' r]. destruct F as [F M]. rewrite F, <- M in *.
    destruct r as [w|]; [eauto|]. destruct fail; [eauto|].
    destruct (free_insert s' k v now' NL) as (s2 & R & P & M2). rewrite R, <- P. cbn [option_map]. rewrite <- M2 in NL. eauto.
Qed.
Lemma free_run fail cs : forall s, no_limit (mcap s) -> Forall (@sets_no_limit K V) cs ->
  exists s' l, mrun keqb fail s cs = Some (s', l) /\ srun keqb fail (plain s) cs = (plain s', l).
Proof.
  induction cs as [|call cs IH]; intros s NL F; cbn [mrun srun]; [eauto|].
  inversion F as [|? ? F1 F2]; subst. destruct (free_call fail s call NL F1) as (s1 & a & R & P & NL1). rewrite R, P.
  destruct (IH s1 NL1 F2) as (s2 & l & R2 & P2). rewrite R2, P2. cbn [option_map fst snd]. eauto.
Qed.
Lemma unlimited m x fail cs fuel : (m = None \/ m = Some 0) -> Forall (@sets_no_limit K V) cs -> length cs <= fuel ->
  exists c, let (s, answers) := srun keqb fail {| cap := m; ttl := x; entries := [] |} cs in
    run_calls keqb none_key fuel (new_cache K V m x fail) cs = Ok (c, answers) /\
    size c = length (entries s) /\ (forall k, In k (stored_keys c) <-> exists y, In (k, y) (entries s)).
Proof.
  intros M F L. destruct (@free_run fail cs {| mcap := m; mttl := x; marks := [] |}) as (s & l & R & P); auto.
  { destruct M as [->| ->]; exact I. }
  change (plain {| mcap := m; mttl := x; marks := [] |}) with {| cap := m; ttl := x; entries := @nil entry |} in P. rewrite P.
  pose proof (marks_exact m x fail cs) as E. rewrite R in E. destruct (E fuel L) as (c & E1 & E2 & E3 & _). exists c. auto.
Qed.

(** an overwritten key blocks the cache after as many further insertions as it has room for, and one *)
Lemma mrun_app fail (a b : list (ccall K V)) : forall s : mcache, mrun keqb fail s (a ++ b) =
  match mrun keqb fail s a with
  | None => None | Some (s1, l) => option_map (fun p => (fst p, l ++ snd p)) (mrun keqb fail s1 b) end.
Proof.
  induction a as [|c a IH]; intros s; cbn [app mrun].
  - destruct (mrun keqb fail s b) as [[? ?]|]; reflexivity.
  - destruct (mcall keqb fail s c) as [[s1 a1]|]; [|reflexivity]. rewrite IH. destruct (mrun keqb fail s1 a) as [[s2 l]|]; [|reflexivity].
    cbn [option_map fst snd]. destruct (mrun keqb fail s2 b) as [[? ?]|]; reflexivity.
Qed.
Definition puts (l : list (K * (V * Z))) : list (ccall K V) := map (fun e => CInsert (fst e) (fst (snd e)) (snd (snd e))) l.
Definition lives (l : list entry) : list mark := map (@Live K V) l.
Lemma live_lives l : live (lives l) = l.
Proof. induction l; cbn; auto. now f_equal. Qed.
Lemma fill fail m x a b : NoDup (keys_of (a ++ b)) -> length (a ++ b) <= m -> forall left0 s, 
  mcap s = Some m -> mttl s = x -> marks s = left0 ++ lives a -> live left0 = [] ->
  mrun keqb fail s (puts b) = Some ({| mcap := Some m; mttl := x; marks := left0 ++ lives (a ++ b) |}, map (fun _ => CDone) b).
Proof.
  revert a. induction b as [|[k [v t]] b IH]; intros a N L left0 s Hm Hx Hs Hl; cbn [puts map mrun].
  - rewrite app_nil_r. destruct s. cbn in *. now subst.
  - cbn [mcall fst snd]. unfold minsert. rewrite Hs.
    assert (St : stored keqb k (left0 ++ lives a) = false).
    { destruct (stored keqb k (left0 ++ lives a)) eqn:E; auto. apply stored_spec in E. rewrite live_app, Hl, live_lives in E. cbn [app] in E.
      unfold keys_of in N, E. rewrite map_app in N. cbn [map fst] in N. apply NoDup_remove_2 in N. rewrite in_app_iff in N. tauto. }
    rewrite St. assert (Ex : excess (mcap s) 1 (left0 ++ lives a) = 0).
    { unfold excess. rewrite Hm, live_app, Hl, live_lives. rewrite app_length in L. cbn [length app] in *. destruct m; lia. }
    rewrite Ex. cbn [evict option_map].
    assert (E2 : (left0 ++ lives a) ++ [Live (k, (v, t))] = left0 ++ lives (a ++ [(k, (v, t))])).
    { unfold lives. rewrite map_app, app_assoc. reflexivity. }
    rewrite E2. fold (puts b). rewrite (IH (a ++ [(k, (v, t))])) with (left0 := left0); auto; try (rewrite <- app_assoc; assumption).
    cbn [option_map fst snd]. now rewrite <- app_assoc.
Qed.
Lemma blocked m x fail k v t v' t' (es : list entry) fuel : NoDup (k :: keys_of es) -> length es = S m -> 1 <= m ->
  run_calls keqb none_key fuel (new_cache K V (Some m) x fail) (CInsert k v t :: CInsert k v' t' :: puts es) = Err OutOfFuel /\
  (m + 2 <= fuel -> exists c, run_calls keqb none_key fuel (new_cache K V (Some m) x fail) (CInsert k v t :: CInsert k v' t' :: puts (firstn m es)) =
     Ok (c, map (fun _ => CDone) (CInsert k v t :: CInsert k v' t' :: puts (firstn m es)))).
Proof.
  intros N L M.
  destruct (exists_last (l := es)) as (es1 & [z [vz tz]] & E1). { intros ->; discriminate. }
  assert (L1 : length es1 = m) by (rewrite E1, app_length in L; cbn in L; lia).
  destruct (exists_last (l := es1)) as (es2 & [y [vy ty]] & E2). { intros ->; cbn in L1; lia. }
  assert (L2 : S (length es2) = m) by (rewrite E2, app_length in L1; cbn in L1; lia).
  subst es1 es. rewrite firstn_app, firstn_all2, L1 by lia. rewrite Nat.sub_diag, app_nil_r.
  set (start := [CInsert k v t; CInsert k v' t']).
  assert (Fill : mrun keqb fail {| mcap := Some m; mttl := x; marks := [] |} (start ++ puts es2) =
    Some ({| mcap := Some m; mttl := x; marks := [Leftover k] ++ lives ((k, (v', t')) :: es2) |}, [CDone; CDone] ++ map (fun _ => CDone) es2)).
  { rewrite mrun_app.
    assert (St : mrun keqb fail {| mcap := Some m; mttl := x; marks := [] |} start =
      Some ({| mcap := Some m; mttl := x; marks := [Leftover k; Live (k, (v', t'))] |}, [CDone; CDone])).
    { unfold start. cbn [mrun mcall]. unfold minsert. cbn [stored live flat_map existsb marks mcap mttl].
      assert (Ex : excess (Some m) 1 (@nil mark) = 0) by (unfold excess; cbn; destruct m; lia).
      rewrite Ex. cbn [evict option_map with_marks marks mcap mttl app stored live flat_map existsb fst]. rewrite krefl.
      cbn [orb option_map with_marks marks mcap mttl leave map is_live fst app]. rewrite krefl. reflexivity. }
    rewrite St. rewrite (@fill fail m x [(k, (v', t'))] es2) with (left0 := [Leftover k]); auto.
    - cbn [app]. unfold keys_of in *. cbn [map fst]. rewrite !map_app in N. apply NoDup_cons_iff in N as [N0 N].
      apply nodup_app_iff in N as (N & _). apply nodup_app_iff in N as (N & _). apply NoDup_cons_iff. split; auto.
      intros I. apply N0. rewrite !in_app_iff. auto.
    - cbn [app length]. lia. }
  unfold keys_of in N. rewrite !map_app in N. cbn [map fst] in N. apply NoDup_cons_iff in N as [N0 N].
  rewrite !in_app_iff in N0. cbn [In] in N0.
  assert (Nyz : y <> z). { rewrite <- app_assoc in N. cbn [app] in N. apply nodup_app_iff in N as (_ & N & _). inversion N as [|? ? A B]; subst. intros ->. apply A. now left. }
  assert (Ny2 : ~ In y (map fst es2)). { rewrite <- app_assoc in N. cbn [app] in N. apply NoDup_remove_2 in N. rewrite in_app_iff in N. tauto. }
  assert (Nz2 : ~ In z (map fst es2)). { apply NoDup_remove_2 in N. rewrite !in_app_iff in N. tauto. }
  assert (Step : mrun keqb fail {| mcap := Some m; mttl := x; marks := [] |} ((start ++ puts es2) ++ [CInsert y vy ty]) =
    Some ({| mcap := Some m; mttl := x; marks := Leftover k :: lives es2 ++ [Live (y, (vy, ty))] |}, ([CDone; CDone] ++ map (fun _ => CDone) es2) ++ [CDone])).
  { rewrite mrun_app, Fill. cbn [mrun mcall]. unfold minsert. cbn [marks mcap].
    assert (St : stored keqb y ([Leftover k] ++ lives ((k, (v', t')) :: es2)) = false).
    { apply not_true_iff_false. rewrite stored_spec, live_app, live_lives. cbn. unfold keys_of. intros [->|I]; tauto. }
    rewrite St. assert (Ex : excess (Some m) 1 ([Leftover k] ++ lives ((k, (v', t')) :: es2)) = 1).
    { unfold excess. rewrite live_app, live_lives. cbn [live flat_map app length]. destruct m; lia. }
    rewrite Ex. cbn [evict app mark_key].
    assert (Sk : stored keqb k (Leftover k :: lives ((k, (v', t')) :: es2)) = true).
    { apply stored_spec. change (In k (keys_of (live (lives ((k, (v', t')) :: es2))))). rewrite live_lives. now left. }
    rewrite Sk. assert (Fk : forget keqb k (Leftover k :: lives ((k, (v', t')) :: es2)) = Leftover k :: lives es2).
    { unfold forget. cbn [filter is_live lives map negb fst]. rewrite krefl. cbn [negb]. f_equal. fold (lives es2).
      pose proof (@forget_absent k (lives es2)) as A. unfold forget in A. apply A. rewrite live_lives. unfold keys_of. tauto. }
    rewrite Fk. reflexivity. }
  assert (Hang : mrun keqb fail {| mcap := Some m; mttl := x; marks := [] |} (((start ++ puts es2) ++ [CInsert y vy ty]) ++ [CInsert z vz tz]) = None).
  { rewrite mrun_app, Step. cbn [mrun mcall]. unfold minsert. cbn [marks mcap].
    assert (Lv : live (Leftover k :: lives es2 ++ [Live (y, (vy, ty))]) = es2 ++ [(y, (vy, ty))]).
    { change (live (lives es2 ++ [Live (y, (vy, ty))]) = es2 ++ [(y, (vy, ty))]). now rewrite live_snoc, live_lives. }
    assert (Ns : forall q, ~ In q (map fst es2) -> q <> y -> stored keqb q (Leftover k :: lives es2 ++ [Live (y, (vy, ty))]) = false).
    { intros q A B. apply not_true_iff_false. rewrite stored_spec, Lv. unfold keys_of. rewrite map_app, in_app_iff. cbn [map In fst].
      intros [I|[I|[]]]; [tauto|]. now apply B. }
    rewrite Ns by auto. assert (Ex : excess (Some m) 1 (Leftover k :: lives es2 ++ [Live (y, (vy, ty))]) = 1).
    { unfold excess. rewrite Lv, app_length. cbn [length]. destruct m; lia. }
    rewrite Ex. cbn [evict mark_key]. rewrite Ns; auto. intros ->. tauto. }
  assert (Sh : forall l1 l2 : list entry, puts (l1 ++ l2) = puts l1 ++ puts l2) by (intros; apply map_app).
  split.
  - pose proof (marks_exact (Some m) x fail (((start ++ puts es2) ++ [CInsert y vy ty]) ++ [CInsert z vz tz])) as E. rewrite Hang in E.
    rewrite <- (E fuel). f_equal. rewrite !Sh. unfold start. cbn [puts map fst snd app]. reflexivity.
  - intros Lf. pose proof (marks_exact (Some m) x fail ((start ++ puts es2) ++ [CInsert y vy ty])) as E. rewrite Step in E.
    destruct (E fuel) as (c & E1 & _). { rewrite !app_length. unfold puts, start. rewrite map_length. cbn [length]. assert (Q : forall n, S n = m -> 2 + n + 1 <= fuel) by (intros; lia). exact (Q _ L2). }
    exists c. etransitivity; [|etransitivity; [exact E1|]].
    + f_equal. rewrite !Sh. unfold start. cbn [puts map fst snd app]. reflexivity.
    + do 2 f_equal. rewrite Sh. unfold puts. cbn [map app]. do 2 f_equal. rewrite map_app, map_map. reflexivity.
Qed.
End C.
