From Coq Require Import String Lia.
From Verif Require Import Py PyLemmas Etree_spec Etree_model Etree_proof Align_model Align_spec Align_proof Corpus_spec Corpus_proof Segstats_proof Equal_spec Equal_model.
Open Scope string_scope.
Open Scope list_scope.
Open Scope nat_scope.

(** Sound heaps. *)
Definition built (x : pair_obj) : Prop :=
  exists ops, graph x = if matching x then run_matching String.eqb (empty_digraph string string) ops else run_mapping String.eqb (empty_digraph string string) ops.
Record sound (h : heap) : Prop :=
  { s_metas : forall m e, nth_error (metas h) m = Some e -> well_formed e;
    s_gps : forall p x, nth_error (gps h) p = Some x -> pmeta x < length (metas h) /\ built x;
    s_corpora : forall c x, nth_error (corpora h) c = Some x -> (forall p, In p (members x) -> p < length (gps h)) /\ (forall m, cmeta x = Some m -> m < length (metas h)) /\ isort String.leb (rels x) = rels x }.
Lemma nth_lt A (l : list A) i x : nth_error l i = Some x -> i < length l.
Proof. intros H. apply nth_error_Some. congruence. Qed.
Lemma lt_nth A (l : list A) i : i < length l -> exists x, nth_error l i = Some x.
Proof. intros H. destruct (nth_error l i) eqn:E; eauto. apply nth_error_None in E. lia. Qed.
Lemma nth_app A (l m : list A) i : i < length l -> nth_error (l ++ m) i = nth_error l i.
Proof. intros H. now apply nth_error_app1. Qed.
Lemma nth_snoc A (l : list A) x i y : nth_error (l ++ [x]) i = Some y -> nth_error l i = Some y \/ (i = length l /\ y = x).
Proof.
  intros H. destruct (Nat.lt_ge_cases i (length l)) as [L|L]; [left; now rewrite nth_error_app1 in H|]. rewrite nth_error_app2 in H by auto.
  right. destruct (i - length l) as [|n] eqn:E; cbn in H; [split; [lia|congruence]|]. destruct n; discriminate.
Qed.
Lemma nth_last A (l : list A) x : nth_error (l ++ [x]) (length l) = Some x.
Proof. rewrite nth_error_app2, Nat.sub_diag; auto. Qed.
Lemma nth_set A (l : list A) i j x y : nth_error (set_nth l i x) j = Some y -> (j = i /\ y = x) \/ (j <> i /\ nth_error l j = Some y).
Proof.
  intros H. destruct (Nat.eq_dec i j) as [<-|N].
  - left. split; [auto|]. pose proof (nth_lt _ _ _ _ H) as L. rewrite set_nth_length in L. rewrite nth_error_set_nth_same in H by auto. congruence.
  - right. split; [auto|]. now rewrite nth_error_set_nth_other in H.
Qed.
Lemma sorted_again l : isort String.leb (isort String.leb l) = isort String.leb l.
Proof.
  apply isort_id. apply isort_adj.
  intros a b. destruct (String.leb_total a b); auto.
Qed.
Lemma push_meta_sound h e : sound h -> well_formed e -> sound (fst (push_meta h e)).
Proof.
  intros [A B C] W. constructor; cbn [fst push_meta metas gps corpora].
  - intros m x H. apply nth_snoc in H as [H|(_ & ->)]; eauto.
  - intros p x H. rewrite app_length. destruct (B p x H). split; [cbn; lia|auto].
  - intros c x H. rewrite app_length. destruct (C c x H) as (C1 & C2 & C3). split; [auto|]. split; [|auto]. intros m M. specialize (C2 m M). lia.
Qed.
Lemma push_pair_sound h x : sound h -> pmeta x < length (metas h) -> built x -> sound (fst (push_pair h x)).
Proof.
  intros [A B C] L U. constructor; cbn [fst push_pair metas gps corpora]; [eauto| |].
  - intros p y H. apply nth_snoc in H as [H|(_ & ->)]; eauto.
  - intros c y H. destruct (C c y H) as (C1 & C2 & C3). split; [|auto]. intros p P. rewrite app_length. specialize (C1 p P). lia.
Qed.
Lemma new_corpus_sound h ps rs m : sound h -> (forall p, In p ps -> p < length (gps h)) -> (forall n, m = Some n -> n < length (metas h)) -> sound (new_corpus h ps rs m).
Proof.
  intros [A B C] P M. constructor; cbn [new_corpus push_corpus metas gps corpora]; [eauto|eauto|].
  intros c x H. apply nth_snoc in H as [H|(_ & ->)]; [eauto|]. cbn [members cmeta rels]. split; [auto|]. split; [auto|apply sorted_again].
Qed.
Lemma nothing_wf : well_formed nothing.
Proof. repeat constructor. Qed.
Lemma meta_or_new_ok h m : (forall n, m = Some n -> n < length (metas h)) -> sound h -> exists h' n, meta_or_new h m = Ok (h', n) /\ sound h' /\
  (exists a, metas h' = metas h ++ a) /\ gps h' = gps h /\ corpora h' = corpora h /\ n < length (metas h') /\ (m = Some n \/ length (metas h) <= n) /\
  nth_error (metas h') n = Some (match m with None => nothing | Some m => kept (nth m (metas h) nothing) end).
Proof.
  intros V S. unfold meta_or_new. assert (F : exists h' n, Ok (push_meta h nothing) = Ok (h', n) /\ sound h' /\ (exists a, metas h' = metas h ++ a) /\ gps h' = gps h /\ corpora h' = corpora h /\ n < length (metas h') /\ length (metas h) <= n /\ nth_error (metas h') n = Some nothing).
  { eexists _, _. split; [reflexivity|]. split; [apply (push_meta_sound h nothing S nothing_wf)|]. cbn [metas gps corpora]. split; [eauto|]. split; [auto|]. split; [auto|]. rewrite app_length. cbn. split; [lia|]. split; [lia|apply nth_last]. }
  destruct m as [m|].
  - destruct (lt_nth _ _ m (V m eq_refl)) as (e & E). unfold get_meta. rewrite E. cbn [bind]. rewrite (nth_error_nth _ _ nothing E). unfold kept. destruct (children e) eqn:CH.
    + destruct F as (h' & n & F0 & F1 & F2 & F3 & F4 & F5 & F6 & F7). exists h', n. auto 10.
    + exists h, m. split; [reflexivity|]. split; [auto|]. split; [exists []; now rewrite app_nil_r|]. auto 10.
  - destruct F as (h' & n & F0 & F1 & F2 & F3 & F4 & F5 & F6 & F7). exists h', n. auto 10.
Qed.

(** Copying. *)
Definition same_obj (x y : pair_obj) : Prop := matching y = matching x /\ banks y = banks x /\ ids y = ids x /\ graph y = graph x.
Record copying (h0 h : heap) (k : memo) : Prop :=
  { c_sound : sound h;
    c_metas : exists a, metas h = metas h0 ++ a; c_gps : exists b, gps h = gps h0 ++ b; c_corpora : corpora h = corpora h0;
    c_new : forall p x, length (gps h0) <= p -> nth_error (gps h) p = Some x -> length (metas h0) <= pmeta x;
    c_sm : forall m n, dget Nat.eqb (seen_metas k) m = Some n -> length (metas h0) <= n /\ exists e, nth_error (metas h0) m = Some e /\ nth_error (metas h) n = Some e;
    c_sp : forall p q, dget Nat.eqb (seen_pairs k) p = Some q -> length (gps h0) <= q /\ exists x y e, nth_error (gps h0) p = Some x /\ nth_error (gps h) q = Some y /\ same_obj x y /\
             nth_error (metas h0) (pmeta x) = Some e /\ nth_error (metas h) (pmeta y) = Some (kept e);
    c_inj : forall p p' q, dget Nat.eqb (seen_pairs k) p = Some q -> dget Nat.eqb (seen_pairs k) p' = Some q -> p = p' }.
Lemma copy_meta_ok h0 h k m : copying h0 h k -> m < length (metas h0) -> exists h' k' n, copy_meta h k m = Ok (h', k', n) /\ copying h0 h' k' /\ seen_pairs k' = seen_pairs k /\ gps h' = gps h /\
  length (metas h0) <= n /\ exists e, nth_error (metas h0) m = Some e /\ nth_error (metas h') n = Some e.
Proof.
  intros C L. unfold copy_meta. destruct (dget Nat.eqb (seen_metas k) m) as [n|] eqn:D.
  - exists h, k, n. split; [auto|]. split; [auto|]. split; [auto|]. split; [auto|]. apply (c_sm _ _ _ C) in D. exact D.
  - destruct C as [CS (a & CA) (b & CB) CC CN CM CP CI]. destruct (lt_nth _ _ m L) as (e & E).
    assert (E' : nth_error (metas h) m = Some e) by (rewrite CA, nth_app; auto). unfold get_meta. rewrite E'. cbn [bind].
    eexists _, _, _. split; [reflexivity|]. cbn [seen_pairs gps]. split; [|split; [auto|split; [auto|split; [rewrite CA, app_length; lia|exists e; split; [auto|apply nth_last]]]]].
    constructor; cbn [metas gps corpora seen_metas seen_pairs].
    + apply (push_meta_sound h e CS). eapply (s_metas _ CS); eauto.
    + exists (a ++ [e]). rewrite CA. now rewrite app_assoc.
    + eauto.
    + auto.
    + auto.
    + intros m' n' G. destruct (Nat.eq_dec m' m) as [->|N].
      * rewrite (get_set _ _ Nat.eqb Nat.eqb_eq) in G. injection G as <-. split; [rewrite CA, app_length; lia|]. exists e. split; [auto|apply nth_last].
      * rewrite (get_other _ _ Nat.eqb Nat.eqb_eq) in G by auto. destruct (CM m' n' G) as (X & e' & X1 & X2). split; [auto|]. exists e'. split; [auto|]. rewrite nth_app; auto. eapply nth_lt; eauto.
    + intros p q G. destruct (CP p q G) as (X & x & y & e' & X1 & X2 & X3 & X4 & X5). split; [auto|]. exists x, y, e'. split; [auto|]. split; [auto|]. split; [auto|]. split; [auto|]. rewrite nth_app; auto. eapply nth_lt; eauto.
    + exact CI.
Qed.
Lemma copy_pair_ok h0 h k p : copying h0 h k -> sound h0 -> p < length (gps h0) -> exists h' k' q, copy_pair h k p = Ok (h', k', q) /\ copying h0 h' k' /\ dget Nat.eqb (seen_pairs k') p = Some q /\
  (forall x y, dget Nat.eqb (seen_pairs k) x = Some y -> dget Nat.eqb (seen_pairs k') x = Some y).
Proof.
  intros C S0 L. unfold copy_pair. destruct (dget Nat.eqb (seen_pairs k) p) as [q|] eqn:D; [exists h, k, q; auto|].
  destruct (lt_nth _ _ p L) as (x & X). assert (X' : nth_error (gps h) p = Some x). { destruct (c_gps _ _ _ C) as (b & ->). now rewrite nth_app. }
  unfold get_pair. rewrite X'. cbn [bind]. destruct (s_gps _ S0 p x X) as (PM & BU).
  destruct (copy_meta_ok h0 h k (pmeta x) C PM) as (h1 & k1 & n & E1 & C1 & K1 & G1 & N1 & e & M0 & M1). rewrite E1. cbn [bind].
  destruct C1 as [CS (a & CA) (b & CB) CC CN CM CP CI].
  destruct (meta_or_new_ok h1 (Some n)) as (h2 & m & E2 & S2 & (a2 & A2) & G2 & CO2 & L2 & F2 & V2); [intros ? [= <-]; eapply nth_lt; eauto|auto|].
  rewrite (nth_error_nth _ _ nothing M1) in V2.
  unfold new_pair. rewrite E2. cbn [bind fst snd push_pair].
  assert (NM : length (metas h0) <= m). { destruct F2 as [[= <-]|F2]; [auto|]. rewrite CA, app_length in F2. lia. }
  eexists _, _, _. split; [reflexivity|]. cbn [seen_pairs]. split; [|split; [apply (get_set _ _ Nat.eqb Nat.eqb_eq)|intros u v U; rewrite K1; rewrite (get_other _ _ Nat.eqb Nat.eqb_eq); [auto|intros ->; congruence]]].
  assert (GL : length (gps h0) <= length (gps h2)) by (rewrite G2, CB, app_length; lia).
  constructor; cbn [metas gps corpora seen_metas seen_pairs].
  - apply (push_pair_sound h2 {| matching := matching x; banks := banks x; ids := ids x; pmeta := m; graph := graph x |}); auto.
  - exists (a ++ a2). rewrite A2, CA. now rewrite app_assoc.
  - exists (b ++ [{| matching := matching x; banks := banks x; ids := ids x; pmeta := m; graph := graph x |}]). rewrite G2, CB. now rewrite app_assoc.
  - congruence.
  - intros u v U V. apply nth_snoc in V as [V|(_ & ->)]; [|exact NM]. rewrite G2 in V. eauto.
  - intros u v U. destruct (CM u v U) as (Y & e' & Y1 & Y2). split; [auto|]. exists e'. split; [auto|]. rewrite A2, nth_app; auto. eapply nth_lt; eauto.
  - intros u v U. destruct (Nat.eq_dec u p) as [->|NE].
    + rewrite (get_set _ _ Nat.eqb Nat.eqb_eq) in U. injection U as <-. split; [exact GL|]. eexists x, _, e. split; [auto|]. split; [apply nth_last|]. split; [repeat split|]. split; auto.
    + rewrite (get_other _ _ Nat.eqb Nat.eqb_eq) in U by auto. destruct (CP u v U) as (Y & x' & y' & e' & Y1 & Y2 & Y3 & Y4 & Y5). split; [auto|]. exists x', y', e'. split; [auto|].
      split; [rewrite G2, nth_app; auto; eapply nth_lt; eauto|]. split; [auto|]. split; [auto|]. rewrite A2, nth_app; auto. eapply nth_lt; eauto.
  - assert (OLD : forall u v, dget Nat.eqb (seen_pairs k1) u = Some v -> v < length (gps h2)). { intros u v U. destruct (CP u v U) as (_ & ? & y' & ? & _ & Y2 & _). rewrite G2. eapply nth_lt; eauto. }
    intros u u' v U U'. destruct (Nat.eq_dec u p) as [->|NE], (Nat.eq_dec u' p) as [->|NE']; auto.
    + rewrite (get_set _ _ Nat.eqb Nat.eqb_eq) in U. injection U as <-. rewrite (get_other _ _ Nat.eqb Nat.eqb_eq) in U' by auto. apply OLD in U'. lia.
    + rewrite (get_set _ _ Nat.eqb Nat.eqb_eq) in U'. injection U' as <-. rewrite (get_other _ _ Nat.eqb Nat.eqb_eq) in U by auto. apply OLD in U. lia.
    + rewrite (get_other _ _ Nat.eqb Nat.eqb_eq) in U, U' by auto. eauto.
Qed.
Lemma copy_pairs_ok h0 ps : forall h k, copying h0 h k -> sound h0 -> (forall p, In p ps -> p < length (gps h0)) -> exists h' k' qs, copy_pairs h k ps = Ok (h', k', qs) /\ copying h0 h' k' /\
  Forall2 (fun p q => dget Nat.eqb (seen_pairs k') p = Some q) ps qs /\ (forall x y, dget Nat.eqb (seen_pairs k) x = Some y -> dget Nat.eqb (seen_pairs k') x = Some y).
Proof.
  induction ps as [|p ps IH]; intros h k C S0 L; cbn [copy_pairs]; [exists h, k, []; auto|].
  destruct (copy_pair_ok h0 h k p C S0) as (h1 & k1 & q & E1 & C1 & D1 & K1); [apply L; now left|]. rewrite E1. cbn [bind].
  destruct (IH h1 k1 C1 S0) as (h2 & k2 & qs & E2 & C2 & F2 & K2); [intros; apply L; now right|]. rewrite E2. cbn [bind].
  exists h2, k2, (q :: qs). split; [auto|]. split; [auto|]. split; [constructor; auto|auto].
Qed.
Lemma copying_start h : sound h -> copying h h no_memo.
Proof.
  intros S. constructor; auto; try (exists []; now rewrite app_nil_r); try discriminate.
  intros p x L H. apply nth_lt in H. lia.
Qed.

(** Everything that happens keeps the heap sound. *)
Lemma find_annotator_some l : forall pre c post, find_annotator l = Some (pre, c, post) -> l = pre ++ c :: post /\ Forall (fun x => ~ is_annotator x) pre /\ is_annotator c.
Proof.
  induction l as [|x l IH]; intros pre c post; cbn [find_annotator]; [discriminate|]. destruct (String.eqb_spec (tag x) "annotator") as [E|E].
  - intros [= <- <- <-]. split; [auto|]. split; [constructor|exact E].
  - destruct (find_annotator l) as [[[a y] b]|]; [|discriminate]. intros [= <- <- <-]. destruct (IH _ _ _ eq_refl) as (-> & F & A). split; [auto|]. split; [constructor; auto|auto].
Qed.
Lemma find_annotator_none l : find_annotator l = None -> Forall (fun x => ~ is_annotator x) l.
Proof.
  induction l as [|x l IH]; cbn [find_annotator]; [constructor|]. destruct (String.eqb_spec (tag x) "annotator") as [E|E]; [discriminate|].
  destruct (find_annotator l) as [[[a y] b]|]; [discriminate|]. intros _. constructor; auto.
Qed.
Lemma annotate_wf e a ap : well_formed e -> well_formed (annotate e a ap).
Proof.
  intros W. destruct e as [tg tx tl at_ ch]. apply wf_inv in W as (N & F). cbn [annotate]. destruct (find_annotator ch) as [[[pre [t1 x1 l1 a1 c1]] post]|] eqn:E.
  - apply find_annotator_some in E as (-> & _). apply Forall_app in F as (F1 & F2). inversion F2 as [|? ? W2 F3]; subst. apply wf_inv in W2 as (W2 & W3).
    constructor; [auto|]. apply Forall_app. split; [auto|]. constructor; [constructor; auto|auto].
  - constructor; [auto|]. apply Forall_app. split; [auto|]. repeat constructor.
Qed.
Lemma built_snoc mt bs gs m g g' bs' gs' m' o : built {| matching := mt; banks := bs; ids := gs; pmeta := m; graph := g |} ->
  (if mt then matching_op String.eqb g o else mapping_op String.eqb g o) = Ok g' -> built {| matching := mt; banks := bs'; ids := gs'; pmeta := m'; graph := g' |}.
Proof.
  intros (ops & B) E. exists (ops ++ [o]). cbn [graph matching] in *. subst g. destruct mt; unfold run_matching, run_mapping in *; rewrite fold_left_app; cbn [fold_left]; unfold keep at 1; rewrite E; reflexivity.
Qed.
Lemma put_pair_sound h p x y : sound h -> nth_error (gps h) p = Some x -> pmeta y < length (metas h) -> built y -> sound (put_pair h p y).
Proof.
  intros [A B C] X L U. constructor; cbn [put_pair metas gps corpora]; [eauto| |].
  - intros q z H. apply nth_set in H as [(-> & ->)|(N & H)]; eauto.
  - rewrite set_nth_length. eauto.
Qed.
Lemma put_meta_sound h m e : sound h -> well_formed e -> sound (put_meta h m e).
Proof.
  intros [A B C] W. constructor; cbn [put_meta metas gps corpora]; [|rewrite set_nth_length; eauto..].
  intros n z H. apply nth_set in H as [(-> & ->)|(N & H)]; eauto.
Qed.
Lemma put_corpus_sound h c y : sound h -> (forall p, In p (members y) -> p < length (gps h)) -> (forall m, cmeta y = Some m -> m < length (metas h)) -> isort String.leb (rels y) = rels y -> sound (put_corpus h c y).
Proof.
  intros [A B C] W1 W2 W3. constructor; cbn [put_corpus metas gps corpora]; [eauto..|].
  intros n z H. apply nth_set in H as [(-> & ->)|(N & H)]; eauto.
Qed.
Lemma get_pair_some h p x : get_pair h p = Ok x -> nth_error (gps h) p = Some x.
Proof. unfold get_pair. destruct (nth_error (gps h) p); congruence. Qed.
Lemma get_meta_some h p x : get_meta h p = Ok x -> nth_error (metas h) p = Some x.
Proof. unfold get_meta. destruct (nth_error (metas h) p); congruence. Qed.
Lemma get_corpus_some h p x : get_corpus h p = Ok x -> nth_error (corpora h) p = Some x.
Proof. unfold get_corpus. destruct (nth_error (corpora h) p); congruence. Qed.
Lemma bind_ok A B (r : res A) (f : A -> res B) b : bind r f = Ok b -> exists a, r = Ok a /\ f a = Ok b.
Proof. destruct r; cbn; [eauto|discriminate]. Qed.
Lemma valid_pairs_in h ps : valid_pairs h ps = true -> forall p, In p ps -> p < length (gps h).
Proof. intros V p P. unfold valid_pairs in V. rewrite forallb_forall in V. apply Nat.ltb_lt. auto. Qed.
Lemma valid_meta_lt h m : valid_meta h m = true -> forall n, m = Some n -> n < length (metas h).
Proof. intros V n ->. now apply Nat.ltb_lt. Qed.

(** What copying a corpus does. *)
Lemma copy_corpus_ok h c x : sound h -> nth_error (corpora h) c = Some x -> exists h1 k qs h2 mo,
  copying h h1 k /\ Forall2 (fun p q => dget Nat.eqb (seen_pairs k) p = Some q) (members x) qs /\ copying h h2 k /\ gps h2 = gps h1 /\
  step h (CopyCorpus c) = Ok (new_corpus h2 qs (rels x) mo) /\
  match cmeta x, mo with
  | None, None => True
  | Some m, Some n => length (metas h) <= n /\ n < length (metas h2) /\ exists e, nth_error (metas h) m = Some e /\ nth_error (metas h2) n = Some e
  | _, _ => False
  end.
Proof.
  intros S X. destruct (s_corpora _ S c x X) as (P & M & R).
  destruct (copy_pairs_ok h (members x) h no_memo (copying_start h S) S P) as (h1 & k & qs & E & C & F & _).
  cbn [step]. unfold copy_corpus, get_corpus. rewrite X. cbn [bind]. rewrite E. cbn [bind]. destruct (cmeta x) as [m|] eqn:CM.
  - destruct (copy_meta_ok h h1 k m C (M m eq_refl)) as (h2 & k2 & n & E2 & C2 & K2 & G2 & N2 & e & M1 & M2). rewrite E2. cbn [bind].
    exists h1, k, qs, h2, (Some n). split; [auto|]. split; [auto|]. split.
    + destruct C2 as [D1 D2 D3 D4 D5 D6 D7 D8]. destruct C as [B1 (B2 & B2') B3 B4 B5 B6 B7 B8].
      assert (GR : exists a, metas h2 = metas h1 ++ a).
      { unfold copy_meta in E2. destruct (dget Nat.eqb (seen_metas k) m) as [n'|].
        - injection E2 as <- <- <-. exists []. now rewrite app_nil_r.
        - apply bind_ok in E2 as (e' & _ & E2). cbn [push_meta] in E2. injection E2 as <- <- <-. cbn [metas]. eauto. }
      constructor; auto.
      * intros u v U. destruct (B6 u v U) as (Y & e' & Y1 & Y2). split; [auto|]. exists e'. split; [auto|]. destruct GR as (a & ->). rewrite nth_app; auto. eapply nth_lt; eauto.
      * rewrite <- K2. exact D7.
    + split; [auto|]. split; [auto|]. split; [auto|]. split; [eapply nth_lt; eauto|]. exists e. auto.
  - exists h1, k, qs, h1, None. split; [auto|]. split; [auto|]. split; [auto|]. split; [auto|]. split; auto.
Qed.
Lemma f2_in_r A B (R : A -> B -> Prop) l k b : Forall2 R l k -> In b k -> exists a, In a l /\ R a b.
Proof. induction 1; [easy|]. intros [<-|I]; [exists x; cbn; auto|]. destruct (IHForall2 I) as (a & ? & ?). exists a. cbn. auto. Qed.
Lemma copied_members h h2 k ps qs : copying h h2 k -> Forall2 (fun p q => dget Nat.eqb (seen_pairs k) p = Some q) ps qs -> forall q, In q qs -> length (gps h) <= q < length (gps h2).
Proof.
  intros C F q Q. destruct (f2_in_r _ _ _ _ _ _ F Q) as (p & _ & D). destruct (c_sp _ _ _ C p q D) as (L & x & y & e & _ & Y & _). split; [auto|]. eapply nth_lt; eauto.
Qed.
Lemma copy_pair_step h p h' : sound h -> step h (CopyPair p) = Ok h' -> exists k q, copying h h' k /\ dget Nat.eqb (seen_pairs k) p = Some q.
Proof.
  intros S E. cbn [step] in E. destruct (Nat.lt_ge_cases p (length (gps h))) as [L|L].
  - destruct (copy_pair_ok h h no_memo p (copying_start h S) S L) as (h1 & k & q & E1 & C & D & _). rewrite E1 in E. cbn in E. injection E as <-. eauto.
  - unfold copy_pair, get_pair in E. cbn [dget no_memo seen_pairs] in E. replace (nth_error (gps h) p) with (@None pair_obj) in E by (symmetry; now apply nth_error_None). discriminate.
Qed.
Lemma meta_or_new_err h m : (exists n, m = Some n /\ length (metas h) <= n) -> meta_or_new h m = Err NameError.
Proof. intros (n & -> & L). unfold meta_or_new, get_meta. now replace (nth_error (metas h) n) with (@None node) by (symmetry; now apply nth_error_None). Qed.
Lemma new_pair_step h mt bs gs g m r : sound h -> (built {| matching := mt; banks := bs; ids := gs; pmeta := 0; graph := g |}) -> new_pair h mt bs gs g m = Ok r ->
  exists h1 n a, meta_or_new h m = Ok (h1, n) /\ sound (fst r) /\ metas (fst r) = metas h ++ a /\ gps (fst r) = gps h ++ [{| matching := mt; banks := bs; ids := gs; pmeta := n; graph := g |}] /\
    corpora (fst r) = corpora h /\ n < length (metas (fst r)) /\ (m = Some n \/ length (metas h) <= n).
Proof.
  intros S B E. unfold new_pair in E. apply bind_ok in E as ((h1 & n) & E & F).
  assert (V : forall n, m = Some n -> n < length (metas h)). { intros n' ->. destruct (Nat.lt_ge_cases n' (length (metas h))); [auto|]. rewrite meta_or_new_err in E by eauto. discriminate. }
  destruct (meta_or_new_ok h m V S) as (h2 & n2 & E2 & S2 & (a & A) & G & C & L & O & _). rewrite E in E2. injection E2 as <- <-. cbn [fst snd push_pair] in F. injection F as <-. cbn [fst metas gps corpora].
  exists h1, n, a. split; [auto|]. split.
  2: (cbn [push_pair fst metas gps corpora]; rewrite G; auto 10).
  apply (push_pair_sound h1 {| matching := mt; banks := bs; ids := gs; pmeta := n; graph := g |}); auto.
Qed.
Lemma built_empty mt bs gs m : built {| matching := mt; banks := bs; ids := gs; pmeta := m; graph := empty_digraph string string |}.
Proof. exists []. now destruct mt. Qed.
Lemma built_meta x m : built x -> built {| matching := matching x; banks := banks x; ids := ids x; pmeta := m; graph := graph x |}.
Proof. intros (ops & E). exists ops. exact E. Qed.
Lemma in_slice A (l : list A) n i p : In p (firstn n (skipn i l)) -> In p l.
Proof. intros H. rewrite <- (firstn_skipn i l). apply in_app_iff. right. rewrite <- (firstn_skipn n (skipn i l)). apply in_app_iff. now left. Qed.
Lemma step_sound h o h' : sound h -> proper o -> step h o = Ok h' -> sound h'.
Proof.
  intros S P E. destruct o as [e|mt b1 b2 g1 g2 m|p s t r|p s t|p m|p|ps rs m|c i j|c p|c m|c a ap|c].
  - injection E as <-. now apply push_meta_sound.
  - cbn [step] in E. apply bind_ok in E as (r & E & F). injection F as <-. eapply new_pair_step in E; [|auto|apply built_empty]. destruct E as (? & ? & ? & _ & E & _). exact E.
  - cbn [step] in E. apply bind_ok in E as (x & X & E). apply get_pair_some in X. apply bind_ok in E as (g & G & E). injection E as <-. destruct (s_gps _ S p x X) as (L & B).
    eapply put_pair_sound; eauto. destruct x as [mt bs gs pm gr]. eapply built_snoc; [exact B|exact G].
  - cbn [step] in E. apply bind_ok in E as (x & X & E). apply get_pair_some in X. apply bind_ok in E as (g & G & E). injection E as <-. destruct (s_gps _ S p x X) as (L & B).
    eapply put_pair_sound; eauto. destruct x as [mt bs gs pm gr]. eapply built_snoc with (o := Del _ s t); [exact B|]. cbn [matching graph] in *. now destruct mt.
  - cbn [step] in E. apply bind_ok in E as (x & X & E). apply get_pair_some in X. apply bind_ok in E as (e & M & E). apply get_meta_some in M. destruct (String.eqb (tag e) "graph_meta_data"); [|discriminate]. injection E as <-.
    destruct (s_gps _ S p x X) as (L & B). eapply put_pair_sound; [eauto|eauto|cbn [pmeta]; eapply nth_lt; eauto|now apply built_meta].
  - destruct (copy_pair_step h p h' S E) as (k & q & C & _). exact (c_sound _ _ _ C).
  - cbn [step] in E. destruct (valid_pairs h ps && valid_meta h m)%bool eqn:V; [|discriminate]. apply andb_prop in V as (V1 & V2). injection E as <-. apply new_corpus_sound; [auto|now apply valid_pairs_in|now apply valid_meta_lt].
  - cbn [step] in E. apply bind_ok in E as (x & X & E). apply get_corpus_some in X. injection E as <-. destruct (s_corpora _ S c x X) as (C1 & C2 & C3). apply new_corpus_sound; auto. intros q Q. apply C1. eapply in_slice; eauto.
  - cbn [step] in E. apply bind_ok in E as (x & X & E). apply get_corpus_some in X. apply bind_ok in E as (y & Y & E). apply get_pair_some in Y. destruct (matching y); [|discriminate]. injection E as <-.
    destruct (s_corpora _ S c x X) as (C1 & C2 & C3). apply put_corpus_sound; auto. cbn [members]. intros q Q. apply in_app_iff in Q as [Q|[<-|[]]]; [auto|eapply nth_lt; eauto].
  - cbn [step] in E. apply bind_ok in E as (x & X & E). apply get_corpus_some in X. destruct (valid_meta h m) eqn:V; [|discriminate]. injection E as <-.
    destruct (s_corpora _ S c x X) as (C1 & C2 & C3). apply put_corpus_sound; auto. cbn [cmeta]. now apply valid_meta_lt.
  - cbn [step] in E. apply bind_ok in E as (x & X & E). apply get_corpus_some in X. destruct (cmeta x) as [m|]; [|discriminate]. apply bind_ok in E as (e & M & E). apply get_meta_some in M. injection E as <-.
    apply put_meta_sound; [auto|]. apply annotate_wf. eapply (s_metas _ S); eauto.
  - destruct (nth_error (corpora h) c) as [x|] eqn:X; [|cbn [step] in E; unfold copy_corpus, get_corpus in E; rewrite X in E; discriminate].
    destruct (copy_corpus_ok h c x S X) as (h1 & k & qs & h2 & mo & C1 & F & C2 & G & E' & M). rewrite E' in E. injection E as <-.
    assert (C3 : copying h h2 k) by exact C2. apply new_corpus_sound; [exact (c_sound _ _ _ C2)| |].
    + intros q Q. eapply copied_members; eauto.
    + intros n ->. destruct (cmeta x); [tauto|destruct M].
Qed.
Lemma no_heap_sound : sound no_heap.
Proof. constructor; cbn [no_heap metas gps corpora]; intros [|i] ? H; discriminate. Qed.
Lemma keep_sound h o : sound h -> proper o -> sound (keep_going h o).
Proof. intros S P. unfold keep_going. destruct (step h o) eqn:E; [|auto]. eapply step_sound; eauto. Qed.
Lemma run_from_sound os : forall h, sound h -> Forall proper os -> sound (run h os).
Proof. induction os as [|o os IH]; intros h S P; [auto|]. inversion P as [|? ? P1 P2]; subst. cbn [run fold_left]. apply IH; [now apply keep_sound|auto]. Qed.

(** Objects that nothing reaches stay as they are. *)
Definition refers (h : heap) (o r : object) : Prop :=
  match o with
  | Meta _ => False
  | GP p => exists x, nth_error (gps h) p = Some x /\ r = Meta (pmeta x)
  | Corpus c => exists x, nth_error (corpora h) c = Some x /\ (In r (map GP (members x)) \/ In r (opt_meta (cmeta x)))
  end.
Definition same_at (h h' : heap) (o : object) : Prop :=
  match o with
  | Meta m => nth_error (metas h') m = nth_error (metas h) m
  | GP p => nth_error (gps h') p = nth_error (gps h) p
  | Corpus c => nth_error (corpora h') c = nth_error (corpora h) c
  end.
Definition closed (U : object -> Prop) (h : heap) : Prop :=
  (forall o, U o -> exists_in h o) /\ (forall o r, exists_in h o -> ~ U o -> refers h o r -> ~ U r).
Definition frame (U : object -> Prop) (h h' : heap) : Prop := forall o, U o -> same_at h h' o.
Lemma ext_frame U h h' a b d : metas h' = metas h ++ a -> gps h' = gps h ++ b -> corpora h' = corpora h ++ d -> closed U h ->
  (forall x, In x b -> ~ U (Meta (pmeta x))) -> (forall x r, In x d -> In r (map GP (members x)) \/ In r (opt_meta (cmeta x)) -> ~ U r) -> frame U h h' /\ closed U h'.
Proof.
  intros A B D (C1 & C2) X Y. split; [|split].
  - intros o O. specialize (C1 o O). destruct o; cbn [same_at exists_in] in *; rewrite ?A, ?B, ?D; now apply nth_app.
  - intros o O. specialize (C1 o O). destruct o; cbn [exists_in] in *; rewrite ?A, ?B, ?D, app_length; lia.
  - intros o r E O R. destruct o as [m|p|c]; cbn [exists_in refers] in *; [destruct R|..].
    + destruct R as (x & N & ->). rewrite B in N. destruct (Nat.lt_ge_cases p (length (gps h))) as [L|L].
      * rewrite nth_app in N by auto. apply (C2 (GP p)); auto. exists x. auto.
      * rewrite nth_error_app2 in N by auto. apply nth_error_In in N. auto.
    + destruct R as (x & N & R). rewrite D in N. destruct (Nat.lt_ge_cases c (length (corpora h))) as [L|L].
      * rewrite nth_app in N by auto. apply (C2 (Corpus c)); auto. exists x. auto.
      * rewrite nth_error_app2 in N by auto. apply nth_error_In in N. eauto.
Qed.
Lemma fresh_meta U h m : closed U h -> length (metas h) <= m -> ~ U (Meta m).
Proof. intros (C & _) L O. apply C in O. cbn in O. lia. Qed.
Lemma fresh_gp U h m : closed U h -> length (gps h) <= m -> ~ U (GP m).
Proof. intros (C & _) L O. apply C in O. cbn in O. lia. Qed.
Lemma put_meta_frame U h m e : closed U h -> ~ U (Meta m) -> frame U h (put_meta h m e) /\ closed U (put_meta h m e).
Proof.
  intros (C1 & C2) N. split; [|split].
  - intros o O. destruct o as [n|p|c]; cbn [same_at put_meta metas gps corpora]; auto. apply nth_error_set_nth_other. intros ->. auto.
  - intros o O. specialize (C1 o O). destruct o; cbn [exists_in put_meta metas gps corpora] in *; rewrite ?set_nth_length; auto.
  - intros o r E O R. apply (C2 o r); auto. destruct o; cbn [exists_in put_meta metas gps corpora] in *; rewrite ?set_nth_length in E; auto.
Qed.
Lemma put_pair_frame U h p x : closed U h -> ~ U (GP p) -> ~ U (Meta (pmeta x)) -> frame U h (put_pair h p x) /\ closed U (put_pair h p x).
Proof.
  intros (C1 & C2) N M. split; [|split].
  - intros o O. destruct o as [n|q|c]; cbn [same_at put_pair metas gps corpora]; auto. apply nth_error_set_nth_other. intros ->. auto.
  - intros o O. specialize (C1 o O). destruct o; cbn [exists_in put_pair metas gps corpora] in *; rewrite ?set_nth_length; auto.
  - intros o r E O R. destruct o as [n|q|c].
    + destruct R.
    + cbn [refers put_pair gps] in R. destruct R as (y & Y & ->). apply nth_set in Y as [(-> & ->)|(Q & Y)]; [auto|]. apply (C2 (GP q)); [|auto|exists y; auto]. eapply nth_lt; eauto.
    + apply (C2 (Corpus c)); auto.
Qed.
Lemma put_corpus_frame U h c x : closed U h -> ~ U (Corpus c) -> (forall r, In r (map GP (members x)) \/ In r (opt_meta (cmeta x)) -> ~ U r) -> frame U h (put_corpus h c x) /\ closed U (put_corpus h c x).
Proof.
  intros (C1 & C2) N M. split; [|split].
  - intros o O. destruct o as [n|q|d]; cbn [same_at put_corpus metas gps corpora]; auto. apply nth_error_set_nth_other. intros ->. auto.
  - intros o O. specialize (C1 o O). destruct o; cbn [exists_in put_corpus metas gps corpora] in *; rewrite ?set_nth_length; auto.
  - intros o r E O R. destruct o as [n|q|d].
    + destruct R.
    + apply (C2 (GP q)); auto.
    + cbn [refers put_corpus corpora] in R. destruct R as (y & Y & R). apply nth_set in Y as [(-> & ->)|(Q & Y)]; [auto|]. apply (C2 (Corpus d)); [|auto|exists y; auto]. eapply nth_lt; eauto.
Qed.
Lemma copying_frame U h h' k : copying h h' k -> closed U h -> frame U h h' /\ closed U h'.
Proof.
  intros C CL. destruct (c_metas _ _ _ C) as (a & A). destruct (c_gps _ _ _ C) as (b & B). apply (ext_frame U h h' a b []); auto.
  - rewrite app_nil_r. exact (c_corpora _ _ _ C).
  - intros x X. eapply fresh_meta; eauto. apply In_nth_error in X as (i & X). eapply (c_new _ _ _ C (length (gps h) + i) x); [lia|]. rewrite B, nth_error_app2, Nat.add_comm, Nat.add_sub; auto; lia.
Qed.
Lemma step_frame U h o h' : sound h -> closed U h -> (forall x, In x (mentions o) -> ~ U x) -> step h o = Ok h' -> frame U h h' /\ closed U h'.
Proof.
  intros S CL N E. destruct o as [e|mt b1 b2 g1 g2 m|p s t r|p s t|p m|p|ps rs m|c i j|c p|c m|c a ap|c]; cbn [mentions] in N.
  - injection E as <-. apply (ext_frame U h _ [e] [] []); cbn [push_meta fst metas gps corpora]; rewrite ?app_nil_r; auto; intros ? [].
  - cbn [step] in E. apply bind_ok in E as (r & E & F). injection F as <-. eapply new_pair_step in E; [|auto|apply built_empty]. destruct E as (h1 & n & a & _ & _ & A & B & C & L & O).
    apply (ext_frame U h _ a [{| matching := mt; banks := (b1, b2); ids := (g1, g2); pmeta := n; graph := empty_digraph string string |}] []); rewrite ?app_nil_r; auto.
    intros x [<-|[]]. cbn [pmeta]. destruct O as [->|O]; [apply N; now left|eapply fresh_meta; eauto].
  - cbn [step] in E. apply bind_ok in E as (x & X & E). apply get_pair_some in X. apply bind_ok in E as (g & G & E). injection E as <-.
    assert (NP : ~ U (GP p)) by (apply N; now left). apply put_pair_frame; auto. cbn [pmeta]. apply (proj2 CL (GP p)); [eapply nth_lt; eauto|auto|exists x; auto].
  - cbn [step] in E. apply bind_ok in E as (x & X & E). apply get_pair_some in X. apply bind_ok in E as (g & G & E). injection E as <-.
    assert (NP : ~ U (GP p)) by (apply N; now left). apply put_pair_frame; auto. cbn [pmeta]. apply (proj2 CL (GP p)); [eapply nth_lt; eauto|auto|exists x; auto].
  - cbn [step] in E. apply bind_ok in E as (x & X & E). apply get_pair_some in X. apply bind_ok in E as (e & M & E). apply get_meta_some in M. destruct (String.eqb (tag e) "graph_meta_data"); [|discriminate]. injection E as <-.
    apply put_pair_frame; auto; apply N; cbn; auto.
  - destruct (copy_pair_step h p h' S E) as (k & q & C & _). eapply copying_frame; eauto.
  - cbn [step] in E. destruct (valid_pairs h ps && valid_meta h m)%bool eqn:V; [|discriminate]. injection E as <-.
    apply (ext_frame U h _ [] [] [{| members := ps; rels := isort String.leb rs; cmeta := m |}]); cbn [new_corpus push_corpus metas gps corpora]; rewrite ?app_nil_r; auto.
    intros x r [<-|[]] R. cbn [members cmeta] in R. apply N. apply in_app_iff. exact R.
  - cbn [step] in E. apply bind_ok in E as (x & X & E). apply get_corpus_some in X. injection E as <-.
    apply (ext_frame U h _ [] [] [{| members := firstn (j - i) (skipn i (members x)); rels := isort String.leb (rels x); cmeta := cmeta x |}]); cbn [new_corpus push_corpus metas gps corpora]; rewrite ?app_nil_r; auto.
    intros y r [<-|[]] R. cbn [members cmeta] in R. apply (proj2 CL (Corpus c)); [eapply nth_lt; eauto|apply N; now left|]. exists x. split; [auto|]. destruct R as [R|R]; [left|now right].
    apply in_map_iff in R as (q & <- & R). apply in_map. eapply in_slice; eauto.
  - cbn [step] in E. apply bind_ok in E as (x & X & E). apply get_corpus_some in X. apply bind_ok in E as (y & Y & E). apply get_pair_some in Y. destruct (matching y); [|discriminate]. injection E as <-.
    assert (NC : ~ U (Corpus c)) by (apply N; now left). apply put_corpus_frame; auto. cbn [members cmeta]. intros r R. rewrite map_app, in_app_iff in R. cbn [map In] in R.
    destruct R as [[R|[<-|[]]]|R]; [|apply N; cbn; auto|]; (apply (proj2 CL (Corpus c)); [eapply nth_lt; eauto|auto|exists x; auto]).
  - cbn [step] in E. apply bind_ok in E as (x & X & E). apply get_corpus_some in X. destruct (valid_meta h m) eqn:V; [|discriminate]. injection E as <-.
    assert (NC : ~ U (Corpus c)) by (apply N; now left). apply put_corpus_frame; auto. cbn [members cmeta]. intros r [R|R]; [|apply N; now right]. apply (proj2 CL (Corpus c)); [eapply nth_lt; eauto|auto|exists x; auto].
  - cbn [step] in E. apply bind_ok in E as (x & X & E). apply get_corpus_some in X. destruct (cmeta x) as [m|] eqn:CM; [|discriminate]. apply bind_ok in E as (e & M & E). apply get_meta_some in M. injection E as <-.
    apply put_meta_frame; auto. apply (proj2 CL (Corpus c)); [eapply nth_lt; eauto|apply N; now left|]. exists x. rewrite CM. cbn. auto.
  - destruct (nth_error (corpora h) c) as [x|] eqn:X; [|cbn [step] in E; unfold copy_corpus, get_corpus in E; rewrite X in E; discriminate].
    destruct (copy_corpus_ok h c x S X) as (h1 & k & qs & h2 & mo & C1 & F & C2 & G & E' & M). rewrite E' in E. injection E as <-.
    destruct (c_metas _ _ _ C2) as (a & A). destruct (c_gps _ _ _ C2) as (b & B).
    apply (ext_frame U h _ a b [{| members := qs; rels := isort String.leb (rels x); cmeta := mo |}]); cbn [new_corpus push_corpus metas gps corpora]; auto.
    + now rewrite (c_corpora _ _ _ C2).
    + intros y Y. eapply fresh_meta; eauto. apply In_nth_error in Y as (i & Y). eapply (c_new _ _ _ C2 (length (gps h) + i) y); [lia|]. rewrite B, nth_error_app2, Nat.add_comm, Nat.add_sub; auto; lia.
    + intros y r [<-|[]] R. cbn [members cmeta] in R. destruct R as [R|R].
      * apply in_map_iff in R as (q & <- & R). eapply fresh_gp; eauto. eapply copied_members in R; [|exact C2|exact F]. lia.
      * destruct mo as [n|]; [|destruct R]. destruct R as [<-|[]]. destruct (cmeta x); [|destruct M]. eapply fresh_meta; eauto. tauto.
Qed.
Lemma run_frame U os : forall h, sound h -> closed U h -> Forall proper os -> (forall o x, In o os -> In x (mentions o) -> ~ U x) -> frame U h (run h os).
Proof.
  induction os as [|o os IH]; intros h S C P N; [intros x _; destruct x; reflexivity|]. inversion P as [|? ? P1 P2]; subst. cbn [run fold_left].
  change (fold_left keep_going os (keep_going h o)) with (run (keep_going h o) os).
  assert (F : frame U h (keep_going h o) /\ closed U (keep_going h o)).
  { unfold keep_going. destruct (step h o) eqn:E; [|split; [intros x _; destruct x; reflexivity|auto]]. eapply step_frame; eauto. intros x X. apply (N o); cbn; auto. }
  destruct F as (F1 & F2). pose proof (IH (keep_going h o) (keep_sound h o S P1) F2 P2 (fun o' x I => N o' x (or_intror I))) as F3.
  intros x X. specialize (F1 x X). specialize (F3 x X). destruct x; cbn [same_at] in *; congruence.
Qed.

(** Views depend only on what can be reached. *)
Lemma see_pair_frame h h' p : same_at h h' (GP p) -> (forall r, refers h (GP p) r -> same_at h h' r) -> see_pair h' p = see_pair h p.
Proof.
  intros A B. cbn [same_at] in A. unfold see_pair. rewrite A. destruct (nth_error (gps h) p) as [x|] eqn:X; [|auto].
  specialize (B (Meta (pmeta x))). cbn [same_at] in B. now rewrite B by (exists x; auto).
Qed.
Lemma see_pairs_ext h h' ps : (forall p, In p ps -> see_pair h' p = see_pair h p) -> see_pairs h' ps = see_pairs h ps.
Proof. induction ps as [|p ps IH]; intros H; [auto|]. cbn [see_pairs]. rewrite H, IH; cbn; auto. intros. apply H. now right. Qed.
Lemma see_corpus_frame h h' c : same_at h h' (Corpus c) -> (forall x m, nth_error (corpora h) c = Some x -> cmeta x = Some m -> same_at h h' (Meta m)) ->
  (forall x p, nth_error (corpora h) c = Some x -> In p (members x) -> see_pair h' p = see_pair h p) -> see_corpus h' c = see_corpus h c.
Proof.
  intros A B D. cbn [same_at] in A. unfold see_corpus. rewrite A. destruct (nth_error (corpora h) c) as [x|] eqn:X; [|auto]. rewrite (see_pairs_ext h h') by (intros; eapply D; eauto).
  destruct (see_pairs h (members x)); [|auto]. destruct (cmeta x) as [m|] eqn:M; [|auto]. specialize (B x m eq_refl M). cbn [same_at] in B. now rewrite B.
Qed.
Lemma see_pair_U (U : object -> Prop) h h' p : frame U h h' -> (forall o r, U o -> refers h o r -> U r) -> U (GP p) -> see_pair h' p = see_pair h p.
Proof. intros F R P. apply see_pair_frame; [auto|]. intros r Q. apply F. eapply R; eauto. Qed.
Lemma see_corpus_U (U : object -> Prop) h h' c : frame U h h' -> (forall o r, U o -> refers h o r -> U r) -> U (Corpus c) -> see_corpus h' c = see_corpus h c.
Proof.
  intros F R P. apply see_corpus_frame; [now apply F| |].
  - intros x m X M. apply F. apply (R (Corpus c)); auto. exists x. rewrite M. cbn. auto.
  - intros x p X I. eapply see_pair_U; eauto. apply (R (Corpus c)); auto. exists x. split; [auto|]. left. now apply in_map.
Qed.
Lemma refers_exist h o r : sound h -> refers h o r -> exists_in h o /\ exists_in h r.
Proof.
  intros [A B C] R. destruct o as [m|p|c]; cbn [refers exists_in] in *; [destruct R|..]; destruct R as (x & X & R); (split; [eapply nth_lt; eauto|]).
  - subst r. cbn. now apply (B p).
  - destruct (C c x X) as (C1 & C2 & _). destruct R as [R|R].
    + apply in_map_iff in R as (q & <- & Q). cbn. auto.
    + destruct (cmeta x) as [m|]; [|destruct R]. destruct R as [<-|[]]. cbn. auto.
Qed.

(** An answer of equals is always right. *)
Lemma texts_same a b r : same_text a b -> texts a b r = Err ValueError \/ texts a b r = r.
Proof.
  intros S. unfold texts. destruct (str_of_cases a) as [[A ->]|[A ->]]; cbn [bind]; [|auto]. destruct (str_of_cases b) as [[B ->]|[B ->]]; cbn [bind]; [|auto].
  apply same_text_strip in S. apply text_eqb_spec in S. rewrite S. auto.
Qed.
Lemma equals_false : forall a b, well_formed a -> well_formed b -> same a b -> equals a b <> Ok false.
Proof.
  induction a as [tg tx tl at_ ch IH] using node_ind2. intros [tg2 tx2 tl2 at2 ch2] W1 W2 S E.
  apply wf_inv in W1, W2. destruct W1 as [N1 W1], W2 as [N2 W2]. inversion S as [? ? S1 S2 S3 S4 S5]; subst. cbn [tag txt tail attrib children] in *.
  rewrite equals_eq in E. apply String.eqb_eq in S1. rewrite S1 in E. cbn [and_then] in E.
  destruct (texts_same tx tx2 (texts tl tl2 (and_then (dict_eqb at_ at2) (and_then (length ch =? length ch2) (bs <- go ch ch2 ;; Ok (forallb (fun b => b) bs))))) S2) as [X|X]; rewrite X in E; [discriminate|]. clear X.
  destruct (texts_same tl tl2 (and_then (dict_eqb at_ at2) (and_then (length ch =? length ch2) (bs <- go ch ch2 ;; Ok (forallb (fun b => b) bs)))) S3) as [X|X]; rewrite X in E; [discriminate|]. clear X.
  apply (dict_eqb_spec _ _ N1 N2) in S4. rewrite S4 in E. assert (L : length ch = length ch2) by (clear -S5; induction S5; cbn; congruence). apply Nat.eqb_eq in L. rewrite L in E. cbn [and_then] in E.
  assert (G : forall bs, go ch ch2 = Ok bs -> forallb (fun b => b) bs = true).
  { clear -IH W1 W2 S5. revert ch2 W2 S5. induction IH as [|a l H _ IHl]; intros ch2 W2 S5 bs; inversion S5 as [|? b ? k F1 F2]; subst; cbn [go]; fold go.
    - now intros [= <-].
    - inversion W1; subst. inversion W2; subst. destruct (equals a b) as [[|]|] eqn:Q; cbn [bind]; [|exfalso; eapply H; [| |exact F1|exact Q]; auto|discriminate].
      destruct (go l k) as [cs|] eqn:Q2; cbn [bind]; [|discriminate]. intros [= <-]. cbn. eapply IHl; eauto. }
  destruct (go ch ch2) as [bs|]; [|discriminate]. cbn [bind] in E. rewrite (G bs eq_refl) in E. discriminate.
Qed.
Lemma equals_right a b r : well_formed a -> well_formed b -> equals a b = Ok r -> (r = true <-> same a b).
Proof.
  intros W1 W2 E. split.
  - intros ->. apply equals_true in E; tauto.
  - intros S. destruct r; [auto|]. destruct (equals_false a b W1 W2 S E).
Qed.
Section Eqs.
Variable inode : string -> option nat.
Lemma bank_eq_right p q r : bank_eq inode p q = Ok r -> (r = true <-> same_file inode p q).
Proof.
  unfold bank_eq, same_file. destruct (String.eqb_spec p q) as [->|N]; [intros [= <-]; tauto|]. destruct (inode p) as [i|]; [|discriminate]. destruct (inode q) as [j|]; [|discriminate]. intros [= <-].
  rewrite Nat.eqb_eq. split; [intros ->; eauto|]. intros [E|(k & [= ->] & [= ->])]; congruence.
Qed.
Lemma bank_eq_err p q x : bank_eq inode p q = Err x -> x = OSError /\ ~ known_files inode p q.
Proof.
  unfold bank_eq, known_files. destruct (String.eqb_spec p q) as [->|N]; [discriminate|]. destruct (inode p) as [i|] eqn:P; [destruct (inode q) as [j|] eqn:Q; [discriminate|]|]; intros [= <-]; (split; [auto|]); intros [E|(E1 & E2)]; congruence.
Qed.
Lemma bank_eq_sym p q : bank_eq inode p q = bank_eq inode q p.
Proof. unfold bank_eq. rewrite String.eqb_sym. destruct (String.eqb q p); [auto|]. destruct (inode p), (inode q); auto. now rewrite Nat.eqb_sym. Qed.
Lemma same_file_trans p q r : same_file inode p q -> same_file inode q r -> same_file inode p r.
Proof. intros [->|(i & A & B)] [->|(j & C & D)]; [left; auto|right; eauto|right; eauto|]. right. exists i. split; [auto|congruence]. Qed.
Lemma same_known p q : same_file inode p q -> known_files inode p q.
Proof. intros [->|(i & A & B)]; [left; auto|right; split; congruence]. Qed.

(** Pairs in a sound heap. *)
Lemma see_pair_inv h p a : see_pair h p = Some a -> exists x e, nth_error (gps h) p = Some x /\ nth_error (metas h) (pmeta x) = Some e /\
  a = {| one_to_one := matching x; source_bank := fst (banks x); target_bank := snd (banks x); source_id := fst (ids x); target_id := snd (ids x); about_pair := e; links := get_align String.eqb (graph x) |}.
Proof. unfold see_pair. destruct (nth_error (gps h) p) as [x|]; [|discriminate]. destruct (nth_error (metas h) (pmeta x)) as [e|] eqn:E; [|discriminate]. intros [= <-]. eauto. Qed.
Lemma graphs_equal x y : built x -> built y -> matching x = matching y -> (alignments_equal String.eqb String.eqb (graph x) (graph y) = true <-> forall s t, get_align String.eqb (graph x) s t = get_align String.eqb (graph y) s t).
Proof.
  intros (o1 & B1) (o2 & B2) M. rewrite B1, B2, M. destruct (matching y).
  - apply (@equal_histories_matching string string String.eqb String.eqb String.eqb_eq String.eqb_eq).
  - apply (@equal_histories string string String.eqb String.eqb String.eqb_eq String.eqb_eq).
Qed.
Lemma meta_eq_cases h m n e f : nth_error (metas h) m = Some e -> nth_error (metas h) n = Some f -> meta_eq h m n = if m =? n then Ok true else equals e f.
Proof. intros E F. unfold meta_eq, get_meta. now rewrite E, F. Qed.
Lemma meta_eq_right h m n e f r : sound h -> nth_error (metas h) m = Some e -> nth_error (metas h) n = Some f -> meta_eq h m n = Ok r -> (r = true <-> same e f).
Proof.
  intros S E F Q. rewrite (meta_eq_cases h m n e f E F) in Q. destruct (Nat.eqb_spec m n) as [->|N].
  - injection Q as <-. assert (e = f) by congruence. subst. split; [intros; apply same_refl|auto].
  - eapply equals_right; eauto; eapply (s_metas _ S); eauto.
Qed.
Lemma meta_eq_sym h m n e f : sound h -> nth_error (metas h) m = Some e -> nth_error (metas h) n = Some f -> meta_eq h m n = meta_eq h n m.
Proof. intros S E F. rewrite (meta_eq_cases h m n e f E F), (meta_eq_cases h n m f e F E), Nat.eqb_sym. destruct (n =? m); [auto|]. apply equals_sym; eapply (s_metas _ S); eauto. Qed.
Lemma meta_eq_err h m n e f x : nth_error (metas h) m = Some e -> nth_error (metas h) n = Some f -> meta_eq h m n = Err x -> x = ValueError /\ m <> n /\ ~ (ascii_only e /\ ascii_only f).
Proof. intros E F Q. rewrite (meta_eq_cases h m n e f E F) in Q. destruct (Nat.eqb_spec m n) as [->|N]; [discriminate|]. apply equals_err in Q as (-> & Q). auto. Qed.
Lemma same_pair_refl a : same_pair inode a a.
Proof. unfold same_pair, same_file. do 5 (split; [auto|]). split; [apply same_refl|auto]. Qed.
Lemma pair_eq_right h p q a b r : sound h -> see_pair h p = Some a -> see_pair h q = Some b -> pair_eq inode h p q = Ok r -> (r = true <-> same_pair inode a b).
Proof.
  intros S A B E. destruct (Nat.eq_dec p q) as [->|NE].
  { assert (a = b) by congruence. subst b. apply see_pair_inv in A as (x & e & X & _). unfold pair_eq, get_pair in E. rewrite X in E. cbn [bind] in E. rewrite Bool.eqb_reflx, Nat.eqb_refl in E. cbn in E. injection E as <-. split; [intros; apply same_pair_refl|auto]. }
  apply see_pair_inv in A as (x & e & X & EX & ->). apply see_pair_inv in B as (y & f & Y & FY & ->). unfold pair_eq, get_pair in E. rewrite X, Y in E. cbn [bind] in E.
  unfold same_pair. cbn [one_to_one source_bank target_bank source_id target_id about_pair links].
  destruct (Bool.eqb (matching x) (matching y)) eqn:M; cbn [negb] in E; [apply Bool.eqb_prop in M|injection E as <-; apply Bool.eqb_false_iff in M; split; [discriminate|intros (M' & _); congruence]].
  replace (p =? q) with false in E by (symmetry; now apply Nat.eqb_neq). cbn [negb] in E.
  apply bind_ok in E as (b1 & B1 & E). unfold banks_eq in B1. apply bind_ok in B1 as (b2 & B2 & B1). apply bank_eq_right in B2. destruct b2.
  2:{ injection B1 as <-. cbn in E. injection E as <-. split; [discriminate|]. intros (_ & F1 & _). apply B2 in F1. discriminate. }
  apply bank_eq_right in B1. destruct b1; cbn [negb] in E.
  2:{ injection E as <-. split; [discriminate|]. intros (_ & _ & F1 & _). apply B1 in F1. discriminate. }
  destruct (String.eqb_spec (fst (ids x)) (fst (ids y))) as [I1|I1]; cbn [andb negb] in E; [|injection E as <-; split; [discriminate|tauto]].
  destruct (String.eqb_spec (snd (ids x)) (snd (ids y))) as [I2|I2]; cbn [andb negb] in E; [|injection E as <-; split; [discriminate|tauto]].
  apply bind_ok in E as (b3 & B3 & E). eapply meta_eq_right in B3; eauto. destruct b3; cbn [negb] in E; [|injection E as <-; split; [discriminate|]; intros (_ & _ & _ & _ & _ & SM & _); apply B3 in SM; discriminate].
  injection E as <-. rewrite graphs_equal; [|eapply (s_gps _ S); eauto..|auto]. tauto.
Qed.
Lemma pair_eq_err h p q a b x : sound h -> see_pair h p = Some a -> see_pair h q = Some b -> pair_eq inode h p q = Err x ->
  (x = OSError /\ (~ known_files inode (source_bank a) (source_bank b) \/ ~ known_files inode (target_bank a) (target_bank b))) \/ (x = ValueError /\ pair_meta h p <> pair_meta h q /\ ~ (ascii_only (about_pair a) /\ ascii_only (about_pair b))).
Proof.
  intros S A B E. apply see_pair_inv in A as (u & e & X & EX & ->). apply see_pair_inv in B as (y & f & Y & FY & ->). unfold pair_eq, get_pair in E. rewrite X, Y in E. cbn [bind] in E.
  cbn [one_to_one source_bank target_bank source_id target_id about_pair links].
  destruct (Bool.eqb (matching u) (matching y)); cbn [negb] in E; [|discriminate]. destruct (p =? q); [discriminate|].
  destruct (banks_eq inode (banks u) (banks y)) as [b1|z] eqn:B1; cbn [bind] in E.
  2:{ injection E as ->. left. unfold banks_eq in B1. destruct (bank_eq inode (fst (banks u)) (fst (banks y))) as [b2|z] eqn:B2; cbn [bind] in B1.
      - destruct b2; [|discriminate]. apply bank_eq_err in B1 as (-> & B1). auto.
      - injection B1 as ->. apply bank_eq_err in B2 as (-> & B2). auto. }
  destruct b1; cbn [negb] in E; [|discriminate]. destruct (String.eqb _ _ && String.eqb _ _)%bool; cbn [negb] in E; [|discriminate].
  destruct (meta_eq h (pmeta u) (pmeta y)) as [b3|z] eqn:B3; cbn [bind] in E; [destruct b3; discriminate|]. injection E as ->. eapply meta_eq_err in B3; eauto. right. unfold pair_meta. rewrite X, Y. destruct B3 as (-> & N & B3). split; [auto|]. split; [cbn [option_map]; congruence|auto].
Qed.
Lemma bool_iff_eq (b c : bool) (P : Prop) : (b = true <-> P) -> (c = true <-> P) -> b = c.
Proof. intros A B. apply Bool.eq_true_iff_eq. tauto. Qed.
Lemma pair_eq_sym h p q a b : sound h -> see_pair h p = Some a -> see_pair h q = Some b -> pair_eq inode h p q = pair_eq inode h q p.
Proof.
  intros S A B. apply see_pair_inv in A as (u & e & X & EX & _). apply see_pair_inv in B as (y & f & Y & FY & _). unfold pair_eq, get_pair. rewrite X, Y. cbn [bind].
  replace (Bool.eqb (matching y) (matching u)) with (Bool.eqb (matching u) (matching y)) by (destruct (matching u), (matching y); auto).
  destruct (Bool.eqb (matching u) (matching y)) eqn:M; cbn [negb]; [apply Bool.eqb_prop in M|auto]. rewrite (Nat.eqb_sym q p). destruct (p =? q); [auto|].
  unfold banks_eq. rewrite (bank_eq_sym (fst (banks y))), (bank_eq_sym (snd (banks y))), (String.eqb_sym (fst (ids y))), (String.eqb_sym (snd (ids y))), (meta_eq_sym h (pmeta y) (pmeta u) f e S FY EX).
  replace (alignments_equal String.eqb String.eqb (graph y) (graph u)) with (alignments_equal String.eqb String.eqb (graph u) (graph y)); [reflexivity|].
  assert (B1 : built u) by (eapply (s_gps _ S); eauto). assert (B2 : built y) by (eapply (s_gps _ S); eauto).
  eapply bool_iff_eq; [apply graphs_equal; auto|]. rewrite graphs_equal; auto. split; intros H s t; now rewrite H.
Qed.
Lemma pair_eq_true h p q a b : sound h -> see_pair h p = Some a -> see_pair h q = Some b ->
  (pair_eq inode h p q = Ok true <-> same_pair inode a b /\ (pair_meta h p = pair_meta h q \/ ascii_only (about_pair a) /\ ascii_only (about_pair b))).
Proof.
  intros S A B. split.
  - intros E. pose proof (pair_eq_right h p q a b true S A B E) as R. split; [now apply R|].
    apply see_pair_inv in A as (u & e & X & EX & ->). apply see_pair_inv in B as (y & f & Y & FY & ->). unfold pair_meta. rewrite X, Y. cbn [option_map about_pair].
    unfold pair_eq, get_pair in E. rewrite X, Y in E. cbn [bind] in E. destruct (Bool.eqb (matching u) (matching y)); cbn [negb] in E; [|discriminate].
    destruct (Nat.eqb_spec p q) as [->|NE]; [left; congruence|]. apply bind_ok in E as (b1 & _ & E). destruct b1; cbn [negb] in E; [|discriminate].
    destruct (String.eqb _ _ && String.eqb _ _)%bool; cbn [negb] in E; [|discriminate]. apply bind_ok in E as (b2 & E2 & E). destruct b2; [|discriminate].
    rewrite (meta_eq_cases h _ _ e f EX FY) in E2. destruct (Nat.eqb_spec (pmeta u) (pmeta y)) as [->|NM]; [auto|]. right. apply equals_true in E2; [tauto|eapply (s_metas _ S); eauto..].
  - intros (P & M). destruct (pair_eq inode h p q) as [r|x] eqn:E.
    + pose proof (pair_eq_right h p q a b r S A B E) as R. f_equal. tauto.
    + exfalso. destruct P as (_ & P1 & P2 & _). apply same_known in P1, P2. eapply pair_eq_err in E; eauto. tauto.
Qed.
Lemma same_pair_trans a b c : same_pair inode a b -> same_pair inode b c -> same_pair inode a c.
Proof.
  intros (A1 & A2 & A3 & A4 & A5 & A6 & A7) (B1 & B2 & B3 & B4 & B5 & B6 & B7). split; [congruence|]. split; [eapply same_file_trans; eauto|]. split; [eapply same_file_trans; eauto|].
  split; [congruence|]. split; [congruence|]. split; [eapply same_trans; eauto|]. intros s t. now rewrite A7.
Qed.
Lemma pair_eq_trans h p q r a b c : sound h -> see_pair h p = Some a -> see_pair h q = Some b -> see_pair h r = Some c ->
  pair_eq inode h p q = Ok true -> pair_eq inode h q r = Ok true -> pair_eq inode h p r = Ok true.
Proof.
  intros S A B C E F. apply (pair_eq_true h p q a b S A B) in E as (E1 & E2). apply (pair_eq_true h q r b c S B C) in F as (F1 & F2). apply (pair_eq_true h p r a c S A C).
  split; [eapply same_pair_trans; eauto|]. assert (SM : forall x y u v, see_pair h x = Some u -> see_pair h y = Some v -> pair_meta h x = pair_meta h y -> about_pair u = about_pair v).
  { intros x y u v U V M. apply see_pair_inv in U as (x' & e & X & EX & ->). apply see_pair_inv in V as (y' & f & Y & FY & ->). cbn [about_pair]. unfold pair_meta in M. rewrite X, Y in M. cbn in M. congruence. }
  destruct E2 as [E2|(E2 & E3)], F2 as [F2|(F2 & F3)].
  - left. congruence.
  - right. rewrite (SM p q a b A B E2). auto.
  - right. rewrite <- (SM q r b c B C F2). auto.
  - auto.
Qed.
Lemma pair_eq_refl h p a : see_pair h p = Some a -> pair_eq inode h p p = Ok true.
Proof. intros A. apply see_pair_inv in A as (x & e & X & _). unfold pair_eq, get_pair. rewrite X. cbn [bind]. now rewrite Bool.eqb_reflx, Nat.eqb_refl. Qed.

(** Corpora. *)
Lemma see_pairs_f2 h ps l : see_pairs h ps = Some l <-> Forall2 (fun p v => see_pair h p = Some v) ps l.
Proof.
  revert l. induction ps as [|p ps IH]; intros l; cbn [see_pairs].
  - split; [intros [= <-]; constructor|]. intros F. inversion F. auto.
  - destruct (see_pair h p) as [v|] eqn:P.
    + destruct (see_pairs h ps) as [k|].
      * split; [intros [= <-]; constructor; [auto|now apply IH]|]. intros F. inversion F as [|? ? ? k' F1 F2]; subst. apply IH in F2. congruence.
      * split; [discriminate|]. intros F. inversion F as [|? ? ? k' F1 F2]; subst. apply IH in F2. congruence.
    + split; [discriminate|]. intros F. inversion F as [|? ? ? k' F1 F2]; subst. congruence.
Qed.
Lemma see_corpus_inv h c v : see_corpus h c = Some v -> exists x, nth_error (corpora h) c = Some x /\ relations v = rels x /\ Forall2 (fun p v => see_pair h p = Some v) (members x) (graph_pairs v) /\
  match cmeta x with None => about v = None | Some m => exists e, nth_error (metas h) m = Some e /\ about v = Some e end.
Proof.
  unfold see_corpus. destruct (nth_error (corpora h) c) as [x|]; [|discriminate]. destruct (see_pairs h (members x)) as [l|] eqn:L; [|discriminate]. apply see_pairs_f2 in L. destruct (cmeta x) as [m|] eqn:M.
  - destruct (nth_error (metas h) m) as [e|] eqn:E; [|discriminate]. intros [= <-]. exists x. cbn [relations graph_pairs about]. rewrite M. eauto 10.
  - intros [= <-]. exists x. cbn [relations graph_pairs about]. rewrite M. auto.
Qed.
Lemma item_eq h p q a : see_pair h p = Some a -> (if p =? q then Ok true else pair_eq inode h p q) = pair_eq inode h p q.
Proof. intros A. destruct (Nat.eqb_spec p q) as [<-|N]; [|auto]. now rewrite (pair_eq_refl h p a A). Qed.
Lemma items_eq_right h : sound h -> forall ps qs l k r, length ps = length qs -> Forall2 (fun p v => see_pair h p = Some v) ps l -> Forall2 (fun p v => see_pair h p = Some v) qs k ->
  items_eq inode h ps qs = Ok r -> (r = true <-> Forall2 (same_pair inode) l k).
Proof.
  intros S. induction ps as [|p ps IH]; intros [|q qs] l k r L F G E; try discriminate L; inversion F as [|? a ? l' F1 F2]; inversion G as [|? b ? k' G1 G2]; subst; cbn [items_eq] in E.
  - injection E as <-. split; auto.
  - rewrite (item_eq h p q a F1) in E. apply bind_ok in E as (b1 & B1 & E). eapply pair_eq_right in B1; eauto. destruct b1.
    + injection L as L. specialize (IH qs l' k' r L F2 G2 E). rewrite IH. split; [intros; constructor; [now apply B1|auto]|]. intros Q. inversion Q; auto.
    + injection E as <-. split; [discriminate|]. intros Q. inversion Q as [|? ? ? ? Q1 Q2]; subst. now apply B1 in Q1.
Qed.
Lemma items_eq_err h : sound h -> forall ps qs l k x, length ps = length qs -> Forall2 (fun p v => see_pair h p = Some v) ps l -> Forall2 (fun p v => see_pair h p = Some v) qs k ->
  items_eq inode h ps qs = Err x -> exists i p q, nth_error ps i = Some p /\ nth_error qs i = Some q /\ pair_eq inode h p q = Err x.
Proof.
  intros S. induction ps as [|p ps IH]; intros [|q qs] l k x L F G E; try discriminate L; inversion F as [|? a ? l' F1 F2]; inversion G as [|? b ? k' G1 G2]; subst; cbn [items_eq] in E; [discriminate|].
  rewrite (item_eq h p q a F1) in E. destruct (pair_eq inode h p q) as [b1|y] eqn:B1; cbn [bind] in E.
  - destruct b1; [|discriminate]. injection L as L. destruct (IH qs l' k' x L F2 G2 E) as (i & p' & q' & I). exists (Datatypes.S i), p', q'. exact I.
  - injection E as ->. exists 0, p, q. auto.
Qed.
Lemma items_eq_sym h : sound h -> forall ps qs l k, Forall2 (fun p v => see_pair h p = Some v) ps l -> Forall2 (fun p v => see_pair h p = Some v) qs k ->
  items_eq inode h ps qs = items_eq inode h qs ps.
Proof.
  intros S. induction ps as [|p ps IH]; intros [|q qs] l k F G; try reflexivity. inversion F as [|? a ? l' F1 F2]; inversion G as [|? b ? k' G1 G2]; subst; cbn [items_eq].
  rewrite (item_eq h p q a F1), (item_eq h q p b G1), (pair_eq_sym h p q a b S F1 G1), (IH qs l' k' F2 G2). reflexivity.
Qed.
Lemma items_eq_true h : forall ps qs l, length ps = length qs -> Forall2 (fun p v => see_pair h p = Some v) ps l -> (items_eq inode h ps qs = Ok true <-> Forall2 (fun p q => pair_eq inode h p q = Ok true) ps qs).
Proof.
  induction ps as [|p ps IH]; intros [|q qs] l L F; try discriminate L; [split; [constructor|auto]|]. inversion F as [|? a ? l' F1 F2]; subst; cbn [items_eq].
  rewrite (item_eq h p q a F1). injection L as L. specialize (IH qs l' L F2). split.
  - intros E. apply bind_ok in E as (b1 & B1 & E). destruct b1; [|discriminate]. constructor; [auto|now apply IH].
  - intros Q. inversion Q as [|? ? ? ? Q1 Q2]; subst. rewrite Q1. cbn [bind]. now apply IH.
Qed.
Lemma f2_len A B (R : A -> B -> Prop) l k : Forall2 R l k -> length l = length k.
Proof. induction 1; cbn; auto. Qed.
Lemma corpus_eq_right h c d v w r : sound h -> see_corpus h c = Some v -> see_corpus h d = Some w -> corpus_eq inode h c d = Ok r -> (r = true <-> same_corpus inode v w).
Proof.
  intros S V W E. destruct (Nat.eq_dec c d) as [->|NE].
  { assert (v = w) by congruence. subst w. apply see_corpus_inv in V as (x & X & _). unfold corpus_eq, get_corpus in E. rewrite X in E. cbn [bind] in E. rewrite Nat.eqb_refl in E. injection E as <-. split; [|auto]. intros _.
    split; [auto|]. split; [destruct (about v); cbn; auto; apply same_refl|]. clear. induction (graph_pairs v); constructor; auto using same_pair_refl. }
  apply see_corpus_inv in V as (x & X & RX & FX & MX). apply see_corpus_inv in W as (y & Y & RY & FY & MY). unfold corpus_eq, get_corpus in E. rewrite X, Y in E. cbn [bind] in E.
  replace (c =? d) with false in E by (symmetry; now apply Nat.eqb_neq). unfold same_corpus. rewrite RX, RY. destruct (list_eq_dec string_dec (rels x) (rels y)) as [ER|ER]; cbn [negb] in E; [|injection E as <-; split; [discriminate|tauto]].
  apply bind_ok in E as (b & B & E). assert (BM : b = true <-> same_about (about v) (about w)).
  { destruct (cmeta x) as [m|], (cmeta y) as [n|]; try discriminate B.
    - destruct MX as (e & E1 & ->), MY as (f & F1 & ->). cbn. eapply meta_eq_right; eauto.
    - injection B as <-. rewrite MX, MY. cbn. tauto. }
  destruct b; cbn [negb] in E; [|injection E as <-; split; [discriminate|]; intros (_ & Q & _); apply BM in Q; discriminate].
  pose proof (f2_len _ _ _ _ _ FX) as LX. pose proof (f2_len _ _ _ _ _ FY) as LY. destruct (Nat.eqb_spec (length (members x)) (length (members y))) as [L|L]; cbn [negb] in E.
  - eapply items_eq_right in E; eauto. tauto.
  - injection E as <-. split; [discriminate|]. intros (_ & _ & Q). apply f2_len in Q. congruence.
Qed.
Lemma f2_nth_ex A B (R : A -> B -> Prop) l k i a : Forall2 R l k -> nth_error l i = Some a -> exists b, nth_error k i = Some b /\ R a b.
Proof. intros F. revert i. induction F as [|x y l k XY F IH]; intros [|i] N; try discriminate; cbn in *; [injection N as <-; eauto|eauto]. Qed.
Lemma corpus_eq_err h c d v w x : sound h -> see_corpus h c = Some v -> see_corpus h d = Some w -> corpus_eq inode h c d = Err x ->
  (x = AttributeError /\ relations v = relations w /\ ((about v = None /\ about w <> None) \/ (about v <> None /\ about w = None))) \/
  (x = ValueError /\ exists e f, about v = Some e /\ about w = Some f /\ ~ (ascii_only e /\ ascii_only f)) \/
  (exists i a b, nth_error (graph_pairs v) i = Some a /\ nth_error (graph_pairs w) i = Some b /\
     ((x = OSError /\ (~ known_files inode (source_bank a) (source_bank b) \/ ~ known_files inode (target_bank a) (target_bank b))) \/ (x = ValueError /\ ~ (ascii_only (about_pair a) /\ ascii_only (about_pair b))))).
Proof.
  intros S V W E. apply see_corpus_inv in V as (u & X & RX & FX & MX). apply see_corpus_inv in W as (y & Y & RY & FY & MY). unfold corpus_eq, get_corpus in E. rewrite X, Y in E. cbn [bind] in E.
  destruct (c =? d); [discriminate|]. destruct (list_eq_dec string_dec (rels u) (rels y)) as [ER|ER]; cbn [negb] in E; [|discriminate].
  destruct (cmeta u) as [m|], (cmeta y) as [n|]; cbn [bind] in E.
  - destruct MX as (e & E1 & ->), MY as (f & F1 & ->). destruct (meta_eq h m n) as [b|z] eqn:M; cbn [bind] in E.
    + destruct b; cbn [negb] in E; [|discriminate]. destruct (Nat.eqb_spec (length (members u)) (length (members y))) as [L|L]; cbn [negb] in E; [|discriminate].
      destruct (items_eq_err h S _ _ _ _ x L FX FY E) as (i & p & q & P & Q & PE). destruct (f2_nth_ex _ _ _ _ _ _ _ FX P) as (a & A1 & A2). destruct (f2_nth_ex _ _ _ _ _ _ _ FY Q) as (b & B1 & B2).
      right. right. exists i, a, b. split; [auto|]. split; [auto|]. eapply pair_eq_err in PE; eauto. tauto.
    + injection E as ->. eapply meta_eq_err in M; eauto. right. left. split; [tauto|]. exists e, f. tauto.
  - injection E as <-. left. destruct MX as (e & E1 & ->). split; [auto|]. split; [congruence|]. right. split; [discriminate|auto].
  - injection E as <-. left. destruct MY as (e & E1 & ->). split; [auto|]. split; [congruence|]. left. split; [auto|discriminate].
  - cbn [negb] in E. destruct (Nat.eqb_spec (length (members u)) (length (members y))) as [L|L]; cbn [negb] in E; [|discriminate].
    destruct (items_eq_err h S _ _ _ _ x L FX FY E) as (i & p & q & P & Q & PE). destruct (f2_nth_ex _ _ _ _ _ _ _ FX P) as (a & A1 & A2). destruct (f2_nth_ex _ _ _ _ _ _ _ FY Q) as (b & B1 & B2).
    right. right. exists i, a, b. split; [auto|]. split; [auto|]. eapply pair_eq_err in PE; eauto. tauto.
Qed.
Lemma corpus_eq_sym h c d v w : sound h -> see_corpus h c = Some v -> see_corpus h d = Some w -> corpus_eq inode h c d = corpus_eq inode h d c.
Proof.
  intros S V W. apply see_corpus_inv in V as (u & X & RX & FX & MX). apply see_corpus_inv in W as (y & Y & RY & FY & MY). unfold corpus_eq, get_corpus. rewrite X, Y. cbn [bind].
  rewrite (Nat.eqb_sym d c). destruct (c =? d); [auto|]. destruct (list_eq_dec string_dec (rels u) (rels y)) as [E|E], (list_eq_dec string_dec (rels y) (rels u)) as [F|F]; try congruence; cbn [negb]; [|auto].
  rewrite (Nat.eqb_sym (length (members y))), (items_eq_sym h S _ _ _ _ FX FY). destruct (cmeta u) as [m|], (cmeta y) as [n|]; auto.
  destruct MX as (e & E1 & _), MY as (f & F1 & _). rewrite (meta_eq_sym h m n e f S E1 F1). reflexivity.
Qed.
Lemma corpus_eq_true h c d x y : sound h -> nth_error (corpora h) c = Some x -> nth_error (corpora h) d = Some y -> forall l, Forall2 (fun p v => see_pair h p = Some v) (members x) l ->
  (corpus_eq inode h c d = Ok true <-> c = d \/ (rels x = rels y /\ match cmeta x, cmeta y with None, None => True | Some m, Some n => meta_eq h m n = Ok true | _, _ => False end /\
     Forall2 (fun p q => pair_eq inode h p q = Ok true) (members x) (members y))).
Proof.
  intros S X Y l F. unfold corpus_eq, get_corpus. rewrite X, Y. cbn [bind]. destruct (Nat.eqb_spec c d) as [->|N]; [tauto|]. destruct (list_eq_dec string_dec (rels x) (rels y)) as [E|E]; cbn [negb]; [|split; [discriminate|tauto]].
  assert (I : (if negb (length (members x) =? length (members y)) then Ok false else items_eq inode h (members x) (members y)) = Ok true <-> Forall2 (fun p q => pair_eq inode h p q = Ok true) (members x) (members y)).
  { destruct (Nat.eqb_spec (length (members x)) (length (members y))) as [L|L]; cbn [negb]; [eapply items_eq_true; eauto|]. split; [discriminate|]. intros Q. apply f2_len in Q. congruence. }
  destruct (cmeta x) as [m|], (cmeta y) as [n|]; cbn [bind negb]; [|split; [discriminate|tauto]|split; [discriminate|tauto]|tauto].
  destruct (meta_eq h m n) as [[|]|]; cbn [bind negb]; [tauto| |]; (split; [discriminate|]); intros [?|(_ & ? & _)]; [congruence|discriminate|congruence|discriminate].
Qed.
Lemma meta_eq_trans h m n o : sound h -> meta_eq h m n = Ok true -> meta_eq h n o = Ok true -> meta_eq h m o = Ok true.
Proof.
  intros S A B. unfold meta_eq in *. destruct (Nat.eqb_spec m n) as [->|N1]; [auto|]. destruct (Nat.eqb_spec n o) as [->|N2]; [apply Nat.eqb_neq in N1; now rewrite N1|].
  destruct (Nat.eqb_spec m o) as [->|N3]; [auto|]. apply bind_ok in A as (e & E & A). apply bind_ok in A as (f & F & A). apply bind_ok in B as (f' & F' & B). apply bind_ok in B as (g & G & B).
  rewrite E, G. cbn [bind]. assert (f' = f) by congruence. subst f'. apply get_meta_some in E, F, G. pose proof (s_metas _ S _ _ E). pose proof (s_metas _ S _ _ F). pose proof (s_metas _ S _ _ G).
  apply equals_true in A; [|auto..]. apply equals_true in B; [|auto..]. apply equals_true; [auto..|]. destruct A as (A1 & A2 & A3), B as (B1 & B2 & B3). eauto using same_trans.
Qed.
Lemma f2_trans3 A (P : A -> Prop) (R : A -> A -> Prop) l k j : (forall x y z, P x -> P y -> P z -> R x y -> R y z -> R x z) -> Forall P l -> Forall P k -> Forall P j -> Forall2 R l k -> Forall2 R k j -> Forall2 R l j.
Proof.
  intros T PL PK PJ F. revert j PJ. induction F as [|x y l k XY F IH]; intros j PJ G; inversion G as [|? z ? j' YZ G2]; subst; constructor; inversion PL; inversion PK; inversion PJ; subst; eauto.
Qed.
Lemma f2_all A B (R : A -> B -> Prop) l k : Forall2 R l k -> Forall (fun a => exists b, R a b) l.
Proof. induction 1; constructor; eauto. Qed.
Lemma corpus_eq_trans h c d e u v w : sound h -> see_corpus h c = Some u -> see_corpus h d = Some v -> see_corpus h e = Some w ->
  corpus_eq inode h c d = Ok true -> corpus_eq inode h d e = Ok true -> corpus_eq inode h c e = Ok true.
Proof.
  intros S U V W A B. apply see_corpus_inv in U as (x & X & RX & FX & MX). apply see_corpus_inv in V as (y & Y & RY & FY & MY). apply see_corpus_inv in W as (z & Z & RZ & FZ & MZ).
  pose proof (corpus_eq_true h c d x y S X Y _ FX) as (A' & _). pose proof (corpus_eq_true h d e y z S Y Z _ FY) as (B' & _). specialize (A' A). specialize (B' B).
  destruct A' as [->|(A1 & A2 & A3)]; [auto|]. destruct B' as [<-|(B1 & B2 & B3)]; [auto|]. apply (corpus_eq_true h c e x z S X Z _ FX). right. split; [congruence|]. split.
  - destruct (cmeta x), (cmeta y), (cmeta z); try tauto. eapply meta_eq_trans; eauto.
  - apply (f2_trans3 _ (fun p => exists v, see_pair h p = Some v) _ (members x) (members y) (members z)); [|exact (f2_all _ _ _ _ _ FX)|exact (f2_all _ _ _ _ _ FY)|exact (f2_all _ _ _ _ _ FZ)|exact A3|exact B3]. intros p q r (a & P) (b & Q) (g & R). eapply pair_eq_trans; eauto.
Qed.
End Eqs.

(** Views exist. *)
Lemma see_pair_some h p : sound h -> p < length (gps h) -> exists a, see_pair h p = Some a.
Proof.
  intros S L. destruct (lt_nth _ _ p L) as (x & X). destruct (s_gps _ S p x X) as (M & _). destruct (lt_nth _ _ _ M) as (e & E). unfold see_pair. rewrite X, E. eauto.
Qed.
Lemma see_pairs_some h ps : sound h -> (forall p, In p ps -> p < length (gps h)) -> exists l, see_pairs h ps = Some l.
Proof.
  intros S. induction ps as [|p ps IH]; intros L; [exists []; auto|]. destruct (see_pair_some h p S) as (a & A); [apply L; now left|]. destruct IH as (l & E); [intros; apply L; now right|]. exists (a :: l). cbn. now rewrite A, E.
Qed.
Lemma see_corpus_some h c : sound h -> c < length (corpora h) -> exists v, see_corpus h c = Some v.
Proof.
  intros S L. destruct (lt_nth _ _ c L) as (x & X). destruct (s_corpora _ S c x X) as (P & M & _). destruct (see_pairs_some h (members x) S P) as (l & E). unfold see_corpus. rewrite X, E.
  destruct (cmeta x) as [m|]; [|eauto]. destruct (lt_nth _ _ m (M m eq_refl)) as (e & ->). eauto.
Qed.
(** What was there is still there. *)
Lemma old_views h h' : sound h -> frame (exists_in h) h h' -> (forall p, p < length (gps h) -> see_pair h' p = see_pair h p) /\ (forall c, c < length (corpora h) -> see_corpus h' c = see_corpus h c).
Proof.
  intros S F. assert (R : forall o r, exists_in h o -> refers h o r -> exists_in h r) by (intros o r _ Q; eapply refers_exist; eauto). split.
  - intros p L. eapply see_pair_U; eauto.
  - intros c L. eapply see_corpus_U; eauto.
Qed.
Lemma closed_all h : closed (exists_in h) h.
Proof. split; [auto|]. intros o r A B. destruct (B A). Qed.
Lemma copy_pair_frame U h p h' : sound h -> closed U h -> step h (CopyPair p) = Ok h' -> frame U h h' /\ closed U h'.
Proof. intros S C E. destruct (copy_pair_step h p h' S E) as (k & q & K & _). eapply copying_frame; eauto. Qed.
Lemma copy_corpus_frame U h c h' : sound h -> closed U h -> step h (CopyCorpus c) = Ok h' -> frame U h h' /\ closed U h'.
Proof.
  intros S CL E. destruct (nth_error (corpora h) c) as [x|] eqn:X; [|cbn [step] in E; unfold copy_corpus, get_corpus in E; rewrite X in E; discriminate].
  destruct (copy_corpus_ok h c x S X) as (h1 & k & qs & h2 & mo & C1 & F & C2 & G & E' & M). rewrite E' in E. injection E as <-.
  destruct (c_metas _ _ _ C2) as (a & A). destruct (c_gps _ _ _ C2) as (b & B).
  apply (ext_frame U h _ a b [{| members := qs; rels := isort String.leb (rels x); cmeta := mo |}]); cbn [new_corpus push_corpus metas gps corpora]; auto.
  - now rewrite (c_corpora _ _ _ C2).
  - intros y Y. eapply fresh_meta; eauto. apply In_nth_error in Y as (i & Y). eapply (c_new _ _ _ C2 (length (gps h) + i) y); [lia|]. rewrite B, nth_error_app2, Nat.add_comm, Nat.add_sub; auto; lia.
  - intros y r [<-|[]] R. cbn [members cmeta] in R. destruct R as [R|R].
    + apply in_map_iff in R as (q & <- & R). eapply fresh_gp; eauto. eapply copied_members in R; [|exact C2|exact F]. lia.
    + destruct mo as [n|]; [|destruct R]. destruct R as [<-|[]]. destruct (cmeta x); [|destruct M]. eapply fresh_meta; eauto. tauto.
Qed.
Lemma copy_frame U h o h' : is_copy o -> sound h -> closed U h -> step h o = Ok h' -> frame U h h' /\ closed U h'.
Proof. intros IC S C E. destruct o; try destruct IC; [eapply copy_pair_frame|eapply copy_corpus_frame]; eauto. Qed.
Lemma copy_proper o : is_copy o -> proper o.
Proof. destruct o; cbn; tauto. Qed.
Lemma exists_frame h h' : frame (exists_in h) h h' -> forall o, exists_in h o -> exists_in h' o.
Proof. intros F o O. specialize (F o O). destruct o as [i|i|i]; cbn [same_at exists_in] in *; apply nth_error_Some; rewrite F; now apply nth_error_Some. Qed.
Lemma refers_frame U h h' o r : frame U h h' -> U o -> refers h' o r -> refers h o r.
Proof. intros F O. specialize (F o O). destruct o; cbn [same_at refers] in *; rewrite ?F; auto. Qed.
Lemma copy_then_touch_copy h o h' os : is_copy o -> sound h -> step h o = Ok h' -> Forall proper os -> (forall o' x, In o' os -> In x (mentions o') -> ~ exists_in h x) -> frame (exists_in h) h (run h' os).
Proof.
  intros IC S E P N. destruct (copy_frame (exists_in h) h o h' IC S (closed_all h) E) as (F & C). pose proof (step_sound h o h' S (copy_proper o IC) E) as S'.
  pose proof (run_frame (exists_in h) os h' S' C P N) as G. intros x X. specialize (F x X). specialize (G x X). destruct x; cbn [same_at] in *; congruence.
Qed.
Lemma copy_then_touch_rest h o h' os : is_copy o -> sound h -> step h o = Ok h' -> Forall proper os -> (forall o' x, In o' os -> In x (mentions o') -> ~ made h h' x) ->
  frame (made h h') h' (run h' os) /\ (forall u r, made h h' u -> refers h' u r -> made h h' r).
Proof.
  intros IC S E P N. destruct (copy_frame (exists_in h) h o h' IC S (closed_all h) E) as (F & C). pose proof (step_sound h o h' S (copy_proper o IC) E) as S'. split.
  - apply run_frame; auto. split; [intros u (U & _); auto|]. intros u r X U R (M1 & M2). apply M2.
    assert (OLD : exists_in h u). { destruct u as [i|i|i]; unfold made in U; cbn [exists_in] in *; lia. }
    eapply refers_exist; [exact S|]. eapply refers_frame; [exact F|exact OLD|exact R].
  - intros u r (U1 & U2) R. split; [eapply refers_exist; eauto|]. eapply (proj2 C); eauto.
Qed.
(** The copies. *)
Lemma new_pair_gps h mt bs gs g m r : new_pair h mt bs gs g m = Ok r -> snd r = length (gps h) /\ length (gps (fst r)) = S (length (gps h)).
Proof.
  unfold new_pair. intros E. apply bind_ok in E as ((h1 & n) & E & F). assert (G : gps h1 = gps h).
  { unfold meta_or_new in E. destruct m as [m|]; [|injection E as <- <-; auto]. apply bind_ok in E as (e & _ & E). destruct (children e); injection E as <- <-; auto. }
  cbn [fst snd push_pair] in F. injection F as <-. cbn [fst snd gps push_pair]. rewrite app_length, G. cbn. lia.
Qed.
Lemma copy_pair_number h p h' k q : copy_pair h no_memo p = Ok (h', k, q) -> q = length (gps h) /\ length (gps h') = S (length (gps h)).
Proof.
  unfold copy_pair. cbn [dget no_memo seen_pairs]. intros E. apply bind_ok in E as (x & _ & E). apply bind_ok in E as (((h1 & k1) & m) & E1 & E). apply bind_ok in E as (r & R & E). injection E as <- <- <-.
  apply new_pair_gps in R. unfold copy_meta in E1. cbn [dget no_memo seen_metas] in E1. apply bind_ok in E1 as (e & _ & E1). cbn [push_meta] in E1. injection E1 as <- <- <-. cbn [gps] in R. exact R.
Qed.
Lemma copied_view h h' k p q a : copying h h' k -> dget Nat.eqb (seen_pairs k) p = Some q -> see_pair h p = Some a -> exists b, see_pair h' q = Some b /\ copy_of a b.
Proof.
  intros C D A. destruct (c_sp _ _ _ C p q D) as (_ & x & y & e & X & Y & (O1 & O2 & O3 & O4) & E & E'). unfold see_pair in *. rewrite X, E in A. injection A as <-. rewrite Y, E'. eexists. split; [reflexivity|].
  unfold copy_of. cbn [one_to_one source_bank target_bank source_id target_id about_pair links]. rewrite O1, O2, O3, O4. auto 10.
Qed.
Lemma copy_pair_done h p a : sound h -> see_pair h p = Some a -> exists h' b, step h (CopyPair p) = Ok h' /\ see_pair h' (length (gps h)) = Some b /\ copy_of a b.
Proof.
  intros S A. assert (L : p < length (gps h)) by (apply see_pair_inv in A as (x & e & X & _); eapply nth_lt; eauto).
  destruct (copy_pair_ok h h no_memo p (copying_start h S) S L) as (h' & k & q & E & C & D & _). destruct (copied_view h h' k p q a C D A) as (b & B & CB). destruct (copy_pair_number _ _ _ _ _ E) as (-> & _).
  exists h', b. cbn [step]. rewrite E. auto.
Qed.
Lemma copied_views h h' k ps qs l : copying h h' k -> Forall2 (fun p q => dget Nat.eqb (seen_pairs k) p = Some q) ps qs -> Forall2 (fun p v => see_pair h p = Some v) ps l ->
  exists m, Forall2 (fun p v => see_pair h' p = Some v) qs m /\ Forall2 copy_of l m.
Proof.
  intros C F. revert l. induction F as [|p q ps qs PQ F IH]; intros l G; inversion G as [|? a ? l' G1 G2]; subst; [exists []; auto|].
  destruct (IH l' G2) as (m & M1 & M2). destruct (copied_view h h' k p q a C PQ G1) as (b & B1 & B2). exists (b :: m). auto.
Qed.
Lemma see_new_corpus h ps rs m p : see_pair (new_corpus h ps rs m) p = see_pair h p.
Proof. reflexivity. Qed.
Lemma copy_corpus_done h c v : sound h -> see_corpus h c = Some v -> exists h' w x y, step h (CopyCorpus c) = Ok h' /\ see_corpus h' (length (corpora h)) = Some w /\
  relations w = relations v /\ about w = about v /\ Forall2 copy_of (graph_pairs v) (graph_pairs w) /\
  nth_error (corpora h) c = Some x /\ nth_error (corpora h') (length (corpora h)) = Some y /\ length (members y) = length (members x) /\
  (forall i j p p' q q', nth_error (members x) i = Some p -> nth_error (members x) j = Some p' -> nth_error (members y) i = Some q -> nth_error (members y) j = Some q' -> (p = p' <-> q = q')).
Proof.
  intros S V. apply see_corpus_inv in V as (x & X & RX & FX & MX). destruct (copy_corpus_ok h c x S X) as (h1 & k & qs & h2 & mo & C1 & F & C2 & G & E & M).
  destruct (copied_views h h2 k (members x) qs (graph_pairs v) C2 F FX) as (l & L1 & L2). destruct (s_corpora _ S c x X) as (_ & _ & SR).
  set (y := {| members := qs; rels := isort String.leb (rels x); cmeta := mo |}).
  assert (Y : nth_error (corpora (new_corpus h2 qs (rels x) mo)) (length (corpora h)) = Some y). { cbn [new_corpus push_corpus corpora]. rewrite (c_corpora _ _ _ C2). apply nth_last. }
  exists (new_corpus h2 qs (rels x) mo), {| relations := rels x; about := about v; graph_pairs := l |}, x, y. split; [auto|]. split.
  - unfold see_corpus. rewrite Y. cbn [y members cmeta rels]. replace (see_pairs (new_corpus h2 qs (rels x) mo) qs) with (Some l).
    2:{ symmetry. apply see_pairs_f2. exact L1. }
    rewrite SR. destruct (cmeta x) as [m|], mo as [n|]; try destruct M.
    + destruct MX as (e & E1 & ->). destruct H0 as (H1 & e' & H2 & H3). cbn [new_corpus push_corpus metas]. rewrite H3. congruence.
    + now rewrite MX.
  - cbn [relations about graph_pairs]. split; [auto|]. split; [auto|]. split; [auto|]. split; [auto|]. split; [auto|]. split; [cbn; symmetry; eapply f2_len; eauto|].
    cbn [y members]. intros i j p p' q q' P P' Q Q'. destruct (f2_nth_ex _ _ _ _ _ _ _ F P) as (q1 & Q1 & D1). destruct (f2_nth_ex _ _ _ _ _ _ _ F P') as (q2 & Q2 & D2).
    assert (q1 = q) by congruence. assert (q2 = q') by congruence. subst q1 q2. split; intros ->; [congruence|]. exact (c_inj _ _ _ C2 p p' q' D1 D2).
Qed.

(** Annotators. *)
Lemma annotator_fun e o o' : annotator e o -> annotator e o' -> o = o'.
Proof.
  assert (SP : forall pre c post pre' c' post', pre ++ c :: post = pre' ++ c' :: post' -> Forall (fun x => ~ is_annotator x) pre -> Forall (fun x => ~ is_annotator x) pre' -> is_annotator c -> is_annotator c' -> c = c').
  { induction pre as [|a pre IH]; intros c post [|a' pre'] c' post' E F F' A A'; cbn in E; injection E as E1 E2; subst; auto.
    - inversion F'; subst; contradiction.
    - inversion F; subst; contradiction.
    - inversion F; inversion F'; subst. eapply IH; eauto. }
  intros A B. inversion A as [pre c post E F I|F]; inversion B as [pre' c' post' E' F' I'|F']; subst; auto.
  - f_equal. rewrite E in E'. eapply SP; eauto.
  - rewrite E in F'. apply Forall_app in F' as (_ & F'). inversion F'; subst; contradiction.
  - rewrite E' in F. apply Forall_app in F as (_ & F). inversion F; subst; contradiction.
Qed.
Lemma find_annotator_is e : annotator e (match find_annotator (children e) with Some (_, a, _) => txt a | None => None end).
Proof.
  destruct (find_annotator (children e)) as [[[pre c] post]|] eqn:E.
  - apply find_annotator_some in E as (E & F & I). eapply An; eauto.
  - apply find_annotator_none in E. now apply NoAn.
Qed.
Lemma get_annotator_ok h c v : see_corpus h c = Some v -> exists o, get_annotator h c = Ok o /\ annotator_of v o.
Proof.
  intros V. apply see_corpus_inv in V as (x & X & _ & _ & M). unfold get_annotator, get_corpus, annotator_of. rewrite X. cbn [bind]. destruct (cmeta x) as [m|].
  - destruct M as (e & E & ->). unfold get_meta. rewrite E. cbn [bind]. eexists. split; [reflexivity|]. apply find_annotator_is.
  - rewrite M. eauto.
Qed.
Lemma annotate_ok e a ap : only_annotator e (annotate e a ap) /\ exists old new, annotator e old /\ annotator (annotate e a ap) new /\ added old a ap new.
Proof.
  destruct e as [tg tx tl at_ ch]. pose proof (find_annotator_is (Node tg tx tl at_ ch)) as OLD. cbn [children] in OLD. cbn [annotate]. destruct (find_annotator ch) as [[[pre [t1 x1 l1 a1 c1]] post]|] eqn:E.
  - apply find_annotator_some in E as (E & F & I). cbn [txt] in OLD. split.
    + unfold only_annotator. cbn [tag txt tail attrib children]. do 4 (split; [auto|]). left. eexists pre, _, _, post. split; [exact E|]. split; [reflexivity|]. cbn. auto 10.
    + eexists x1, _. split; [exact OLD|]. split; [eapply An; cbn [children]; [reflexivity|auto|exact I]|]. cbn [txt]. unfold added. destruct x1 as [[|n x]|]; auto. destruct ap; auto.
  - apply find_annotator_none in E. split.
    + unfold only_annotator. cbn [tag txt tail attrib children]. do 4 (split; [auto|]). right. eauto.
    + eexists None, (Some a). split; [exact OLD|]. split; [|reflexivity]. change (Some a) with (txt (Node "annotator" (Some a) None [] [])). eapply (An _ ch); cbn [children]; [reflexivity|auto|reflexivity].
Qed.
Lemma set_annotator_ok h c m a ap : sound h -> corpus_meta h c = Some m -> exists h' e, step h (SetAnnotator c a ap) = Ok h' /\ nth_error (metas h) m = Some e /\ nth_error (metas h') m = Some (annotate e a ap) /\
  corpora h' = corpora h /\ gps h' = gps h /\ (forall n, n <> m -> nth_error (metas h') n = nth_error (metas h) n).
Proof.
  intros S M. unfold corpus_meta in M. destruct (nth_error (corpora h) c) as [x|] eqn:X; [|discriminate]. destruct (s_corpora _ S c x X) as (_ & ML & _). destruct (lt_nth _ _ m (ML m M)) as (e & E).
  exists (put_meta h m (annotate e a ap)), e. cbn [step]. unfold get_corpus, get_meta. rewrite X. cbn [bind]. rewrite M, E. cbn [bind]. split; [auto|]. split; [auto|]. split.
  - cbn [put_meta metas]. apply nth_error_set_nth_same. eapply nth_lt; eauto.
  - split; [auto|]. split; [auto|]. intros n N. cbn [put_meta metas]. apply nth_error_set_nth_other; auto.
Qed.
Lemma get_annotator_meta h c m e : corpus_meta h c = Some m -> nth_error (metas h) m = Some e -> exists o, get_annotator h c = Ok o /\ annotator e o.
Proof.
  unfold corpus_meta, get_annotator, get_corpus. destruct (nth_error (corpora h) c) as [x|]; [|discriminate]. intros M E. cbn [bind]. rewrite M. unfold get_meta. rewrite E. cbn [bind]. eexists. split; [reflexivity|]. apply find_annotator_is.
Qed.
Lemma annotated h c m a ap : sound h -> corpus_meta h c = Some m -> exists h' old new e e', step h (SetAnnotator c a ap) = Ok h' /\ get_annotator h c = Ok old /\ added old a ap new /\
  nth_error (metas h) m = Some e /\ nth_error (metas h') m = Some e' /\ only_annotator e e' /\
  (forall d, corpus_meta h' d = corpus_meta h d) /\ (forall d, corpus_meta h d = Some m -> get_annotator h' d = Ok new) /\
  (forall d, corpus_meta h d <> Some m -> get_annotator h' d = get_annotator h d) /\
  (forall p, pair_meta h p <> Some m -> see_pair h' p = see_pair h p) /\
  (forall n, n <> m -> nth_error (metas h') n = nth_error (metas h) n).
Proof.
  intros S M. destruct (set_annotator_ok h c m a ap S M) as (h' & e & E & E0 & E1 & C & G & R). destruct (annotate_ok e a ap) as (O & old & new & A1 & A2 & AD).
  assert (CM : forall d, corpus_meta h' d = corpus_meta h d) by (intros d; unfold corpus_meta; now rewrite C).
  exists h', old, new, e, (annotate e a ap). split; [auto|]. split.
  { destruct (get_annotator_meta h c m e M E0) as (o & -> & B). now rewrite (annotator_fun _ _ _ A1 B). }
  split; [auto|]. split; [auto|]. split; [auto|]. split; [auto|]. split; [auto|]. split.
  { intros d D. rewrite <- CM in D. destruct (get_annotator_meta h' d m _ D E1) as (o & -> & B). now rewrite (annotator_fun _ _ _ A2 B). }
  split.
  { intros d D. unfold get_annotator, get_corpus, get_meta, corpus_meta in *. rewrite C. destruct (nth_error (corpora h) d) as [x|]; [|auto]. cbn [bind]. destruct (cmeta x) as [n|]; [|auto]. rewrite R by congruence. reflexivity. }
  split; [|auto]. intros p P. apply see_pair_frame; cbn [same_at]; [now rewrite G|]. intros r (x & X & ->). cbn [same_at]. apply R. unfold pair_meta in P. rewrite X in P. cbn in P. congruence.
Qed.
Lemma no_meta_annotator h c : corpus_meta h c = None -> nth_error (corpora h) c <> None -> forall a ap, step h (SetAnnotator c a ap) = Err AttributeError /\ get_annotator h c = Ok None.
Proof.
  unfold corpus_meta. intros M N a ap. cbn [step]. unfold get_annotator, get_corpus. destruct (nth_error (corpora h) c) as [x|]; [|congruence]. cbn [bind]. now rewrite M.
Qed.
Lemma joined_left b l : forall t, joined (t ++ and_sign ++ b) l = t ++ and_sign ++ joined b l.
Proof. intros t. destruct l as [|c l]; cbn [joined]; [auto|]. now rewrite <- !app_assoc. Qed.
Lemma join_from l : forall h c t, sound h -> corpus_meta h c <> None -> t <> [] -> get_annotator h c = Ok (Some t) -> get_annotator (run h (map (fun a => SetAnnotator c a true) l)) c = Ok (Some (joined t l)).
Proof.
  induction l as [|b l IH]; intros h c t S M T G; [exact G|]. destruct (corpus_meta h c) as [m|] eqn:CM; [|congruence].
  destruct (annotated h c m b true S CM) as (h' & old & new & e & e' & E & G0 & AD & _ & _ & _ & C & N & _). rewrite G in G0. injection G0 as <-. unfold added in AD. destruct t as [|n t]; [congruence|]. subst new.
  cbn [map run fold_left]. unfold keep_going at 2. rewrite E. change (fold_left keep_going (map (fun a => SetAnnotator c a true) l) h') with (run h' (map (fun a => SetAnnotator c a true) l)).
  rewrite (IH h' c (n :: t ++ and_sign ++ b)).
  - cbn [joined]. do 2 f_equal. change (n :: t ++ and_sign ++ b) with ((n :: t) ++ and_sign ++ b). apply joined_left.
  - eapply step_sound; [exact S| |exact E]. exact I.
  - rewrite C. congruence.
  - discriminate.
  - rewrite <- CM in N. apply N. auto.
Qed.
Lemma kept_ascii e : ascii_only e -> ascii_only (kept e).
Proof. intros A. unfold kept. destruct (children e); [|auto]. constructor; [cbn; repeat constructor; lia| |constructor]; cbn; repeat constructor; lia. Qed.
Lemma copied_equals inode h c v : sound h -> see_corpus h c = Some v -> (forall e, about v = Some e -> ascii_only e) -> Forall (fun a => ascii_only (about_pair a)) (graph_pairs v) ->
  exists h' r, step h (CopyCorpus c) = Ok h' /\ corpus_eq inode h' c (length (corpora h)) = Ok r /\ (r = true <-> Forall (fun a => same (about_pair a) (kept (about_pair a))) (graph_pairs v)).
Proof.
  intros S V AA AP. destruct (copy_corpus_done h c v S V) as (h' & w & x & y & E & W & RW & AW & F & X & _). exists h'.
  pose proof (step_sound h (CopyCorpus c) h' S I E) as S'. destruct (copy_corpus_frame (exists_in h) h c h' S (closed_all h) E) as (FR & _). destruct (old_views h h' S FR) as (_ & OC).
  assert (V' : see_corpus h' c = Some v) by (rewrite OC; [auto|eapply nth_lt; eauto]). destruct (corpus_eq inode h' c (length (corpora h))) as [r|z] eqn:Q.
  - exists r. split; [auto|]. split; [auto|]. rewrite (corpus_eq_right inode h' c _ v w r S' V' W Q). unfold same_corpus. rewrite RW, AW. split.
    + intros (_ & _ & P). clear -P F. induction F as [|a b l k AB F IH]; [constructor|]. inversion P as [|? ? ? ? P1 P2]; subst. constructor; [|auto]. destruct AB as (_ & _ & _ & _ & _ & <- & _). apply P1.
    + intros P. split; [auto|]. split; [destruct (about v); cbn; auto using same_refl|]. clear -P F. induction F as [|a b l k AB F IH]; [constructor|]. inversion P as [|? ? P1 P2]; subst. constructor; [|auto].
      destruct AB as (A1 & A2 & A3 & A4 & A5 & A6 & A7). unfold same_pair, same_file. rewrite A1, A2, A3, A4, A5, A6. do 5 (split; [auto|]). split; auto.
  - exfalso. destruct (corpus_eq_err inode h' c _ v w z S' V' W Q) as [(_ & _ & B)|[(_ & e & f & B1 & B2 & B3)|(i & a & b & B1 & B2 & B3)]].
    + rewrite AW in B. tauto.
    + rewrite AW in B2. apply B3. split; apply AA; congruence.
    + destruct (f2_nth_ex _ _ _ _ _ _ _ F B1) as (b' & B2' & CB). assert (b' = b) by congruence. subst b'. destruct CB as (A1 & A2 & A3 & A4 & A5 & A6 & A7).
      destruct B3 as [(_ & [B3|B3])|(_ & B3)]; [apply B3; left; auto..|]. apply B3. rewrite A6. rewrite Forall_forall in AP. assert (AB : ascii_only (about_pair a)) by (apply AP; eapply nth_error_In; eauto). split; [auto|now apply kept_ascii].
Qed.
