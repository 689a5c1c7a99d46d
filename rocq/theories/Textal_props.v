(** C35-C37: text alignment (lib/daeso/ptc/textalign.py). *)
From Coq Require Import String Ascii Reals Permutation Sorted Lra.
From Verif Require Import Py Ielem_spec Ielem_model Hdoc_spec Hdoc_model Textal_spec Textal_model Textal_proof Hdoc_props.
Open Scope string_scope.
Open Scope list_scope.
Open Scope nat_scope.

(** * C35: filters *)

(** no_cross_filter returns offered pairs with at least the threshold score, best first, no two of
    which cross, each at most as often as offered; and it leaves out a good enough pair only if that
    crosses a returned pair with at least the same score. *)
Theorem no_cross_filter_greedy : forall (S X : Type) (lt : S -> S -> bool) (ns : X -> nat * nat) sort threshold scores,
  score_order lt -> sorts_descending lt sort ->
  let r := no_cross_filter lt ns sort threshold scores in
  (forall a, In a r -> In a scores /\ lt (fst a) threshold = false) /\
  (forall a b, In a r -> In b r -> ~ cross (ns (snd a)) (ns (snd b))) /\
  StronglySorted (fun a b => lt (fst a) (fst b) = false) r /\ (NoDup scores -> NoDup r) /\
  (forall a, In a scores -> lt (fst a) threshold = false -> In a r \/
     exists b, In b r /\ cross (ns (snd b)) (ns (snd a)) /\ lt (fst b) (fst a) = false).
Proof.
  intros S X lt ns sort threshold scores O SO r. destruct (SO scores) as [P SS].
  destruct (@loop_ok S X lt O ns threshold (sort scores) []) as [R1 [R2 [R3 [R4 [_ [R6 R7]]]]]]; [exact SS|intros ? ? []|constructor|].
  cbn [map app] in *. fold (no_cross_filter lt ns sort threshold scores) in *. fold r in R1, R2, R3, R4, R6, R7.
  split; [|split; [exact R2|split; [exact R1|split]]].
  - intros a Ha. split; [|rewrite Forall_forall in R3; now apply R3]. apply R4 in Ha. eapply Permutation_in; [apply Permutation_sym; exact P|exact Ha].
  - intros N. apply R6. eapply Permutation_NoDup; eauto.
  - intros a Ha T. apply R7; [|trivial]. eapply Permutation_in; eauto.
Qed.
(** threshold_filter keeps exactly the pairs with a score above the threshold, in order. *)
Theorem threshold_filter_exact : forall (S X : Type) (lt : S -> S -> bool) threshold (scores : list (S * X)) keep,
  (forall a, keep a = true <-> lt threshold (fst a) = true) ->
  threshold_filter lt threshold scores = filter keep scores.
Proof.
  intros S X lt threshold scores keep H. unfold threshold_filter. apply filter_ext. intros a. apply Bool.eq_true_iff_eq. now rewrite H.
Qed.
(** A filter of either kind only selects among the offered pairs. *)
Theorem filters_select : forall (S X : Type) (lt : S -> S -> bool) (ns : X -> nat * nat) sort threshold scores,
  score_order lt -> sorts_descending lt sort ->
  incl (no_cross_filter lt ns sort threshold scores) scores /\ incl (threshold_filter lt threshold scores) scores.
Proof.
  intros S X lt ns sort threshold scores O SO. split.
  - intros a Ha. destruct (no_cross_filter_greedy S X lt ns sort threshold scores O SO) as [H _]. now apply H.
  - intros a Ha. apply filter_In in Ha. tauto.
Qed.

(** * C36: clearing, creating and re-aligning *)

(** clear_alignments keeps, in order, exactly the links that neither start at the source focus tag
    nor end at the target focus tag. *)
Theorem clear_alignments_exact : forall (key : Type) (links : list (link key)) s t keep,
  (forall l, keep l = true <-> l_from_tag l <> s /\ l_to_tag l <> t) ->
  clear_alignments links s t = filter keep links.
Proof.
  intros key links s t keep H. unfold clear_alignments. apply filter_ext. intros l. apply Bool.eq_true_iff_eq.
  rewrite H, andb_true_iff, !negb_true_iff, !String.eqb_neq. tauto.
Qed.

(** _create_alignments appends to each source element those of its selected targets that it is not
    yet aligned to, each once. *)
Theorem create_alignments_once : forall (char S : Type) (fx : index char) (scores : list (S * (elem char * elem char))) e,
  exists new, a_aligns (st (create_alignments fx scores) (uid e)) = a_aligns (st fx (uid e)) ++ new /\
    NoDup (map (@uid char) new) /\
    (forall t, In t new -> (exists s x, In (x, (s, t)) scores /\ uid s = uid e) /\ ~ In (uid t) (map (@uid char) (a_aligns (st fx (uid e))))) /\
    (forall x t, In (x, (e, t)) scores -> In (uid t) (map (@uid char) (a_aligns (st fx (uid e)) ++ new))).
Proof.
  intros char S fx scores e. destruct (create_ext fx scores) as [E C]. destruct (E (uid e)) as [_ [new [Q [N P]]]].
  exists new. split; [exact Q|]. split; [exact N|]. split; [exact P|]. intros x t I. rewrite <- Q. eapply C; eauto.
Qed.

(** A whole run of align_corpus.  [base] is what is left after clearing; without scope tags the
    two roots are made partners.  Then every element keeps its base alignments in order, and the new
    ones connect unmarked focus elements inside aligned scope elements, each once.  Every pair the
    filter selects for two scope elements aligned in [base] is in the result. *)
Theorem align_corpus_result :
  forall (char S : Type) space nl focus_source focus_target (sim_func : list (elem char) -> list (elem char) -> elem char -> elem char -> S) filter_func
    (fr tr : elem char) links pairs (clear : bool) ig_s ig_t (scope : option (list string * list string)),
  (forall l, incl (filter_func l) l) -> distinct fr -> distinct tr ->
  Forall2 (connects (@named_n char) fr tr) (if clear then clear_alignments links focus_source focus_target else links) pairs ->
  let s1 := match scope with Some (s, _) => s | None => [tag fr] end in
  let s2 := match scope with Some (_, t) => t | None => [tag tr] end in
  let rs := {| ignore := ig_s; newline := []; blankline := [] |} in
  let rt := {| ignore := ig_t; newline := []; blankline := [] |} in
  let base e := match scope with None => if uid e =? uid fr then [tr] else targets pairs e | Some _ => targets pairs e end in
  exists out opairs, align_corpus space nl focus_source focus_target sim_func filter_func links fr tr clear ig_s ig_t scope = Ok out /\
    Forall2 (connects (@named_n char) fr tr) out opairs /\ grouped fr opairs = opairs /\
    (forall p, In p opairs -> In (fst p) (doc_order fr) /\ In (snd p) (doc_order tr)) /\
    (forall e, In e (doc_order fr) -> exists new, targets opairs e = base e ++ new /\ NoDup (map (@uid char) new) /\
       forall t, In t new -> ~ In t (base e) /\ exists ss ts, In ss (doc_order fr) /\ In (tag ss) s1 /\ In ts (targets opairs ss) /\ In (tag ts) s2 /\
         In e (inside ss) /\ tag e = focus_source /\ (In e (visible rs fr) \/ children e = []) /\
         In t (inside ts) /\ tag t = focus_target /\ (In t (visible rt tr) \/ children t = [])) /\
    (forall sel1 sel2 ss ts x s t,
       (forall e, In e (doc_order fr) -> sel1 e = true <-> tag e = focus_source /\ (In e (visible rs fr) \/ children e = [])) ->
       (forall e, In e (doc_order tr) -> sel2 e = true <-> tag e = focus_target /\ (In e (visible rt tr) \/ children e = [])) ->
       In ss (doc_order fr) -> In (tag ss) s1 -> In ts (base ss) -> In (tag ts) s2 ->
       In (x, (s, t)) (filter_func (flat_map (fun a => map (fun b => (sim_func (filter sel1 (inside ss)) (filter sel2 (inside ts)) a b, (a, b)))
                                                           (filter sel2 (inside ts))) (filter sel1 (inside ss)))) ->
       In t (targets opairs s)).
Proof. intros. now apply align_corpus_ok. Qed.

(** So with clear=True an element with another tag than the source focus tag (and not the root, if
    no scope is given) has exactly the partners the cleared links give it. *)
Theorem align_corpus_others_unchanged :
  forall (char S : Type) space nl focus_source focus_target (sim_func : list (elem char) -> list (elem char) -> elem char -> elem char -> S) filter_func
    (fr tr : elem char) links pairs ig_s ig_t scope out opairs,
  (forall l, incl (filter_func l) l) -> distinct fr -> distinct tr ->
  Forall2 (connects (@named_n char) fr tr) (clear_alignments links focus_source focus_target) pairs ->
  align_corpus space nl focus_source focus_target sim_func filter_func links fr tr true ig_s ig_t scope = Ok out ->
  Forall2 (connects (@named_n char) fr tr) out opairs ->
  forall e, In e (doc_order fr) -> tag e <> focus_source -> (scope = None -> uid e <> uid fr) ->
  targets opairs e = targets pairs e.
Proof.
  intros char S space nl fs ft sim_func filter_func fr tr links pairs ig_s ig_t scope out opairs FI D1 D2 F R FO e I T NR.
  destruct (align_corpus_result char S space nl fs ft sim_func filter_func fr tr links pairs true ig_s ig_t scope FI D1 D2 F)
    as [out' [op' [R' [F' [_ [_ [H _]]]]]]].
  rewrite R in R'. injection R' as <-.
  assert (op' = opairs) as -> by (eapply connects_n_unique; eauto).
  destruct (H e I) as [new [Q [_ P]]]. rewrite Q. replace new with (@nil (elem char)).
  - rewrite app_nil_r. destruct scope; [reflexivity|]. destruct (uid e =? uid fr) eqn:Z; [|reflexivity].
    apply Nat.eqb_eq in Z. destruct (NR eq_refl Z).
  - destruct new as [|t new]; [reflexivity|]. destruct (P t (or_introl eq_refl)) as [_ [ss [ts K]]]. tauto.
Qed.

(** "Only links from the source focus tag to the target focus tag are replaced" (align_corpus,
    line 93) is false: links with one focus tag are removed as well. *)
Theorem clear_only_focus_pairs_refuted :
  ~ (forall (key : Type) (links : list (link key)) s t l, In l links -> ~ (l_from_tag l = s /\ l_to_tag l = t) ->
       In l (clear_alignments links s t)).
Proof.
  intros H. specialize (H unit [{| l_from_tag := "p"; l_from := tt; l_to_tag := "s"; l_to := tt |}] "s" "s" _ (or_introl eq_refl)).
  cbn in H. apply H. intros [E _]. discriminate.
Qed.
(** "align_corpus without scope tags leaves the links of the roots alone" is false: it writes a
    link between the roots. *)
Theorem align_corpus_keeps_root_links_refuted :
  ~ (forall (char S : Type) space nl fs ft sim_func filter_func (fr tr : elem char) out opairs,
      (forall l : list (S * (elem char * elem char)), incl (filter_func l) l) -> distinct fr -> distinct tr ->
      align_corpus space nl fs ft sim_func filter_func [] fr tr true [] [] None = Ok out ->
      Forall2 (connects (@named_n char) fr tr) out opairs -> fs <> tag fr -> targets opairs fr = []).
Proof.
  intros H.
  specialize (H Ascii.ascii nat none_space "010"%char "x" "x" (fun _ _ _ _ => 0) (fun l => l) src tgt
    [{| l_from_tag := "d"; l_from := Some 1%Z; l_to_tag := "d"; l_to := Some 1%Z |}] [(src, tgt)]).
  assert (targets [(src, tgt)] src = []); [|discriminate]. apply H.
  - intros l. apply incl_refl.
  - exact src_distinct.
  - exact tgt_distinct.
  - vm_compute. reflexivity.
  - repeat constructor; exists 0; split; reflexivity.
  - discriminate.
Qed.

(** * C37: weighted cosine *)
Theorem weighted_cosine_range : forall a b, Forall (fun x => 0 <= x)%R a -> Forall (fun x => 0 <= x)%R b ->
  (0 <= weighted_cosine_sim a b <= 1)%R.
Proof. intros a b Ha Hb. split; [now apply cosine_nonneg|apply cosine_abs]. Qed.
Theorem weighted_cosine_any_range : forall a b, (-1 <= weighted_cosine_sim a b <= 1)%R.
Proof. exact cosine_abs. Qed.
Theorem weighted_cosine_symmetric : forall a b, weighted_cosine_sim a b = weighted_cosine_sim b a.
Proof. exact cosine_sym. Qed.
Theorem weighted_cosine_self : forall a, ~ Forall (fun x => x = 0)%R a -> weighted_cosine_sim a a = 1%R.
Proof. exact cosine_self. Qed.
Theorem weighted_cosine_no_terms : forall a b, Forall (fun x => x = 0)%R a -> weighted_cosine_sim a b = 0%R.
Proof. exact cosine_zero. Qed.
Theorem weighted_cosine_value : forall a b, ~ Forall (fun x => x = 0)%R a -> ~ Forall (fun x => x = 0)%R b ->
  weighted_cosine_sim a b = (dot a b / (sqrt (square_length a) * sqrt (square_length b)))%R.
Proof. exact cosine_value. Qed.

(** Non-vacuity: integer scores sorted by insertion, positions of pairs of numbers. *)
Fixpoint insert (x : Z * (nat * nat)) l :=
  match l with [] => [x] | y :: l' => if (fst x <? fst y)%Z then y :: insert x l' else x :: l end.
Definition isort := fold_right insert [].
Example z_order : score_order Z.ltb.
Proof. split; intros; rewrite ?Z.ltb_lt, ?Z.ltb_ge in *; lia. Qed.
Example isort_sorts : sorts_descending Z.ltb isort.
Proof.
  intros l. induction l as [|x l [P SS]]; [split; constructor|]. cbn [isort fold_right]. fold isort.
  split.
  - eapply Permutation_trans; [apply perm_skip; exact P|]. clear. induction (isort l) as [|y r IH]; cbn [insert]; [reflexivity|].
    destruct (fst x <? fst y)%Z; [|reflexivity]. eapply perm_trans; [apply perm_swap|]. now constructor.
  - clear P. induction SS as [|y r SS IH F]; cbn [insert]; [repeat constructor|].
    destruct (fst x <? fst y)%Z eqn:Q.
    + constructor; [trivial|]. apply Forall_forall. intros z Hz. rewrite Forall_forall in F.
      assert (In z (x :: r)).
      { clear - Hz. revert Hz. induction r as [|w r IH]; cbn [insert]; [trivial|]. destruct (fst x <? fst w)%Z; cbn [In]; intros Hz; [|tauto]. destruct Hz as [Hz|Hz]; [tauto|]. apply IH in Hz. cbn [In] in Hz. tauto. }
      destruct H as [<-|H]; [|auto]. apply Z.ltb_lt in Q. apply Z.ltb_ge. lia.
    + constructor; [now constructor|]. constructor; [trivial|]. eapply Forall_impl; [|exact F]. cbn. intros z Hz.
      apply Z.ltb_ge in Q, Hz. apply Z.ltb_ge. lia.
Qed.
Example filter_example : no_cross_filter Z.ltb (fun p => p) isort 3%Z
  [(5%Z, (1, 2)); (4%Z, (2, 1)); (2%Z, (3, 3)); (9%Z, (2, 2))] = [(9%Z, (2, 2)); (5%Z, (1, 2))].
Proof. reflexivity. Qed.
(** An alignment run: sentences of the sample documents, all pairs selected. *)
Example run_example : exists out,
  align_corpus none_space "010"%char "p" "s" (fun _ _ _ _ => 1) (fun l => l) [nlink 2 1] src tgt true [] [] None = Ok out /\ length out = 5.
Proof. eexists. split; [vm_compute; reflexivity|reflexivity]. Qed.
Example cosine_example : weighted_cosine_sim [3; 4]%R [3; 4]%R = 1%R.
Proof. apply weighted_cosine_self. intros F. inversion F. lra. Qed.

Print Assumptions no_cross_filter_greedy.
Print Assumptions threshold_filter_exact.
Print Assumptions filters_select.
Print Assumptions clear_alignments_exact.
Print Assumptions create_alignments_once.
Print Assumptions align_corpus_result.
Print Assumptions align_corpus_others_unchanged.
Print Assumptions clear_only_focus_pairs_refuted.
Print Assumptions align_corpus_keeps_root_links_refuted.
Print Assumptions weighted_cosine_range.
Print Assumptions weighted_cosine_any_range.
Print Assumptions weighted_cosine_symmetric.
Print Assumptions weighted_cosine_self.
Print Assumptions weighted_cosine_no_terms.
Print Assumptions weighted_cosine_value.
