(** Theorems about the term, weight and similarity functions of the text aligner (C51). *)
From Coq Require Import Reals Lra Ascii.
From Verif Require Import Py PyLemmas Ngram_spec Ngram_model Ngram_proof Sim_spec Sim_model Sim_proof Create_spec Create_model Create_proof
  Tfidf_spec Tfidf_model Tfidf_proof Textal_spec Textal_model Textal_proof Terms_spec Terms_model Terms_proof.
Import ListNotations.
Set Implicit Arguments.
Open Scope nat_scope.
Open Scope list_scope.

(** The word terms of a text are the n-grams of its words, from left to right, joined with blanks; the terms
    of a list of tokens are determined by this. *)
Theorem word_terms_are_ngrams : forall (char : Type) space (blank : char) pad n s words,
  has_words space s words ->
  forall terms, ngrams_of [blank] n words terms <-> terms = word_n_gram space blank pad n s.
Proof.
  intros char space blank pad n s words W terms. unfold word_n_gram. rewrite (split_unique W).
  split; [intros H; exact (ngrams_fun H (grams_ok _ _ _ _))|intros ->; apply grams_ok].
Qed.
Print Assumptions word_terms_are_ngrams.
(** The character terms of a text are the n-grams of its characters, blanks included, joined with blanks. *)
Theorem char_terms_are_ngrams : forall (char : Type) (blank : char) pad n s terms,
  ngrams_of [blank] n (map (fun c => [c]) s) terms <-> terms = char_n_gram blank pad n s.
Proof.
  intros char blank pad n s terms. split; [intros H; exact (ngrams_fun H (grams_ok _ _ _ _))|intros ->; apply grams_ok].
Qed.
Print Assumptions char_terms_are_ngrams.
(** The preprocessed word terms of a text are the n-grams of all its lower-cased words, punctuation included,
    unless the text as a whole is part of the string of punctuation characters: then there are no words. *)
Theorem preprocessed_word_terms : forall (char : Type) (ceqb : char -> char -> bool) space lower (blank : char) pad punctuation n s words,
  (forall a b, ceqb a b = true <-> a = b) -> has_words space s words ->
  let terms := preproc_word_n_gram ceqb space lower blank pad punctuation n s in
  (~ infix s punctuation -> ngrams_of [blank] n (map (map lower) words) terms) /\
  (infix s punctuation -> ngrams_of [blank] n [] terms).
Proof.
  intros char ceqb space lower blank pad punctuation n s words ceq W terms. unfold terms, preproc_word_n_gram. rewrite (split_unique W).
  rewrite <- (is_infix_spec ceqb ceq).
  assert (K : forall (b : bool) l, filter (fun _ : list char => b) l = if b then l else []) by (intros [] l; induction l as [|x l IH]; cbn; congruence).
  rewrite K. destruct is_infix; cbn [negb]; (split; intros H; [try congruence|try discriminate]); try apply grams_ok.
Qed.
Print Assumptions preprocessed_word_terms.
(** The comment and the name promise that punctuation is left out.  It is not: in a text of several words a
    punctuation token stays. *)
Theorem punctuation_removed_refuted : exists s,
  In ["!"%char] (preproc_word_n_gram Ascii.eqb (Ascii.eqb " "%char) (fun c => c) " "%char ["_"%char] ["!"; "?"]%char 1 s).
Proof. exists ["a"; " "; "!"]%char. vm_compute. auto. Qed.
Print Assumptions punctuation_removed_refuted.
(** The preprocessed character terms are the stop word filtered word terms: n-grams of words. *)
Theorem preprocessed_char_terms_are_words : forall (char : Type) space lower (blank : char) pad stop n s words,
  has_words space (map lower s) words ->
  preproc_char_n_gram space lower blank pad stop n s = preproc_stopword_word_n_gram space lower blank pad stop n s /\
  ngrams_of [blank] n (stop words) (preproc_char_n_gram space lower blank pad stop n s).
Proof.
  intros char space lower blank pad stop n s words W. split; [reflexivity|]. unfold preproc_char_n_gram. rewrite (split_unique W). apply grams_ok.
Qed.
Print Assumptions preprocessed_char_terms_are_words.
(** So they need not be n-grams of characters. *)
Theorem preprocessed_char_terms_are_characters_refuted : ~ forall (char : Type) space lower (blank : char) pad stop s t,
  In t (preproc_char_n_gram space lower blank pad stop 1 s) -> length t = 1.
Proof.
  intros H. specialize (H _ (Ascii.eqb " "%char) (fun c => c) " "%char [] (fun l => l) ["a"; "b"]%char ["a"; "b"]%char). 
  assert (2 = 1); [|discriminate]. apply H. vm_compute. auto.
Qed.
Print Assumptions preprocessed_char_terms_are_characters_refuted.

(** The named similarities, for terms with c different common and u different terms in all: each is what its name says,
    whatever the weights are. *)
Theorem named_similarities : forall (char : Type) (ceqb : char -> char -> bool), (forall x y, ceqb x y = true <-> x = y) ->
  forall (a b : list (list char)) (w v : option (list R)) (c u : nat),
  exactly (fun x => In x a /\ In x b) c -> exactly (fun x => In x a \/ In x b) u ->
  type_match_sim ceqb a b w v = Ok c /\
  dice_sim ceqb a b w v = Ok (frac (2 * c) (length a + length b)) /\
  tanimoto_sim ceqb a b w v = Ok (frac c (length a + length b - c)) /\
  jaccard_sim ceqb a b w v = Ok (frac c u) /\
  overlap_min_sim ceqb a b w v = Ok (frac c (min (length a) (length b))) /\
  overlap_max_sim ceqb a b w v = Ok (frac c (max (length a) (length b))) /\
  exists q, cosine_sim ceqb a b w v = Ok q /\ (length a * length b = 0 -> rq_zero q) /\ (0 < length a * length b -> q = {| rq_num := c; rq_rad := length a * length b |}).
Proof.
  intros char ceqb ceq a b w v c u C U.
  assert (teq : forall x y, teqb ceqb x y = true <-> x = y) by (intros; apply (weqb_spec ceqb ceq)).
  destruct (values (teqb ceqb) teq _ _ C U) as (A1 & A2 & A3 & A4 & A5 & A6 & A7 & A8).
  unfold type_match_sim, dice_sim, tanimoto_sim, jaccard_sim, overlap_min_sim, overlap_max_sim, cosine_sim.
  rewrite A1, A2, A3, A4, A5, A6. do 6 (split; [reflexivity|]). eexists. split; [reflexivity|]. split; assumption.
Qed.
Print Assumptions named_similarities.
Example named_example : dice_sim Ascii.eqb [["a"]; ["b"]; ["a"]]%char [["b"]; ["c"]]%char None None = Ok (frac 2 5) /\ type_match_sim Ascii.eqb [["a"]; ["b"]]%char [["b"]]%char None None = Ok 1.
Proof. split; reflexivity. Qed.

(** Whatever functions are chosen: the scores are one entry per pair of a source and a target element, row by
    row, each from the terms and the weights of the two elements; the weights are those of all sources
    followed by all targets. *)
Theorem scores_every_pair : forall (char S E : Type) term_func weight_func (sim_func : _ -> _ -> _ -> _ -> res S) (source_text target_text : E -> list char) sources targets ws l,
  let docs := map (fun e => term_func (source_text e)) sources ++ map (fun e => term_func (target_text e)) targets in
  weight_func docs = Ok ws -> length ws = length docs ->
  scores term_func weight_func sim_func source_text target_text sources targets = Ok l ->
  every_pair (fun i j x => exists a b w v, nth_error docs i = Some a /\ nth_error docs (length sources + j) = Some b /\
      nth_error ws i = Some w /\ nth_error ws (length sources + j) = Some v /\ sim_func a b w v = Ok x) sources targets l.
Proof.
  intros char S E tf wf sf stx ttx sources targets ws l docs W L H. destruct (@scores_ok char S E tf wf sf stx ttx sources targets ws l W H) as [A B].
  split; [exact A|]. intros i j s t Hs Ht. destruct (B i j s t Hs Ht) as (x & G & (s' & t' & Hs' & Ht' & X)).
  rewrite Hs in Hs'. rewrite Ht in Ht'. injection Hs' as <-. injection Ht' as <-. exists x. split; [exact G|].
  assert (i < length sources) as Li by (apply nth_error_Some; congruence). assert (j < length targets) as Lj by (apply nth_error_Some; congruence).
  assert (Ld : length docs = length sources + length targets) by (unfold docs; rewrite app_length, !map_length; reflexivity).
  unfold weight_at in X.
  destruct (nth_error ws i) as [w|] eqn:Wi; [|apply nth_error_None in Wi; lia].
  destruct (nth_error ws (length sources + j)) as [v|] eqn:Wj; [|apply nth_error_None in Wj; lia].
  exists (tf (stx s)), (tf (ttx t)), w, v. repeat split; trivial; unfold docs.
  - rewrite nth_error_app1 by (rewrite map_length; trivial). now rewrite nth_error_map, Hs.
  - rewrite nth_error_app2 by (rewrite map_length; lia). rewrite map_length. replace (length sources + j - length sources) with j by lia. now rewrite nth_error_map, Ht.
Qed.
Print Assumptions scores_every_pair.
(** An error comes from the weights or from the similarity of some pair. *)
Theorem scores_errors : forall (char S E : Type) term_func weight_func (sim_func : _ -> _ -> _ -> _ -> res S) (source_text target_text : E -> list char) sources targets e,
  let docs := map (fun e => term_func (source_text e)) sources ++ map (fun e => term_func (target_text e)) targets in
  scores term_func weight_func sim_func source_text target_text sources targets = Err e ->
  weight_func docs = Err e \/ exists a b w v, In a docs /\ In b docs /\ sim_func a b w v = Err e.
Proof.
  intros char S E tf wf sf stx ttx sources targets e docs H. apply scores_err in H. destruct H as [H|(ws & i & j & s & t & W & Hs & Ht & X)]; [now left|].
  right. exists (tf (stx s)), (tf (ttx t)), (weight_at ws i), (weight_at ws (length sources + j)).
  apply nth_error_In in Hs, Ht. unfold docs. rewrite !in_app_iff. repeat split; trivial; [left|right]; apply in_map_iff; eauto.
Qed.
Print Assumptions scores_errors.

(** With the defaults (words, no weights, equality, no filter) nothing is ever raised and every pair of
    elements is selected; the score, 1 for elements with the same words and 0 for others, plays no role. *)
Theorem default_selects_every_pair : forall (char : Type) (ceqb : char -> char -> bool) space (blank : char) pad (E : Type) (source_text target_text : E -> list char) sources targets,
  (forall a b, ceqb a b = true <-> a = b) ->
  exists l, default_selected ceqb space blank pad source_text target_text sources targets = Ok l /\
    length l = length sources * length targets /\
    (forall s t, In s sources -> In t targets -> exists x, In (x, (s, t)) l) /\
    (forall x s t, In (x, (s, t)) l -> In s sources /\ In t targets /\
       forall v w, has_words space (source_text s) v -> has_words space (target_text t) w ->
         (v = w -> x = 1%R) /\ (v <> w -> x = 0%R)).
Proof.
  intros char ceqb space blank pad E stx ttx sources targets ceq. unfold default_selected, selected.
  destruct sources as [|s0 ss]; [exists []; repeat split; easy|]. destruct targets as [|t0 ts]; [exists []; repeat split; [cbn [length]; lia|easy|easy|easy|easy|easy]|].
  destruct (scores _ _ _ _ _ _ _) as [l|e] eqn:Sc; cbn [bind].
  2: { apply scores_err in Sc. destruct Sc as [Sc|(? & ? & ? & ? & ? & _ & _ & _ & Sc)]; discriminate. }
  unfold no_filter. eapply scores_ok in Sc; [|reflexivity]. exists l. split; [reflexivity|]. pose proof Sc as [L H]. split; [exact L|]. split.
  - intros s t Is It. apply In_nth_error in Is, It. destruct Is as [i Hs], It as [j Ht]. destruct (H i j s t Hs Ht) as (x & G & _). exists x. now apply nth_error_In in G.
  - intros x s t I. apply (every_pair_in _ _ _ Sc) in I. destruct I as (i & j & Hs & Ht & (s' & t' & Hs' & Ht' & X)).
    rewrite Hs in Hs'. rewrite Ht in Ht'. injection Hs' as <-. injection Ht' as <-. split; [now apply nth_error_In in Hs|]. split; [now apply nth_error_In in Ht|].
    intros v w V W. unfold equals_sim in X. injection X as <-. unfold word_n_gram. rewrite (split_unique V), (split_unique W), !grams_one.
    destruct (terms_eqb ceqb v w) eqn:Q; [apply (terms_eqb_spec ceqb ceq) in Q; tauto|]. split; [|trivial].
    intros K. apply (terms_eqb_spec ceqb ceq) in K. congruence.
Qed.
Print Assumptions default_selects_every_pair.
(** With a threshold filter exactly the pairs with a score above the threshold are selected. *)
Theorem threshold_selects_exactly : forall (char S E : Type) term_func weight_func (sim_func : _ -> _ -> _ -> _ -> res S) (source_text target_text : E -> list char) sources targets lt threshold l all,
  sources <> [] -> targets <> [] ->
  scores term_func weight_func sim_func source_text target_text sources targets = Ok all ->
  selected term_func weight_func sim_func (threshold_filter lt threshold) source_text target_text sources targets = Ok l ->
  sublist l all /\ forall x p, In (x, p) l <-> In (x, p) all /\ lt threshold x = true.
Proof.
  intros char S E tf wf sf stx ttx sources targets lt threshold l all Ns Nt A. unfold selected.
  destruct sources as [|s0 ss]; [contradiction|]. destruct targets as [|t0 ts]; [contradiction|]. rewrite A. cbn [bind]. intros [= <-].
  unfold threshold_filter. split.
  - clear A. induction all as [|a all IH]; cbn [filter]; [constructor|]. destruct (lt threshold (fst a)); now constructor.
  - intros x p. rewrite filter_In. reflexivity.
Qed.
Print Assumptions threshold_selects_exactly.

(** tf-idf weights are computed without an error in every collection of two or more elements, so always in
    the aligner, and the weighted cosine of two of the elements is a similarity of their informative terms,
    those that occur in some elements and not in others: it lies between 0 and 1, is symmetric, 0 exactly
    without a common informative term, and 1 exactly for elements with the same, and at least one,
    informative terms. *)
Theorem tf_idf_cosine_informative : forall (char : Type) (ceqb : char -> char -> bool) tleb (docs : list (list (list char))),
  (forall a b, ceqb a b = true <-> a = b) -> 2 <= length docs ->
  exists ws, tf_idf_indicator_weight ceqb tleb docs = Ok ws /\ length ws = length docs /\
    forall i j a b w v, nth_error docs i = Some a -> nth_error docs j = Some b -> nth_error ws i = Some w -> nth_error ws j = Some v ->
    exists x, weighted_sim a b w v = Ok x /\ weighted_sim b a v w = Ok x /\ (0 <= x <= 1)%R /\
      (x = 0%R <-> forall t, informative docs t -> ~ (In t a /\ In t b)) /\
      (x = 1%R <-> (exists t, informative docs t /\ In t a) /\ forall t, informative docs t -> (In t a <-> In t b)).
Proof.
  intros char ceqb tleb docs ceq L. rewrite (@weights_ok char ceqb ceq tleb docs L). eexists. split; [reflexivity|]. split; [now rewrite map_length|].
  intros i j a b w v Ha Hb Hw Hv. rewrite nth_error_map, Ha in Hw. rewrite nth_error_map, Hb in Hv. injection Hw as <-. injection Hv as <-.
  set (voc := vocabulary ceqb tleb docs). set (f := factor' ceqb tleb docs).
  assert (f0 : forall t, (0 <= f t)%R) by (intros t; unfold f; now apply factor'_nonneg).
  exists (weighted_cosine_sim (vec (teqb ceqb) f voc a) (vec (teqb ceqb) f voc b)). split; [reflexivity|]. split; [cbn [weighted_sim]; now rewrite cosine_sym|].
  split; [split; [apply cosine_nonneg; now apply vec_nonneg|apply cosine_abs]|].
  assert (I1 : forall t d, In d docs -> In t d -> In t voc) by (intros t d Hd It; apply (@vocab_in char ceqb ceq tleb docs t); eauto).
  assert (I2 : forall t, informative docs t -> In t voc) by (intros t [It _]; now apply (@vocab_in char ceqb ceq tleb docs t)).
  assert (N : forall t, In t voc -> (f t <> 0%R <-> informative docs t)) by (intros t It; unfold f; now apply factor'_in).
  destruct (cos_cases (teqb ceqb) (teq ceqb ceq) f f0 voc a b) as [C0 C1]. rewrite C0, C1. split; split.
  - intros H t T [A B]. assert (f t <> 0%R) as F by (apply N; auto). apply F. auto.
  - intros H t V A B. destruct (Req_dec (f t) 0) as [Z|Z]; [trivial|]. exfalso. apply (H t); [now apply N|now split].
  - intros [(t & V & A & F) H]. split; [exists t; split; [now apply N|trivial]|]. intros u U. apply H; [auto|apply N; auto].
  - intros [(t & T & A) H]. split; [exists t; repeat split; [auto|trivial|apply N; auto]|]. intros u U F. apply H. now apply N.
Qed.
Print Assumptions tf_idf_cosine_informative.
(** The elements of a collection are compared only by what tells them apart: if a source has just one target
    and both have the same terms, nothing is informative and their tf-idf cosine is 0, not 1. *)
Theorem identical_pair_scores_one_refuted : forall (char : Type) (ceqb : char -> char -> bool) tleb (terms : list (list char)) x ws w v,
  (forall a b, ceqb a b = true <-> a = b) ->
  tf_idf_indicator_weight ceqb tleb [terms; terms] = Ok ws -> nth_error ws 0 = Some w -> nth_error ws 1 = Some v ->
  weighted_sim terms terms w v = Ok x -> x = 0%R.
Proof.
  intros char ceqb tleb terms x ws w v ceq W Hw Hv X.
  destruct (@tf_idf_cosine_informative char ceqb tleb [terms; terms] ceq) as (ws' & W' & _ & H); [cbn [length]; lia|].
  rewrite W in W'. injection W' as <-. destruct (H 0 1 terms terms w v eq_refl eq_refl Hw Hv) as (y & Y & _ & _ & Z & _).
  rewrite X in Y. injection Y as <-. apply Z. intros t [(d & [<-|[<-|[]]] & I) (e & [<-|[<-|[]]] & J)]; contradiction.
Qed.
Print Assumptions identical_pair_scores_one_refuted.
(** The weighted cosine without weights raises a TypeError for every pair: as the similarity of an aligner
    with the default weights it always fails, if there is a pair at all. *)
Theorem weighted_cosine_needs_weights : forall (char E : Type) term_func (source_text target_text : E -> list char) sources targets filter_func,
  sources <> [] -> targets <> [] ->
  selected term_func (@no_weight char) (@weighted_sim char) filter_func source_text target_text sources targets = Err TypeError.
Proof.
  intros char E tf stx ttx [|s0 ss] [|t0 ts] ff Ns Nt; try contradiction. unfold selected.
  destruct (scores _ _ _ _ _ _ _) as [l|e] eqn:Sc; cbn [bind].
  - exfalso. eapply scores_ok in Sc; [|reflexivity]. destruct Sc as [_ H]. destruct (H 0 0 s0 t0 eq_refl eq_refl) as (x & _ & (s' & t' & _ & _ & X)).
    assert (K : forall n i, weight_at (map (fun _ => None) (seq 0 n)) i = None).
    { intros n i. unfold weight_at. rewrite nth_error_map. destruct (nth_error (seq 0 n) i); reflexivity. }
    rewrite !K in X. discriminate.
  - apply scores_err in Sc. destruct Sc as [Sc|(ws & i & j & s & t & W & _ & _ & X)]; [discriminate|]. unfold no_weight in W.
    match type of W with Ok ?l = Ok ?m => assert (Ew : l = m) by congruence end. rewrite <- Ew in X.
    assert (K : forall n i, weight_at (map (fun _ => None) (seq 0 n)) i = None).
    { intros n k. unfold weight_at. rewrite nth_error_map. destruct (nth_error (seq 0 n) k); reflexivity. }
    rewrite !K in X. now injection X as <-.
Qed.
Print Assumptions weighted_cosine_needs_weights.

(** ** The hypotheses are met *)
Definition sp := Ascii.eqb " "%char.
Example words_example : has_words sp ["a"; " "; "b"; "c"]%char [["a"]; ["b"; "c"]]%char /\
  word_n_gram sp " "%char ["_"%char] 2 ["a"; " "; "b"; "c"]%char = [["a"; " "; "b"; "c"]%char].
Proof. split; [exact (split_ok sp ["a"; " "; "b"; "c"]%char)|reflexivity]. Qed.
Example char_example : char_n_gram " "%char ["_"%char] 2 ["a"; "b"; "c"]%char = [["a"; " "; "b"]; ["b"; " "; "c"]]%char.
Proof. reflexivity. Qed.
Example preproc_example : preproc_word_n_gram Ascii.eqb sp (fun c => c) " "%char ["_"%char] ["!"; "?"]%char 1 ["!"%char] = [] /\
  infix ["!"%char] ["!"; "?"]%char.
Proof. split; [reflexivity|]. now exists [], ["?"%char]. Qed.
(** two elements that share one informative term, in a collection of three *)
Example informative_example : let docs := [[["a"]; ["b"]]; [["a"]; ["c"]]; [["d"]]]%char in
  informative docs ["a"%char] /\ 2 <= length docs.
Proof.
  cbv zeta. split; [|cbn; lia]. split.
  - exists [["a"]; ["b"]]%char. split; cbn; auto.
  - exists [["d"]]%char. split; [cbn; auto|]. intros [E|[]]. discriminate.
Qed.
Example scores_example : scores (word_n_gram sp " "%char ["_"%char] 1) (@no_weight _) (fun a b _ _ => Ok (terms_eqb Ascii.eqb a b)) (fun s => s) (fun s => s)
    [["a"%char]; ["b"%char]] [["b"%char]] = Ok [(false, (["a"%char], ["b"%char])); (true, (["b"%char], ["b"%char]))].
Proof. reflexivity. Qed.
