(** C48: equality, deep copies and annotators of graph pairs and corpora
    (lib/daeso/pgc/graphpair.py 43-260, lib/daeso/pgc/corpus.py 161-222, 653-683). *)
From Coq Require Import String.
From Verif Require Import Py Etree_spec Etree_model Etree_proof Align_model Equal_spec Equal_model Equal_proof.
Open Scope string_scope.
Open Scope list_scope.
Open Scope nat_scope.

(** Whatever has been done before, if == answers for two graph pairs then the answer is right; it raises only if a graph bank file is
    missing or meta data (of different elements) are not ASCII; the order does not matter and a graph pair equals itself. *)
Theorem graph_pair_equality : forall inode os p q a b, Forall proper os -> see_pair (run no_heap os) p = Some a -> see_pair (run no_heap os) q = Some b ->
  (forall r, pair_eq inode (run no_heap os) p q = Ok r -> (r = true <-> same_pair inode a b)) /\
  (forall x, pair_eq inode (run no_heap os) p q = Err x ->
     (x = OSError /\ (~ known_files inode (source_bank a) (source_bank b) \/ ~ known_files inode (target_bank a) (target_bank b))) \/
     (x = ValueError /\ pair_meta (run no_heap os) p <> pair_meta (run no_heap os) q /\ ~ (ascii_only (about_pair a) /\ ascii_only (about_pair b)))) /\
  pair_eq inode (run no_heap os) p q = pair_eq inode (run no_heap os) q p /\ pair_eq inode (run no_heap os) p p = Ok true.
Proof.
  intros inode os p q a b P A B. pose proof (run_from_sound os no_heap no_heap_sound P) as S. split; [|split; [|split]].
  - intros r E. eapply pair_eq_right; eauto.
  - intros x E. eapply pair_eq_err; eauto.
  - eapply pair_eq_sym; eauto.
  - eapply pair_eq_refl; eauto.
Qed.
Print Assumptions graph_pair_equality.
Theorem pair_equality_transitive : forall inode os p q r a b c, Forall proper os ->
  see_pair (run no_heap os) p = Some a -> see_pair (run no_heap os) q = Some b -> see_pair (run no_heap os) r = Some c ->
  pair_eq inode (run no_heap os) p q = Ok true -> pair_eq inode (run no_heap os) q r = Ok true -> pair_eq inode (run no_heap os) p r = Ok true.
Proof. intros inode os p q r a b c P. apply pair_eq_trans. exact (run_from_sound os no_heap no_heap_sound P). Qed.
Print Assumptions pair_equality_transitive.
(** The same of corpora; besides, comparing a corpus with and one without meta data raises. *)
Theorem corpus_equality : forall inode os c d v w, Forall proper os -> see_corpus (run no_heap os) c = Some v -> see_corpus (run no_heap os) d = Some w ->
  (forall r, corpus_eq inode (run no_heap os) c d = Ok r -> (r = true <-> same_corpus inode v w)) /\
  (forall x, corpus_eq inode (run no_heap os) c d = Err x ->
     (x = AttributeError /\ relations v = relations w /\ ((about v = None /\ about w <> None) \/ (about v <> None /\ about w = None))) \/
     (x = ValueError /\ exists e f, about v = Some e /\ about w = Some f /\ ~ (ascii_only e /\ ascii_only f)) \/
     (exists i a b, nth_error (graph_pairs v) i = Some a /\ nth_error (graph_pairs w) i = Some b /\
        ((x = OSError /\ (~ known_files inode (source_bank a) (source_bank b) \/ ~ known_files inode (target_bank a) (target_bank b))) \/
         (x = ValueError /\ ~ (ascii_only (about_pair a) /\ ascii_only (about_pair b)))))) /\
  corpus_eq inode (run no_heap os) c d = corpus_eq inode (run no_heap os) d c.
Proof.
  intros inode os c d v w P A B. pose proof (run_from_sound os no_heap no_heap_sound P) as S. split; [|split].
  - intros r E. eapply corpus_eq_right; eauto.
  - intros x E. eapply corpus_eq_err; eauto.
  - eapply corpus_eq_sym; eauto.
Qed.
Print Assumptions corpus_equality.
Theorem corpus_equality_transitive : forall inode os c d e u v w, Forall proper os ->
  see_corpus (run no_heap os) c = Some u -> see_corpus (run no_heap os) d = Some v -> see_corpus (run no_heap os) e = Some w ->
  corpus_eq inode (run no_heap os) c d = Ok true -> corpus_eq inode (run no_heap os) d e = Ok true -> corpus_eq inode (run no_heap os) c e = Ok true.
Proof. intros inode os c d e u v w P. apply corpus_eq_trans. exact (run_from_sound os no_heap no_heap_sound P). Qed.
Print Assumptions corpus_equality_transitive.
(** Everything that has a number can be seen. *)
Theorem everything_visible : forall os, Forall proper os ->
  (forall p, p < length (gps (run no_heap os)) -> exists a, see_pair (run no_heap os) p = Some a) /\
  (forall c, c < length (corpora (run no_heap os)) -> exists v, see_corpus (run no_heap os) c = Some v).
Proof. intros os P. pose proof (run_from_sound os no_heap no_heap_sound P) as S. split; intros; [now apply see_pair_some|now apply see_corpus_some]. Qed.
Print Assumptions everything_visible.

(** Deep copies look the same (except that meta data without children are lost), and the same graph pair at two positions is copied once. *)
Theorem pair_copy : forall os p a, Forall proper os -> see_pair (run no_heap os) p = Some a ->
  exists h' b, step (run no_heap os) (CopyPair p) = Ok h' /\ see_pair h' (length (gps (run no_heap os))) = Some b /\ copy_of a b.
Proof. intros os p a P. apply copy_pair_done. exact (run_from_sound os no_heap no_heap_sound P). Qed.
Print Assumptions pair_copy.
Theorem corpus_copy : forall os c v, Forall proper os -> see_corpus (run no_heap os) c = Some v ->
  exists h' w x y, step (run no_heap os) (CopyCorpus c) = Ok h' /\ see_corpus h' (length (corpora (run no_heap os))) = Some w /\
  relations w = relations v /\ about w = about v /\ Forall2 copy_of (graph_pairs v) (graph_pairs w) /\
  nth_error (corpora (run no_heap os)) c = Some x /\ nth_error (corpora h') (length (corpora (run no_heap os))) = Some y /\ length (members y) = length (members x) /\
  (forall i j p p' q q', nth_error (members x) i = Some p -> nth_error (members x) j = Some p' -> nth_error (members y) i = Some q -> nth_error (members y) j = Some q' -> (p = p' <-> q = q')).
Proof. intros os c v P. apply copy_corpus_done. exact (run_from_sound os no_heap no_heap_sound P). Qed.
Print Assumptions corpus_copy.
(** Copies and what was there before do not affect each other: nothing that is done without what was there before changes it ... *)
Theorem original_apart : forall os o h' os2, Forall proper os -> is_copy o -> step (run no_heap os) o = Ok h' -> Forall proper os2 ->
  (forall o' x, In o' os2 -> In x (mentions o') -> ~ exists_in (run no_heap os) x) ->
  (forall p, p < length (gps (run no_heap os)) -> see_pair (run h' os2) p = see_pair (run no_heap os) p) /\
  (forall c, c < length (corpora (run no_heap os)) -> see_corpus (run h' os2) c = see_corpus (run no_heap os) c).
Proof.
  intros os o h' os2 P IC E P2 N. pose proof (run_from_sound os no_heap no_heap_sound P) as S. apply old_views; [auto|]. eapply copy_then_touch_copy; eauto.
Qed.
Print Assumptions original_apart.
(** ... and nothing that is done without the copies changes these. *)
Theorem copy_apart : forall os o h' os2, Forall proper os -> is_copy o -> step (run no_heap os) o = Ok h' -> Forall proper os2 ->
  (forall o' x, In o' os2 -> In x (mentions o') -> ~ made (run no_heap os) h' x) ->
  (forall p, made (run no_heap os) h' (GP p) -> see_pair (run h' os2) p = see_pair h' p) /\
  (forall c, made (run no_heap os) h' (Corpus c) -> see_corpus (run h' os2) c = see_corpus h' c).
Proof.
  intros os o h' os2 P IC E P2 N. pose proof (run_from_sound os no_heap no_heap_sound P) as S. destruct (copy_then_touch_rest _ o h' os2 IC S E P2 N) as (F & R). split.
  - intros p M. eapply see_pair_U; eauto.
  - intros c M. eapply see_corpus_U; eauto.
Qed.
Print Assumptions copy_apart.
(** A copy of a corpus (with ASCII meta data) equals the original unless meta data of a graph pair have been lost. *)
Theorem copy_equals_original : forall inode os c v, Forall proper os -> see_corpus (run no_heap os) c = Some v ->
  (forall e, about v = Some e -> ascii_only e) -> Forall (fun a => ascii_only (about_pair a)) (graph_pairs v) ->
  exists h' r, step (run no_heap os) (CopyCorpus c) = Ok h' /\ corpus_eq inode h' c (length (corpora (run no_heap os))) = Ok r /\
    (r = true <-> Forall (fun a => same (about_pair a) (kept (about_pair a))) (graph_pairs v)).
Proof. intros inode os c v P. apply copied_equals. exact (run_from_sound os no_heap no_heap_sound P). Qed.
Print Assumptions copy_equals_original.

(** get_annotator. *)
Theorem annotator_found : forall os c v, see_corpus (run no_heap os) c = Some v -> exists o, get_annotator (run no_heap os) c = Ok o /\ annotator_of v o.
Proof. intros os c v. apply get_annotator_ok. Qed.
Print Assumptions annotator_found.
(** set_annotator changes the annotator of all corpora with the same meta data element, such as slices, and nothing else. *)
Theorem annotator_set : forall os c m a append, Forall proper os -> corpus_meta (run no_heap os) c = Some m ->
  exists h' old new e e', step (run no_heap os) (SetAnnotator c a append) = Ok h' /\ get_annotator (run no_heap os) c = Ok old /\ added old a append new /\
  nth_error (metas (run no_heap os)) m = Some e /\ nth_error (metas h') m = Some e' /\ only_annotator e e' /\
  (forall d, corpus_meta h' d = corpus_meta (run no_heap os) d) /\ (forall d, corpus_meta (run no_heap os) d = Some m -> get_annotator h' d = Ok new) /\
  (forall d, corpus_meta (run no_heap os) d <> Some m -> get_annotator h' d = get_annotator (run no_heap os) d) /\
  (forall p, pair_meta (run no_heap os) p <> Some m -> see_pair h' p = see_pair (run no_heap os) p) /\
  (forall n, n <> m -> nth_error (metas h') n = nth_error (metas (run no_heap os)) n).
Proof. intros os c m a append P. apply annotated. exact (run_from_sound os no_heap no_heap_sound P). Qed.
Print Assumptions annotator_set.
(** Annotators that are added one by one are joined with plus signs. *)
Theorem annotators_join : forall os c t l, Forall proper os -> corpus_meta (run no_heap os) c <> None -> t <> [] -> get_annotator (run no_heap os) c = Ok (Some t) ->
  get_annotator (run no_heap (os ++ map (fun a => SetAnnotator c a true) l)) c = Ok (Some (joined t l)).
Proof. intros os c t l P M T G. unfold run. rewrite fold_left_app. apply join_from; auto. exact (run_from_sound os no_heap no_heap_sound P). Qed.
Print Assumptions annotators_join.

(** A history: a corpus of two graph pairs (one of them twice), a slice, a deep copy. *)
Definition about_us : node := Node "corpus_meta_data" None None [] [Node "comment" (Some [72; 105]%N) None [] []].
Definition about_one : node := Node "graph_meta_data" None None [] [Node "comment" (Some [79; 75]%N) None [] []].
Definition history : list op :=
  [NewMeta about_us; NewMeta about_one; NewPair true "a.xml" "b.xml" "1" "1" (Some 1); NewPair true "a.xml" "b.xml" "2" "2" None;
   Align 0 "n1" "n2" "equals"; NewCorpus [0; 1; 0] ["specifies"; "equals"] (Some 0); Slice 0 1 3; CopyCorpus 0].
Example history_proper : Forall proper history.
Proof. repeat constructor; cbn; intuition. Qed.
Example history_ok :
  corpus_eq (fun _ => None) (run no_heap history) 0 2 = Ok true /\ corpus_eq (fun _ => None) (run no_heap history) 0 1 = Ok false /\
  nth_error (corpora (run no_heap history)) 2 = Some {| members := [2; 3; 2]; rels := ["equals"; "specifies"]; cmeta := Some 6 |} /\
  get_annotator (run no_heap (history ++ [SetAnnotator 1 [74]%N true; SetAnnotator 1 [75]%N true])) 0 = Ok (Some [74; 32; 43; 32; 75]%N) /\
  get_annotator (run no_heap (history ++ [SetAnnotator 1 [74]%N true; SetAnnotator 1 [75]%N true])) 2 = Ok None.
Proof. vm_compute. repeat split. Qed.
(** Hypotheses of original_apart, copy_apart. *)
Example apart_ok : exists h', is_copy (CopyCorpus 0) /\ step (run no_heap (removelast history)) (CopyCorpus 0) = Ok h' /\
  (forall x, In x (mentions (Align 2 "n1" "n3" "equals")) -> ~ exists_in (run no_heap (removelast history)) x) /\
  (forall x, In x (mentions (Align 0 "n1" "n3" "equals")) -> ~ made (run no_heap (removelast history)) h' x) /\ made (run no_heap (removelast history)) h' (Corpus 2).
Proof.
  eexists. split; [exact I|]. split; [vm_compute; reflexivity|]. split; [intros x [<-|[]]; vm_compute; repeat (intros X; apply le_S_n in X; revert X); intros X; inversion X|]. split.
  - intros x [<-|[]] (_ & N). apply N. vm_compute. auto.
  - split; [vm_compute; auto|]. vm_compute. intros X. do 2 apply le_S_n in X. inversion X.
Qed.

(** "A deep copy equals the original": not if the meta data of a graph pair are just a text. *)
Theorem copy_equals_refuted : ~ (forall inode os c v, Forall proper os -> see_corpus (run no_heap os) c = Some v ->
  (forall e, about v = Some e -> ascii_only e) -> Forall (fun a => ascii_only (about_pair a)) (graph_pairs v) ->
  exists h', step (run no_heap os) (CopyCorpus c) = Ok h' /\ corpus_eq inode h' c (length (corpora (run no_heap os))) = Ok true).
Proof.
  intros H. set (os := [NewMeta (Node "graph_meta_data" (Some [72; 105]%N) None [] []); NewPair true "a.xml" "b.xml" "1" "1" None; SetMeta 0 0; NewCorpus [0] [] None]).
  destruct (H (fun _ => None) os 0 _ ltac:(repeat constructor) eq_refl) as (h' & E & F).
  - discriminate.
  - repeat constructor.
  - vm_compute in E. injection E as <-. vm_compute in F. discriminate.
Qed.
Print Assumptions copy_equals_refuted.
(** "A slice is a corpus of its own": its annotator is that of the whole corpus. *)
Theorem slice_annotator_refuted : ~ (forall os c i j a h', Forall proper os -> c < length (corpora (run no_heap os)) ->
  step (run no_heap (os ++ [Slice c i j])) (SetAnnotator (length (corpora (run no_heap os))) a false) = Ok h' -> get_annotator h' c = get_annotator (run no_heap os) c).
Proof.
  intros H. specialize (H (firstn 6 history) 0 0 1 [74]%N _ ltac:(repeat constructor; cbn; intuition) ltac:(vm_compute; auto) eq_refl). vm_compute in H. discriminate.
Qed.
Print Assumptions slice_annotator_refuted.
(** "Every corpus can be given an annotator": not one without meta data, such as a new one. *)
Theorem annotator_missing_refuted : ~ (forall os c a append, Forall proper os -> c < length (corpora (run no_heap os)) -> exists h', step (run no_heap os) (SetAnnotator c a append) = Ok h').
Proof. intros H. destruct (H [NewCorpus [] ["equals"] None] 0 [74]%N true ltac:(repeat constructor) ltac:(vm_compute; auto)) as (h' & E). vm_compute in E. discriminate. Qed.
Print Assumptions annotator_missing_refuted.
Theorem no_meta_data : forall os c, c < length (corpora (run no_heap os)) -> corpus_meta (run no_heap os) c = None ->
  forall a append, step (run no_heap os) (SetAnnotator c a append) = Err AttributeError /\ get_annotator (run no_heap os) c = Ok None.
Proof. intros os c L M. apply no_meta_annotator; [auto|]. now apply nth_error_Some. Qed.
Print Assumptions no_meta_data.
(** "Graph pairs that look the same can be compared": not if one of the graph banks has gone, or (as with copies) meta data are not ASCII. *)
Theorem comparison_raises_refuted : ~ (forall inode os p q, Forall proper os -> p < length (gps (run no_heap os)) -> q < length (gps (run no_heap os)) -> exists r, pair_eq inode (run no_heap os) p q = Ok r).
Proof.
  intros H. destruct (H (fun _ => None) [NewMeta (Node "graph_meta_data" None None [] [Node "comment" (Some [233]%N) None [] []]); NewPair true "a.xml" "b.xml" "1" "1" (Some 0); CopyPair 0] 0 1
    ltac:(repeat constructor) ltac:(vm_compute; auto) ltac:(vm_compute; auto)) as (r & E). vm_compute in E. discriminate.
Qed.
Print Assumptions comparison_raises_refuted.
