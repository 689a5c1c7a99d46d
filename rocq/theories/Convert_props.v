(** C55: converting a parallel text corpus from links by number to links by id (bin/ptc_n_to_id.py). *)
From Coq Require Import String Permutation Ascii.
From Verif Require Import Py Ielem_spec Ielem_model Hdoc_spec Hdoc_model Hdoc_proof Hdoc_props Convert_spec Convert_model Convert_proof.
Open Scope string_scope.
Open Scope list_scope.
Section Props.
Variable char : Type.
Variable space : char -> bool.
Variable nl : char.
Notation elem := (elem char).
Notation index := (index char).
Notation updated := (updated space nl).
Notation aligns x e := (a_aligns (st x (uid e))).

(** A corpus whose links name elements with ids of their own is rewritten with links by id which align exactly
    the same pairs of elements, put in document order; links in document order stay in place. *)
Theorem conversion_keeps_alignments : forall (fr tr : elem) fx tx d pairs, distinct fr -> distinct tr -> updated fr fx -> updated tr tx ->
  aligns_pairs fr tr d pairs -> (forall p, In p pairs -> identified fr (fst p) /\ identified tr (snd p)) ->
  exists d' pairs', convert d fr fx tx = (Written d', None) /\ method d' = Some "id" /\ aligns_pairs fr tr d' pairs' /\
    Permutation pairs' pairs /\ in_doc_order fr pairs' /\ (in_doc_order fr pairs -> pairs' = pairs).
Proof.
  intros fr tr fx tx d pairs D1 D2 U1 U2 A H. destruct (convert_ok D1 D2 U1 U2 A H) as (E & A' & P). pose proof (aligned_in D1 D2 A) as S1.
  exists (id_document (grouped fr pairs)), (grouped fr pairs). refine (conj E (conj eq_refl (conj A' (conj P (conj (grouped_order pairs D1 S1) _))))).
  intros O. now apply grouped_sorted.
Qed.
(** Reading the converted corpus gives every element the partners it had before: the same list for a source
    element, the same partners for a target element. *)
Theorem conversion_injects_the_same : forall (fr tr : elem) fx tx d pairs, distinct fr -> distinct tr -> updated fr fx -> updated tr tx ->
  aligns_pairs fr tr d pairs -> (forall p, In p pairs -> identified fr (fst p) /\ identified tr (snd p)) ->
  exists d' fx1 tx1 fx2 tx2, convert d fr fx tx = (Written d', None) /\ inject d fx tx = Ok (fx1, tx1) /\ inject d' fx tx = Ok (fx2, tx2) /\
    (forall e, In e (doc_order fr) -> aligns fx1 e = targets pairs e /\ aligns fx2 e = aligns fx1 e) /\
    (forall e, In e (doc_order tr) -> aligns tx1 e = sources pairs e /\ Permutation (aligns tx2 e) (aligns tx1 e)).
Proof.
  intros fr tr fx tx d pairs D1 D2 U1 U2 A H. destruct (convert_ok D1 D2 U1 U2 A H) as (E & A' & P). pose proof (aligned_in D1 D2 A) as S1.
  exists (id_document (grouped fr pairs)). rewrite !(inject_all _ D1 D2 U1 U2), (aligns_picks A D1 D2), (aligns_picks A' D1 D2). cbn [bind].
  destruct (updated_tabs D1 U1) as [_ [_ [_ Z1]]]. destruct (updated_tabs D2 U2) as [_ [_ [_ Z2]]].
  eexists _, _, _, _. split; [exact E|]. split; [rewrite <- surjective_pairing; reflexivity|]. split; [rewrite <- surjective_pairing; reflexivity|].
  split; intros e I; destruct (apply_aligns pairs (fx, tx) (uid e)) as [B [C _]]; destruct (apply_aligns (grouped fr pairs) (fx, tx) (uid e)) as [B' [C' _]].
  - rewrite B, B'. cbn [fst]. rewrite Z1 by exact I. cbn [app]. split; [reflexivity|]. now apply (targets_grouped pairs).
  - rewrite C, C'. cbn [snd]. rewrite Z2 by exact I. cbn [app]. split; [reflexivity|]. apply Permutation_map. now apply filter_perm.
Qed.
(** Converting a converted corpus changes nothing. *)
Theorem conversion_idempotent : forall (fr tr : elem) fx tx d d' pairs, distinct fr -> distinct tr -> updated fr fx -> updated tr tx ->
  aligns_pairs fr tr d pairs -> (forall p, In p pairs -> identified fr (fst p) /\ identified tr (snd p)) ->
  convert d fr fx tx = (Written d', None) -> convert d' fr fx tx = (Written d', None).
Proof.
  intros fr tr fx tx d d' pairs D1 D2 U1 U2 A H C. destruct (convert_ok D1 D2 U1 U2 A H) as (E & A' & P). pose proof (aligned_in D1 D2 A) as S1.
  rewrite E in C. injection C as <-. assert (H' : forall p, In p (grouped fr pairs) -> identified fr (fst p) /\ identified tr (snd p)).
  { intros p I. apply H. now apply (Permutation_in p P). }
  destruct (convert_ok D1 D2 U1 U2 A' H') as (E' & _). rewrite E'. now rewrite (grouped_grouped pairs D1 S1).
Qed.
(** What happens with any corpus, good or bad.  A link that picks no element, or an unknown method, raises its
    exception and the corpus stays as it was.  If one of the elements picked has no id, TypeError is raised when
    the corpus has already been opened for writing, and it is lost.  Otherwise it is rewritten. *)
Theorem conversion_exact : forall (fr tr : elem) fx tx d, distinct fr -> distinct tr -> updated fr fx -> updated tr tx ->
  convert d fr fx tx = match all_picks fr tr d with
  | Err x => (Unchanged, Some x)
  | Ok pairs => if forallb (@has_ids char) pairs then (Written (id_document (grouped fr pairs)), None) else (Truncated, Some TypeError)
  end.
Proof. intros fr tr fx tx d D1 D2 U1 U2. exact (convert_picks d D1 D2 U1 U2). Qed.
End Props.

(** A source <d><p id="1"/><p id="2"/></d>; the target of Hdoc_props; and links in reverse order. *)
Definition q1 : elem ascii := Elem 1 "p" (Some "1") None None [].
Definition q2 : elem ascii := Elem 2 "p" (Some "2") None None [].
Definition source : elem ascii := Elem 0 "d" None None None [q1; q2].
Definition by_n a b : attributes := {| from_tag := "p"; from_n := Some a; from_id := None; to_tag := "s"; to_n := Some b; to_id := None |}.
Definition two_links : document := {| method := None; links := [by_n 2 1; by_n 1 2] |}.
Definition two_pairs := [(q2, e_s1); (q1, e_s2)].
Example source_distinct : distinct source.
Proof. unfold distinct; repeat constructor; simpl; intuition congruence. Qed.
Example two_links_pairs : aligns_pairs source tgt two_links two_pairs.
Proof. left. split; [now left|]. repeat constructor; cbn [fst snd]; (exists 0; split; reflexivity) || (exists 1; split; reflexivity). Qed.
Example two_pairs_identified : forall p, In p two_pairs -> identified source (fst p) /\ identified tgt (snd p).
Proof.
  intros p [<-|[<-|[]]]; (split; (split; [discriminate|]); (split; [simpl; tauto|]); (split; [reflexivity|]); (split; [reflexivity|]);
    intros d I; cbn in I; intros T K; (repeat destruct I as [<-|I]); try destruct I; reflexivity || discriminate).
Qed.
Definition by_i a b : attributes := {| from_tag := "p"; from_n := None; from_id := Some a; to_tag := "s"; to_n := None; to_id := Some b |}.
Example two_links_converted : convert two_links source (up source) (up tgt) = (Written {| method := Some "id"; links := [by_i "1" "b"; by_i "2" "a"] |}, None).
Proof. vm_compute. reflexivity. Qed.
Example bad_link_kept : convert {| method := Some "n"; links := [by_n 3 1] |} source (up source) (up tgt) = (Unchanged, Some IndexError) /\
  convert {| method := Some "x"; links := [by_n 1 1] |} source (up source) (up tgt) = (Unchanged, Some AssertionError).
Proof. split; vm_compute; reflexivity. Qed.

(** "Converting a corpus with good links keeps its alignments" is false when elements share an id: the
    alignment moves to another element, without notice. *)
Theorem conversion_shared_ids_refuted :
  ~ (forall (char : Type) space nl (fr tr : elem char) fx tx d pairs, distinct fr -> distinct tr -> updated space nl fr fx -> updated space nl tr tx ->
      aligns_pairs fr tr d pairs -> (forall p, In p pairs -> id_of (fst p) <> None /\ id_of (snd p) <> None) ->
      exists d', convert d fr fx tx = (Written d', None) /\ exists pairs', all_picks fr tr d' = Ok pairs' /\ Permutation pairs' pairs).
Proof.
  intros H. specialize (H ascii none_space "010"%char src tgt (up src) (up tgt) {| method := None; links := [by_n 1 1] |} [(e_p1, e_s1)]
    src_distinct tgt_distinct (up_updated src) (up_updated tgt)).
  destruct H as (d' & E & ps & P & Q).
  - left. split; [now left|]. repeat constructor; cbn [fst snd]; exists 0; split; reflexivity.
  - intros p [<-|[]]. split; discriminate.
  - vm_compute in E. injection E as <-. vm_compute in P. injection P as <-. apply Permutation_length_1 in Q. discriminate Q.
Qed.
(** "The corpus is never lost" is false: aligning an element without id is enough. *)
Theorem conversion_loses_corpus_refuted :
  ~ (forall (char : Type) space nl (fr tr : elem char) fx tx d pairs, distinct fr -> distinct tr -> updated space nl fr fx -> updated space nl tr tx ->
      aligns_pairs fr tr d pairs -> fst (convert d fr fx tx) <> Truncated).
Proof.
  intros H. apply (H ascii none_space "010"%char source tgt (up source) (up tgt)
    {| method := None; links := [{| from_tag := "d"; from_n := Some 1%Z; from_id := None; to_tag := "d"; to_n := Some 1%Z; to_id := None |}] |} [(source, tgt)]
    source_distinct tgt_distinct (up_updated source) (up_updated tgt)).
  - left. split; [now left|]. repeat constructor; cbn [fst snd]; exists 0; split; reflexivity.
  - vm_compute. reflexivity.
Qed.

Print Assumptions conversion_keeps_alignments.
Print Assumptions conversion_injects_the_same.
Print Assumptions conversion_idempotent.
Print Assumptions conversion_exact.
Print Assumptions conversion_shared_ids_refuted.
Print Assumptions conversion_loses_corpus_refuted.
