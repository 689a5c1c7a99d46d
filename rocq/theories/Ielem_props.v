(** C33: IndexElemTree.update() (lib/daeso/ptc/ielemtree.py). *)
From Coq Require Import String Ascii.
From Verif Require Import Py Ielem_spec Ielem_model Ielem_proof.
Open Scope string_scope.
Open Scope list_scope.

Section Props.
Variable char : Type.
Variable space : char -> bool.
Variable nl : char.
Variables (r : render) (root : elem char) (old : store char) (x : index char) (doc : list char).

(** The document text is the concatenation of the stripped texts of the elements that are not
    ignored, with separators and tails. *)
Theorem index_document_text : distinct root -> update space nl r root old = (x, doc) ->
  doc = contribution space nl r root.
Proof. intros D U. now destruct (update_ok space nl r old D U) as [_ [T _]]. Qed.

(** get_elem_text() of a visible element is the text contained in that element. *)
Theorem index_element_text : distinct root -> update space nl r root old = (x, doc) ->
  forall e, In e (visible r root) ->
  get_elem_text doc (st x) (uid e) = contents space nl r e.
Proof. intros D U e V. eapply text_ok; eauto. Qed.

(** _n counts the elements with the same tag from 1 in document order, ignored or not;
    tagCountTable finds the element back; no alignments yet. *)
Theorem index_numbering : distinct root -> update space nl r root old = (x, doc) ->
  forall e k, is_nth root e k ->
  a_n (st x (uid e)) = Some k /\ a_aligns (st x (uid e)) = [] /\
  exists l, dget String.eqb (counts x) (tag e) = Some l /\ nth_error l (k - 1) = Some e.
Proof. intros D U e k H. eapply n_ok; eauto. Qed.

(** tagCountTable[t] is the list of all elements tagged t in document order. *)
Theorem index_count_table : distinct root -> update space nl r root old = (x, doc) ->
  forall t,
  match dget String.eqb (counts x) t with Some l => l | None => [] end =
  filter (fun d => String.eqb (tag d) t) (doc_order root).
Proof. intros D U t. eapply counts_ok; eauto. Qed.

(** tagIdTable[t][i] is the last element in document order with that tag and id. *)
Theorem index_id_table : distinct root -> update space nl r root old = (x, doc) ->
  forall before e after, doc_order root = before ++ e :: after ->
  (forall d, In d after -> ~ (tag d = tag e /\ id_of d = id_of e)) ->
  match dget String.eqb (ids x) (tag e) with Some d => dget id_eqb d (id_of e) | None => None end = Some e.
Proof.
  intros D U before e after Q N. destruct (update_ok space nl r old D U) as [[_ II _] _].
  specialize (II (tag e) (id_of e)). unfold id_get in II. rewrite II.
  destruct (last_with (tag e) (id_of e) (doc_order root)) as [f|] eqn:L.
  - destruct (last_with_spec _ _ _ L) as [b [a [Q2 [T2 [I2 N2]]]]]. f_equal.
    rewrite Q in Q2. clear - Q2 N N2 T2 I2. revert b Q2. induction before as [|y before IH]; intros [|z b] Q2; cbn [app] in Q2.
    + now injection Q2.
    + injection Q2 as Q3 Q4. exfalso. apply (N f); [rewrite Q4; apply in_app_iff; right; now left|auto].
    + injection Q2 as Q3 Q4. exfalso. subst. apply (N2 e); [apply in_app_iff; right; now left|auto].
    + injection Q2 as Q3 Q4. eapply IH; eauto.
  - exfalso. refine (@last_with_found _ _ _ _ e _ eq_refl eq_refl L). rewrite Q. apply in_app_iff. right. now left.
Qed.

(** An ignored element, or one inside an ignored element, keeps whatever position an earlier
    update gave it; in a freshly parsed tree its text is empty.  It is marked "_ignore" exactly if
    it has children. *)
Theorem index_hidden : distinct root -> update space nl r root old = (x, doc) ->
  forall e, In e (doc_order root) -> ~ In e (visible r root) ->
  a_start (st x (uid e)) = a_start (old (uid e)) /\ a_end (st x (uid e)) = a_end (old (uid e)) /\
  (a_ignore (old (uid e)) = false -> (a_ignore (st x (uid e)) = true <-> children e <> [])).
Proof.
  intros D U e I V. destruct (hidden_ok space nl r old e D U I V) as [A [B C]]. split; [trivial|]. split; [trivial|].
  intros F. rewrite C, F. destruct (children e); split; congruence.
Qed.
Theorem index_hidden_text : distinct root -> update space nl r root old = (x, doc) ->
  old = (fun _ => no_attrs _) -> forall e, In e (doc_order root) -> ~ In e (visible r root) ->
  get_elem_text doc (st x) (uid e) = [].
Proof.
  intros D U O e I V. destruct (index_hidden D U e I V) as [A [B _]]. unfold get_elem_text. rewrite A, B, O. reflexivity.
Qed.
(** A visible element's mark is left as it was. *)
Theorem index_visible_mark : distinct root -> update space nl r root old = (x, doc) ->
  forall e, In e (visible r root) -> a_ignore (st x (uid e)) = a_ignore (old (uid e)).
Proof. intros D U e V. eapply shown_ok; eauto. Qed.
End Props.

Definition is_space (c : ascii) : bool := Ascii.eqb c " "%char || Ascii.eqb c "010"%char.
Definition txt (s : string) := Some (list_ascii_of_string s).
(** <d> a <p id="1">b <x>q<y>r</y></x>c</p> <p id="2"/> </d> *)
Definition sample : elem ascii :=
  Elem 0 "d" None (txt " a ") None
    [Elem 1 "p" (Some "1") (txt "b ") (txt " ") [Elem 2 "x" None (txt "q") (txt "c") [Elem 3 "y" None (txt "r") None []]];
     Elem 4 "p" (Some "2") None (txt " t") []].
Definition plain := {| ignore := []; newline := ["p"]; blankline := ["d"] |}.
Definition without_x := {| ignore := ["x"]; newline := ["p"]; blankline := ["d"] |}.
Definition fresh : store ascii := fun _ => no_attrs _.
Definition run r o := update is_space "010"%char r sample o.

(** "Elements in the subtree of an ignored element are marked _ignore" (textalign.py 285-286) is
    false: the leaf <y> inside the ignored <x> is not. *)
Theorem ignored_leaf_not_marked_refuted :
  ~ (forall (char : Type) (space : char -> bool) nl r (root : elem char) x doc, distinct root ->
      update space nl r root (fun _ => no_attrs _) = (x, doc) ->
      forall e, In e (doc_order root) -> ~ In e (visible r root) -> a_ignore (st x (uid e)) = true).
Proof.
  intros H. specialize (H ascii is_space "010"%char without_x sample (fst (run without_x fresh)) (snd (run without_x fresh))).
  assert (distinct sample) by (unfold distinct; repeat constructor; simpl; intuition congruence).
  specialize (H H0 eq_refl (Elem 3 "y" None (txt "r") None [])).
  assert (false = true); [|discriminate]. apply H; [simpl; tauto|]. simpl. intuition congruence.
Qed.
(** "An ignored element has no text" is false when the same tree was rendered before without
    ignoring it: stale positions remain. *)
Theorem ignored_element_text_refuted :
  ~ (forall (char : Type) (space : char -> bool) nl r0 r (root : elem char) x0 doc0 x doc, distinct root ->
      update space nl r0 root (fun _ => no_attrs _) = (x0, doc0) -> update space nl r root (st x0) = (x, doc) ->
      forall e, In e (doc_order root) -> ~ In e (visible r root) -> get_elem_text doc (st x) (uid e) = []).
Proof.
  intros H. specialize (H ascii is_space "010"%char plain without_x sample (fst (run plain fresh)) (snd (run plain fresh))
    (fst (run without_x (st (fst (run plain fresh))))) (snd (run without_x (st (fst (run plain fresh)))))).
  assert (distinct sample) by (unfold distinct; repeat constructor; simpl; intuition congruence).
  specialize (H H0 eq_refl eq_refl (Elem 3 "y" None (txt "r") None [])).
  assert (@nil ascii <> []); [|congruence]. rewrite <- H at 1; [vm_compute; discriminate|simpl; tauto|].
  simpl. intuition congruence.
Qed.

Example sample_distinct : distinct sample.
Proof. unfold distinct; repeat constructor; simpl; intuition congruence. Qed.
Example sample_runs : forall r, exists x doc, run r fresh = (x, doc).
Proof. intros r. destruct (run r fresh) as [x doc]. eauto. Qed.
Example sample_text : string_of_list_ascii (snd (run without_x fresh)) = "abc

t

".
Proof. reflexivity. Qed.
Example sample_visible : In (Elem 4 "p" (Some "2") None (txt " t") []) (visible without_x sample) /\
  map (@uid ascii) (visible without_x sample) = [0; 1; 4] /\ length (doc_order sample) = 5.
Proof. split; [simpl; tauto|split; reflexivity]. Qed.
Example sample_nth : is_nth sample (Elem 4 "p" (Some "2") None (txt " t") []) 2.
Proof. eexists [_; _; _; _], []. split; reflexivity. Qed.

Print Assumptions index_document_text.
Print Assumptions index_element_text.
Print Assumptions index_numbering.
Print Assumptions index_count_table.
Print Assumptions index_id_table.
Print Assumptions index_hidden.
Print Assumptions index_hidden_text.
Print Assumptions index_visible_mark.
Print Assumptions ignored_leaf_not_marked_refuted.
Print Assumptions ignored_element_text_refuted.
