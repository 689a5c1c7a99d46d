(** C38: equality and pretty printing of XML elements (lib/daeso/utils/etree.py). *)
From Coq Require Import String.
From Verif Require Import Py Etree_spec Etree_model Etree_proof.
Open Scope string_scope.
Open Scope list_scope.
Open Scope nat_scope.

(** On ASCII texts, equals says whether two elements are the same up to white space around texts. *)
Theorem equals_decides : forall a b, well_formed a -> well_formed b -> ascii_only a -> ascii_only b ->
  exists r, equals a b = Ok r /\ (r = true <-> same a b).
Proof.
  intros a b W1 W2 A1 A2. destruct (equals a b) as [r|x] eqn:E.
  - exists r. split; [reflexivity|]. pose proof (equals_true a b W1 W2) as T. rewrite E in T. split.
    + intros ->. now apply T.
    + intros S. assert (X : Ok r = Ok true) by (apply T; auto). now injection X.
  - exfalso. apply equals_err in E. tauto.
Qed.
(** In general it answers true only for such elements, and raises only ValueError
    (UnicodeEncodeError), on a text that is not ASCII. *)
Theorem equals_true_iff : forall a b, well_formed a -> well_formed b ->
  (equals a b = Ok true <-> ascii_only a /\ ascii_only b /\ same a b).
Proof. exact equals_true. Qed.
Theorem equals_raises_only : forall a b x, equals a b = Err x -> x = ValueError /\ ~ (ascii_only a /\ ascii_only b).
Proof. exact equals_err. Qed.
(** Reflexive (where it does not raise), symmetric, transitive. *)
Theorem equals_reflexive : forall a, well_formed a -> (ascii_only a -> equals a a = Ok true) /\ (~ ascii_only a -> equals a a = Err ValueError).
Proof.
  intros a W. split; intros A.
  - apply equals_true; auto using same_refl.
  - destruct (equals a a) as [r|x] eqn:E; [exfalso; apply A; eapply equals_self_ok; eauto|]. apply equals_err in E. now destruct E as [-> _].
Qed.
Theorem equals_symmetric : forall a b, well_formed a -> well_formed b -> equals a b = equals b a.
Proof. exact equals_sym. Qed.
Theorem equals_transitive : forall a b c, well_formed a -> well_formed b -> well_formed c ->
  equals a b = Ok true -> equals b c = Ok true -> equals a c = Ok true.
Proof.
  intros a b c Wa Wb Wc E F. apply equals_true in E; trivial. apply equals_true in F; trivial. apply equals_true; trivial.
  destruct E as [A [B S]], F as [_ [C T]]. eauto using same_trans.
Qed.
(** Indenting gives the pretty printed tree, in which only white space differs; indenting again
    changes nothing. *)
Theorem indent_layout : forall e, pretty 0 None e (indent e 0) /\ only_layout e (indent e 0) /\ tail (indent e 0) = tail e.
Proof.
  intros e. pose proof (indent_pretty e 0) as P. cbn match in P. split; [trivial|]. split; [eapply pretty_layout; [|exact P]; discriminate|].
  inversion P; subst. auto.
Qed.
Theorem indent_idempotent : forall e, indent (indent e 0) 0 = indent e 0.
Proof. intros e. eapply pretty_again; [|exact (indent_pretty e 0)|exact (indent_pretty (indent e 0) 0)]. discriminate. Qed.
(** A tree equals its indented form exactly if no replaced text was missing. *)
Theorem indent_equals : forall e, well_formed e -> ascii_only e -> (equals e (indent e 0) = Ok true <-> filled true e).
Proof.
  intros e W A. pose proof (indent_pretty e 0) as P. cbn match in P.
  assert (W' : well_formed (indent e 0)) by (eapply layout_wf; [|exact W]; eapply pretty_layout; [|exact P]; discriminate).
  assert (A' : ascii_only (indent e 0)) by (eapply pretty_ascii; [|exact P|exact A]; discriminate).
  rewrite equals_true by trivial. rewrite <- (pretty_same e 0 None (indent e 0)); [tauto|discriminate|trivial].
Qed.

(** <a x="1"> <b>t</b> <c/></a> *)
Definition sample : node :=
  Node "a" (Some [32%N]) None [("x", [49%N])] [Node "b" (Some [116%N]) (Some [32%N]) [] []; Node "c" None (Some []) [] []].
Example sample_wf : well_formed sample.
Proof. repeat constructor; simpl; tauto. Qed.
Example sample_ascii : ascii_only sample.
Proof. repeat constructor. Qed.
Example sample_filled : filled true sample.
Proof. repeat constructor; cbn; try discriminate; congruence. Qed.
Example sample_indented : indent sample 0 =
  Node "a" (Some [10; 32; 32]%N) None [("x", [49%N])] [Node "b" (Some [116%N]) (Some [10; 32; 32]%N) [] []; Node "c" None (Some [10%N]) [] []].
Proof. vm_compute. reflexivity. Qed.
Example not_equal : equals sample (Node "a" None None [("x", [49%N])] (children sample)) = Ok false.
Proof. vm_compute. reflexivity. Qed.
Example raises : equals (Node "a" (Some [233%N]) None [] []) (Node "a" (Some [233%N]) None [] []) = Err ValueError.
Proof. reflexivity. Qed.

(** "Indenting does not affect equality" is false: a missing text is compared as "None". *)
Theorem indent_equality_refuted : ~ (forall e, well_formed e -> ascii_only e -> equals e (indent e 0) = Ok true).
Proof.
  intros H. assert (X : equals (Node "a" None None [] [Node "b" None None [] []]) (indent (Node "a" None None [] [Node "b" None None [] []]) 0) = Ok true).
  { apply H; repeat constructor. }
  vm_compute in X. discriminate X.
Qed.
(** "Equal elements have the same texts up to white space" is false: a missing text equals "None". *)
Theorem equals_missing_text_refuted :
  ~ (forall a b, well_formed a -> well_formed b -> equals a b = Ok true -> blank (txt a) -> blank (txt b)).
Proof.
  intros H. assert (X : blank (txt (Node "a" (Some [78; 111; 110; 101]%N) None [] []))).
  { apply (H (Node "a" None None [] [])); [repeat constructor|repeat constructor|vm_compute; reflexivity|exact I]. }
  apply blankb_spec in X. vm_compute in X. discriminate X.
Qed.
(** "Indenting keeps every text with something other than blanks and line breaks" is false: a text
    of non-breaking spaces (U+00A0) is lost. *)
Theorem indent_nbsp_refuted : ~ (forall e t, txt e = Some t -> (exists c, In c t /\ ~ byte_white c) -> txt (indent e 0) = Some t).
Proof.
  intros H. specialize (H (Node "a" (Some [160%N]) None [] [Node "b" None None [] []]) [160%N] eq_refl).
  assert (X : exists c, In c [160%N] /\ ~ byte_white c) by (exists 160%N; split; [now left|unfold byte_white; lia]).
  specialize (H X). vm_compute in H. discriminate H.
Qed.

Print Assumptions equals_decides.
Print Assumptions equals_true_iff.
Print Assumptions equals_raises_only.
Print Assumptions equals_reflexive.
Print Assumptions equals_symmetric.
Print Assumptions equals_transitive.
Print Assumptions indent_layout.
Print Assumptions indent_idempotent.
Print Assumptions indent_equals.
Print Assumptions indent_equality_refuted.
Print Assumptions equals_missing_text_refuted.
Print Assumptions indent_nbsp_refuted.
