(** C56: the table of aligned phrases (bin/pgc_extract_phrases.py). *)
From Coq Require Import Ascii.
From Verif Require Import Py Ngram_spec Phrases_spec Phrases_model Phrases_proof.
Section Props.
Variable char : Type.
Variables blank newline : char.
Notation text := (list char).
Notation printed := (printed blank newline).
Notation main := (main blank newline).

(** The program prints a line for every alignment of every graph pair of every corpus, in order, up to the first
    alignment without tokens or relation (TypeError) or the first file that cannot be read; what has been printed
    by then stays. *)
Theorem phrases_printed : forall delimiter verbose (files : list (res (list (gpair char)))),
  exists es rest, rows files = map (@Ok _) es ++ rest /\ printed delimiter verbose es (fst (main delimiter verbose files)) /\
    (rest = [] /\ snd (main delimiter verbose files) = None \/
     exists x r, rest = Err x :: r /\ snd (main delimiter verbose files) = Some x).
Proof. intros delimiter verbose files. exact (files_ends blank newline delimiter verbose files). Qed.
(** The output is a function of the rows. *)
Theorem phrases_by_rows : forall delimiter verbose es (o o' : text), printed delimiter verbose es o -> printed delimiter verbose es o' -> o = o'.
Proof.
  intros delimiter verbose es o o' H. revert o'. induction H as [|e es cols line out C J _ IH]; intros o' H'; inversion H' as [|f fs cols' line' out' C' J' P' W O]; subst; [reflexivity|].
  apply columns_cells in C, C'. apply joined_fun in J, J'. subst. now rewrite (IH _ P').
Qed.
(** The table can be read back: with a delimiter of one character which (like newlines) does not occur in the
    columns, tables that look the same have the same phrases and relations, and the same paths, graphs and nodes
    too if these are shown. *)
Theorem phrases_readable : forall d verbose files files' es es', d <> blank -> newline <> blank -> d <> newline ->
  rows files = map (@Ok _) es -> rows files' = map (@Ok _) es' -> Forall (clean blank newline d) es -> Forall (clean blank newline d) es' ->
  fst (main [d] verbose files) = fst (main [d] verbose files') ->
  map (@shown char) es = map (@shown char) es' /\ (verbose = true -> es = es').
Proof.
  intros d verbose files files' es es' D N DN R R' C C' E.
  assert (K : forall fs l, rows fs = map (@Ok _) l -> printed [d] verbose l (fst (main [d] verbose fs))).
  { intros fs l Q. destruct (phrases_printed [d] verbose fs) as (k & rest & A & P & X). rewrite Q in A. 
    assert (G : l = k).
    { destruct X as [[-> _]|(x & r & -> & _)].
      - rewrite app_nil_r in A. clear -A. revert k A. induction l as [|a l IH]; intros [|b k] A; try discriminate A; [reflexivity|]. injection A as -> A. now rewrite (IH k A).
      - exfalso. clear -A. revert k A. induction l as [|a l IH]; intros [|b k] A; try discriminate A. injection A as _ A. exact (IH k A). }
    now rewrite G. }
  apply K in R, R'. rewrite E in R. exact (printed_inj D N DN C C' R R').
Qed.
End Props.

(** Two graphs, the words "a b" and "c", aligned twice. *)
Local Open Scope char_scope.
Definition nl := "010".
Definition tab := "009".
Definition sp := " ".
Definition gr (t : list (list ascii)) : graph ascii := {| g_id := ["g"]; tokens := fun n => match n with ["1"] => Ok (Some t) | ["2"] => Ok None | _ => Err KeyError end |}.
Definition gp s t l : gpair ascii := {| source_path := ["s"]; target_path := ["t"]; source := gr s; target := gr t; aligned := l |}.
Definition ab_c := gp [["a"]; ["b"]] [["c"]] [((["1"], ["1"]), Some ["="])].
Example ab_c_printed : main sp nl [tab] false [Ok [ab_c]; Ok [ab_c]] = (["a"; sp; "b"; tab; "="; tab; "c"; nl; "a"; sp; "b"; tab; "="; tab; "c"; nl], None).
Proof. reflexivity. Qed.
Example ab_c_verbose : main sp nl [","] true [Ok [ab_c]] = (["s"; ","; "t"; ","; "g"; ","; "g"; ","; "1"; ","; "1"; ","; "a"; sp; "b"; ","; "="; ","; "c"; nl], None).
Proof. reflexivity. Qed.
(** A node without tokens, an unknown node and a missing relation stop the program after the first line. *)
Example bad_rows : forall a, In a [((["2"], ["1"]), Some ["="]); ((["1"], ["3"]), Some ["="]); ((["1"], ["1"]), None)] ->
  main sp nl [tab] false [Ok [ab_c; gp [["a"]] [["c"]] [a]; ab_c]] = (["a"; sp; "b"; tab; "="; tab; "c"; nl], Some TypeError).
Proof. intros a [<-|[<-|[<-|[]]]]; reflexivity. Qed.
Definition a_row s r t : entry ascii := {| r_source_path := ["s"]; r_target_path := ["t"]; r_source_id := ["g"]; r_target_id := ["g"]; r_source := ["1"]; r_target := ["1"];
  source_tokens := s; relation := r; target_tokens := t |}.
Definition ab_c_row := a_row [["a"]; ["b"]] ["="] [["c"]].
Example ab_c_rows : rows [Ok [ab_c; ab_c]] = map (@Ok _) [ab_c_row; ab_c_row].
Proof. reflexivity. Qed.
Example ab_c_clean : Forall (clean sp nl tab) [ab_c_row; ab_c_row].
Proof.
  assert (C : clean sp nl tab ab_c_row).
  { unfold clean, clean_token, clean_cell. cbn. repeat split; repeat constructor; cbn; intuition discriminate. }
  constructor; [exact C|]. constructor; [exact C|constructor].
Qed.

(** "The table can be read back" is false for delimiters that occur in the columns: with a blank as delimiter ... *)
Theorem phrases_blank_delimiter_refuted :
  ~ (forall files files' es es', rows files = map (@Ok _) es -> rows files' = map (@Ok _) es' -> Forall (clean sp nl tab) es -> Forall (clean sp nl tab) es' ->
      fst (main sp nl [sp] false files) = fst (main sp nl [sp] false files') -> map (@shown ascii) es = map (@shown ascii) es').
Proof.
  intros H. specialize (H [Ok [gp [["a"]; ["b"]] [["c"]] [((["1"], ["1"]), Some ["b"])]]] [Ok [gp [["a"]] [["b"]; ["c"]] [((["1"], ["1"]), Some ["b"])]]] [a_row [["a"]; ["b"]] ["b"] [["c"]]] [a_row [["a"]] ["b"] [["b"]; ["c"]]] eq_refl eq_refl).
  assert (C : forall e : entry ascii, e = a_row [["a"]; ["b"]] ["b"] [["c"]] \/ e = a_row [["a"]] ["b"] [["b"]; ["c"]] -> clean sp nl tab e).
  { intros e [->| ->]; unfold clean, clean_token, clean_cell; cbn; repeat split; repeat constructor; cbn; intuition discriminate. }
  assert (X : [(([["a"]; ["b"]], ["b"]), [["c"]])] = [(([["a"]], ["b"]), [["b"]; ["c"]])]).
  { apply H; [constructor; [apply C; now left|constructor]|constructor; [apply C; now right|constructor]|reflexivity]. }
  discriminate X.
Qed.
(** ... and with the default delimiter if a token has a tab in it. *)
Theorem phrases_tab_in_token_refuted :
  ~ (forall files files' es es', rows files = map (@Ok _) es -> rows files' = map (@Ok _) es' ->
      fst (main sp nl [tab] false files) = fst (main sp nl [tab] false files') -> map (@shown ascii) es = map (@shown ascii) es').
Proof.
  intros H. specialize (H [Ok [gp [["a"; tab; "b"]] [["c"]] [((["1"], ["1"]), Some ["b"])]]] [Ok [gp [["a"]] [["b"; tab; "c"]] [((["1"], ["1"]), Some ["b"])]]] [a_row [["a"; tab; "b"]] ["b"] [["c"]]] [a_row [["a"]] ["b"] [["b"; tab; "c"]]] eq_refl eq_refl eq_refl). discriminate H.
Qed.

Print Assumptions phrases_printed.
Print Assumptions phrases_by_rows.
Print Assumptions phrases_readable.
Print Assumptions phrases_blank_delimiter_refuted.
Print Assumptions phrases_tab_in_token_refuted.
