(** Property C27: the list operations of a parallel graph corpus. *)
From Coq Require Import Permutation Sorted.
From Verif Require Import Py PyLemmas Corpus_spec Corpus_model Corpus_proof.
Section Props.
Variables P R : Type.
Variable peqb : P -> P -> bool.
Variable rleb : R -> R -> bool.
Hypothesis total : forall x y, rleb x y = true \/ rleb y x = true.
Variable reqb : R -> R -> bool.
Variable mequal : nat -> nat -> bool.
Notation run os := (steps peqb rleb reqb mequal (no_heap P R) os).

(** After any history of operations on any number of corpora (which may share relation lists, and be
    added to themselves) every answer and everything visible is as for plain lists. *)
Theorem corpus_history_acts_on_lists os :
  history peqb rleb reqb mequal no_world os = (view (fst (run os)), snd (run os)).
Proof.
  pose proof (@corpus_run P R peqb rleb total reqb mequal os) as H. destruct (run os). exact H.
Qed.
(** The relations of every corpus stay sorted. *)
Theorem corpus_relations_sorted os :
  Forall (fun b => Sorted (fun x y => rleb x y = true) (relations b)) (books (view (fst (run os)))).
Proof. exact (@corpus_sorted P R peqb rleb total reqb mequal os). Qed.
(** ... and are the ones given: sorting only reorders. *)
Theorem corpus_relations_as_given (l : list R) : Permutation l (isort rleb l) /\ Sorted (fun x y => rleb x y = true) (isort rleb l).
Proof. exact (conj (isort_perm rleb l) (isort_adj rleb total l)). Qed.
(** An operation that raises changes nothing (neither corpora nor the caller's lists). *)
Theorem corpus_failure_changes_nothing os o e :
  snd (step peqb rleb reqb mequal (fst (run os)) o) = ARaise e ->
  view (fst (step peqb rleb reqb mequal (fst (run os)) o)) = view (fst (run os)).
Proof.
  intros H. assert (good rleb (no_heap P R)) as G by (intros [|i] c; discriminate).
  pose proof (@steps_sim P R peqb rleb total reqb mequal os _ G) as K. destruct (run os) as [h l]. destruct K as [G1 _]. cbn [fst] in *.
  destruct (@step_sim P R peqb rleb total reqb mequal h o G1) as (_ & S2 & S3).
  rewrite S2. apply (@does_raise P R peqb rleb reqb mequal _ _ e). now rewrite <- S3.
Qed.
End Props.
Print Assumptions corpus_history_acts_on_lists.
Print Assumptions corpus_relations_sorted.
Print Assumptions corpus_relations_as_given.
Print Assumptions corpus_failure_changes_nothing.

(** A history that meets the hypotheses, with shared relations, negative bounds and failures. *)
Example ex_total : forall x y, Nat.leb x y = true \/ Nat.leb y x = true.
Proof. intros x y. destruct (Nat.leb_spec x y); [auto|right; apply Nat.leb_le; lia]. Qed.
Definition ex_corpora : list (cop nat nat) :=
  [CRels [3; 1; 2]; CNew [10; 11; 12; 13] (Some 0) (Some 7); CRels [1; 2; 3]; CNew [20; 21] (Some 1) None; CNew [5] None None;
   CAdd 0 1; CAdd 0 2; CSlice 0 (Some (-3)%Z) (Some 99%Z); CSlice 0 (Some (-9)%Z) (Some (-1)%Z);
   CSetSlice 0 (Some 1%Z) (Some (-1)%Z) 1; CIAdd 0 0; CPop 0 (Some (-1)%Z); CPop 0 None; CNotEqual 0 1; CEqual 0 1; CDelSlice 0 (Some 3%Z) None;
   CMul 1 2%Z; CRMul 1 2%Z].
Example ex_corpora_run :
  let r := steps Nat.eqb Nat.leb Nat.eqb Nat.eqb (no_heap nat nat) ex_corpora in
  snd r = [ANothing; ACorpus 0; ANothing; ACorpus 1; ACorpus 2; ACorpus 3; ARaise ValueError; ACorpus 4; ACorpus 5;
           ANothing; ANothing; ANothing; ARaise TypeError; ARaise TypeError; ARaise AttributeError; ANothing; ACorpus 6; ARaise TypeError] /\
  map (@items nat nat) (books (view (fst r))) =
    [[10; 20; 21]; [20; 21]; [5]; [10; 11; 12; 13; 20; 21]; [11; 12; 13]; [10; 11; 12]; [20; 21; 20; 21]] /\
  given (view (fst r)) = [[1; 2; 3]; [1; 2; 3]].
Proof. repeat split. Qed.
