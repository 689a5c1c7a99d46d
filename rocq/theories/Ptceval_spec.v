(** What the evaluation and comparison of two parallel text corpora should say
    (lib/daeso/ptc/evaluate.py, lib/daeso/ptc/diff.py). *)
From Coq Require Import String QArith.
From Verif Require Import Py Sim_spec Ielem_spec Hdoc_spec.
Open Scope nat_scope.
Set Implicit Arguments.

(** A link as stored in a corpus file; any attribute may be absent. *)
Record file_link := { f_from_tag : option string; f_to_tag : option string;
                      f_from_id : option string; f_to_id : option string }.
(** A corpus aligns two ids at a tag. *)
Definition aligned (links : list file_link) (t : string) (p : option string * option string) : Prop :=
  exists l, In l links /\ f_from_tag l = Some t /\ f_to_tag l = Some t /\ f_from_id l = fst p /\ f_to_id l = snd p.

(** The scores for a number of true, predicted and common alignments. *)
Definition precision (t p c : nat) : Q := frac c p.
Definition recall (t p c : nat) : Q := frac c t.
Definition f_score (t p c : nat) : Q := frac (2 * c) (t + p).

(** A reported difference: whether it occurs in the true corpus only (else in the predicted corpus
    only), and the ids of the elements. *)
Record difference := { d_true : bool; d_from : option string; d_to : option string }.
