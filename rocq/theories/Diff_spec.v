(** What a comparison of two labelled alignments should report. *)
From Coq Require Import List Bool.
From Verif Require Import Align_spec.
Import ListNotations.
Set Implicit Arguments.
Inductive verdict := Identical | Different | Only1 | Only2.
Section S.
Variables N R : Type.
(** [chosen r]: is relation r to be reported about? *)
Definition reported (chosen : R -> Prop) (a b : alignment N R) (v : verdict) (s t : N) : Prop :=
  match v with
  | Identical => exists r, a s t = Some r /\ chosen r /\ b s t = Some r
  | Different => exists r r', a s t = Some r /\ chosen r /\ b s t = Some r' /\ r <> r'
  | Only1 => exists r, a s t = Some r /\ chosen r /\ b s t = None
  | Only2 => exists r, b s t = Some r /\ chosen r /\ a s t = None
  end.
Definition mirror (v : verdict) : verdict := match v with Only1 => Only2 | Only2 => Only1 | v => v end.
End S.
