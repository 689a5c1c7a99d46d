(** Specification of sequence alignment scores.  An alignment of (parts of) two sequences is a list of
    index pairs that increases in both coordinates; its score is the sum of the similarities of the aligned
    elements and of the gap costs of the elements that are not aligned. *)
From Coq Require Import List ZArith.
Import ListNotations.
Open Scope Z_scope.
Set Implicit Arguments.
Section S.
Variable A : Type.
Variables (sim : A -> A -> Z) (gap : A -> Z).
Variables (s1 s2 : list A).
(** the pairs of an alignment lie in rows i0..i1-1 and columns j0..j1-1 and increase in both coordinates *)
Fixpoint increasing_in (i0 i1 j0 j1 : nat) (al : list (nat * nat)) : Prop :=
  match al with
  | [] => (i0 <= i1 /\ j0 <= j1)%nat
  | (i, j) :: r => (i0 <= i < i1 /\ j0 <= j < j1)%nat /\ increasing_in (S i) i1 (S j) j1 r
  end.
Definition total (l : list Z) : Z := fold_right Z.add 0 l.
Definition sim_at (p : nat * nat) : Z :=
  match nth_error s1 (fst p), nth_error s2 (snd p) with Some a, Some b => sim a b | _, _ => 0 end.
(** cost of the elements k0..k1-1 of [s] whose index is not in [used] *)
Definition gaps (s : list A) (used : list nat) (k0 k1 : nat) : Z :=
  total (map (fun k => if existsb (Nat.eqb k) used then 0 else match nth_error s k with Some a => gap a | None => 0 end) (seq k0 (k1 - k0))).
(** score of an alignment of s1[i0:i1] and s2[j0:j1] *)
Definition score (i0 i1 j0 j1 : nat) (al : list (nat * nat)) : Z :=
  total (map sim_at al) + gaps s1 (map fst al) i0 i1 + gaps s2 (map snd al) j0 j1.
(** x is the best score of a global alignment of the first i and the first j elements *)
Definition best_global (i j : nat) (x : Z) : Prop :=
  (exists al, increasing_in 0 i 0 j al /\ score 0 i 0 j al = x) /\
  forall al, increasing_in 0 i 0 j al -> score 0 i 0 j al <= x.
(** a local alignment aligns s1[i0:i1] and s2[j0:j1] *)
Definition local_score (al : list (nat * nat)) (x : Z) : Prop :=
  exists i0 i1 j0 j1, (i1 <= length s1 /\ j1 <= length s2)%nat /\ increasing_in i0 i1 j0 j1 al /\ score i0 i1 j0 j1 al = x.
End S.
