(** Specification of agreement statistics: means and sample variances of lists of rationals. *)
From Coq Require Import QArith.
From Verif Require Import Py.
Open Scope nat_scope.
Set Implicit Arguments.
Definition total (l : list Q) : Q := fold_right Qplus 0%Q l.
Definition qmean (l : list Q) : Q := (total l / inject_Z (Z.of_nat (length l)))%Q.
(** sample variance (of a single value: 0) *)
Definition qvar (l : list Q) : Q :=
  (total (map (fun x => (x - qmean l) * (x - qmean l)) l) / inject_Z (Z.of_nat (length l) - 1))%Q.
Section S.
Variable L : Type.
Variable leqb : L -> L -> bool.
Definition others (x : L) (l : list L) : list L := filter (fun y => negb (leqb x y)) l.
(** all ordered pairs of different annotators *)
Definition ordered_pairs (l : list L) : list (L * L) := flat_map (fun t => map (fun p => (t, p)) (others t l)) l.
(** the scores in which [c] is the predicting annotator; all scores *)
Definition column (v : L -> L -> Q) (ann : list L) (c : L) : list Q := map (fun t => v t c) (others c ann).
Definition all_scores (v : L -> L -> Q) (ann : list L) : list Q := map (fun tp => v (fst tp) (snd tp)) (ordered_pairs ann).
End S.
