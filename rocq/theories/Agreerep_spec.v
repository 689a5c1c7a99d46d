(** The printed report of an inter-annotator agreement (lib/daeso/pgc/agreement.py): for every relation and
    every measure a table of the scores of all pairs of annotators, with means and standard deviations. *)
From Coq Require Import String Ascii QArith List Sorted.
From Verif Require Import Py Table_spec Agree_spec Evalrun_spec.
Import ListNotations.
Open Scope list_scope.
Open Scope nat_scope.
Set Implicit Arguments.

(** [n] is [scale] times the square root of [q], rounded to the nearest integer, to the even one of two equally near. *)
Definition nearest_root (scale : Z) (q : Q) (n : Z) : Prop :=
  let square := (4 * inject_Z (scale * scale) * q)%Q in
  (0 <= n)%Z /\ ((0 < n)%Z -> inject_Z ((2 * n - 1) * (2 * n - 1)) <= square)%Q /\ (square <= inject_Z ((2 * n + 1) * (2 * n + 1)))%Q /\
  ((square == inject_Z ((2 * n - 1) * (2 * n - 1)))%Q \/ (square == inject_Z ((2 * n + 1) * (2 * n + 1)))%Q -> (0 < n)%Z -> Z.even n = true).
(** that many hundredths, with two decimals *)
Definition root_two_decimals (scale : Z) (q : Q) (s : text) : Prop :=
  exists n w d e t, nearest_root scale q n /\ decimal w t /\ d < 10 /\ e < 10 /\ n = Z.of_nat (100 * w + 10 * d + e) /\
    s = t ++ ["."%char; digit d; digit e].

Definition right (w : nat) (s : text) : text := repeat space (w - length s) ++ s.
Inductive acell := Blank | Percent (q : Q) | RootPercent (q : Q).
Inductive aline := APlain (s : text) | ARow (name : text) (cells : list acell).
Definition shows_acell (c : acell) (s : text) : Prop :=
  match c with
  | Blank => s = repeat space 12
  | Percent q => exists t, two_decimals (100 * q)%Q t /\ s = right 12 t
  | RootPercent q => exists t, root_two_decimals 10000 q t /\ s = right 12 t
  end.
Definition label_text (s : text) : text := right 11 s ++ [":"%char].
Definition shows_aline (x : aline) (l : text) : Prop :=
  match x with APlain s => l = s | ARow name cs => exists texts, Forall2 shows_acell cs texts /\ l = label_text name ++ concat texts end.

Section Matrix.
Variable teqb : text -> text -> bool.
(** [ann]: the annotators, [ls]: the same in the order of the table; rows are the true annotators, columns the predicting ones *)
Definition matrix (ann ls : list text) (score : text -> text -> Q) : list aline :=
  let dashes := APlain (repeat dash (12 * (length ls + 2))) in
  [APlain (repeat space 12 ++ concat (map label_text (ls ++ [txt "overall"]))); dashes] ++
  map (fun r => ARow r (map (fun c => if teqb r c then Blank else Percent (score r c)) ls)) ls ++
  [dashes;
   ARow (txt "mean") (map (fun c => Percent (qmean (column teqb score ann c))) ls ++ [Percent (qmean (all_scores teqb score ann))]);
   ARow (txt "SD") (map (fun c => RootPercent (qvar (column teqb score ann c))) ls ++ [RootPercent (qvar (all_scores teqb score ann))]);
   APlain []; APlain []].
Definition measure_head (m : measure_key) : text := match m with MPrec => txt "PREC" | MRec => txt "REC" | MF => txt "F" end.
(** [keys], [measures]: in the order in which the program takes them; [k] = None for "any relation" *)
Definition agreement_lines (R : Type) (rel_text : R -> text) (keys : list (option R)) (measures : list measure_key)
    (ann ls : list text) (score : option R -> measure_key -> text -> text -> Q) : list aline :=
  concat (map (fun k =>
    [APlain (repeat "="%char 80);
     APlain (txt "Agreement on relation " ++ match k with None => txt "__any_rel__" | Some r => rel_text r end);
     APlain (repeat "="%char 80); APlain []] ++
    concat (map (fun m => [APlain (measure_head m); APlain []] ++ matrix ann ls (score k m)) measures)) keys).
End Matrix.
(** Names given, or A1, A2, ... *)
Definition annotator_names (given : option (list text)) (n : nat) (ann : list text) : Prop :=
  match given with
  | Some (a :: l) => ann = a :: l
  | _ => length ann = n /\ forall i s, nth_error ann i = Some s -> exists t, numeral (Z.of_nat (i + 1)) t /\ s = "A"%char :: t
  end.
(** A row in columns of 12 characters: the name and a colon, and then the cells. *)
Definition fixed_columns (name : text) (cs : list acell) (l : text) : Prop :=
  length l = 12 * (length cs + 1) /\ firstn 12 l = label_text name /\ forall j c, nth_error cs j = Some c -> shows_acell c (firstn 12 (skipn (12 * (j + 1)) l)).
(** Numbers as they occur in a report: scores and means are at most 1, variances at most 2. *)
Definition small (c : acell) : Prop := match c with Blank => True | Percent q => (0 <= q <= 1)%Q | RootPercent q => (0 <= q <= 2)%Q end.
