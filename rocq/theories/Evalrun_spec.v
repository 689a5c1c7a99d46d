(** What an evaluation over several corpora should report (lib/daeso/pgc/evaluate.py): counts of alignments
    per relation, summed over the corpora, and precision, recall and F computed from them. *)
From Coq Require Import String Ascii QArith List.
From Verif Require Import Py Eval_spec Table_spec.
Import ListNotations.
Open Scope list_scope.
Open Scope nat_scope.
Set Implicit Arguments.

Inductive count_key := KTrue | KPred | KCommon.
Inductive measure_key := MPrec | MRec | MF.
Record three := { t_true : nat; t_pred : nat; t_common : nat }.
Definition three_at (k : count_key) (c : three) : nat := match k with KTrue => t_true c | KPred => t_pred c | KCommon => t_common c end.
(** common/pred, common/true, and their harmonic mean, which is 2 common / (true + pred); 0 if undefined *)
Definition measure_of (m : measure_key) (c : three) : Q :=
  match m with
  | MPrec => ratio (t_common c) (t_pred c)
  | MRec => ratio (t_common c) (t_true c)
  | MF => ratio (2 * t_common c) (t_true c + t_pred c)
  end.

Section Counts.
Variables N R : Type.
Variable neqb : N -> N -> bool.
Variable reqb : R -> R -> bool.
(** A pair of corpora, true and predicted: a list of alignments per graph pair. *)
Definition corpora := (list (list (triple N R)) * list (list (triple N R)))%type.
(** The counts for a relation (None: for any relation) in one pair of corpora, and in a list of them. *)
Definition counted (r : option R) (c : corpora) : three :=
  match r with
  | Some r => {| t_true := over_pairs (fun t _ => n_rel reqb r t) (fst c) (snd c);
                 t_pred := over_pairs (fun _ p => n_rel reqb r p) (fst c) (snd c);
                 t_common := over_pairs (n_both_rel neqb reqb r) (fst c) (snd c) |}
  | None => {| t_true := over_pairs (fun t _ => length t) (fst c) (snd c);
               t_pred := over_pairs (fun _ p => length p) (fst c) (snd c);
               t_common := over_pairs (n_both_any neqb) (fst c) (snd c) |}
  end.
Definition sum3 (l : list three) : three :=
  {| t_true := list_sum (map t_true l); t_pred := list_sum (map t_pred l); t_common := list_sum (map t_common l) |}.
Definition counted_in_all (r : option R) (cs : list corpora) : three := sum3 (map (counted r) cs).
(** Over all relations. *)
Definition counted_overall (relations : list R) (cs : list corpora) : three := sum3 (map (fun r => counted_in_all (Some r) cs) relations).
End Counts.
(** mean and variance of a list of numbers *)
Definition is_mean (l : list Q) (x : Q) : Prop := (x * q_of (length l) == q_total (fun v => v) l)%Q.
Definition is_variance (l : list Q) (mean x : Q) : Prop :=
  (length l = 1 -> (x == 0)%Q) /\ (2 <= length l -> (x * q_of (length l - 1) == q_total (fun v => (v - mean) * (v - mean)) l)%Q).
(** The graph pairs of a list of pairs of corpora, one after the other. *)
Definition graph_pairs (N R : Type) (cs : list (corpora N R)) : list (list (triple N R) * list (triple N R)) :=
  concat (map (fun c => combine (fst c) (snd c)) cs).

(** ** The printed report: a list of lines, each a plain text or a row of a table with a name and numbers. *)
Inductive cell := Count (n : nat) | Fixed (q : Q) | Root (q : Q) | RootPercent (q : Q).
Inductive line := Plain (s : text) | Row (width : nat) (name : text) (cells : list cell).
Section Lines.
(** how the square root of a number, and 100 times that, is printed with two decimals *)
Variables root root_percent : Q -> text.
Definition shows_cell (c : cell) (s : text) : Prop :=
  match c with Count n => numeral (Z.of_nat n) s | Fixed q => two_decimals q s | Root q => s = root q | RootPercent q => s = root_percent q end.
(** the name in a field of the given width, the numbers in fields of 14, to the right *)
Definition aligned (width : nat) (name : text) (cells : list text) : text :=
  name ++ repeat space (width - length name) ++ concat (map (fun c => repeat space (14 - length c) ++ c) cells).
Definition shows_line (x : line) (l : text) : Prop :=
  match x with Plain s => l = s | Row w name cs => exists texts, Forall2 shows_cell cs texts /\ l = aligned w name texts end.
End Lines.
(** The statistics that are printed besides sums and micro averages. *)
Record stats := { s_mean : count_key -> Q; s_var : count_key -> Q; s_macro : measure_key -> Q; s_macro_var : measure_key -> Q; s_micro_var : measure_key -> Q }.
Definition right_stats (l : list three) (st : stats) : Prop :=
  (forall k, is_mean (map (fun c => q_of (three_at k c)) l) (s_mean st k) /\
             is_variance (map (fun c => q_of (three_at k c)) l) (s_mean st k) (s_var st k)) /\
  (forall m, is_mean (map (measure_of m) l) (s_macro st m) /\
             is_variance (map (measure_of m) l) (s_macro st m) (s_macro_var st m) /\
             is_variance (map (measure_of m) l) (measure_of m (sum3 l)) (s_micro_var st m)).
Definition txt (s : String.string) : text := String.list_ascii_of_string s.
Section Report.

Local Open Scope string_scope.
Local Open Scope list_scope.
Definition title (s : text) : list line := [Plain (repeat "="%char 80); Plain s; Plain (repeat "="%char 80); Plain []].
Definition counts_row (w : nat) (name : text) (c : three) : line := Row w name [Count (t_true c); Count (t_pred c); Count (t_common c)].
Definition measures_row (w : nat) (name : text) (f : measure_key -> cell) : line := Row w name [f MPrec; f MRec; f MF].
Definition percent_of (q : Q) : cell := Fixed (100 * q)%Q.
Definition count_head (w : nat) (name : string) : line := Plain (aligned w (txt name) [txt "True:"; txt "Pred:"; txt "Common:"]).
Definition measure_head (w : nat) (name : string) : line := Plain (aligned w (txt name) [txt "Prec:"; txt "Rec:"; txt "F:"]).
Definition rule (n : nat) : line := Plain (repeat dash n).
(** the table of one relation: names of the corpora, their counts *)
Definition relation_table (names : list text) (l : list three) (st : stats) : list line :=
  let w := Nat.max (list_max (map (@List.length _) names) + 4) 14 in
  [count_head w "Name:"; rule (w + 42)] ++
  map (fun x => counts_row w (fst x) (snd x)) (combine names l) ++
  [rule (w + 42);
   counts_row w (txt "Sum:") (sum3 l);
   Row w (txt "Mean:") [Fixed (s_mean st KTrue); Fixed (s_mean st KPred); Fixed (s_mean st KCommon)];
   Row w (txt "Var:") [Fixed (s_var st KTrue); Fixed (s_var st KPred); Fixed (s_var st KCommon)];
   Row w (txt "Sd:") [Root (s_var st KTrue); Root (s_var st KPred); Root (s_var st KCommon)];
   Plain []; Plain [];
   measure_head w "Name:"; rule (w + 42)] ++
  map (fun x => measures_row w (fst x) (fun m => percent_of (measure_of m (snd x)))) (combine names l) ++
  [rule (w + 42);
   measures_row w (txt "Macro Mean:") (fun m => percent_of (s_macro st m));
   measures_row w (txt "Macro Var:") (fun m => percent_of (s_macro_var st m));
   measures_row w (txt "Macro Sd:") (fun m => RootPercent (s_macro_var st m));
   measures_row w (txt "Micro Mean:") (fun m => percent_of (measure_of m (sum3 l)));
   measures_row w (txt "Micro Var:") (fun m => percent_of (s_micro_var st m));
   measures_row w (txt "Micro Sd:") (fun m => RootPercent (s_micro_var st m));
   Plain []; Plain []].
(** the table of all relations: their names and their counts *)
Definition overall_table (rels : list (text * three)) (macro : measure_key -> Q) : list line :=
  [count_head 14 "Relation:"; rule 56] ++
  map (fun x => counts_row 14 (fst x) (snd x)) rels ++
  [rule 56; counts_row 14 (txt "Sum:") (sum3 (map snd rels)); Plain []; Plain [];
   measure_head 14 "Relation:"; rule 56] ++
  map (fun x => measures_row 14 (fst x) (fun m => percent_of (measure_of m (snd x)))) rels ++
  [rule 56;
   measures_row 14 (txt "Macro Mean:") (fun m => percent_of (macro m));
   measures_row 14 (txt "Micro Mean:") (fun m => percent_of (measure_of m (sum3 (map snd rels))));
   Plain []; Plain []].
(** The whole report: names of the corpora, the corpora, the relations with their names, also in capitals; the
    counts of a relation in each pair of corpora. *)
Definition report (R : Type) (names : list text) (relations : list R) (rel_text capitals : R -> text)
    (count : option R -> list three) (st : option R -> stats) (macro : measure_key -> Q) : list line :=
  title (txt "Alignment only (regardlless of relation)") ++ relation_table names (count None) (st None) ++
  title (txt "Alignment per relation") ++
  concat (map (fun r => [Plain (capitals r); Plain []] ++ relation_table names (count (Some r)) (st (Some r))) relations) ++
  title (txt "Alignment over all relations") ++
  overall_table (map (fun r => (rel_text r, sum3 (count (Some r)))) relations) macro.
End Report.
(** The names of the corpora: as given, and "part1", "part2", ... if none is given; the first number. *)
Inductive named : nat -> list (option text) -> list text -> Prop :=
| named_none i : named i [] []
| named_given i s l ns : s <> [] -> named (S i) l ns -> named i (Some s :: l) (s :: ns)
| named_default i o t l ns : o = None \/ o = Some [] -> numeral (Z.of_nat i) t -> named (S i) l ns -> named i (o :: l) ((txt "part" ++ t) :: ns).
(** Rows can be read: their words are those of the name and the numbers, if the numbers are not too large. *)
Section Read.
Variables root root_percent : Q -> text.
Definition fits (c : cell) : Prop :=
  match c with
  | Count n => (Z.of_nat n < 10 ^ 13)%Z
  | Fixed q => (- (10 ^ 8) < q < 10 ^ 9)%Q
  | Root q => word (root q) /\ length (root q) < 14
  | RootPercent q => word (root_percent q) /\ length (root_percent q) < 14
  end.
End Read.
