(** Model of the report of lib/daeso/pgc/agreement.py: run_eval, write_tables and FormatAnalysesMatrix (the
    computation is in Agree_model).  Lines without their newlines.  The report of the AlignEval itself, which
    run_eval writes first, is that of Evalrun_model and left out, and so is pickling.  The order of the dicts of
    tables is given.  Standard deviations are exact square roots.  Annotators called "mean", "SD" or "overall"
    are not modelled (see Agree_model).  The list of relations is a parameter; in the code it is always that of
    AlignEval (evaluate.py 181: the five relations), so it is not empty and AlignEval.run_eval does not fail. *)
From Coq Require Import String Ascii QArith.
From Verif Require Import Py Align_model Eval_model Corpus_model Table_spec Number_model Table_model Evalrun_spec Evalrun_model Agree_model.
Open Scope list_scope.
Open Scope nat_scope.
Set Implicit Arguments.

(** scale * sqrt(q), rounded to an integer, half to even *)
Definition root_round (scale : Z) (q : Q) : Z :=
  let a := (scale * scale * Qnum q)%Z in
  let b := Zpos (Qden q) in
  let f := Z.sqrt (a / b) in
  match Z.compare (4 * a) ((2 * f + 1) * (2 * f + 1) * b) with
  | Lt => f
  | Gt => (f + 1)%Z
  | Eq => if Z.even f then f else (f + 1)%Z
  end.
(** "%.2f" % sqrt(q) for scale 100, "%.2f" % (100 * sqrt(q)) for scale 10000 *)
Definition show_root (scale : Z) (q : Q) : text :=
  let n := Z.to_N (root_round scale q) in str_N (n / 100) ++ ["."%char] ++ two_digits (n mod 100).

(** agreement.py 254-303: FormatAnalysesMatrix.write with percent = True *)
Definition percent_cell (q : Q) : text := rjust 12 (show_q (q * 100)%Q).
Definition root_cell (q : Q) : text := rjust 12 (show_root 10000 q).
Definition name_cell (s : text) : text := rjust 11 s ++ [":"%char].
Definition write_matrix (T : table text) (header : text) : res (list text) :=
  let ls := labels T in
  let separator := dashes ((length ls + 2) * 12) in
  rows <- mapM (fun r =>
    cs <- mapM (fun c => if text_eqb r c then Ok (repeat space 12) else v <- cell text_eqb (cells T) r c ;; Ok (percent_cell v)) ls ;;
    Ok (name_cell r ++ concat cs)) ls ;;
  ms <- mapM (fun c => v <- dread text_eqb (means T) c ;; Ok (percent_cell v)) ls ;;
  ss <- mapM (fun c => v <- dread text_eqb (vars T) c ;; Ok (root_cell v)) ls ;;
  Ok ((match header with [] => [] | _ => [header; []] end) ++
      [repeat space 12 ++ concat (map name_cell (ls ++ [lit "overall"])); separator] ++
      rows ++
      [separator;
       name_cell (lit "mean") ++ concat ms ++ percent_cell (Agree_model.overall T);
       name_cell (lit "SD") ++ concat ss ++ root_cell (overall_var T);
       []; []]).

Section Report.
Variables N R : Type.
Variable neqb : N -> N -> bool.
Variable reqb : R -> R -> bool.
Variable truthy : R -> bool.
Variable lleb : text -> text -> bool.     (* order of strings *)
Variable rel_text : R -> text.
(** measure.upper() *)
Definition upper_measure (m : measure_key) : text := match m with MPrec => lit "PREC" | MRec => lit "REC" | MF => lit "F" end.
(** str(rel); AlignEval.any_rel (evaluate.py 182) *)
Definition key_text (k : key R) : text := match k with None => lit "__any_rel__" | Some r => rel_text r end.
(** agreement.py 61-70: write_tables *)
Definition write_tables (tables : list (key R * list (measure_key * table text))) : res (list text) :=
  ls <- mapM (fun kt =>
    ms <- mapM (fun mt => write_matrix (snd mt) (upper_measure (fst mt))) (snd kt) ;;
    Ok ([repeat "="%char 80; lit "Agreement on relation " ++ key_text (fst kt); repeat "="%char 80; []] ++ concat ms)) tables ;;
  Ok (concat ls).
(** agreement.py 108-113: the default names *)
Definition names_or_default (given : option (list text)) (n : nat) : list text :=
  match given with
  | Some (a :: l) => a :: l
  | _ => map (fun i => "A"%char :: str_N (N.of_nat (i + 1))) (seq 0 n)
  end.
(** agreement.py 41-60: run_eval, with the dicts in the order [keys], [measures] *)
Definition agreement_report (relations : list R) (corpora : list (list (digraph N R))) (given : option (list text))
    (keys : list (key R)) (measures : list measure_key) : res (list text) :=
  evals <- cross_evaluate neqb reqb truthy text_eqb relations corpora (names_or_default given (length corpora)) ;;
  tables <- mapM (fun k =>
    ts <- mapM (fun m => T <- tableize reqb text_eqb lleb k (measure_value m) evals ;; Ok (m, T)) measures ;; Ok (k, ts)) keys ;;
  write_tables tables.
End Report.
