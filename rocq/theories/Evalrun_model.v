(** Model of a whole evaluation: AlignEval and AlignCountsTable of lib/daeso/pgc/evaluate.py with their
    statistics and printed tables (the counting is in Eval_model).  A session is the list of names and the
    list of rows added so far, each row a dict from relation to counts; the code keeps one list of rows per
    relation instead (transposed representation).  Floats are exact rationals; of a standard deviation the
    model keeps its square, and a parameter gives its printed form.  Names are strings. *)
From Coq Require Import String Ascii QArith.
From Verif Require Import Py Align_model Eval_model Table_spec Number_model Table_model Evalrun_spec.
Open Scope list_scope.
Open Scope nat_scope.
Set Implicit Arguments.

(** AlignCounts.counts[k], AlignCounts.measures[m] (beta = 1) *)
Definition count_value (k : count_key) (c : counts) : nat := match k with KTrue => c_true c | KPred => c_pred c | KCommon => c_common c end.
Definition measure_value (m : measure_key) (c : counts) : Q :=
  match m with
  | MPrec => prec c
  | MRec => rec c
  | MF => match f_score 1 c with Ok x => x | Err _ => 0%Q end
  end.
(** sum_ / n for a float or int n *)
Definition div (a : Q) (n : nat) : res Q := if n =? 0 then Err ZeroDivisionError else Ok (a / qnat n)%Q.

Record cstat := { c_sum : nat; c_mean : Q; c_var : Q }.
Record mstat := { m_macro : Q; m_macro_var : Q; m_micro : Q; m_micro_var : Q }.
Record tstat := { cstats : count_key -> cstat; mstats : measure_key -> mstat }.
(** evaluate.py 498-530: _calc_counts_sum_and_mean, _calc_counts_var_and_sd *)
Definition eval_count_stat (rows : list counts) (k : count_key) : res cstat :=
  let s := list_sum (map (count_value k) rows) in
  mean <- div (qnat s) (length rows) ;;
  Ok {| c_sum := s; c_mean := mean; c_var := variance (map (fun c => qnat (count_value k c)) rows) mean |}.
(** evaluate.py 533-597: macro and micro mean and variance of a measure *)
Definition eval_measure_stat (rows : list counts) (m : measure_key) : res mstat :=
  let values := map (measure_value m) rows in
  macro <- div (qsum values) (length rows) ;;
  let micro := measure_value m (sum_counts rows) in
  Ok {| m_macro := macro; m_macro_var := variance values macro; m_micro := micro; m_micro_var := variance values micro |}.
(** evaluate.py 487-492: AlignCountsTable.run_eval *)
Definition eval_table (rows : list counts) : res tstat :=
  t <- eval_count_stat rows KTrue ;; p <- eval_count_stat rows KPred ;; c <- eval_count_stat rows KCommon ;;
  mp <- eval_measure_stat rows MPrec ;; mr <- eval_measure_stat rows MRec ;; mf <- eval_measure_stat rows MF ;;
  Ok {| cstats := fun k => match k with KTrue => t | KPred => p | KCommon => c end;
        mstats := fun m => match m with MPrec => mp | MRec => mr | MF => mf end |}.

(** A loop that stops at an exception and leaves the state as it was then. *)
Fixpoint foldS (S X : Type) (f : S -> X -> S * option exc) (s : S) (l : list X) : S * option exc :=
  match l with
  | [] => (s, None)
  | x :: l' => match f s x with (s', None) => foldS f s' l' | r => r end
  end.

Section Session.
Variables N R : Type.
Variable neqb : N -> N -> bool.
Variable reqb : R -> R -> bool.
Variable truthy : R -> bool.
Variable relations : list R.
Notation row := (row R).
Notation kq := (keqb reqb).

(** Eval_model's upd, true_step, pred_step and pair_step, with the row as it is when a KeyError is raised *)
Definition updS (r : row) (k : key R) (f : counts -> counts) : row * option exc :=
  match dget kq r k with Some c => (dset kq r k (f c), None) | None => (r, Some KeyError) end.
(** evaluate.py 229-241; the count is not kept when an exception is raised *)
Definition true_stepS (pred_gp : digraph N R) (st : nat * row) (e : (N * N) * R) : (nat * row) * option exc :=
  let n := fst st + 1 in
  let true_rel := snd e in
  match updS (snd st) (Some true_rel) (add_true 1) with
  | (r1, Some x) => ((n, r1), Some x)
  | (r1, None) =>
      match get_align neqb pred_gp (fst (fst e)) (snd (fst e)) with
      | Some pred_rel =>
          if truthy pred_rel then
            match updS r1 None (add_common 1) with
            | (r2, Some x) => ((n, r2), Some x)
            | (r2, None) =>
                if reqb pred_rel true_rel then
                  let (r3, x) := updS r2 (Some true_rel) (add_common 1) in ((n, r3), x)
                else ((n, r2), None)
            end
          else ((n, r1), None)
      | None => ((n, r1), None)
      end
  end.
(** evaluate.py 249-251 *)
Definition pred_stepS (st : nat * row) (e : (N * N) * R) : (nat * row) * option exc :=
  let (r1, x) := updS (snd st) (Some (snd e)) (add_pred 1) in ((fst st + 1, r1), x).
(** evaluate.py 225-254 *)
Definition pair_stepS (r : row) (gp : digraph N R * digraph N R) : row * option exc :=
  match foldS (true_stepS (snd gp)) (0, r) (alignments reqb (fst gp) []) with
  | (st, Some x) => (snd st, Some x)
  | (st, None) =>
      match updS (snd st) None (add_true (fst st)) with
      | (r1, Some x) => (r1, Some x)
      | (r1, None) =>
          match foldS pred_stepS (0, r1) (alignments reqb (snd gp) []) with
          | (st', Some x) => (snd st', Some x)
          | (st', None) => updS (snd st') None (add_pred (fst st'))
          end
      end
  end.

(** The results of run_eval: for every table its statistics, and those over all relations. *)
Record evaluation := {
  e_tables : list (key R * tstat);
  e_sums : count_key -> nat;
  e_macro : measure_key -> Q;
  e_micro : measure_key -> Q }.
(** A session: names, rows, and the results of the last run_eval with the number of rows evaluated then. *)
Record session := { names : list text; rows : list row; last : option (nat * evaluation) }.
(** evaluate.py 180-204 *)
Definition new_session : session := {| names := []; rows := []; last := None |}.
(** evaluate.py 207-255: add *)
Definition add (s : session) (true_pgc pred_pgc : list (digraph N R)) (name : option text) : session * option exc :=
  if negb (length true_pgc =? length pred_pgc) then (s, Some AssertionError)
  else
    let name := match name with Some (c :: n) => c :: n | _ => lit "part" ++ str_N (N.of_nat (length (rows s) + 1)) end in
    let (r, x) := foldS pair_stepS (zero_row reqb relations) (combine true_pgc pred_pgc) in
    ({| names := names s ++ [name]; rows := rows s ++ [r]; last := last s |}, x).

(** self[k], a column of the rows *)
Definition table (s : session) (k : key R) : list counts :=
  map (fun r => match dget kq r k with Some c => c | None => zero_counts end) (rows s).
(** self.keys(): the order of the dict is not modelled, only the number of its keys matters *)
Definition keys : list (key R) := dkeys (zero_row reqb relations).
(** self[k].count_stats etc. *)
Definition stat_of (ts : list (key R * tstat)) (k : key R) : res tstat := dread kq ts k.
Definition counts_of (f : count_key -> nat) : counts := {| c_true := f KTrue; c_pred := f KPred; c_common := f KCommon |}.
(** evaluate.py 258-300: run_eval *)
Definition evaluate (s : session) : res evaluation :=
  ts <- mapM (fun k => t <- eval_table (table s k) ;; Ok (k, t)) keys ;;
  sums <- mapM (fun r => t <- stat_of ts (Some r) ;; Ok (fun k => c_sum (cstats t k))) relations ;;
  let e_sums k := list_sum (map (fun f : count_key -> nat => f k) sums) in
  micros <- mapM (fun rk : R * key R => t <- stat_of ts (Some (fst rk)) ;; Ok (fun m => m_micro (mstats t m))) (combine relations keys) ;;
  let total m := qsum (map (fun f : measure_key -> Q => f m) micros) in
  p <- div (total MPrec) (length relations) ;; r <- div (total MRec) (length relations) ;; f <- div (total MF) (length relations) ;;
  Ok {| e_tables := ts; e_sums := e_sums; e_macro := fun m => match m with MPrec => p | MRec => r | MF => f end;
        e_micro := fun m => measure_value m (counts_of e_sums) |}.
Definition run_eval (s : session) : res session :=
  e <- evaluate s ;; Ok {| names := names s; rows := rows s; last := Some (length (rows s), e) |}.

(** A user's session: adding corpora and running the evaluation, in any order; exceptions are caught.  A
    run_eval that raises leaves some statistics behind; write raises after it all the same, as it does in the
    model, where nothing is left behind. *)
Inductive action := Add (true_pgc pred_pgc : list (digraph N R)) (name : option text) | Run.
Definition act (s : session) (a : action) : session :=
  match a with
  | Add t p name => fst (add s t p name)
  | Run => match run_eval s with Ok s' => s' | Err _ => s end
  end.
Definition after (h : list action) : session := fold_left act h new_session.

(** ** Printed tables, as lists of lines *)
Variable rel_text : R -> text.
Variable upper : text -> text.
(** "%.2f" % sqrt(q), and "%.2f" % (100 * sqrt(q)) *)
Variables show_root show_root100 : Q -> text.
Definition width := 14.
Definition dashes (n : nat) : text := repeat dash n.
(** report.py 29-41: header *)
Definition header (head : text) : list text := [repeat "="%char 80; head; repeat "="%char 80; []].
Definition labelled (w : nat) (name : text) (cells : list text) : text := ljust w name ++ concat (map (rjust width) cells).
Definition show_nat (n : nat) : text := str_N (N.of_nat n).
(** "%.2f" % (100 * value) *)
Definition percent (q : Q) : text := show_q (q * 100)%Q.
Definition count_labels : list text := [lit "True:"; lit "Pred:"; lit "Common:"].
Definition measure_labels : list text := [lit "Prec:"; lit "Rec:"; lit "F:"].
Definition count_keys := [KTrue; KPred; KCommon].
Definition measure_keys := [MPrec; MRec; MF].
(** evaluate.py 600-680: AlignCountsTable.write; KeyError if there are no statistics, or none of the last
    rows *)
Definition write_table (names : list text) (rows : list counts) (evaluated : option (nat * tstat)) (heading : text) : res (list text) :=
  match names with
  | [] => Err ValueError                        (* max of an empty list *)
  | _ =>
      let namespace := Nat.max (list_max (map (@length ascii) names) + 4) width in
      let separator := dashes (namespace + 3 * width) in
      match evaluated with
      | None => Err KeyError
      | Some (n, t) =>
          if n <? length rows then Err KeyError
          else Ok (
            (match heading with [] => [] | _ => [heading; []] end) ++
            [labelled namespace (lit "Name:") count_labels; separator] ++
            map (fun x => labelled namespace (fst x) (map (fun k => show_nat (count_value k (snd x))) count_keys)) (combine names rows) ++
            [separator;
             labelled namespace (lit "Sum:") (map (fun k => show_nat (c_sum (cstats t k))) count_keys);
             labelled namespace (lit "Mean:") (map (fun k => show_q (c_mean (cstats t k))) count_keys);
             labelled namespace (lit "Var:") (map (fun k => show_q (c_var (cstats t k))) count_keys);
             labelled namespace (lit "Sd:") (map (fun k => show_root (c_var (cstats t k))) count_keys);
             []; [];
             labelled namespace (lit "Name:") measure_labels; separator] ++
            map (fun x => labelled namespace (fst x) (map (fun m => percent (measure_value m (snd x))) measure_keys)) (combine names rows) ++
            [separator;
             labelled namespace (lit "Macro Mean:") (map (fun m => percent (m_macro (mstats t m))) measure_keys);
             labelled namespace (lit "Macro Var:") (map (fun m => percent (m_macro_var (mstats t m))) measure_keys);
             labelled namespace (lit "Macro Sd:") (map (fun m => show_root100 (m_macro_var (mstats t m))) measure_keys);
             labelled namespace (lit "Micro Mean:") (map (fun m => percent (m_micro (mstats t m))) measure_keys);
             labelled namespace (lit "Micro Var:") (map (fun m => percent (m_micro_var (mstats t m))) measure_keys);
             labelled namespace (lit "Micro Sd:") (map (fun m => show_root100 (m_micro_var (mstats t m))) measure_keys);
             []; []])
      end
  end.
Definition table_stat (s : session) (k : key R) : option (nat * tstat) :=
  match last s with Some (n, e) => match dget kq (e_tables e) k with Some t => Some (n, t) | None => None end | None => None end.
(** evaluate.py 315-320 *)
Definition write_alignment_only (s : session) : res (list text) :=
  ls <- write_table (names s) (table s None) (table_stat s None) [] ;;
  Ok (header (lit "Alignment only (regardlless of relation)") ++ ls).
(** evaluate.py 323-330 *)
Definition write_alignment_per_relation (s : session) : res (list text) :=
  ls <- mapM (fun r => write_table (names s) (table s (Some r)) (table_stat s (Some r)) (upper (rel_text r))) relations ;;
  Ok (header (lit "Alignment per relation") ++ concat ls).
(** evaluate.py 333-405 *)
Definition write_alignment_overall (s : session) : res (list text) :=
  match last s with
  | None => Err KeyError
  | Some (_, e) =>
      let separator := dashes (4 * width) in
      let zipped := map fst (combine relations keys) in
      cs <- mapM (fun r => t <- stat_of (e_tables e) (Some r) ;; Ok (labelled width (rel_text r) (map (fun k => show_nat (c_sum (cstats t k))) count_keys))) zipped ;;
      ms <- mapM (fun r => t <- stat_of (e_tables e) (Some r) ;; Ok (labelled width (rel_text r) (map (fun m => percent (m_micro (mstats t m))) measure_keys))) zipped ;;
      Ok (header (lit "Alignment over all relations") ++
          [labelled width (lit "Relation:") count_labels; separator] ++ cs ++
          [separator; labelled width (lit "Sum:") (map (fun k => show_nat (e_sums e k)) count_keys); []; [];
           labelled width (lit "Relation:") measure_labels; separator] ++ ms ++
          [separator;
           labelled width (lit "Macro Mean:") (map (fun m => percent (e_macro e m)) measure_keys);
           labelled width (lit "Micro Mean:") (map (fun m => percent (e_micro e m)) measure_keys);
           []; []])
  end.
(** evaluate.py 303-312 *)
Definition write (s : session) : res (list text) :=
  a <- write_alignment_only s ;; b <- write_alignment_per_relation s ;; c <- write_alignment_overall s ;; Ok (a ++ b ++ c).
End Session.
