(** Model of lib/daeso/pgc/agreement.py 71-243: cross_evaluate, tableize, AnalysesTable, and the filter in
    read_corpora.  Floats are exact rationals; of a standard deviation the model keeps its square.  An
    annotator called "mean", "SD" or "overall" is not modelled (its rows would clash with those of the table).
    Reading the corpora is modelled elsewhere (PgcXml_model); printing and pickling are left out. *)
From Coq Require Import QArith.
From Verif Require Import Py Align_model Eval_model Corpus_model.
Open Scope nat_scope.
Set Implicit Arguments.
Section Agree.
Variables N R L : Type.
Variable neqb : N -> N -> bool.
Variable reqb : R -> R -> bool.
Variable truthy : R -> bool.
Variable leqb lleb : L -> L -> bool.      (* equality and order of annotator names *)
Notation corpus := (list (digraph N R)).
(** agreement.py 146-154: delete every alignment of a non-terminal node. *)
Definition words_only_pair (nonterm_s nonterm_t : N -> bool) (g : digraph N R) : res (digraph N R) :=
  foldM (fun g e => if nonterm_s (fst (fst e)) || nonterm_t (snd (fst e)) then del_align neqb g (fst (fst e)) (snd (fst e)) else Ok g)
        g (alignments reqb g []).
(** agreement.py 108-124: evaluate every corpus against every corpus of another name; the result is the
    list of names and the list of table rows of AlignEval. *)
Definition cross_evaluate (relations : list R) (corpora : list corpus) (annotators : list L) : res (list ((L * L) * row R)) :=
  if negb (length annotators =? length corpora) then Err AssertionError
  else
    foldM (fun acc t => foldM (fun acc p =>
        if leqb (snd t) (snd p) then Ok acc
        else r <- eval_row neqb reqb truthy relations (fst t) (fst p) ;; Ok (acc ++ [((snd t, snd p), r)]))
      acc (combine corpora annotators)) [] (combine corpora annotators).

(** agreement.py 161-243: AnalysesTable *)
Record table := { labels : list L; cells : list (L * list (L * Q)); means : list (L * Q); overall : Q; vars : list (L * Q); overall_var : Q }.
(** self[row][col] *)
Definition cell (cs : list (L * list (L * Q))) (r c : L) : res Q := d <- dread leqb cs r ;; dread leqb d c.
(** 192-195: [for label in self.labels + ...: self[label] = dict()] *)
Definition empty_cells (ls : list L) : list (L * list (L * Q)) := fold_left (fun d l => dset leqb d l []) ls [].
(** 90-92: [am[true_annot][pred_annot] = value] *)
Definition set_cell (cs : list (L * list (L * Q))) (r c : L) (v : Q) : res (list (L * list (L * Q))) :=
  d <- dread leqb cs r ;; Ok (dset leqb cs r (dset leqb d c v)).
(** float division *)
Definition fdiv (a b : Q) : res Q := if Qeq_bool b 0 then Err ZeroDivisionError else Ok (a / b)%Q.
Definition zq (z : Z) : Q := inject_Z z.
Section Stats.
Variable ls : list L.
Variable cs : list (L * list (L * Q)).
Definition col_n : Z := (Z.of_nat (length ls) - 1)%Z.
Definition overall_n : Z := (Z.of_nat (length ls) * col_n)%Z.
(** 210-214 and 234-238: add f(value) over the rows of a column, skipping the diagonal *)
Definition col_total (f : Q -> Q) (col : L) (start : Q) : res Q :=
  foldM (fun acc r => if leqb col r then Ok acc else v <- cell cs r col ;; Ok (acc + f v)%Q) start ls.
(** 202-222: calculate_av *)
Definition calculate_av : res (list (L * Q) * Q) :=
  st <- foldM (fun st col => s <- col_total (fun v => v) col 0%Q ;; m <- fdiv s (zq col_n) ;;
                             Ok (dset leqb (fst st) col m, (snd st + s)%Q)) ([], 0%Q) ls ;;
  o <- fdiv (snd st) (zq overall_n) ;; Ok (fst st, o).
(** 224-249: calculate_sd; a ZeroDivisionError is caught for the columns only *)
Definition calculate_sd (ms : list (L * Q)) (av : Q) : res (list (L * Q) * Q) :=
  st <- foldM (fun st col =>
     cav <- dread leqb ms col ;;
     dev <- col_total (fun v => ((v - cav) * (v - cav))%Q) col 0%Q ;;
     odev <- col_total (fun v => ((v - av) * (v - av))%Q) col (snd st) ;;
     Ok (dset leqb (fst st) col (match fdiv dev (zq (col_n - 1)) with Ok x => x | Err _ => 0%Q end), odev)) ([], 0%Q) ls ;;
  o <- fdiv (snd st) (zq (overall_n - 1)) ;; Ok (fst st, o).
End Stats.
(** dict(names).keys(), sorted: the distinct first components *)
Definition true_names (names : list (L * L)) : list L := list_sort lleb (dkeys (fold_left (fun d n => dset leqb d (fst n) tt) names [])).
(** agreement.py 77-97: the table of one relation and one measure *)
Definition tableize (k : key R) (measure : counts -> Q) (evals : list ((L * L) * row R)) : res table :=
  let ls := true_names (map fst evals) in
  cs <- foldM (fun cs e => c <- dread (keqb reqb) (snd e) k ;; set_cell cs (fst (fst e)) (snd (fst e)) (measure c)) (empty_cells ls) evals ;;
  av <- calculate_av ls cs ;;
  sd <- calculate_sd ls cs (fst av) (snd av) ;;
  Ok {| labels := ls; cells := cs; means := fst av; overall := snd av; vars := fst sd; overall_var := snd sd |}.
End Agree.
