(** Model of corpus_seg_stats (lib/daeso/stats/corpus.py 42-172) and of the overalls of the two tables
    (lib/daeso/pgc/pgcstats.py 74-88, lib/daeso/gb/gbstats.py 68-92).  The files of the current directory are texts by name;
    what stats() (118-145) gives for a directory is a parameter (see Stats_model and Table_model).  Messages are left out.
    When an exception is raised the files are not followed further. *)
From Coq Require Import String Ascii QArith.
From Verif Require Import Py Table_spec Table_model Segstats_spec.
Open Scope string_scope.
Open Scope list_scope.
Open Scope nat_scope.

(** self[key].overall for a column of counts, after calc_count_overalls (then it is an int) *)
Definition count_of (t : table) (key : string) : res Z :=
  c <- dread text_eqb t (lit key) ;;
  match overall c with Some (Whole z) => Ok z | _ => Err TypeError end.
(** self[target].overall = percent(self[num].overall, den), factor 100, or the quotient, factor 1 *)
Definition set_ratio (factor : Q) (den : Z) (t : table) (x : string * string) : res table :=
  n <- count_of t (snd x) ;;
  c <- dread text_eqb t (lit (fst x)) ;;
  Ok (dset text_eqb t (lit (fst x))
        {| label := label c; descr := descr c; data := data c; overall := Some (Float (inject_Z n / inject_Z den * factor)) |}).
(** if self[den].overall: ... *)
Definition set_ratios (den : string) (factor : Q) (xs : list (string * string)) (t : table) : res table :=
  d <- count_of t den ;;
  if (d =? 0)%Z then Ok t else foldM (set_ratio factor d) t xs.
(** pgcstats.py 74-88 *)
Definition pgc_percent_overalls (t : table) : res table :=
  t <- set_ratios "CGP" 100 [("PGPFP", "CGPFP"); ("PGPUR", "CGPUR"); ("PGPFU", "CGPFU")] t ;;
  set_ratios "CNP" 100 [("PEQ", "CEQ"); ("PRE", "CRE"); ("PSPEC", "CSPEC"); ("PGEN", "CGEN"); ("PINT", "CINT")] t.
(** gbstats.py 68-92 *)
Definition gb_percent_overalls (t : table) : res table :=
  t <- set_ratios "CG" 100 [("PGA", "CGA"); ("PGFP", "CGFP"); ("PGUR", "CGUR")] t ;;
  t <- set_ratios "CGA" 100 [("PGSA", "CGSA"); ("PGMA", "CGMA")] t ;;
  t <- set_ratios "CN" 100 [("PNA", "CNA")] t ;;
  set_ratios "CG" 1 [("ATG", "CT"); ("ANG", "CN")] t.
(** stats/table.py 191-194 *)
Definition summarize_all (k : kind) (t : table) : res table :=
  let t := summarize t in match k with Pgc => pgc_percent_overalls t | Gb => gb_percent_overalls t end.
(** PgcStatsTable(), GbStatsTable() *)
Definition new (k : kind) : res table := new_table (match k with Pgc => pgc_columns_def | Gb => gb_columns_def end) 0.

(** ".".join(...) *)
Definition dot_join (ws : list text) : text := match ws with [] => [] | w :: r => fold_left (fun s x => s ++ [dot] ++ x) r w end.
(** .replace("/", ".") *)
Definition replace_slash (s : text) : text := map (fun c => if Ascii.eqb c slash then dot else c) s.
(** corpus.py 83-84; 108 and 113; 117 and 121 *)
Definition part_fn (seg a s : text) (k : kind) : text := replace_slash (dot_join [lit "stats"; seg; a; s; suffix k]).
Definition annot_fn (seg a : text) (k : kind) : text := dot_join [lit "stats"; seg; a; suffix k].
Definition all_fn (seg : text) (k : kind) : text := lit "stats." ++ seg ++ [dot] ++ suffix k.
(** seg_dir.rstrip(path.sep), .split(path.sep)[-1] *)
Fixpoint rstrip (s : text) : text :=
  match s with [] => [] | c :: s' => match rstrip s' with [] => if Ascii.eqb c slash then [] else [c] | r => c :: r end end.
Fixpoint last_part (w : text) (s : text) : text :=
  match s with [] => w | c :: s' => if Ascii.eqb c slash then last_part [] s' else last_part (w ++ [c]) s' end.
(** path.join *)
Definition path_join (a b : text) : text :=
  match b with
  | c :: _ => if Ascii.eqb c slash then b
              else match rev a with [] => b | d :: _ => if Ascii.eqb d slash then a ++ b else a ++ [slash] ++ b end
  | [] => match rev a with [] => b | d :: _ => if Ascii.eqb d slash then a ++ b else a ++ [slash] ++ b end
  end.

Definition files := list (text * text).
Definition kind_eqb (a b : kind) : bool := match a, b with Pgc, Pgc => true | Gb, Gb => true | _, _ => false end.
(** pgc_tables and gb_tables as one dict *)
Definition tables := list ((kind * text) * table).
Notation teqb := (pair_eqb kind_eqb text_eqb).
(** corpus.py 149-157: a file that is not there is reported, other failures are not caught *)
Definition read_subtable (t : table) (fn : text) (fs : files) : res table :=
  match dget text_eqb fs fn with None => Ok t | Some s => read t s end.
(** corpus.py 161-168 *)
Definition write_table (t : table) (fn : text) (fs : files) : files :=
  if is_empty t then fs else dset text_eqb fs fn (write t true).

Section Seg.
(** corpus.py 121-145: stats(pgc_dir, pattern, with_unaligned_roots) *)
Variable stats : text -> bool -> res (table * table).
Variable seg_dir : text.
Variable targets : list text.
Definition stripped : text := rstrip seg_dir.
Definition seg : text := last_part [] stripped.
Definition member (x : text) : bool := existsb (text_eqb x) (match targets with [] => [lit "all"] | _ => targets end).
(** corpus.py 86-89 *)
Definition is_target (a s : text) : bool := member (lit "all") || member a || member s || member (a ++ [dot] ++ s).
Definition state := (files * tables)%type.
(** read_subtable(tables[key], fn) *)
Definition read_into (k : kind) (key fn : text) (st : state) : res state :=
  let (fs, ts) := st in
  t <- dread teqb ts (k, key) ;;
  t' <- read_subtable t fn fs ;;
  Ok (fs, dset teqb ts (k, key) t').
(** corpus.py 79-105: one part *)
Definition part_step (a : text) (st : state) (s : text) : res state :=
  let (fs, ts) := st in
  fs <- (if is_target a s then
           r <- stats (path_join (path_join (path_join stripped (lit "pgc")) a) s) (text_eqb a (lit "na")) ;;
           Ok (write_table (snd r) (part_fn seg a s Gb) (write_table (fst r) (part_fn seg a s Pgc) fs))
         else Ok fs) ;;
  st <- read_into Pgc a (part_fn seg a s Pgc) (fs, ts) ;;
  read_into Gb a (part_fn seg a s Gb) st.
(** tables[key].summarize(), write_table(tables[key], fn) *)
Definition finish (k : kind) (key fn : text) (st : state) : res state :=
  let (fs, ts) := st in
  t <- dread teqb ts (k, key) ;;
  t' <- summarize_all k t ;;
  Ok (write_table t' fn fs, dset teqb ts (k, key) t').
(** corpus.py 62-115: one annotation *)
Definition annot_step (subsegs : list text) (st : state) (a : text) : res state :=
  let (fs, ts) := st in
  p <- new Pgc ;;
  g <- new Gb ;;
  st <- foldM (part_step a) (fs, dset teqb (dset teqb ts (Pgc, a) p) (Gb, a) g) subsegs ;;
  st <- finish Pgc a (annot_fn seg a Pgc) st ;;
  st <- read_into Pgc (lit "all") (annot_fn seg a Pgc) st ;;
  st <- finish Gb a (annot_fn seg a Gb) st ;;
  read_into Gb (lit "all") (annot_fn seg a Gb) st.
(** corpus.py 42-123 *)
Definition corpus_seg_stats (annots subsegs : list text) (fs : files) : res files :=
  match subsegs with
  | [] => Err AssertionError
  | _ =>
      p <- new Pgc ;;
      g <- new Gb ;;
      st <- foldM (annot_step subsegs) (fs, [((Pgc, lit "all"), p); ((Gb, lit "all"), g)]) annots ;;
      st <- finish Pgc (lit "all") (all_fn seg Pgc) st ;;
      st <- finish Gb (lit "all") (all_fn seg Gb) st ;;
      Ok (fst st)
  end.
End Seg.
