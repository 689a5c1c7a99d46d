(** What the statistics of a corpus segment should be: tables per part, per annotation, and one for all.
    Tables, and how they are written, are those of C40. *)
From Coq Require Import Ascii String ZArith QArith List.
From Verif Require Import Py Table_spec Table_model.
Import ListNotations.
Open Scope string_scope.
Open Scope list_scope.
Open Scope nat_scope.

(** There are two tables: of corpora and of graph banks. *)
Inductive kind := Pgc | Gb.
Definition columns (k : kind) : list (string * string) :=
  match k with
  | Pgc => [("CORPUS", "string"); ("CGP", "count"); ("CGPFU", "count"); ("CGPFP", "count"); ("CGPUR", "count"); ("PGPFU", "percent"); ("PGPFP", "percent"); ("PGPUR", "percent");
            ("CNP", "count"); ("CEQ", "count"); ("CRE", "count"); ("CGEN", "count"); ("CSPEC", "count"); ("CINT", "count");
            ("PEQ", "percent"); ("PRE", "percent"); ("PGEN", "percent"); ("PSPEC", "percent"); ("PINT", "percent")]
  | Gb => [("BANK", "string"); ("CG", "count"); ("CGA", "count"); ("CGU", "count"); ("CGSA", "count"); ("CGMA", "count"); ("CGUR", "count"); ("CGFP", "count");
           ("PGA", "percent"); ("PGSA", "percent"); ("PGMA", "percent"); ("PGUR", "percent"); ("PGFP", "percent"); ("CT", "count"); ("ATG", "average");
           ("CN", "count"); ("ANG", "average"); ("CNA", "count"); ("CNU", "count"); ("PNA", "percent")]
  end.
Definition no_cells (type : string) : cells :=
  if String.eqb type "string" then Strings [] else if String.eqb type "count" then Counts [] else Numbers (lit type) [].
Definition blank_table (k : kind) : list column :=
  map (fun x => {| label := lit (fst x); descr := []; data := no_cells (snd x); overall := None |}) (columns k).

(** The same rows, numbers as they are shown; and one table below another. *)
Definition same_shown (q r : Q) : Prop := exists z, hundredths q z /\ hundredths r z.
Definition same_cells (a b : cells) : Prop :=
  match a, b with
  | Strings l, Strings m => l = m
  | Counts l, Counts m => l = m
  | Numbers s l, Numbers t m => s = t /\ Forall2 same_shown l m
  | _, _ => False
  end.
Definition same_rows (cs ds : list column) : Prop := Forall2 (fun c d => label c = label d /\ same_cells (data c) (data d)) cs ds.
Definition append_cells (a b : cells) : cells :=
  match a, b with
  | Strings l, Strings m => Strings (l ++ m)
  | Counts l, Counts m => Counts (l ++ m)
  | Numbers s l, Numbers _ m => Numbers s (l ++ m)
  | _, _ => a
  end.
Definition append_rows (cs ds : list column) : list column :=
  map (fun p => {| label := label (fst p); descr := descr (fst p); data := append_cells (data (fst p)) (data (snd p)); overall := overall (fst p) |}) (combine cs ds).
Definition all_rows (k : kind) (ts : list (list column)) : list column := fold_left append_rows ts (blank_table k).
Definition no_rows (cs : list column) : Prop := Forall (fun c => size c = 0) cs.

(** The overalls: counts are summed, percentages and averages computed from the sums (unless there is nothing to divide by). *)
Definition ratios (k : kind) : list (string * string * string * Q) :=
  match k with
  | Pgc => [("PGPFU", "CGPFU", "CGP", 100%Q); ("PGPFP", "CGPFP", "CGP", 100%Q); ("PGPUR", "CGPUR", "CGP", 100%Q);
            ("PEQ", "CEQ", "CNP", 100%Q); ("PRE", "CRE", "CNP", 100%Q); ("PGEN", "CGEN", "CNP", 100%Q); ("PSPEC", "CSPEC", "CNP", 100%Q); ("PINT", "CINT", "CNP", 100%Q)]
  | Gb => [("PGA", "CGA", "CG", 100%Q); ("PGSA", "CGSA", "CGA", 100%Q); ("PGMA", "CGMA", "CGA", 100%Q); ("PGUR", "CGUR", "CG", 100%Q); ("PGFP", "CGFP", "CG", 100%Q);
           ("ATG", "CT", "CG", 1%Q); ("ANG", "CN", "CG", 1%Q); ("PNA", "CNA", "CN", 100%Q)]
  end.
Definition column_sum (cs : list column) (lab : string) (z : Z) : Prop := exists c l, In c cs /\ label c = lit lab /\ data c = Counts l /\ z = sum l.
Definition summed (k : kind) (cs : list column) : Prop :=
  forall c, In c cs ->
    match data c with
    | Strings _ => overall c = None
    | Counts l => overall c = Some (Whole (sum l))
    | Numbers _ _ => exists lab num den f n d, In (lab, num, den, f) (ratios k) /\ label c = lit lab /\ column_sum cs num n /\ column_sum cs den d /\
        (d = 0%Z -> overall c = None) /\ (d <> 0%Z -> exists q, overall c = Some (Float q) /\ (q == f * (inject_Z n / inject_Z d))%Q)
    end.

(** The names of the files. *)
Definition dot : ascii := ".".
Definition slash : ascii := "/".
Definition dots (s : text) : text := map (fun c => if Ascii.eqb c slash then dot else c) s.
Definition suffix (k : kind) : text := match k with Pgc => lit "pgc" | Gb => lit "gb" end.
Definition all_file (seg : text) (k : kind) : text := lit "stats." ++ seg ++ [dot] ++ suffix k.
Definition annot_file (seg a : text) (k : kind) : text := lit "stats." ++ seg ++ [dot] ++ a ++ [dot] ++ suffix k.
Definition part_file (seg a s : text) (k : kind) : text := dots (lit "stats." ++ seg ++ [dot] ++ a ++ [dot] ++ s ++ [dot] ++ suffix k).
Definition file_names (seg : text) (annots subsegs : list text) : list text :=
  flat_map (fun k => all_file seg k :: flat_map (fun a => annot_file seg a k :: map (fun s => part_file seg a s k) subsegs) annots) [Pgc; Gb].
(** The name of the segment is the last part of its directory, without slashes at the end. *)
Definition segment (dir seg : text) : Prop :=
  ~ In slash seg /\ exists n up, dir = up ++ seg ++ repeat slash n /\ (up = [] \/ exists up', up = up' ++ [slash]) /\ (seg = [] -> up = []).
(** What is asked for. *)
Definition wanted (targets : list text) (a s : text) : Prop :=
  targets = [] \/ In (lit "all") targets \/ In a targets \/ In s targets \/ In (a ++ [dot] ++ s) targets.

(** A table of this kind that can be written and read back. *)
Definition good (k : kind) (t : table) : Prop :=
  map fst t = map label (blank_table k) /\ Forall2 same_column (blank_table k) (values t) /\ readable (values t).
(** The rows of a file; a missing file has none. *)
Definition holds (k : kind) (file : option text) (cs : list column) : Prop :=
  match file with
  | None => same_rows (blank_table k) cs
  | Some s => exists t, s = write t true /\ good k t /\ same_rows (values t) cs
  end.
(** A file has the rows of other files, one after the other, and their sums; if there are no rows it is left alone. *)
Definition is_total (k : kind) (parts : list (option text)) (before now : option text) : Prop :=
  exists rs, Forall2 (holds k) parts rs /\
    ((no_rows (all_rows k rs) /\ now = before) \/
     (~ no_rows (all_rows k rs) /\ exists t, now = Some (write t true) /\ good k t /\ same_rows (values t) (all_rows k rs) /\ summed k (values t))).
(** A file has this table, unless it has no rows; then it is left alone. *)
Definition is_table (t : table) (before now : option text) : Prop :=
  (no_rows (values t) /\ now = before) \/ (~ no_rows (values t) /\ now = Some (write t true)).
Definition table_files (seg : text) (annots subsegs : list text) (k : kind) : list text :=
  all_file seg k :: flat_map (fun a => annot_file seg a k :: map (fun s => part_file seg a s k) subsegs) annots.
(** Names without dots and slashes. *)
Definition simple (s : text) : Prop := ~ In dot s /\ ~ In slash s.
(** The directory of a part; no name starts with a slash, and the name of the annotation does not end in one. *)
Definition joinable (a s : text) : Prop := a <> [] /\ ~ In slash a /\ hd_error s <> Some slash.
Definition part_path (dir a s path : text) : Prop :=
  exists base n, dir = base ++ repeat slash n /\ ~ (exists b, base = b ++ [slash]) /\
    path = (match base with [] => [] | _ => base ++ [slash] end) ++ lit "pgc/" ++ a ++ [slash] ++ s.
(** The sum of a column of counts. *)
Definition count_total (lab : string) (cs : list column) : Z :=
  sum (map (fun c => match data c with Counts l => if list_eq_dec ascii_dec (label c) (lit lab) then sum l else 0%Z | _ => 0%Z end) cs).
(** The count a file gives, over all its rows. *)
Definition has_count (k : kind) (lab : string) (file : option text) (z : Z) : Prop := exists cs, holds k file cs /\ z = count_total lab cs.
Definition held (k : kind) (o : option text) : Prop := exists cs, holds k o cs.
Definition table_of (k : kind) (r : table * table) : table := match k with Pgc => fst r | Gb => snd r end.
