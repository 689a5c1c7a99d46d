(** Model of the statistics of graph banks (lib/daeso/gb/gbstats.py 95-257) and of parallel graph corpora
    (lib/daeso/pgc/pgcstats.py 91-279), with DaesoGraph.node_is_empty and node_is_punct
    (lib/daeso/graph/daesograph.py 109-121).  One row of a table is a record of its cells (the tables are
    modelled in Table_model); its name cell is left out.  Floats are rational numbers.  The attributes "from_align", "to_align" and
    "root_aligned" of graphs and nodes are counters, 0 (True) if missing: banks are assumed not to come with
    them.  The order of the graphs of a bank, of the banks and of the alignments is that of dicts and sets;
    here it is the order of the given lists.  Reading files is not modelled here (see PgcXml, Sparse, Graphml). *)
From Coq Require Import String QArith.
From Verif Require Import Py Stats_spec.
Open Scope nat_scope.
Set Implicit Arguments.

(** [t in s] for strings *)
Fixpoint contains (s t : string) : bool :=
  String.prefix t s || match s with EmptyString => false | String _ s' => contains s' t end.

Section Stats.
Variable N : Type.
Variable neqb : N -> N -> bool.
Notation graph := (graph N).
Notation gpair := (gpair N).
Notation link := (link N).
Variable graph_of : nat -> graph.

(** daesograph.py 109-111 *)
Definition node_is_empty (g : graph) (n : N) : res bool :=
  ts <- dread neqb (nodes g) n ;; Ok (match ts with [] => true | _ => false end).
(** daesograph.py 114-121: None for a node without tokens *)
Definition node_is_punct (g : graph) (n : N) : res bool :=
  ts <- dread neqb (nodes g) n ;;
  Ok (match ts with [] => false | _ => forallb (contains punctuation) ts end).

(** The attributes added to graphs and nodes. *)
Record marks := { g_from : nat -> nat; g_to : nat -> nat; n_from : nat -> N -> nat; n_to : nat -> N -> nat; g_root : nat -> bool }.
Definition no_marks : marks := {| g_from := fun _ => 0; g_to := fun _ => 0; n_from := fun _ _ => 0; n_to := fun _ _ => 0; g_root := fun _ => true |}.
Definition bump (f : nat -> nat) (g : nat) : nat -> nat := fun h => if g =? h then f h + 1 else f h.
Definition bump2 (f : nat -> N -> nat) (g : nat) (n : N) : nat -> N -> nat := fun h m => if (g =? h) && neqb n m then f h m + 1 else f h m.
Definition unset (f : nat -> bool) (g : nat) : nat -> bool := fun h => if g =? h then false else f h.

(** A row of the table of corpora (pgcstats.py 45-72) *)
Notation row := pgc_counts.
Definition empty_row : row := {| cgp := 0; cgpfu := 0; cgpfp := 0; cgpur := 0; cnp := 0; ceq := 0; cre := 0; cgen := 0; cspec := 0; cint := 0 |}.
Definition inc_gp (r : row) (full failed unaligned : bool) : row :=
  {| cgp := cgp r + 1; cgpfu := if full then cgpfu r + 1 else cgpfu r; cgpfp := if failed then cgpfp r + 1 else cgpfp r;
     cgpur := if unaligned then cgpur r + 1 else cgpur r; cnp := cnp r; ceq := ceq r; cre := cre r; cgen := cgen r; cspec := cspec r; cint := cint r |}.
Definition inc_np (r : row) (eq re gen spec int : nat) : row :=
  {| cgp := cgp r; cgpfu := cgpfu r; cgpfp := cgpfp r; cgpur := cgpur r; cnp := cnp r + 1;
     ceq := ceq r + eq; cre := cre r + re; cgen := cgen r + gen; cspec := cspec r + spec; cint := cint r + int |}.

(** pgcstats.py 233-247 *)
Definition count_relation (r : row) (relation : option string) : res row :=
  match relation with
  | None => Err TypeError                 (* "..." + None *)
  | Some rel =>
      if String.eqb rel "equals" then Ok (inc_np r 1 0 0 0 0)
      else if String.eqb rel "restates" then Ok (inc_np r 0 1 0 0 0)
      else if String.eqb rel "specifies" then Ok (inc_np r 0 0 0 1 0)
      else if String.eqb rel "generalizes" then Ok (inc_np r 0 0 1 0 0)
      else if String.eqb rel "intersects" then Ok (inc_np r 0 0 0 0 1)
      else Err AssertionError
  end.
(** pgcstats.py 214-255: node_pair_stats, one alignment *)
Definition node_pair_step (o : options) (p : gpair) (st : row * marks) (a : link) : res (row * marks) :=
  let gs := graph_of (source p) in let gt := graph_of (target p) in
  let u := fst (fst a) in let v := snd (fst a) in
  empty <- (if with_empty o then Ok false else b <- node_is_empty gs u ;; if b : bool then Ok true else node_is_empty gt v) ;;
  if empty : bool then Ok st else
  punct <- (if with_punc o then Ok false else b <- node_is_punct gs u ;; if b : bool then Ok true else node_is_punct gt v) ;;
  if punct : bool then Ok st else
  let (r, m) := st in
  r' <- count_relation r (snd a) ;;
  _ <- dread neqb (nodes gs) u ;;
  _ <- dread neqb (nodes gt) v ;;
  Ok (r', {| g_from := g_from m; g_to := g_to m; n_from := bump2 (n_from m) (source p) u; n_to := bump2 (n_to m) (target p) v; g_root := g_root m |}).
(** pgcstats.py 276-277 *)
Definition roots_are_aligned (p : gpair) : bool :=
  dhas (pair_eqb neqb neqb) (alignment p) (root (graph_of (source p)), root (graph_of (target p))).
(** pgcstats.py 155-209: graph_pair_stats, one pair *)
Definition pair_step (o : options) (st : row * marks) (p : gpair) : res (row * marks) :=
  let found_failed := failed (graph_of (source p)) || failed (graph_of (target p)) in
  if found_failed && negb (with_failed o) then Ok st else
  let found_unaligned := negb (roots_are_aligned p) in
  if found_unaligned && negb (with_unaligned_roots o) then Ok st else
  if threshold o then Err NotImplementedError else
  let (r, m) := st in
  let m := if found_unaligned
           then {| g_from := g_from m; g_to := g_to m; n_from := n_from m; n_to := n_to m; g_root := unset (unset (g_root m) (source p)) (target p) |}
           else m in
  st <- foldM (node_pair_step o p) (inc_gp r (negb found_failed && negb found_unaligned) found_failed found_unaligned, m) (alignment p) ;;
  let (r, m) := st in
  Ok (r, {| g_from := bump (g_from m) (source p); g_to := bump (g_to m) (target p); n_from := n_from m; n_to := n_to m; g_root := g_root m |}).
Definition graph_pair_stats (o : options) (ps : list gpair) : res (row * marks) := foldM (pair_step o) (empty_row, no_marks) ps.

(** stats/table.py 213-214; ZeroDivisionError is avoided by the callers *)
Definition percent (a b : nat) : Q := ((inject_Z (Z.of_nat a) / inject_Z (Z.of_nat b)) * 100)%Q.
Definition divide (a b : nat) : Q := (inject_Z (Z.of_nat a) / inject_Z (Z.of_nat b))%Q.
(** pgcstats.py 258-273: calc_percentages; the cells are 0.0 before *)
Record pgc_percents := { pgpfu : Q; pgpfp : Q; pgpur : Q; peq : Q; pre : Q; pgen : Q; pspec : Q; pint : Q }.
Definition pgc_percentages (r : row) : pgc_percents :=
  let gp a := if cgp r =? 0 then 0%Q else percent a (cgp r) in
  let np a := if cnp r =? 0 then 0%Q else percent a (cnp r) in
  {| pgpfu := gp (cgpfu r); pgpfp := gp (cgpfp r); pgpur := gp (cgpur r);
     peq := np (ceq r); pre := np (cre r); pgen := np (cgen r); pspec := np (cspec r); pint := np (cint r) |}.

(** A row of the table of banks (gbstats.py 37-66) *)
Definition empty_gb : gb_counts := {| cg := 0; cga := 0; cgu := 0; cgsa := 0; cgma := 0; cgur := 0; cgfp := 0; ct := 0; cn := 0; cna := 0; cnu := 0 |}.
Definition inc_cgfp (r : gb_counts) := {| cg := cg r; cga := cga r; cgu := cgu r; cgsa := cgsa r; cgma := cgma r; cgur := cgur r; cgfp := cgfp r + 1; ct := ct r; cn := cn r; cna := cna r; cnu := cnu r |}.
Definition inc_cgur (r : gb_counts) := {| cg := cg r; cga := cga r; cgu := cgu r; cgsa := cgsa r; cgma := cgma r; cgur := cgur r + 1; cgfp := cgfp r; ct := ct r; cn := cn r; cna := cna r; cnu := cnu r |}.
Definition inc_cgu (r : gb_counts) := {| cg := cg r; cga := cga r; cgu := cgu r + 1; cgsa := cgsa r; cgma := cgma r; cgur := cgur r; cgfp := cgfp r; ct := ct r; cn := cn r; cna := cna r; cnu := cnu r |}.
Definition inc_cga (r : gb_counts) (single : bool) := {| cg := cg r; cga := cga r + 1; cgu := cgu r; cgsa := if single then cgsa r + 1 else cgsa r; cgma := if single then cgma r else cgma r + 1; cgur := cgur r; cgfp := cgfp r; ct := ct r; cn := cn r; cna := cna r; cnu := cnu r |}.
Definition inc_cg (r : gb_counts) (toks : nat) := {| cg := cg r + 1; cga := cga r; cgu := cgu r; cgsa := cgsa r; cgma := cgma r; cgur := cgur r; cgfp := cgfp r; ct := ct r + toks; cn := cn r; cna := cna r; cnu := cnu r |}.
Definition inc_cn (r : gb_counts) (aligned : bool) := {| cg := cg r; cga := cga r; cgu := cgu r; cgsa := cgsa r; cgma := cgma r; cgur := cgur r; cgfp := cgfp r; ct := ct r; cn := cn r + 1; cna := if aligned then cna r + 1 else cna r; cnu := if aligned then cnu r else cnu r + 1 |}.
(** gbstats.py 227-257 *)
Definition node_is_aligned (m : marks) (g : nat) (n : N) : bool := negb (n_from m g n =? 0) || negb (n_to m g n =? 0).
Definition graph_is_aligned (m : marks) (g : nat) : bool := negb (g_from m g =? 0) || negb (g_to m g =? 0).
Definition graph_is_single_aligned (m : marks) (g : nat) : bool := (g_from m g =? 1) || (g_to m g =? 1).
(** gbstats.py 176-183 *)
Definition count_tokens (o : options) (g : graph) : nat :=
  length (if with_punc o then tokens g else filter (fun t => negb (contains punctuation t)) (tokens g)).
(** gbstats.py 186-199 *)
Definition node_step (o : options) (m : marks) (g : nat) (r : gb_counts) (n : N) : res gb_counts :=
  p <- (if with_punc o then Ok false else node_is_punct (graph_of g) n) ;;
  if p : bool then Ok r else
  e <- (if with_empty o then Ok false else node_is_empty (graph_of g) n) ;;
  if e : bool then Ok r else
  Ok (inc_cn r (node_is_aligned m g n)).
Definition node_stats (o : options) (m : marks) (g : nat) (r : gb_counts) : res gb_counts :=
  foldM (node_step o m g) r (dkeys (nodes (graph_of g))).
(** gbstats.py 124-173: graph_stats, one graph *)
Definition graph_step (o : options) (m : marks) (r : gb_counts) (g : nat) : res gb_counts :=
  let isf := failed (graph_of g) in
  if isf && negb (with_failed o) then Ok r else
  let r := if isf then inc_cgfp r else r in
  if negb (g_root m g) && negb (with_unaligned_roots o) then Ok r else
  let r := if negb (g_root m g) then inc_cgur r else r in
  if threshold o then Err UserWarning else
  let al := graph_is_aligned m g in
  if negb al && negb (with_unaligned_graphs o) then Ok r else
  let r := if al then inc_cga r (graph_is_single_aligned m g) else inc_cgu r in
  node_stats o m g (inc_cg r (count_tokens o (graph_of g))).
Definition graph_stats (o : options) (m : marks) (gs : list nat) : res gb_counts := foldM (graph_step o m) empty_gb gs.
(** gbstats.py 202-218: calc_percentages *)
Record gb_percents := { pga : Q; pgsa : Q; pgma : Q; pgur : Q; pgfp : Q; atg : Q; ang : Q; pna : Q }.
Definition gb_percentages (r : gb_counts) : gb_percents :=
  let g a := if cg r =? 0 then 0%Q else percent a (cg r) in
  let ga a := if cga r =? 0 then 0%Q else percent a (cga r) in
  {| pga := g (cga r); pgsa := ga (cgsa r); pgma := ga (cgma r); pgur := g (cgur r); pgfp := g (cgfp r);
     atg := if cg r =? 0 then 0%Q else divide (ct r) (cg r); ang := if cg r =? 0 then 0%Q else divide (cn r) (cg r);
     pna := if cn r =? 0 then 0%Q else percent (cna r) (cn r) |}.
End Stats.

Section All.
Variable N : Type.
Variable neqb : N -> N -> bool.
(** A corpus with its graph objects and the banks in use *)
Record corpus := { c_graph : nat -> graph N; c_pairs : list (gpair N); c_banks : list (list nat) }.
(** pgcstats.py 91-141: pgc_stats; the rows of the two tables *)
Definition corpus_stats (o : options) (c : corpus) : res (pgc_counts * list gb_counts) :=
  rm <- graph_pair_stats neqb (c_graph c) o (c_pairs c) ;;
  gbs <- mapM (graph_stats neqb (c_graph c) o (snd rm)) (c_banks c) ;;
  Ok (fst rm, gbs).
Definition pgc_stats (o : options) (cs : list corpus) : res (list pgc_counts * list gb_counts) :=
  rs <- mapM (corpus_stats o) cs ;;
  Ok (map fst rs, concat (map snd rs)).
(** gbstats.py 95-121: gb_stats; a bank is given by its graphs *)
Definition gb_stats (empty failed punc thr : bool) (files : list ((nat -> graph N) * list nat)) : res (list gb_counts) :=
  let o := {| with_empty := empty; with_failed := failed; with_punc := punc; with_unaligned_roots := true; threshold := thr; with_unaligned_graphs := true |} in
  mapM (fun f => graph_stats neqb (fst f) o (no_marks N) (snd f)) files.
(** stats/table.py 191-196 with pgcstats.py 74-88: the overall percentages, None if there is nothing to divide by *)
Definition sum_by {A} (f : A -> nat) (l : list A) : nat := list_sum (map f l).
Definition overall_pgc (rows : list pgc_counts) : pgc_counts :=
  {| cgp := sum_by cgp rows; cgpfu := sum_by cgpfu rows; cgpfp := sum_by cgpfp rows; cgpur := sum_by cgpur rows; cnp := sum_by cnp rows;
     ceq := sum_by ceq rows; cre := sum_by cre rows; cgen := sum_by cgen rows; cspec := sum_by cspec rows; cint := sum_by cint rows |}.
Definition overall_pgc_percents (rows : list pgc_counts) : option (Q * Q * Q) * option (Q * Q * Q * Q * Q) :=
  let r := overall_pgc rows in
  (if cgp r =? 0 then None else Some (percent (cgpfu r) (cgp r), percent (cgpfp r) (cgp r), percent (cgpur r) (cgp r)),
   if cnp r =? 0 then None else Some (percent (ceq r) (cnp r), percent (cre r) (cnp r), percent (cgen r) (cnp r), percent (cspec r) (cnp r), percent (cint r) (cnp r))).
(** stats/table.py 191-196 with gbstats.py 68-92 *)
Definition overall_gb (rows : list gb_counts) : gb_counts :=
  {| cg := sum_by cg rows; cga := sum_by cga rows; cgu := sum_by cgu rows; cgsa := sum_by cgsa rows; cgma := sum_by cgma rows; cgur := sum_by cgur rows;
     cgfp := sum_by cgfp rows; ct := sum_by ct rows; cn := sum_by cn rows; cna := sum_by cna rows; cnu := sum_by cnu rows |}.
Record gb_overall := { o_pga : option Q; o_pgfp : option Q; o_pgur : option Q; o_pgsa : option Q; o_pgma : option Q; o_pna : option Q; o_atg : option Q; o_ang : option Q }.
Definition overall_gb_percents (rows : list gb_counts) : gb_overall :=
  let r := overall_gb rows in
  let g a := if cg r =? 0 then None else Some (percent a (cg r)) in
  let ga a := if cga r =? 0 then None else Some (percent a (cga r)) in
  {| o_pga := g (cga r); o_pgfp := g (cgfp r); o_pgur := g (cgur r); o_pgsa := ga (cgsa r); o_pgma := ga (cgma r);
     o_pna := if cn r =? 0 then None else Some (percent (cna r) (cn r));
     o_atg := if cg r =? 0 then None else Some (divide (ct r) (cg r)); o_ang := if cg r =? 0 then None else Some (divide (cn r) (cg r)) |}.
End All.
