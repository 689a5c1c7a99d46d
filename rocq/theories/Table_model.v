(** Model of the tables of statistics, lib/daeso/stats/table.py 33-215.  A table is an ordered dict of columns
    (see Odict for OrderedDict); the cells of a column have the type of the column, which is kept with them.
    Texts are lists of characters.  Floats are rational numbers; reading a float gives the number written, not
    the float nearest to it, and exponents, "inf" and "nan" are not read. *)
From Coq Require Import String Ascii QArith Qround.
From Verif Require Import Py Number_model Table_spec.
Open Scope list_scope.
Open Scope nat_scope.

Definition table := list (text * column).
Definition values (t : table) : list column := map snd t.
Fixpoint text_eqb (s t : text) : bool :=
  match s, t with [], [] => true | a :: s', b :: t' => Ascii.eqb a b && text_eqb s' t' | _, _ => false end.
Definition lit (s : string) : text := list_ascii_of_string s.

(** table.py 49-55: Column.grow *)
Definition grow_cells (a : cells) (incr : nat) : cells :=
  match a with
  | Counts l => Counts (l ++ repeat 0%Z incr)
  | Strings l => Strings (l ++ repeat [] incr)
  | Numbers ty l => Numbers ty (l ++ repeat 0%Q incr)
  end.
Definition grow_column (c : column) (incr : nat) : column :=
  {| label := label c; descr := descr c; data := grow_cells (data c) incr; overall := overall c |}.
(** table.py 35-46: Column(label, type, descr, size) *)
Definition new_column (lab type des : text) (size : nat) : column :=
  let c := {| label := lab; descr := des;
              data := if text_eqb type (lit "count") then Counts [] else if text_eqb type (lit "string") then Strings [] else Numbers type [];
              overall := None |} in
  if size =? 0 then c else grow_column c size.
(** table.py 58-67 *)
Definition get_width (c : column) (margin : nat) : res nat :=
  match data c with
  | Strings l => Ok (Nat.max (length (label c)) (fold_right Nat.max 0 (map (@length ascii) l)) + margin)
  | _ => Err AssertionError
  end.

(** str.split(): the words; [w] is the current word, reversed *)
Fixpoint split_loop (w : text) (s : text) : list text :=
  match s with
  | [] => match w with [] => [] | _ => [rev w] end
  | c :: s' => if blank c then (match w with [] => split_loop [] s' | _ => rev w :: split_loop [] s' end) else split_loop (c :: w) s'
  end.
Definition split (s : text) : list text := split_loop [] s.
(** str.split("\n"), and the lines of a file (without their ends; an empty line is skipped by all callers) *)
Fixpoint lines_loop (w : text) (s : text) : list text :=
  match s with
  | [] => [rev w]
  | c :: s' => if Ascii.eqb c newline then rev w :: lines_loop [] s' else lines_loop (c :: w) s'
  end.
Definition lines (s : text) : list text := lines_loop [] s.
(** " ".join *)
Definition join (ws : list text) : text :=
  match ws with [] => [] | w :: ws' => fold_left (fun s x => s ++ [space] ++ x) ws' w end.
(** table.py 74-83: StatsTable(size) for a class with these columns_def *)
Definition new_table (columns_def : text) (size : nat) : res table :=
  foldM (fun t l =>
    match split l with
    | [] => Ok t
    | [_] => Err IndexError
    | lab :: type :: des => Ok (dset text_eqb t lab (new_column lab type (join des) size))
    end) [] (lines columns_def).
(** table.py 86-94 *)
Definition is_empty (t : table) : bool := forallb (fun c => size c =? 0) (values t).
(** table.py 97-99 *)
Definition grow (t : table) (incr : nat) : table := map (fun x => (fst x, grow_column (snd x) incr)) t.

(** str.ljust, str.rjust; also "%-ws" and "%wd" *)
Definition ljust (w : nat) (s : text) : text := s ++ repeat space (w - length s).
Definition rjust (w : nat) (s : text) : text := repeat space (w - length s) ++ s.
(** "%d" *)
Definition show_int (n : number) : text := match n with Whole z => str_Z z | Float q => str_Z (Z.quot (Qnum q) (Zpos (Qden q))) end.
(** to hundredths, to even *)
Definition round_even (q : Q) : Z :=
  let f := Qfloor q in
  match Qcompare (q - inject_Z f) (1 # 2) with Lt => f | Gt => (f + 1)%Z | Eq => if Z.even f then f else (f + 1)%Z end.
Definition two_digits (n : N) : text := [dchar (n / 10); dchar (n mod 10)].
(** "%.2f" *)
Definition show_q (q : Q) : text :=
  let a := Z.to_N (round_even (100 * (Qabs.Qabs q))) in
  (if Z.ltb (Qnum q) 0 then [dash] else []) ++ str_N (a / 100) ++ [("."%char)] ++ two_digits (a mod 100).
Definition show_float (n : number) : text := match n with Whole z => show_q (inject_Z z) | Float q => show_q q end.

(** The width of a column in write, table.py 109-120: always 8 but for strings (self.width is 8 whatever the argument) *)
Definition column_width (c : column) : nat := match get_width c 2 with Ok w => w | Err _ => 8 end.
(** One cell, table.py 112-120 with 136: format % row *)
Definition show_cells (c : column) : list text :=
  let w := column_width c in
  match data c with
  | Strings l => map (ljust w) l
  | Counts l => map (fun z => rjust w (show_int (Whole z))) l
  | Numbers _ l => map (fun q => rjust w (show_float (Float q))) l
  end.
Definition show_label (c : column) : text :=
  let w := column_width c in match data c with Strings _ => ljust w (label c) | _ => rjust w (label c) end.
(** table.py 122-127 *)
Definition show_overall (c : column) : text :=
  let w := column_width c in
  match overall c with
  | None => repeat space w
  | Some n => match data c with Counts _ => rjust w (show_int n) | _ => rjust w (show_float n) end
  end.
(** zip( *columns): up to the shortest *)
Definition zip_rows (ls : list (list text)) : list (list text) :=
  match ls with
  | [] => []
  | l :: _ => map (fun i => map (fun l => nth i l []) ls) (seq 0 (fold_right Nat.min (length l) (map (@length text) ls)))
  end.
(** table.py 146-151 *)
Definition write_legenda (t : table) : text :=
  concat (map (fun x => ljust 4 (str_N (N.of_nat (fst x + 1))) ++ ljust 8 (label (snd x)) ++ descr (snd x) ++ [newline])
              (combine (seq 0 (length t)) (values t))).
(** table.py 102-143 *)
Definition write (t : table) (legenda : bool) : text :=
  let cs := values t in
  let dashes := repeat dash (list_sum (map column_width cs)) in
  concat (map show_label cs) ++ [newline] ++ dashes ++ [newline] ++
  concat (map (fun row => concat row ++ [newline]) (zip_rows (map show_cells cs))) ++
  dashes ++ [newline] ++ concat (map show_overall cs) ++ [newline; newline; newline] ++
  (if legenda then [newline; newline] ++ write_legenda t else []).

(** int(val) and float(val) for a word; float in plain decimal notation only: exponents, inf and nan, which write
    never produces, are left out *)
Definition digit_of (c : ascii) : option Z :=
  let n := nat_of_ascii c in if (48 <=? n) && (n <=? 57) then Some (Z.of_nat (n - 48)) else None.
Fixpoint digits_value (v : Z) (s : text) : option Z :=
  match s with
  | [] => Some v
  | c :: s' => match digit_of c with Some d => digits_value (10 * v + d)%Z s' | None => None end
  end.
Definition unsigned (s : text) : bool * text :=
  match s with
  | c :: s' => if Ascii.eqb c "-" then (true, s') else if Ascii.eqb c "+" then (false, s') else (false, s)
  | [] => (false, s)
  end.
Definition parse_int (s : text) : res Z :=
  let (neg, s) := unsigned s in
  match s with
  | [] => Err ValueError
  | _ => match digits_value 0 s with Some v => Ok (if neg then - v else v)%Z | None => Err ValueError end
  end.
Fixpoint until_point (s : text) : text * option text :=
  match s with
  | [] => ([], None)
  | c :: s' => if Ascii.eqb c "." then ([], Some s') else let (a, b) := until_point s' in (c :: a, b)
  end.
Definition parse_float (s : text) : res Q :=
  let (neg, s) := unsigned s in
  let (a, b) := until_point s in
  let f := match b with Some f => f | None => [] end in
  match a ++ f with
  | [] => Err ValueError
  | ds => match digits_value 0 ds with
          | Some v => let q := Qdiv (inject_Z v) (inject_Z (10 ^ Z.of_nat (length f))%Z) in Ok (if neg then Qopp q else q)
          | None => Err ValueError
          end
  end.
(** table.py 188-189 *)
Definition is_separator (l : text) : bool :=
  match l with a :: b :: c :: d :: _ => Ascii.eqb a dash && Ascii.eqb b dash && Ascii.eqb c dash && Ascii.eqb d dash | _ => false end.
(** table.py 178-183: one value *)
Definition append_value (c : column) (v : text) : res column :=
  d <- match data c with
       | Strings l => Ok (Strings (l ++ [v]))
       | Counts l => z <- parse_int v ;; Ok (Counts (l ++ [z]))
       | Numbers ty l => q <- parse_float v ;; Ok (Numbers ty (l ++ [q]))
       end ;;
  Ok {| label := label c; descr := descr c; data := d; overall := overall c |}.
(** table.py 175-183: one line; zip stops at the shorter *)
Fixpoint append_row (t : table) (vs : list text) : res table :=
  match t, vs with
  | (k, c) :: t', v :: vs' => c' <- append_value c v ;; t'' <- append_row t' vs' ;; Ok ((k, c') :: t'')
  | _, _ => Ok t
  end.
(** table.py 160-185 *)
Fixpoint read_loop (sep_count : nat) (t : table) (ls : list text) : res table :=
  match ls with
  | [] => Err EOFError
  | l :: ls' =>
      if forallb blank l then read_loop sep_count t ls'
      else if is_separator l then (if sep_count + 1 =? 2 then Ok t else read_loop (sep_count + 1) t ls')
      else if sep_count =? 1 then t' <- append_row t (split l) ;; read_loop sep_count t' ls'
      else read_loop sep_count t ls'
  end.
Definition read (t : table) (file : text) : res table := read_loop 0 t (lines file).

(** table.py 192-210 (the classes GbStatsTable and PgcStatsTable add percentages, see Stats_model) *)
Definition summarize_column (c : column) : column :=
  match data c with
  | Counts l => {| label := label c; descr := descr c; data := data c; overall := Some (Whole (sum l)) |}
  | _ => c
  end.
Definition summarize (t : table) : table := map (fun x => (fst x, summarize_column (snd x))) t.

(** lib/daeso/gb/gbstats.py 39-66: the columns of a GbStatsTable *)
Definition gb_columns_def : text := lit "
    BANK    string    graph bank file    
    
    CG      count     count of graphs    
    
    CGA     count     count of aligned graphs    
    CGU     count     count of unaligned graphs    
    CGSA    count     count of single aligned graphs    
    CGMA    count     count of multiple aligned graphs    
    CGUR    count     count of graphs with unaligned roots    
    CGFP    count     count of graphs with failed parses    
    
    PGA     percent   percentage of aligned graphs    
    PGSA    percent   percentage of single aligned graphs    
    PGMA    percent   percentage of multiple aligned graphs    
    PGUR    percent   percentage of graphs with unaligned roots    
    PGFP    percent   percentage of graphs with failed parses    
    
    CT      count     count of tokens    
    ATG     average   average number of tokens per graph    
    
    CN      count     count of nodes    
    ANG     average   average number of nodes per graph    
    
    CNA     count     count of aligned nodes    
    CNU     count     count of unaligned nodes    
    
    PNA     percent   percentage of aligned nodes    
    ".
(** lib/daeso/pgc/pgcstats.py 47-72: the columns of a PgcStatsTable *)
Definition pgc_columns_def : text := lit "
    
    CORPUS  string    parallel graph corpus file

    CGP     count     count of graph pairs
    CGPFU   count     count of graph pairs with full alignment 
    CGPFP   count     count of graph pairs with failed parse(s)
    CGPUR   count     count of graph pairs with unaligned roots
    PGPFU   percent   percentage of graph pairs with full alignment
    PGPFP   percent   percentage of aligned graph pairs with failed parse(s)
    PGPUR   percent   percentage of aligned graph pairs with unaligned roots

    CNP     count     count of aliged node pairs
    CEQ     count     count of equals relations
    CRE     count     count of restates relations
    CGEN    count     count of generalizes relations
    CSPEC   count     count of specifies relations
    CINT    count     count of intersects relations

    PEQ     percent   percentage of equals relations
    PRE     percent   percentage of restates relations
    PGEN    percent   percentage of generalizes relations
    PSPEC   percent   percentage of specifies relations
    PINT    percent   percentage of intersect relations
    
    ".
