(** C40: tables of statistics. *)
From Coq Require Import NArith String Ascii QArith.
From Verif Require Import Py PyLemmas Table_spec Table_model Table_proof.
Open Scope string_scope.
Open Scope list_scope.
Open Scope nat_scope.

(** Summarising: the overall of a column of counts is the sum of its cells; nothing else changes. *)
Theorem summarize_sums : forall t, map fst (summarize t) = map fst t /\
  Forall2 (fun c c' => label c' = label c /\ descr c' = descr c /\ data c' = data c /\
    match data c with Counts l => overall c' = Some (Whole (sum l)) | _ => overall c' = overall c end) (values t) (values (summarize t)).
Proof.
  intros t. unfold summarize, values. rewrite !map_map. split; [now apply map_ext|]. induction t as [|(k, c) t IH]; cbn [map]; constructor; auto.
  cbn [snd]. unfold summarize_column. destruct (data c) eqn:E; rewrite ?E; auto.
Qed.
(** Growing keeps the rows and adds empty ones: "", 0 and 0.0. *)
Theorem grow_keeps : forall t n, map fst (grow t n) = map fst t /\
  Forall2 (fun c c' => label c' = label c /\ descr c' = descr c /\ overall c' = overall c /\ data c' = more (data c) n /\ size c' = size c + n) (values t) (values (grow t n)).
Proof.
  intros t n. unfold grow, values. rewrite !map_map. split; [now apply map_ext|]. induction t as [|(k, c) t IH]; cbn [map]; constructor; auto.
  cbn [snd]. unfold grow_column, size; cbn [label descr overall data]. unfold grow_cells, more. destruct (data c); rewrite app_length, repeat_length; auto 10.
Qed.
Theorem grow_twice : forall t m n, grow (grow t m) n = grow t (m + n).
Proof.
  intros t m n. unfold grow. rewrite map_map. apply map_ext. intros (k, c). cbn [fst snd]. unfold grow_column; cbn [label descr overall data]. f_equal. f_equal.
  unfold grow_cells. destruct (data c); rewrite <- app_assoc, <- repeat_app; reflexivity.
Qed.
(** A table is empty if it has no cells. *)
Theorem empty_iff : forall t, is_empty t = true <-> Forall (fun c => size c = 0) (values t).
Proof.
  intros t. unfold is_empty. rewrite forallb_forall, Forall_forall. split; intros H c C; specialize (H c C); [now apply Nat.eqb_eq|now apply Nat.eqb_eq].
Qed.
(** A new table has the columns defined by the lines of the definition (that are not blank), in their order. *)
Theorem new_table_columns : forall def n ls wss, lines_are ls def -> Forall2 splits ls wss ->
  let defs := filter (fun ws => match ws with [] => false | _ => true end) wss in
  (Forall (fun ws => length ws <> 1) wss -> NoDup (labels defs) ->
   exists t, new_table def n = Ok t /\ map fst t = labels defs /\ map label (values t) = labels defs /\ Forall2 (defined_by n) defs (values t)) /\
  ((exists ws, In ws wss /\ length ws = 1) -> new_table def n = Err IndexError).
Proof.
  intros def n ls wss L S. rewrite new_table_eq, (lines_joined _ _ L).
  assert (E : wss = map split ls) by (clear L; induction S as [|l ws ls wss H S IH]; [reflexivity|]; cbn [map]; rewrite (splits_split _ _ H); now f_equal).
  rewrite E. cbv zeta. split.
  - intros F ND. destruct (define_ok n ls []) as (t & E1 & E2 & E3 & E4).
    + rewrite Forall_map in F. exact F.
    + exact ND.
    + exists t. split; [exact E1|]. split; [exact E2|]. split; [rewrite E4; exact E2|exact E3].
  - intros (ws & I & W). apply define_bad. apply in_map_iff in I as (l & <- & I). eauto.
Qed.
(** Written and read back: the columns get the cells that were written, numbers rounded to hundredths. *)
Theorem write_read : forall t0 t leg, readable (values t) -> Forall2 same_column (values t0) (values t) ->
  exists t1, read t0 (write t leg) = Ok t1 /\ map fst t1 = map fst t0 /\ length (values t1) = length (values t) /\
    forall i c0 c c1, nth_error (values t0) i = Some c0 -> nth_error (values t) i = Some c -> nth_error (values t1) i = Some c1 ->
      label c1 = label c0 /\ descr c1 = descr c0 /\ overall c1 = overall c0 /\ read_back (data c0) (data c) (data c1).
Proof.
  intros t0 t leg R K. destruct (round_trip t0 t leg R K) as (t1 & E & A). exists t1. split; [exact E|]. clear E R K.
  induction A as [|k c0 t0 c cs c1 t1 H A IH].
  - repeat split; auto; destruct i; discriminate.
  - destruct IH as (IH1 & IH2 & IH3). cbn [map values fst snd length]. split; [now f_equal|]. split; [f_equal; exact IH2|].
    intros [|i] d0 d d1; cbn [nth_error]; [intros [= <-] [= <-] [= <-]; exact H|apply IH3].
Qed.
(** In a written table the header, the separators and the rows have the same width. *)
Theorem lines_align : forall t n leg, values t <> [] -> Forall (fun c => size c = n) (values t) ->
  Forall (fun c => textual c \/ length (label c) <= 8 /\ narrow c) (values t) ->
  exists ls rest w, write t leg = in_lines ls ++ rest /\ length ls = n + 3 /\ Forall (fun l => length l = w) ls.
Proof. exact write_width. Qed.
(** Reading needs two separators and ignores what follows the second (the overalls and the legenda). *)
Theorem read_needs_separators : forall t ls file t', lines_are ls file -> read t file = Ok t' -> separator_lines ls.
Proof. intros t ls file t' L E. unfold read in E. rewrite (lines_joined _ _ L) in E. destruct (read_two _ _ _ _ E) as (_ & H); auto. Qed.
Theorem read_ignores_rest : forall t a b t', read t a = Ok t' -> read t (a ++ b) = Ok t'.
Proof. exact read_prefix. Qed.
Theorem read_fails : forall t file e, read t file = Err e -> e = EOFError \/ e = ValueError.
Proof. intros t file e. apply read_errors. Qed.
(** Exactly what is read: the lines between the first two separators, word by word into the columns; it fails
    if a word for a column of numbers is not a number. *)
Theorem read_exactly : forall t ls file t', lines_are ls file ->
  (read t file = Ok t' <->
   exists head s body s' rest, ls = head ++ s :: body ++ s' :: rest /\ Forall (fun l => ~ starts_with_dashes l) head /\ starts_with_dashes s /\
     Forall (fun l => ~ starts_with_dashes l) body /\ starts_with_dashes s' /\ map fst t' = map fst t /\ rows_read (values t) body (values t')).
Proof. intros t ls file t' L. unfold read. rewrite (lines_joined _ _ L). apply read_all. Qed.
(** The line after the second separator shows the overalls of the columns that have one. *)
Theorem overall_line : forall t n leg, values t <> [] -> Forall (fun c => size c = n) (values t) -> Forall narrow_overall (values t) ->
  exists ls line rest ws, write t leg = in_lines (ls ++ [line]) ++ rest /\ length ls = n + 3 /\ one_line line /\ splits line ws /\ Forall2 shows (overalls (values t)) ws.
Proof.
  intros t n leg NE S O. destruct (write_overalls t n leg NE S O) as (ls & line & rest & ws & H1 & H2 & H3 & H4 & H5 & _). exists ls, line, rest, ws. auto.
Qed.
(** The legenda is what is added to a table: one line per column. *)
Theorem legenda : forall t, exists ls, write t true = write t false ++ in_lines ([] :: [] :: ls) /\ length ls = length (values t) /\
  forall i c, nth_error (values t) i = Some c -> exists l, nth_error ls i = Some l /\ legend_line i c l.
Proof.
  intros t. destruct (legenda_text t) as (ls & H1 & H2 & H3). exists ls. split; [|auto]. rewrite legenda_lines, H1. reflexivity.
Qed.
(** Only columns of strings have a width of their own: their longest cell or label, and the margin. *)
Theorem width_of_strings : forall c margin, (textual c -> exists w, get_width c margin = Ok (w + margin) /\ length (label c) <= w /\
    (forall l s, data c = Strings l -> In s l -> length s <= w) /\ (w = length (label c) \/ exists l s, data c = Strings l /\ In s l /\ w = length s)) /\
  (~ textual c -> get_width c margin = Err AssertionError).
Proof.
  intros c margin. unfold textual, get_width. split.
  - intros (l & E). rewrite E. eexists. split; [reflexivity|]. split; [lia|].
    assert (X : (forall s, In s l -> length s <= fold_right Nat.max 0 (map (@length ascii) l)) /\ (fold_right Nat.max 0 (map (@length ascii) l) = 0 \/ exists s, In s l /\ fold_right Nat.max 0 (map (@length ascii) l) = length s)).
    { clear. induction l as [|x l (IH1 & IH2)]; cbn [map fold_right]; [split; [intros s []|auto]|]. split.
      - intros s [<-|I]; [lia|]. specialize (IH1 s I). lia.
      - destruct (Nat.max_dec (length x) (fold_right Nat.max 0 (map (@length ascii) l))) as [M|M]; rewrite M; [right; exists x; cbn; auto|].
        destruct IH2 as [Z|(s & I & Z)]; [auto|right; exists s; cbn; auto]. }
    destruct X as (X1 & X2). split.
    + intros l' s [= <-] I. specialize (X1 s I). lia.
    + destruct (Nat.max_dec (length (label c)) (fold_right Nat.max 0 (map (@length ascii) l))) as [M|M]; rewrite M; [auto|].
      destruct X2 as [Z|(s & I & Z)]; [left; lia|right; exists l, s; auto].
  - intros N. destruct (data c) eqn:E; [exfalso; eauto| |]; reflexivity.
Qed.

(** The tables of banks and corpora. *)
Definition texts := map string_of_list_ascii.
Definition kind_name (c : column) : string := match data c with Strings _ => "string" | Counts _ => "count" | Numbers ty _ => string_of_list_ascii ty end.
Definition stats_columns (t : res table) : list (string * string) :=
  match t with Ok t => map (fun c => (string_of_list_ascii (label c), kind_name c)) (values t) | Err _ => [] end.
Theorem pgc_table_columns : stats_columns (new_table pgc_columns_def 0) =
  [("CORPUS", "string"); ("CGP", "count"); ("CGPFU", "count"); ("CGPFP", "count"); ("CGPUR", "count"); ("PGPFU", "percent"); ("PGPFP", "percent"); ("PGPUR", "percent");
   ("CNP", "count"); ("CEQ", "count"); ("CRE", "count"); ("CGEN", "count"); ("CSPEC", "count"); ("CINT", "count");
   ("PEQ", "percent"); ("PRE", "percent"); ("PGEN", "percent"); ("PSPEC", "percent"); ("PINT", "percent")].
Proof. vm_compute. reflexivity. Qed.
Theorem gb_table_columns : stats_columns (new_table gb_columns_def 0) =
  [("BANK", "string"); ("CG", "count"); ("CGA", "count"); ("CGU", "count"); ("CGSA", "count"); ("CGMA", "count"); ("CGUR", "count"); ("CGFP", "count");
   ("PGA", "percent"); ("PGSA", "percent"); ("PGMA", "percent"); ("PGUR", "percent"); ("PGFP", "percent"); ("CT", "count"); ("ATG", "average");
   ("CN", "count"); ("ANG", "average"); ("CNA", "count"); ("CNU", "count"); ("PNA", "percent")].
Proof. vm_compute. reflexivity. Qed.
(** Such a table can be read back if its file names are words that do not start with dashes, and its numbers have
    at most seven characters. *)
Theorem stats_table_readable : forall (names : text * column) t n, textual (snd names) -> 2 <= length (label (snd names)) ->
  Forall (fun c => size c = n) (values (names :: t)) -> Forall (fun c => word (label c)) (values (names :: t)) ->
  ~ starts_with_dashes (label (snd names)) -> words_only (snd names) ->
  match data (snd names) with Strings l => Forall (fun s => ~ starts_with_dashes s) l | _ => True end ->
  Forall narrow (values t) -> readable (values (names :: t)).
Proof.
  intros (k, c) t n T L S W D O DD N. cbn [snd values map] in *. fold (values t) in *. repeat split; eauto.
  - constructor; auto. eapply Forall_impl; [|exact N]. intros d. unfold narrow, words_only. destruct (data d); easy.
  - assert (X : forall c, textual c \/ narrow c -> separated (c :: values t)); [|apply X; auto]. clear -N.
    induction N as [|d ds H N IH]; intros c X; cbn [separated]; auto. split; [auto|]. apply IH. auto.
  - exists c. split; [cbn; auto|]. auto.
Qed.

(** Non-vacuity: a table of a corpus with two rows. *)
Definition col (l d : string) a := {| label := lit l; descr := lit d; data := a; overall := None |}.
Definition sample : table :=
  [(lit "BANK", col "BANK" "bank" (Strings [lit "a.xml"; lit "--b--"])); (lit "CG", col "CG" "graphs" (Counts [12; -5]%Z));
   (lit "PG", col "PG" "percentage" (Numbers (lit "percent") [12345 # 1000; 2 # 3]%Q))].
Definition sample0 : table := [(lit "BANK", col "BANK" "" (Strings [lit "z"])); (lit "CG", col "CG" "" (Counts [1]%Z)); (lit "PG", col "PG" "" (Numbers (lit "percent") [0]%Q))].
Lemma is_word s : (match s with [] => false | _ => true end && forallb (fun c => negb (blank c)) s)%bool = true -> word s.
Proof.
  intros H. apply andb_true_iff in H as (A & B). split; [destruct s; [discriminate|discriminate]|]. rewrite forallb_forall in B. apply Forall_forall. intros c C. specialize (B c C). now apply negb_true_iff.
Qed.
Lemma is_not_dashes s : is_separator s = false -> ~ starts_with_dashes s.
Proof. intros H X. apply sep_spec in X. congruence. Qed.
Example sample_readable : readable (values sample).
Proof.
  apply (stats_table_readable _ _ 2).
  - eexists. reflexivity.
  - cbn. lia.
  - repeat constructor.
  - repeat (constructor; [apply is_word; reflexivity|]). constructor.
  - apply is_not_dashes. reflexivity.
  - cbn. repeat (constructor; [apply is_word; reflexivity|]). constructor.
  - cbn. repeat (constructor; [apply is_not_dashes; reflexivity|]). constructor.
  - cbn. constructor; [|constructor; [|constructor]].
    + cbn. repeat constructor; lia.
    + cbn. repeat constructor.
Qed.
Example sample_read : match read sample0 (write (summarize sample) true) with
  | Ok [(_, a); (_, b); (_, c)] => data a = Strings [lit "z"; lit "a.xml"; lit "--b--"] /\ data b = Counts [1; 12; -5]%Z /\
      exists ty x y, data c = Numbers ty [0%Q; x; y] /\ (x == 1234 # 100)%Q /\ (y == 67 # 100)%Q
  | _ => False end.
Proof. vm_compute. split; [reflexivity|]. split; [reflexivity|]. eexists _, _, _. split; [reflexivity|]. split; reflexivity. Qed.
Example sample_overall : exists line, splits line [lit "7"] /\ overalls (values (summarize sample)) = [(Counts [12; -5]%Z, Whole 7)] /\ Forall narrow_overall (values (summarize sample)).
Proof. exists (lit "  7 "). split; [exact (split_splits (lit "  7 "))|]. split; [reflexivity|]. repeat constructor. Qed.
Example sample_legenda : exists a b, write sample true = a ++ lit "2   CG      graphs" ++ b.
Proof. exists (firstn 165 (write sample true)), (skipn 183 (write sample true)). vm_compute. reflexivity. Qed.
Example sample_same : Forall2 same_column (values sample0) (values sample).
Proof. repeat constructor. Qed.
Example sample_lines : lines_are [lit "A count of a"; lit ""; lit " B string "] (lit "A count of a" ++ newline :: newline :: lit " B string ") /\
  exists wss, Forall2 splits [lit "A count of a"; lit ""; lit " B string "] wss /\ Forall (fun ws => length ws <> 1) wss /\ length wss = 3.
Proof.
  split; [split; [|reflexivity]|].
  - assert (X : forall s, existsb (Ascii.eqb newline) s = false -> one_line s).
    { intros s H I. assert (existsb (Ascii.eqb newline) s = true) by (apply existsb_exists; exists newline; split; auto; apply Ascii.eqb_refl). congruence. }
    repeat constructor; apply X; reflexivity.
  - exists (map split [lit "A count of a"; lit ""; lit " B string "]). split; [cbn [map]; repeat (constructor; [apply split_splits|]); constructor|]. split; [|reflexivity].
    repeat constructor; cbn; discriminate.
Qed.

(** A word that is no number is an error. *)
Example ex_colon : read [(lit "A", col "A" "" (Counts []))] (in_lines [lit "A"; lit "----"; lit "7:"; lit "----"]) = Err ValueError.
Proof. vm_compute. reflexivity. Qed.
Example ex_signed : exists t, read [(lit "A", col "A" "" (Counts []))] (in_lines [lit "A"; lit "----"; lit "+7"; lit "-8"; lit "----"]) = Ok t /\ map data (values t) = [Counts [7; -8]%Z].
Proof. eexists. split; vm_compute; reflexivity. Qed.
(** Findings.  A name with a blank shifts the row: here the count is read from the second word. *)
Theorem blank_in_name_refuted : exists t0 t, Forall2 same_column (values t0) (values t) /\ read t0 (write t true) = Err ValueError /\
  exists l n, map data (values t) = [Strings l; Counts n] /\ length l = 1 /\ length n = 1.
Proof.
  exists [(lit "BANK", col "BANK" "" (Strings [])); (lit "CG", col "CG" "" (Counts []))], [(lit "BANK", col "BANK" "" (Strings [lit "my bank"])); (lit "CG", col "CG" "" (Counts [7%Z]))].
  split; [repeat constructor|]. split; [vm_compute; reflexivity|]. eexists _, _. split; [reflexivity|]. split; reflexivity.
Qed.
(** Counts of eight digits run together: one value is read for two columns, and the second column stays short. *)
Theorem wide_counts_refuted : exists t0 t t1, Forall2 same_column (values t0) (values t) /\ read t0 (write t true) = Ok t1 /\
  map data (values t) = [Counts [12345678]; Counts [12345678]]%Z /\ map data (values t1) = [Counts [1234567812345678]; Counts []]%Z.
Proof.
  exists [(lit "A", col "A" "" (Counts [])); (lit "B", col "B" "" (Counts []))], [(lit "A", col "A" "" (Counts [12345678%Z])); (lit "B", col "B" "" (Counts [12345678%Z]))].
  eexists. split; [repeat constructor|]. split; [vm_compute; reflexivity|]. split; reflexivity.
Qed.
(** A name that starts with dashes ends the table: the rows from there on are lost. *)
Theorem dashes_in_name_refuted : exists t0 t t1, Forall2 same_column (values t0) (values t) /\ read t0 (write t true) = Ok t1 /\
  map size (values t) = [2; 2] /\ map size (values t1) = [0; 0].
Proof.
  exists [(lit "BANK", col "BANK" "" (Strings [])); (lit "CG", col "CG" "" (Counts []))], [(lit "BANK", col "BANK" "" (Strings [lit "----.xml"; lit "b.xml"])); (lit "CG", col "CG" "" (Counts [7; 8]%Z))].
  eexists. split; [repeat constructor|]. split; [vm_compute; reflexivity|]. split; reflexivity.
Qed.
(** A table without columns cannot be read back. *)
Theorem no_columns_refuted : read [] (write [] true) = Err EOFError.
Proof. vm_compute. reflexivity. Qed.

Print Assumptions summarize_sums.
Print Assumptions grow_keeps.
Print Assumptions grow_twice.
Print Assumptions empty_iff.
Print Assumptions new_table_columns.
Print Assumptions write_read.
Print Assumptions lines_align.
Print Assumptions read_needs_separators.
Print Assumptions read_ignores_rest.
Print Assumptions read_fails.
Print Assumptions read_exactly.
Print Assumptions overall_line.
Print Assumptions legenda.
Print Assumptions width_of_strings.
Print Assumptions pgc_table_columns.
Print Assumptions gb_table_columns.
Print Assumptions stats_table_readable.
Print Assumptions blank_in_name_refuted.
Print Assumptions wide_counts_refuted.
Print Assumptions dashes_in_name_refuted.
Print Assumptions no_columns_refuted.
