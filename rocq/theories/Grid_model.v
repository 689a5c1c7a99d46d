(** Model of the printing of score tables and alignments, lib/daeso/string/needleman_wunsch.py 119-189 and
    lib/daeso/string/waterman_eggert.py 257-262.  The elements of the sequences are given by their str(); what is
    written to stdout is the result (what was already written before an exception is not modelled). *)
From Coq Require Import Ascii String.
From Verif Require Import Py Number_model Table_spec Table_model Seqal_model.
Open Scope list_scope.
Open Scope nat_scope.

Definition str_nat (n : nat) : text := str_N (N.of_nat n).
(** max([len(str(e)) for e in seq]), which fails for an empty sequence *)
Definition max_len (s : list text) : res nat :=
  match s with [] => Err ValueError | _ => Ok (fold_right Nat.max 0 (map (@length ascii) s)) end.
Definition scores_table := list (pos * (number * text)).
(** needleman_wunsch.py 145: "%d:%s" % scores[i,j] *)
Definition show_score (c : number * text) : text := show_int (fst c) ++ ":"%char :: snd c.

(** needleman_wunsch.py 119-154 *)
Definition print_scores (seq1 seq2 : list text) (scores : scores_table) (header trailer : text) : res text :=
  let space1a := length (str_nat (length seq1)) + 1 in
  m1 <- max_len seq1 ;;
  let space1b := m1 + 1 in
  let space1 := space1a + space1b in
  m2 <- max_len seq2 ;;
  let space2 := Nat.max (m2 + 1) 7 in
  let line1 := repeat space space1 ++ concat (map (fun i => rjust space2 (str_nat i)) (seq 0 (length seq2 + 1))) ++ [newline] in
  let line2 := repeat space space1 ++ repeat space space2 ++ concat (map (rjust space2) seq2) ++ [newline] in
  rows <- mapM (fun i =>
    label <- (if 0 <? i then get seq1 (i - 1) else Ok []) ;;
    cells <- mapM (fun j => c <- dread pos_eqb scores (i, j) ;; Ok (rjust space2 (show_score c))) (seq 0 (length seq2 + 1)) ;;
    Ok (ljust space1a (str_nat i) ++ ljust space1b label ++ concat cells ++ [newline])) (seq 0 (length seq1 + 1)) ;;
  Ok (header ++ line1 ++ line2 ++ concat rows ++ trailer).

(** needleman_wunsch.py 157-184 *)
Definition print_alignment (seq1 seq2 : list text) (alignment : list pos) (header trailer : text) : res text :=
  let space1a := length (str_nat (length seq1)) + 1 in
  m1 <- max_len seq1 ;;
  let space1b := m1 + 1 in
  let space1 := space1a + space1b in
  m2 <- max_len seq2 ;;
  let space2 := Nat.max (m2 + 1) (length (str_nat (length seq2)) + 1) in
  let line1 := repeat space space1 ++ concat (map (fun i => rjust space2 (str_nat i)) (seq 0 (length seq2))) ++ [newline] in
  let line2 := repeat space space1 ++ concat (map (rjust space2) seq2) ++ [newline] in
  let rows := map (fun x =>
    ljust space1a (str_nat (fst x)) ++ ljust space1b (snd x) ++
    concat (map (fun j => rjust space2 (if mem pos_eqb (fst x, j) alignment then ["x"%char] else ["."%char])) (seq 0 (length seq2))) ++ [newline])
    (combine (seq 0 (length seq1)) seq1) in
  Ok (header ++ line1 ++ line2 ++ concat rows ++ trailer).

(** the tables of the aligners, as dicts of (score, step) *)
Definition step_text (s : step) : text := match s with StT => ["T"%char] | StD => ["D"%char] | StU => ["U"%char] | StL => ["L"%char] end.
Definition as_scores (t : Seqal_model.table) : scores_table := map (fun x => (fst x, (Whole (fst (snd x)), step_text (snd (snd x))))) t.
(** repr of a list of pairs of indices *)
Definition show_pos (p : pos) : text := "("%char :: str_nat (fst p) ++ [","%char; space] ++ str_nat (snd p) ++ [")"%char].
Definition show_alignment (al : list pos) : text :=
  match al with
  | [] => ["["%char; "]"%char]
  | p :: al' => "["%char :: show_pos p ++ concat (map (fun q => [","%char; space] ++ show_pos q) al') ++ ["]"%char]
  end.
(** the default headers and trailers, needleman_wunsch.py 120, 158 *)
Definition scores_header : text := lit "SCORE MATRIX" ++ [newline; newline].
Definition alignment_header : text := lit "ALIGNMENT" ++ [newline; newline].
Definition default_trailer : text := [newline; newline].
(** waterman_eggert.py 257-261 *)
Definition print_all_scores_and_alignments (seq1 seq2 : list text) (all_scores : list scores_table) (all_alignments : list (list pos)) : res text :=
  parts <- mapM (fun x =>
    a <- print_scores seq1 seq2 (fst x) scores_header default_trailer ;;
    b <- print_alignment seq1 seq2 (snd x) alignment_header default_trailer ;;
    Ok (a ++ b ++ show_alignment (snd x) ++ [newline])) (combine all_scores all_alignments) ;;
  Ok (concat parts).
