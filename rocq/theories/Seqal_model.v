(** Model of the three sequence aligners: /repo/lib/daeso/string/needleman_wunsch.py, smith_waterman.py and waterman_eggert.py.
    Scores are integers.  The score matrix is a dictionary from index pairs to (score, step) tuples. *)
From Verif Require Import Py.
Open Scope Z_scope.
Set Implicit Arguments.
Inductive step := StT | StD | StU | StL.
Definition cell : Type := (Z * step)%type.
Definition pos : Type := (nat * nat)%type.
Definition table : Type := list (pos * cell).
Definition pos_eqb (p q : pos) : bool := andb (Nat.eqb (fst p) (fst q)) (Nat.eqb (snd p) (snd q)).
Definition step_eqb (a b : step) : bool := match a, b with StT, StT | StD, StD | StU, StU | StL, StL => true | _, _ => false end.
Definition cell_eqb (a b : cell) : bool := andb (fst a =? fst b) (step_eqb (snd a) (snd b)).
(** Python: comparison of tuples, of which the second component is a letter "D" < "L" < "T" < "U" *)
Definition letter (s : step) : nat := match s with StD => 0 | StL => 1 | StT => 2 | StU => 3 end.
Definition cell_ltb (a b : cell) : bool := orb (fst a <? fst b) (andb (fst a =? fst b) (Nat.ltb (letter (snd a)) (letter (snd b)))).
(** Python: max(), which keeps the first of equal values *)
Definition max2 (a b : cell) : cell := if cell_ltb a b then b else a.
Definition cread (t : table) (i j : nat) : res cell := dread pos_eqb t (i, j).
Definition cset (t : table) (i j : nat) (c : cell) : table := dset pos_eqb t (i, j) c.
Section Aligners.
Variable A : Type.
Variables (sim_score : A -> A -> Z) (gap_cost : A -> Z).
Variables (seq1 seq2 : list A).
Let len1 := length seq1.
Let len2 := length seq2.
(** the three ways to reach cell (i, j): needleman_wunsch.py 83-86, smith_waterman.py 88-91, waterman_eggert.py 150-153.
    [i-1] and [j-1] are computed with i, j >= 1. *)
Definition reach (t : table) (i j : nat) : res (cell * cell * cell) :=
  u <- cread t (i - 1) j ;; a <- get seq1 (i - 1) ;;
  d <- cread t (i - 1) (j - 1) ;; b <- get seq2 (j - 1) ;;
  l <- cread t i (j - 1) ;;
  Ok ((fst u + gap_cost a, StU), (fst d + sim_score a b, StD), (fst l + gap_cost b, StL)).
Definition nw_cell (t : table) (i j : nat) : res cell :=
  x <- reach t i j ;; match x with (u, d, l) => Ok (max2 (max2 u d) l) end.
(** smith_waterman.py 87-92, waterman_eggert.py 146-155 (max_score) *)
Definition sw_cell (t : table) (i j : nat) : res cell :=
  x <- reach t i j ;; match x with (u, d, l) => Ok (max2 (max2 (max2 u d) l) (0, StT)) end.
(** the nested loops that fill the matrix: needleman_wunsch.py 81-86, smith_waterman.py 85-92, waterman_eggert.py 139-141 *)
Definition fill (cellf : table -> nat -> nat -> res cell) (t : table) : res table :=
  foldM (fun t i => foldM (fun t j => c <- cellf t i j ;; Ok (cset t i j c)) t (seq 1 len2)) t (seq 1 len1).
(** needleman_wunsch.py 72-79 *)
Definition nw_borders : res table :=
  t <- foldM (fun t i => a <- get seq1 (i - 1) ;; Ok (cset t i 0 (gap_cost a * Z.of_nat i, StU))) [((0%nat, 0%nat), (0, StT))] (seq 1 len1) ;;
  foldM (fun t j => b <- get seq2 (j - 1) ;; Ok (cset t 0 j (gap_cost b * Z.of_nat j, StL))) t (seq 1 len2).
(** smith_waterman.py 75-83, waterman_eggert.py 129-137 *)
Definition sw_borders : table :=
  fold_left (fun t j => cset t 0 j (0, StL)) (seq 1 len2) (fold_left (fun t i => cset t i 0 (0, StU)) (seq 1 len1) [((0%nat, 0%nat), (0, StT))]).
(** needleman_wunsch.py 88-109: while i + j > 0.  [al] is the alignment collected so far; a "T" step would loop for ever *)
Fixpoint nw_trace (fuel : nat) (t : table) (i j : nat) (al : list pos) : res (list pos) :=
  if Nat.ltb 0 (i + j) then
    match fuel with
    | O => Err OutOfFuel
    | S f => c <- cread t i j ;;
      match snd c with
      | StU => nw_trace f t (i - 1) j al
      | StD => nw_trace f t (i - 1) (j - 1) ((i - 1, j - 1)%nat :: al)
      | StL => nw_trace f t i (j - 1) al
      | StT => nw_trace f t i j al
      end
    end
  else Ok al.
(** smith_waterman.py 103-122, waterman_eggert.py 196-221: while score > 0 *)
Fixpoint sw_trace (fuel : nat) (t : table) (i j : nat) (al : list pos) : res (list pos) :=
  c <- cread t i j ;;
  if 0 <? fst c then
    match fuel with
    | O => Err OutOfFuel
    | S f =>
      match snd c with
      | StU => sw_trace f t (i - 1) j al
      | StD => sw_trace f t (i - 1) (j - 1) ((i - 1, j - 1)%nat :: al)
      | StL => sw_trace f t i (j - 1) al
      | StT => sw_trace f t i j al
      end
    end
  else Ok al.
(** needleman_wunsch.py 36-111 *)
Definition needleman_wunsch : res (table * list pos) :=
  b <- nw_borders ;; t <- fill nw_cell b ;;
  al <- nw_trace (len1 + len2) t len1 len2 [] ;; Ok (t, al).
(** waterman_eggert.py 115-143 (make_matrix); smith_waterman.py 74-92 *)
Definition make_matrix : res table := fill sw_cell sw_borders.
(** smith_waterman.py 94-97: the maximal ((score, step), (i, j)) with a positive score: the last one after sorting *)
Definition pos_ltb (p q : pos) : bool := orb (Nat.ltb (fst p) (fst q)) (andb (Nat.eqb (fst p) (fst q)) (Nat.ltb (snd p) (snd q))).
Definition entry_ltb (x y : cell * pos) : bool := orb (cell_ltb (fst x) (fst y)) (andb (cell_eqb (fst x) (fst y)) (pos_ltb (snd x) (snd y))).
Definition last_sorted (l : list (cell * pos)) : option (cell * pos) :=
  fold_left (fun m x => match m with None => Some x | Some y => if entry_ltb x y then m else Some x end) l None.
Definition smith_waterman : res (table * list pos) :=
  t <- make_matrix ;;
  match last_sorted (map (fun e => (snd e, fst e)) (filter (fun e => 0 <? fst (snd e)) t)) with
  | None => Err IndexError
  | Some (_, (i, j)) => al <- sw_trace (i + j) t i j [] ;; Ok (t, al)
  end.
(** waterman_eggert.py 158-193: the loop over the items of the table *)
Definition better (best : Z * pos) (e : pos * cell) : Z * pos :=
  let s := fst (snd e) in let p := fst e in
  if s <? fst best then best
  else if s =? fst best then
    if Nat.ltb (fst (snd best) + snd (snd best)) (fst p + snd p) then best
    else if andb (Nat.eqb (fst (snd best) + snd (snd best)) (fst p + snd p)) (Nat.ltb (fst (snd best)) (fst p)) then best
    else (s, p)
  else (s, p).
Definition find_best_score (t : table) : Z * pos := fold_left better t (0, (len1 + 2, len2 + 2)%nat).
(** waterman_eggert.py 234-243 and 245-254: recompute cells until one does not change; [at_ k] is the position of the k-th cell *)
Fixpoint recalc_line (at_ : nat -> pos) (ks : list nat) (t : table) : res table :=
  match ks with
  | [] => Ok t
  | k :: ks' => let (i, j) := at_ k in
    ms <- sw_cell t i j ;; old <- cread t i j ;;
    if cell_eqb ms old then Ok t else recalc_line at_ ks' (cset t i j ms)
  end.
(** waterman_eggert.py 224-254 *)
Definition recalculate_matrix (t : table) (alignment : list pos) : res table :=
  foldM (fun t p => let i := S (fst p) in let j := S (snd p) in
    let t0 := cset t i j (0, StT) in
    t1 <- recalc_line (fun k => (k, j)) (seq (i + 1) (len1 - i)) t0 ;;
    recalc_line (fun l => (i, l)) (seq (j + 1) (len2 - j)) t1) t alignment.
(** waterman_eggert.py 82-110: the main loop; [limit] None or 0 means no limit.  The fuel bounds the number of
    alignments, and a search that is still going on then ends in OutOfFuel. *)
Fixpoint we_loop (fuel : nat) (limit : nat) (t : table) (all_scores : list table) (all_alignments : list (list pos)) : res (list table * list (list pos)) :=
  if orb (Nat.eqb limit 0) (Nat.ltb (length all_alignments) limit) then
    match fuel with
    | O => Err OutOfFuel
    | S f =>
      let (best_score, best_pair) := find_best_score t in
      if best_score =? 0 then Ok (all_scores, all_alignments)
      else
        al <- sw_trace (fst best_pair + snd best_pair) t (fst best_pair) (snd best_pair) [] ;;
        t' <- recalculate_matrix t al ;;
        we_loop f limit t' (all_scores ++ [t]) (all_alignments ++ [al])
    end
  else Ok (all_scores, all_alignments).
(** waterman_eggert.py 46-112 *)
Definition waterman_eggert (fuel limit : nat) : res (list table * list (list pos)) :=
  t <- make_matrix ;; we_loop fuel limit t [] [].
End Aligners.
