(** Model of /repo/lib/daeso/thirdparty/munkres.py (class Munkres, make_cost_matrix).
    Costs are unbounded integers (Python 2 int/long); floats are not modelled.
    [print_matrix] and the deprecated static method are not modelled. *)
From Verif Require Import Py.
Set Implicit Arguments.

(** Nested lists: [m[i][j]] and [m[i][j] = v] for non-negative indices. *)
Definition mat A := list (list A).
Definition mget {A} (m : mat A) (i j : nat) : res A := r <- get m i ;; get r j.
Definition mset {A} (m : mat A) (i j : nat) (v : A) : res (mat A) :=
  r <- get m i ;; r' <- set r j v ;; set m i r'.

(** [for i in range(n): for j in range(n): m[i][j] = f(i, j, m[i][j])] *)
Definition for_cells {A} (n : nat) (f : nat -> nat -> A -> res A) (m : mat A) : res (mat A) :=
  foldM (fun m i =>
    foldM (fun m j => v <- mget m i j ;; v' <- f i j v ;; mset m i j v') m (seq 0 n)) m (seq 0 n).

(** munkres.py 347-381: pad_matrix (the code pads with 0 whatever pad_value is). *)
Definition max_columns (matrix : mat Z) : nat :=
  fold_left (fun acc row => Nat.max acc (length row)) matrix 0.
Definition pad_matrix (matrix : mat Z) : mat Z :=
  let total_rows := Nat.max (max_columns matrix) (length matrix) in
  let new_matrix := map (fun row => row ++ repeat 0%Z (total_rows - length row)) matrix in
  new_matrix ++ repeat (repeat 0%Z total_rows) (total_rows - length matrix).

(** The attributes of a Munkres instance that change while computing (munkres.py 325-335).
    [path] is a 2n x 2n matrix of which only columns 0 and 1 are used: here a list of 2n pairs. *)
Record mstate := {
  cost : mat Z;
  row_covered : list bool;
  col_covered : list bool;
  z0 : nat * nat;
  marked : mat nat;
  path : list (nat * nat);
}.
Definition with_cost s c := {| cost := c; row_covered := row_covered s; col_covered := col_covered s;
  z0 := z0 s; marked := marked s; path := path s |}.
Definition with_covers s r c := {| cost := cost s; row_covered := r; col_covered := c;
  z0 := z0 s; marked := marked s; path := path s |}.
Definition with_z0 s z := {| cost := cost s; row_covered := row_covered s; col_covered := col_covered s;
  z0 := z; marked := marked s; path := path s |}.
Definition with_marked s m := {| cost := cost s; row_covered := row_covered s; col_covered := col_covered s;
  z0 := z0 s; marked := m; path := path s |}.
Definition with_path s p := {| cost := cost s; row_covered := row_covered s; col_covered := col_covered s;
  z0 := z0 s; marked := marked s; path := p |}.

Section Steps.
Variable n : nat.        (* self.n *)
Variable maxint : Z.     (* sys.maxint *)

(** [min(row)]; ValueError on an empty row. *)
Definition min_list (l : list Z) : res Z :=
  match l with
  | [] => Err ValueError
  | x :: l' => Ok (fold_left Z.min l' x)
  end.

(** munkres.py 452-466: step 1. *)
Definition step1 (s : mstate) : res mstate :=
  c <- foldM (fun c i =>
         row <- get c i ;;
         minval <- min_list row ;;
         foldM (fun c j => v <- mget c i j ;; mset c i j (v - minval)%Z) c (seq 0 n))
       (cost s) (seq 0 n) ;;
  Ok (with_cost s c).

(** munkres.py 675-679: clear covers. *)
Definition clear_covers (s : mstate) : res mstate :=
  rc <- foldM (fun rc i => set rc i false) (row_covered s) (seq 0 n) ;;
  cc <- foldM (fun cc i => set cc i false) (col_covered s) (seq 0 n) ;;
  Ok (with_covers s rc cc).

(** munkres.py 468-485: step 2. *)
Definition step2_cell (i : nat) (s : mstate) (j : nat) : res mstate :=
  v <- mget (cost s) i j ;;
  if (v =? 0)%Z then
    cj <- get (col_covered s) j ;;
    if negb cj then
      ri <- get (row_covered s) i ;;
      if negb ri then
        m <- mset (marked s) i j 1 ;;
        cc <- set (col_covered s) j true ;;
        rc <- set (row_covered s) i true ;;
        Ok (with_covers (with_marked s m) rc cc)
      else Ok s
    else Ok s
  else Ok s.
Definition step2 (s : mstate) : res mstate :=
  s1 <- foldM (fun s i => foldM (step2_cell i) s (seq 0 n)) s (seq 0 n) ;;
  clear_covers s1.

(** munkres.py 487-506: step 3; the loop state is (col_covered, count); returns the next step. *)
Definition step3_cell (m : mat nat) (i : nat) (st : list bool * nat) (j : nat) : res (list bool * nat) :=
  v <- mget m i j ;;
  if v =? 1 then cc <- set (fst st) j true ;; Ok (cc, snd st + 1) else Ok st.
Definition step3 (s : mstate) : res (mstate * nat) :=
  st <- foldM (fun st i => foldM (step3_cell (marked s) i) st (seq 0 n)) (col_covered s, 0) (seq 0 n) ;;
  Ok (with_covers s (row_covered s) (fst st), if n <=? snd st then 7 else 4).

(** munkres.py 603-627: find an uncovered zero.  The outer loop stops after the first row that has
    one; the inner loop runs to the end of the row and keeps the last one.  [None] is (-1, -1). *)
Definition zero_cell (s : mstate) (i : nat) (acc : option nat) (j : nat) : res (option nat) :=
  v <- mget (cost s) i j ;;
  if (v =? 0)%Z then
    ri <- get (row_covered s) i ;;
    if negb ri then
      cj <- get (col_covered s) j ;;
      if negb cj then Ok (Some j) else Ok acc
    else Ok acc
  else Ok acc.
Fixpoint find_a_zero_from (s : mstate) (rows : list nat) : res (option (nat * nat)) :=
  match rows with
  | [] => Ok None
  | i :: rows' =>
      o <- foldM (zero_cell s i) None (seq 0 n) ;;
      match o with
      | Some j => Ok (Some (i, j))
      | None => find_a_zero_from s rows'
      end
  end.
Definition find_a_zero (s : mstate) : res (option (nat * nat)) := find_a_zero_from s (seq 0 n).

(** munkres.py 629-666: first column (row) in the row (column) whose mark is the given one; [None] is -1. *)
Fixpoint first_in_row (m : mat nat) (mark row : nat) (cols : list nat) : res (option nat) :=
  match cols with
  | [] => Ok None
  | j :: cols' => v <- mget m row j ;; if v =? mark then Ok (Some j) else first_in_row m mark row cols'
  end.
Fixpoint first_in_col (m : mat nat) (mark col : nat) (rows : list nat) : res (option nat) :=
  match rows with
  | [] => Ok None
  | i :: rows' => v <- mget m i col ;; if v =? mark then Ok (Some i) else first_in_col m mark col rows'
  end.
Definition find_star_in_row (m : mat nat) (row : nat) := first_in_row m 1 row (seq 0 n).
Definition find_star_in_col (m : mat nat) (col : nat) := first_in_col m 1 col (seq 0 n).
Definition find_prime_in_row (m : mat nat) (row : nat) := first_in_row m 2 row (seq 0 n).

(** munkres.py 508-539: step 4 (the loop, with fuel). *)
Fixpoint step4 (fuel : nat) (s : mstate) : res (mstate * nat) :=
  match fuel with
  | O => Err OutOfFuel
  | S fuel' =>
      z <- find_a_zero s ;;
      match z with
      | None => Ok (s, 6)
      | Some (row, col) =>
          m <- mset (marked s) row col 2 ;;
          let s1 := with_marked s m in
          star_col <- find_star_in_row m row ;;
          match star_col with
          | Some c =>
              rc <- set (row_covered s1) row true ;;
              cc <- set (col_covered s1) c false ;;
              step4 fuel' (with_covers s1 rc cc)
          | None => Ok (with_z0 s1 (row, col), 5)
          end
      end
  end.

(** munkres.py 558-572: the loop of step 5 that builds the path; returns (path, count).
    When no prime is found the code stores column -1, which a later Python index would read as the
    last column; the model raises instead, and the theorems show that this never happens. *)
Fixpoint build_path (m : mat nat) (fuel : nat) (p : list (nat * nat)) (count : nat)
  : res (list (nat * nat) * nat) :=
  match fuel with
  | O => Err OutOfFuel
  | S fuel' =>
      rc <- get p count ;;
      orow <- find_star_in_col m (snd rc) ;;
      match orow with
      | None => Ok (p, count)
      | Some row =>
          p1 <- set p (count + 1) (row, snd rc) ;;
          ocol <- find_prime_in_row m row ;;
          match ocol with
          | None => Err IndexError
          | Some col =>
              p2 <- set p1 (count + 2) (row, col) ;;
              build_path m fuel' p2 (count + 2)
          end
      end
  end.
(** munkres.py 668-673: convert path. *)
Definition convert_cell (p : list (nat * nat)) (m : mat nat) (i : nat) : res (mat nat) :=
  rc <- get p i ;;
  v <- mget m (fst rc) (snd rc) ;;
  mset m (fst rc) (snd rc) (if v =? 1 then 0 else 1).
Definition convert_path (m : mat nat) (p : list (nat * nat)) (count : nat) : res (mat nat) :=
  foldM (convert_cell p) m (seq 0 (count + 1)).
(** munkres.py 681-686: erase primes. *)
Definition erase_primes (m : mat nat) : res (mat nat) :=
  for_cells n (fun _ _ v => Ok (if v =? 2 then 0 else v)) m.

(** munkres.py 541-575: step 5. *)
Definition step5 (fuel : nat) (s : mstate) : res mstate :=
  p0 <- set (path s) 0 (z0 s) ;;
  pc <- build_path (marked s) fuel p0 0 ;;
  m1 <- convert_path (marked s) (fst pc) (snd pc) ;;
  s1 <- clear_covers (with_path (with_marked s m1) (fst pc)) ;;
  m2 <- erase_primes (marked s1) ;;
  Ok (with_marked s1 m2).

(** munkres.py 593-601: find smallest uncovered value. *)
Definition smallest_cell (s : mstate) (i : nat) (acc : Z) (j : nat) : res Z :=
  ri <- get (row_covered s) i ;;
  if negb ri then
    cj <- get (col_covered s) j ;;
    if negb cj then
      v <- mget (cost s) i j ;;
      if (v <? acc)%Z then Ok v else Ok acc
    else Ok acc
  else Ok acc.
Definition find_smallest (s : mstate) : res Z :=
  foldM (fun acc i => foldM (smallest_cell s i) acc (seq 0 n)) maxint (seq 0 n).

(** munkres.py 577-591: step 6. *)
Definition step6 (s : mstate) : res mstate :=
  minval <- find_smallest s ;;
  c <- for_cells n (fun i j v =>
         ri <- get (row_covered s) i ;;
         let v1 := if ri then (v + minval)%Z else v in
         cj <- get (col_covered s) j ;;
         Ok (if negb cj then (v1 - minval)%Z else v1)) (cost s) ;;
  Ok (with_cost s c).

(** munkres.py 420-427: the main loop.  [n + 1] iterations always suffice for the inner loops. *)
Fixpoint run (fuel : nat) (step : nat) (s : mstate) : res mstate :=
  match fuel with
  | O => Err OutOfFuel
  | S fuel' =>
      match step with
      | 1 => s' <- step1 s ;; run fuel' 2 s'
      | 2 => s' <- step2 s ;; run fuel' 3 s'
      | 3 => r <- step3 s ;; run fuel' (snd r) (fst r)
      | 4 => r <- step4 (n + 1) s ;; run fuel' (snd r) (fst r)
      | 5 => s' <- step5 (n + 1) s ;; run fuel' 3 s'
      | 6 => s' <- step6 s ;; run fuel' 4 s'
      | _ => Ok s
      end
  end.
End Steps.

(** munkres.py 383-437: compute. *)
Definition initial (c : mat Z) : mstate :=
  let n := length c in
  {| cost := c; row_covered := repeat false n; col_covered := repeat false n; z0 := (0, 0);
     marked := repeat (repeat 0 n) n; path := repeat (0, 0) (n * 2) |}.
Definition result_cell (m : mat nat) (i : nat) (acc : list (nat * nat)) (j : nat) : res (list (nat * nat)) :=
  v <- mget m i j ;; Ok (if v =? 1 then acc ++ [(i, j)] else acc).
Definition results (m : mat nat) (rows cols : nat) : res (list (nat * nat)) :=
  foldM (fun acc i => foldM (result_cell m i) acc (seq 0 cols)) [] (seq 0 rows).
Definition compute (maxint : Z) (fuel : nat) (cost_matrix : mat Z) : res (list (nat * nat)) :=
  row0 <- get cost_matrix 0 ;;
  let c := pad_matrix cost_matrix in
  s <- run (length c) maxint fuel 1 (initial c) ;;
  results (marked s) (length cost_matrix) (length row0).

(** munkres.py 692-725: make_cost_matrix. *)
Definition make_cost_matrix {A B} (profit_matrix : mat A) (inversion_function : A -> B) : mat B :=
  map (map inversion_function) profit_matrix.
