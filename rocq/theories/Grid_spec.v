(** Specification for the printed score tables and alignments (C58): texts laid out in columns, independent of the
    program that prints them.  Numbers, words and lines are those of Table_spec. *)
From Coq Require Import Ascii QArith.
From Verif Require Export Py Table_spec.
Open Scope list_scope.
Open Scope nat_scope.

(** A field of [w] characters with a text at its right end, after at least one blank. *)
Definition field (w : nat) (c f : text) : Prop := exists k, 0 < k /\ f = repeat space k ++ c /\ length f = w.
(** A line with a margin and then one field of [w] characters for each cell. *)
Definition laid_out (w : nat) (margin : text) (cells : list text) (line : text) : Prop :=
  exists fields, line = margin ++ concat fields /\ Forall2 (field w) cells fields.
(** The margin of a row: a number, in [w1] characters, and a label; [w0] characters in all. *)
Definition row_margin (w1 w0 : nat) (num label m : text) : Prop :=
  exists a b, 0 < a /\ 0 < b /\ m = num ++ repeat space a ++ label ++ repeat space b /\ length (num ++ repeat space a) = w1 /\ length m = w0.
Record row := { number_of : text; label_of : text; cells_of : list text }.
(** Two lines above the columns, and one line for each row, all with the same margins and the same fields. *)
Definition grid (heads names : list text) (rows : list row) (ls : list text) : Prop :=
  exists w1 w0 w h n rs, ls = h :: n :: rs /\ laid_out w (repeat space w0) heads h /\ laid_out w (repeat space w0) names n /\
    Forall2 (fun r l => exists m, row_margin w1 w0 (number_of r) (label_of r) m /\ laid_out w m (cells_of r) l) rows rs.
(** The words on the lines of a grid: those of the two lines above, and number, label and cells of each row (without empty ones). *)
Definition nonempty (s : text) : bool := match s with [] => false | _ => true end.
Definition grid_words (heads names : list text) (rows : list row) (ls : list text) : Prop :=
  Forall2 splits ls (filter nonempty heads :: filter nonempty names ::
    map (fun r => filter nonempty (number_of r :: label_of r :: cells_of r)) rows).

(** What is shown of an alignment: a cross or a point for each pair of positions. *)
Definition shows_mark (al : list (nat * nat)) (i j : nat) (s : text) : Prop := In (i, j) al /\ s = ["x"%char] \/ ~ In (i, j) al /\ s = ["."%char].
Definition alignment_rows (s1 s2 : list text) (al : list (nat * nat)) (rows : list row) : Prop :=
  length rows = length s1 /\ forall i e, nth_error s1 i = Some e -> exists r, nth_error rows i = Some r /\
    decimal i (number_of r) /\ label_of r = e /\ length (cells_of r) = length s2 /\
    forall j, j < length s2 -> exists s, nth_error (cells_of r) j = Some s /\ shows_mark al i j s.

(** What is shown of a table of scores: each score, cut off to a whole number, a colon, and the step. *)
Definition cut_off (x : number) (z : Z) : Prop :=
  match x with
  | Whole y => z = y
  | Float q => (0 <= q /\ inject_Z z <= q /\ q < inject_Z z + 1)%Q \/ (q <= 0 /\ q <= inject_Z z /\ inject_Z z - 1 < q)%Q
  end.
Definition shows_score (c : number * text) (s : text) : Prop := exists z d, cut_off (fst c) z /\ numeral z d /\ s = d ++ ":"%char :: snd c.
Definition score_rows (s1 s2 : list text) (sc : nat -> nat -> option (number * text)) (rows : list row) : Prop :=
  length rows = S (length s1) /\ forall i r, nth_error rows i = Some r ->
    decimal i (number_of r) /\ (label_of r = match i with 0 => [] | S k => nth k s1 [] end) /\ length (cells_of r) = S (length s2) /\
    forall j, j <= length s2 -> exists c s, sc i j = Some c /\ nth_error (cells_of r) j = Some s /\ shows_score c s.
(** Scores that fit in a field of seven. *)
Definition small_score (c : number * text) : Prop := exists z, cut_off (fst c) z /\ (-1000 < z < 10000)%Z /\ length (snd c) = 1.
Definition numbers_from_0 (n : nat) (ns : list text) : Prop := Forall2 decimal (seq 0 n) ns.
(** An alignment printed as a list of pairs: [(0, 0), (2, 1)] *)
Definition pair_text (p : nat * nat) (s : text) : Prop :=
  exists a b, decimal (fst p) a /\ decimal (snd p) b /\ s = "("%char :: a ++ [","%char; space] ++ b ++ [")"%char].
Inductive list_text : list (nat * nat) -> text -> Prop :=
| list_nil : list_text [] []
| list_one p s : pair_text p s -> list_text [p] s
| list_more p q l s t : pair_text p s -> list_text (q :: l) t -> list_text (p :: q :: l) (s ++ [","%char; space] ++ t).
