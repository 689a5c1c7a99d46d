(** What a table of statistics should be: columns of strings, counts or numbers, their sums, and how a table is
    written in a text and read back. *)
From Coq Require Import Ascii String ZArith QArith Qabs List.
Import ListNotations.
Open Scope nat_scope.

Definition text := list ascii.
Definition blank (c : ascii) : bool := (nat_of_ascii c =? 32) || ((9 <=? nat_of_ascii c) && (nat_of_ascii c <=? 13)).
Definition newline : ascii := ascii_of_nat 10.
Definition space : ascii := ascii_of_nat 32.
Definition dash : ascii := "-".

(** Columns: strings, counts, or numbers of some other type (percent, average). *)
Inductive cells := Strings (l : list text) | Counts (l : list Z) | Numbers (type : text) (l : list Q).
Inductive number := Whole (z : Z) | Float (q : Q).
Record column := { label : text; descr : text; data : cells; overall : option number }.
Definition size (c : column) : nat := match data c with Strings l => length l | Counts l => length l | Numbers _ l => length l end.
Definition sum (l : list Z) : Z := fold_right Z.add 0%Z l.
Definition textual (c : column) : Prop := exists l, data c = Strings l.
(** The same columns. *)
Definition same_kind (a b : cells) : Prop :=
  match a, b with Strings _, Strings _ => True | Counts _, Counts _ => True | Numbers s _, Numbers t _ => s = t | _, _ => False end.
Definition same_column (c d : column) : Prop := label c = label d /\ same_kind (data c) (data d).

(** New cells. *)
Definition more (a : cells) (n : nat) : cells :=
  match a with Strings l => Strings (l ++ repeat [] n) | Counts l => Counts (l ++ repeat 0%Z n) | Numbers t l => Numbers t (l ++ repeat 0%Q n) end.

(** A number rounded to hundredths, to the even one of two equally near. *)
Definition hundredths (q : Q) (z : Z) : Prop :=
  (Qabs.Qabs (100 * q - inject_Z z) <= 1 # 2)%Q /\ ((Qabs.Qabs (100 * q - inject_Z z) == 1 # 2)%Q -> Z.even z = true).
Definition rounded (q r : Q) : Prop := exists z, hundredths q z /\ (r == inject_Z z / 100)%Q.
(** The cells that come back. *)
Definition read_back (before written after : cells) : Prop :=
  match before, written, after with
  | Strings b, Strings w, Strings a => a = b ++ w
  | Counts b, Counts w, Counts a => a = b ++ w
  | Numbers t b, Numbers _ w, Numbers t' a => t' = t /\ exists r, a = b ++ r /\ Forall2 rounded w r
  | _, _, _ => False
  end.

(** Tables that can be read back: *)
Definition starts_with_dashes (s : text) : Prop := exists t, s = [dash; dash; dash; dash] ++ t.
Definition word (s : text) : Prop := s <> [] /\ Forall (fun c => blank c = false) s.
(** - strings are words; *)
Definition words_only (c : column) : Prop := match data c with Strings l => Forall word l | _ => True end.
(** - numbers have at most seven characters; *)
Definition narrow (c : column) : Prop :=
  match data c with
  | Strings _ => False
  | Counts l => Forall (fun z => -1000000 < z < 10000000)%Z l
  | Numbers _ l => Forall (fun q => -999995 # 1000 < q /\ q < 9999995 # 1000)%Q l
  end.
(** - a column of numbers is followed by such a column only; *)
Fixpoint separated (cs : list column) : Prop :=
  match cs with c :: ((d :: _) as l) => (textual c \/ narrow d) /\ separated l | _ => True end.
(** - the line of dashes has at least four of them; *)
Definition wide (cs : list column) : Prop := exists c, In c cs /\ (~ textual c \/ 2 <= length (label c)).
(** - all columns have the same size, and no line of the table but the lines of dashes looks like one. *)
Definition readable (cs : list column) : Prop :=
  (exists n, Forall (fun c => size c = n) cs) /\ Forall (fun c => word (label c)) cs /\ Forall words_only cs /\ separated cs /\ wide cs /\
  match cs with
  | [] => True
  | c :: _ => ~ starts_with_dashes (label c) /\ match data c with Strings l => Forall (fun s => ~ starts_with_dashes s) l | _ => True end
  end.

(** The words of a text, between blanks. *)
Inductive splits : text -> list text -> Prop :=
| splits_nil b : Forall (fun c => blank c = true) b -> splits b []
| splits_cons b w r ws : Forall (fun c => blank c = true) b -> word w -> match r with [] => True | c :: _ => blank c = true end -> splits r ws -> splits (b ++ w ++ r) (w :: ws).
(** A text in lines. *)
Definition one_line (s : text) : Prop := ~ In newline s.
Definition in_lines (ls : list text) : text := concat (map (fun l => l ++ [newline]) ls).
Definition lines_are (ls : list text) (s : text) : Prop :=
  Forall one_line ls /\ match ls with [] => False | l :: ls' => s = l ++ concat (map (fun x => newline :: x) ls') end.
Definition separator_lines (ls : list text) : Prop := exists a s b s' c, ls = a ++ s :: b ++ s' :: c /\ starts_with_dashes s /\ starts_with_dashes s'.

(** A column as defined by the words of a line: its label, its type, and a description. *)
Definition spaced (ws : list text) (s : text) : Prop := match ws with [] => s = [] | w :: ws' => s = w ++ concat (map (fun x => space :: x) ws') end.
Definition new_cells (type : string) (n : nat) (a : cells) : Prop :=
  match a with
  | Counts l => type = "count"%string /\ l = repeat 0%Z n
  | Strings l => type = "string"%string /\ l = repeat [] n
  | Numbers ty l => type <> "count"%string /\ type <> "string"%string /\ ty = list_ascii_of_string type /\ l = repeat 0%Q n
  end.
Definition defined_by (n : nat) (ws : list text) (c : column) : Prop :=
  exists lab type des, ws = lab :: list_ascii_of_string type :: des /\ label c = lab /\ spaced des (descr c) /\ new_cells type n (data c) /\ overall c = None.
Definition labels (wss : list (list text)) : list text := map (fun ws => hd [] ws) wss.

(** Numbers in decimal notation, and with two decimals. *)
Definition digit (d : nat) : ascii := ascii_of_nat (48 + d).
Inductive decimal : nat -> text -> Prop :=
| Dec1 d : d < 10 -> decimal d [digit d]
| DecS n d s : 0 < n -> d < 10 -> decimal n s -> decimal (10 * n + d) (s ++ [digit d]).
Definition numeral (z : Z) (s : text) : Prop :=
  ((0 <= z)%Z /\ decimal (Z.to_nat z) s) \/ ((z < 0)%Z /\ exists t, s = dash :: t /\ decimal (Z.to_nat (- z)) t).
Definition two_decimals (q : Q) (s : text) : Prop :=
  exists z w d e t, hundredths q z /\ decimal w t /\ d < 10 /\ e < 10 /\ Z.abs z = Z.of_nat (100 * w + 10 * d + e) /\
    ((0 <= q)%Q /\ s = t ++ ["."%char; digit d; digit e] \/ (q < 0)%Q /\ s = dash :: t ++ ["."%char; digit d; digit e]).
(** How an overall is shown. *)
Definition shows (o : cells * number) (s : text) : Prop :=
  match o with
  | (Counts _, Whole z) => numeral z s
  | (Numbers _ _, Float q) => two_decimals q s
  | (Numbers _ _, Whole z) => two_decimals (inject_Z z) s
  | _ => False
  end.
Definition overalls (cs : list column) : list (cells * number) := flat_map (fun c => match overall c with Some n => [(data c, n)] | None => [] end) cs.
Definition narrow_overall (c : column) : Prop :=
  match data c, overall c with
  | _, None => True
  | Counts _, Some (Whole z) => (-1000000 < z < 10000000)%Z
  | Numbers _ _, Some (Float q) => (-999995 # 1000 < q /\ q < 9999995 # 1000)%Q
  | Numbers _ _, Some (Whole z) => (-999995 # 1000 < inject_Z z /\ inject_Z z < 9999995 # 1000)%Q
  | _, _ => False
  end.

(** A line of the legenda: the number of the column, its label and its description, in fields of 4 and 8. *)
Definition legend_line (i : nat) (c : column) (l : text) : Prop :=
  exists num, numeral (Z.of_nat (i + 1)) num /\ l = num ++ repeat space (4 - length num) ++ label c ++ repeat space (8 - length (label c)) ++ descr c.

(** What counts as a number in a cell: an optional sign, and digits, for other numbers also a point. *)
Inductive digits_are : text -> Z -> Prop :=
| Dig0 : digits_are [] 0
| DigS s v d : digits_are s v -> d < 10 -> digits_are (s ++ [digit d]) (10 * v + Z.of_nat d).
Definition signed {A} (opp : A -> A) (P : text -> A -> Prop) (w : text) (x : A) : Prop :=
  P w x \/ (exists t, w = "+"%char :: t /\ P t x) \/ (exists t y, w = dash :: t /\ P t y /\ x = opp y).
Definition whole_number (w : text) (z : Z) : Prop := w <> [] /\ digits_are w z.
Definition decimal_number (w : text) (q : Q) : Prop :=
  exists a f v, (w = a /\ f = [] \/ w = a ++ "."%char :: f) /\ a ++ f <> [] /\ digits_are (a ++ f) v /\
    q = (inject_Z v / inject_Z (10 ^ Z.of_nat (length f)))%Q.
(** A cell added to a column for a word. *)
Definition cell_added (w : text) (a b : cells) : Prop :=
  match a, b with
  | Strings l, Strings l' => l' = l ++ [w]
  | Counts l, Counts l' => exists z, signed Z.opp whole_number w z /\ l' = l ++ [z]
  | Numbers t l, Numbers t' l' => t' = t /\ exists q, signed Qopp decimal_number w q /\ l' = l ++ [q]
  | _, _ => False
  end.
Definition added (w : text) (c d : column) : Prop := label d = label c /\ descr d = descr c /\ overall d = overall c /\ cell_added w (data c) (data d).
(** The words of a line go to the columns in order; words or columns too many are left alone. *)
Inductive row_read : list column -> list text -> list column -> Prop :=
| RR0 ws : row_read [] ws []
| RRn cs : row_read cs [] cs
| RRs c cs w ws c' cs' : added w c c' -> row_read cs ws cs' -> row_read (c :: cs) (w :: ws) (c' :: cs').
Inductive rows_read : list column -> list text -> list column -> Prop :=
| RL0 cs : rows_read cs [] cs
| RLs cs l ws ls c1 c2 : splits l ws -> row_read cs ws c1 -> rows_read c1 ls c2 -> rows_read cs (l :: ls) c2.
