(** What the usage of a program is: its arguments, and how they are laid out on lines.  Does not use the model. *)
From Coq Require Import Ascii String.
From Coq Require Import List Arith ZArith Bool.
From Verif Require Import Cmdline_spec.
Import ListNotations.
Open Scope string_scope.
Open Scope nat_scope.
Open Scope list_scope.

(** Characters. *)
Definition white (c : ascii) : Prop := nat_of_ascii c = 32 \/ 9 <= nat_of_ascii c <= 13.
Definition bracket (c : ascii) : Prop := c = "("%char \/ c = ")"%char \/ c = "["%char \/ c = "]"%char.
Definition capital (c : ascii) : ascii := let n := nat_of_ascii c in if (97 <=? n) && (n <=? 122) then ascii_of_nat (n - 32) else c.
Definition chars (s : string) : text := list_ascii_of_string s.
(** One line of words. *)
Fixpoint line (l : list text) : text :=
  match l with [] => [] | [s] => s | s :: l' => s ++ blank :: line l' end.
Definition in_brackets (s : text) : text := "["%char :: s ++ ["]"%char].

(** An argument of a parser as it is shown: with the name given for its values, if any; otherwise its own name, in capitals for an option. *)
Record shown := { arg : argument; metavar : option text }.
Definition label (x : shown) : text :=
  match metavar x with Some m => m | None => if positional (arg x) then name (arg x) else map capital (name (arg x)) end.
Definition first_spelling (x : shown) : text := hd [] (spellings (arg x)).
(** What cannot be broken over lines. *)
Definition values (m : amount) (l : text) : list text :=
  match m with
  | One => [l]
  | Star => [in_brackets (line [l; in_brackets (line [l; chars "..."])])]
  | Plus => [l; in_brackets (line [l; chars "..."])]
  | Exactly n => repeat l n
  end.
Definition units (x : shown) : list text :=
  if positional (arg x) then values (takes (arg x)) (label x)
  else [in_brackets (line (first_spelling x :: values (takes (arg x)) (label x)))].
Definition option_units (l : list shown) : list text := flat_map units (filter (fun x => negb (positional (arg x))) l).
Definition operand_units (l : list shown) : list text := flat_map units (filter (fun x => positional (arg x)) l).

(** Names that do not disturb the layout: without white space and brackets. *)
Definition plain (s : text) : Prop := s <> [] /\ Forall (fun c => ~ white c /\ ~ bracket c) s.
Definition well_named (x : shown) : Prop :=
  Forall plain (spellings (arg x)) /\
  (if positional (arg x) then takes (arg x) <> Exactly 0 /\ plain (label x) else takes (arg x) = Exactly 0 \/ plain (label x)).

(** The usage in one line. *)
Definition usage_word : text := chars "usage: ".
Definition one_line (prog : text) (l : list shown) : text := usage_word ++ line (prog :: option_units l ++ operand_units l).
Definition newline : ascii := ascii_of_nat 10.

(** Lines of at most [w] characters, of which the first [k] are used already: as many units on a line as fit, but a unit that
    does not fit on a line of its own sticks out.  (If the first of them does, there is an empty line before it.) *)
Definition wide (k : nat) (g : list text) : Z := Z.of_nat (k + length (line g)).
Definition filled (w : Z) (k : nat) (us : list text) (gs : list (list text)) : Prop :=
  concat gs = us /\
  (forall g, In g gs -> 2 <= length g -> (wide k g <= w)%Z) /\
  (forall i g u h, nth_error gs i = Some g -> nth_error gs (S i) = Some (u :: h) -> (w < wide k (g ++ [u]))%Z) /\
  (forall i, nth_error gs (S i) <> Some []) /\
  (gs <> [[]]) /\
  (forall u g, nth_error gs 0 = Some (u :: g) -> (wide k [u] <= w)%Z).
Definition indented (k : nat) (g : list text) : text := repeat blank k ++ line g.
(** The layout of a usage that is too long for one line of [w] characters.  The units start below each other, the operands on a
    new line: after the name of the program if it is not longer, with "usage: ", than three quarters of a line; otherwise
    all start on the next line, below the name; then the operands go on a new line only if one line is not enough. *)
Inductive layout (w : Z) (prog : text) (opts ops : list text) : list text -> Prop :=
| beside k us rest g gs hs :
    (4 * Z.of_nat (length (usage_word ++ prog)) <= 3 * w)%Z -> k = length (usage_word ++ prog) + 1 ->
    (opts <> [] /\ us = opts /\ rest = ops \/ opts = [] /\ us = ops /\ rest = []) ->
    filled w k us (g :: gs) -> filled w k rest hs ->
    layout w prog opts ops ((usage_word ++ line (prog :: g)) :: map (indented k) (gs ++ hs))
| below_together k gs :
    (3 * w < 4 * Z.of_nat (length (usage_word ++ prog)))%Z -> k = length usage_word ->
    filled w k (opts ++ ops) gs -> length gs <= 1 ->
    layout w prog opts ops ((usage_word ++ prog) :: map (indented k) gs)
| below k gs g1s g2s :
    (3 * w < 4 * Z.of_nat (length (usage_word ++ prog)))%Z -> k = length usage_word ->
    filled w k (opts ++ ops) gs -> 1 < length gs -> filled w k opts g1s -> filled w k ops g2s ->
    layout w prog opts ops ((usage_word ++ prog) :: map (indented k) (g1s ++ g2s)).
Fixpoint in_lines (l : list text) : text := match l with [] => [] | s :: l' => s ++ newline :: in_lines l' end.

(** The words of a text. *)
Definition white_b (c : ascii) : bool := let n := nat_of_ascii c in (n =? 32) || ((9 <=? n) && (n <=? 13)).
Fixpoint words_from (word : text) (s : text) : list text :=
  match s with
  | [] => match word with [] => [] | _ => [word] end
  | c :: s' => if white_b c then match word with [] => [] | _ => [word] end ++ words_from [] s' else words_from (word ++ [c]) s'
  end.
Definition words (s : text) : list text := words_from [] s.

(** The width of a line: the variable COLUMNS minus 2, if it is a number ([to_int] is int(): None for ValueError). *)
Inductive line_width (to_int : text -> option Z) : option text -> Z -> Prop :=
| given s n : to_int s = Some n -> line_width to_int (Some s) (n - 2)
| no_number s : to_int s = None -> line_width to_int (Some s) 78
| not_given : line_width to_int None 78.
(** A name of a program: base names have no newline, as a rule. *)
Definition program_name (s : text) : Prop := s <> [] /\ ~ In newline s.
