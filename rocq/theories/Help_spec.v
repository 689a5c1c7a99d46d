(** What the help of a program shows: its arguments and their texts in two columns.  Does not use the model. *)
From Coq Require Import Ascii String.
From Coq Require Import List Arith ZArith Bool.
From Verif Require Import Cmdline_spec Usage_spec.
Import ListNotations.
Open Scope string_scope.
Open Scope nat_scope.
Open Scope list_scope.

(** An argument as it is shown, its help text, and its attributes, which the text may mention as %(name)s. *)
Record entry := { item : shown; help : option text; attribute : text -> option text }.
Definition helped (e : entry) : Prop := match help e with None | Some [] => False | Some _ => True end.

(** The left column: an operand by its label; an option by all its spellings, each with its values. *)
Fixpoint commas (l : list text) : text := match l with [] => [] | [s] => s | s :: l' => s ++ chars ", " ++ commas l' end.
Definition heading (x : shown) : text :=
  if positional (arg x) then label x
  else commas (map (fun o => line (o :: values (takes (arg x)) (label x))) (spellings (arg x))).
(** The right column starts four characters after the longest of these, but at most at 24. *)
Definition longest (l : list entry) : nat := list_max (map (fun e => length (heading (item e))) l).
Definition column (l : list entry) : nat := Nat.min (longest l + 4) 24.

(** A help text with its mentions filled in; a percent sign is written twice. *)
Inductive filled_in (f : text -> option text) : text -> text -> Prop :=
| nothing : filled_in f [] []
| as_is c s s' : c <> "%"%char -> filled_in f s s' -> filled_in f (c :: s) (c :: s')
| percent s s' : filled_in f s s' -> filled_in f ("%"%char :: "%"%char :: s) ("%"%char :: s')
| mention k v s s' : ~ In "("%char k -> ~ In ")"%char k -> f k = Some v -> filled_in f s s' -> filled_in f (chars "%(" ++ k ++ chars ")s" ++ s) (v ++ s').

(** What can be seen of a text. *)
Definition visible (s : text) : text := filter (fun c => negb (white_b c)) s.
(** textwrap.wrap(s, w): lines of at most w characters in which all of the text is seen; None: ValueError, without any width. *)
Definition wraps (wrap : text -> Z -> option (list text)) : Prop :=
  forall s w, match wrap s w with
  | None => (w <= 0)%Z
  | Some ls => (0 < w)%Z /\ visible (concat ls) = visible s /\
               Forall (fun l => visible l <> [] /\ ~ In newline l /\ (Z.of_nat (length l) <= w)%Z) ls
  end.

(** The lines of one argument, if the right column starts at [c] and ends at [w]. *)
Inductive entry_lines (w : Z) (c : nat) (e : entry) : list text -> Prop :=
| no_help : ~ helped e -> entry_lines w c e [repeat blank 2 ++ heading (item e)]
| beside_it s s' l ls : helped e -> help e = Some s -> filled_in (attribute e) s s' -> visible (concat (l :: ls)) = visible s' ->
    Forall (fun l => l <> [] /\ (Z.of_nat (c + length l) <= w)%Z) (l :: ls) -> length (heading (item e)) + 4 <= c ->
    entry_lines w c e ((repeat blank 2 ++ heading (item e) ++ repeat blank (c - 2 - length (heading (item e))) ++ l) :: map (fun l => repeat blank c ++ l) ls)
| below_it s s' ls : helped e -> help e = Some s -> filled_in (attribute e) s s' -> visible (concat ls) = visible s' -> ls <> [] ->
    Forall (fun l => l <> [] /\ (Z.of_nat (c + length l) <= w)%Z) ls -> c < length (heading (item e)) + 4 ->
    entry_lines w c e ((repeat blank 2 ++ heading (item e)) :: map (fun l => repeat blank c ++ l) ls).
(** The lines of a group of arguments; there are none without arguments. *)
Inductive group_lines (w : Z) (c : nat) (title : text) : list entry -> list text -> Prop :=
| no_group : group_lines w c title [] []
| a_group es lss : es <> [] -> Forall2 (entry_lines w c) es lss -> group_lines w c title es ((title ++ chars ":") :: concat lss).
Definition operands (l : list entry) : list entry := filter (fun e => positional (arg (item e))) l.
Definition options (l : list entry) : list entry := filter (fun e => negb (positional (arg (item e)))) l.

(** The lines of a text that are not empty. *)
Fixpoint full_lines_from (cur : text) (s : text) : list text :=
  match s with
  | [] => match cur with [] => [] | _ => [cur] end
  | c :: s' => if Ascii.eqb c newline then match cur with [] => [] | _ => [cur] end ++ full_lines_from [] s' else full_lines_from (cur ++ [c]) s'
  end.
Definition full_lines (s : text) : list text := full_lines_from [] s.
Definition given_lines (s : option text) : list text := match s with Some s => full_lines s | None => [] end.
(** No empty line at the beginning, none at the end, and never two together. *)
Definition tidy (s : text) : Prop :=
  (exists t, s = t ++ [newline] /\ hd blank t <> newline /\ last t blank <> newline) /\ forall a b, s <> a ++ [newline; newline; newline] ++ b.
