(** What a command line means: which strings spell an option, which are its values, and which go to the arguments without option.
    Does not use the model. *)
From Coq Require Import Ascii List Arith ZArith Bool.
Import ListNotations.
Open Scope nat_scope.

Definition text := list ascii.
Definition dash : ascii := "-".
Definition equals : ascii := "=".
Definition blank : ascii := " ".
Definition text_eqb (s t : text) : bool := if list_eq_dec ascii_dec s t then true else false.

(** An argument of a parser.  How many strings it takes, what it does with them, and by which option strings it is given:
    none for a positional argument. *)
Inductive amount := One | Star | Plus | Exactly (n : nat).
Inductive deed := Store | SetTrue | Append | ShowHelp | ShowVersion.
Inductive kind := Any | Number | Uncallable.   (* Uncallable: type="int", a string instead of the function int *)
Inductive value := Nothing | Truth (b : bool) | Text (s : text) | Int (z : Z) | Many (l : list value).
Record argument := { spellings : list text; name : text; takes : amount; does : deed; type : kind; default : value }.
Definition parser := list argument.
Definition positional (a : argument) : bool := match spellings a with [] => true | _ => false end.
Definition option_strings (p : parser) : list text := flat_map spellings p.

(** Parsers that can be made with add_argument(). *)
Definition option_string (s : text) : Prop := 2 <= length s /\ hd blank s = dash /\ exists c, In c s /\ c <> dash.
Definition flag (a : argument) : bool := match does a with SetTrue | ShowHelp | ShowVersion => true | _ => false end.
Definition proper (p : parser) : Prop :=
  NoDup (option_strings p) /\ Forall option_string (option_strings p) /\
  Forall (fun a => (takes a = Exactly 0 <-> flag a = true) /\ (flag a = true -> positional a = false) /\
                   (does a = Append -> forall b, In b p -> name b = name a -> does b = Append /\ (default b = Nothing \/ exists l, default b = Many l))) p.

(** The numbers of strings an argument can take. *)
Definition can_take (m : amount) (n : nat) : Prop :=
  match m with One => n = 1 | Star => True | Plus => 1 <= n | Exactly k => n = k end.

(** The names and their values. *)
Definition names := text -> value.
Definition put (v : names) (d : text) (x : value) : names := fun e => if text_eqb e d then x else v e.
Definition defaults (p : parser) : names := fold_left (fun v a => match does a with ShowHelp | ShowVersion => v | _ => put v (name a) (default a) end) (rev p) (fun _ => Nothing).

(** What is seen on a command line, from left to right: an argument, by its number, with its strings. *)
Definition occurrence : Type := nat * list text.
Section Values.
Variable to_int : text -> option Z.   (* int(): None for ValueError *)
Definition converted (k : kind) (s : text) : option value :=
  match k with Any => Some (Text s) | Number => option_map Int (to_int s) | Uncallable => None end.
Fixpoint all_converted (k : kind) (l : list text) : option (list value) :=
  match l with
  | [] => Some []
  | s :: l' => match converted k s, all_converted k l' with Some v, Some vs => Some (v :: vs) | _, _ => None end
  end.
(** None: not a number, or no function to convert with *)
Definition value_of (a : argument) (l : list text) : option value :=
  match takes a, l with
  | One, [s] => converted (type a) s
  | Star, [] => Some (if positional a then match default a with Nothing => Many [] | d => d end else Many [])
  | _, _ => option_map Many (all_converted (type a) l)
  end.
(** The outcome of a program call up to the end of parse_args(): names with values; or the program exits, after showing
    help (status 0), the version (status 0), or a usage error (status 2). *)
Inductive outcome := Parsed (v : names) | Help | Version | Usage.
(** The effect of what is seen, in order; [k] is the outcome afterwards. *)
Fixpoint effects (p : parser) (v : names) (l : list occurrence) (k : names -> outcome) : outcome :=
  match l with
  | [] => k v
  | (i, ss) :: l' =>
      match nth_error p i with
      | None => Usage
      | Some a =>
          match value_of a ss with
          | None => Usage
          | Some x =>
              match does a with
              | Store => effects p (put v (name a) x) l' k
              | SetTrue => effects p (put v (name a) (Truth true)) l' k
              | Append => effects p (put v (name a) (Many (match v (name a) with Many xs => xs ++ [x] | _ => [x] end))) l' k
              | ShowHelp => Help
              | ShowVersion => Version
              end
          end
      end
  end.
End Values.

(** How options are spelled. *)
Definition begins (pre s : text) : Prop := exists r, s = pre ++ r.
Definition long (s : text) : Prop := exists r, s = dash :: dash :: r.
(** The ways to read a string that starts with a dash as (the beginning of) an option string with something attached to it. *)
Inductive reading (p : parser) (s : text) : text -> option text -> Prop :=
| r_long o : In o (option_strings p) -> long s -> ~ In equals s -> begins s o -> reading p s o None
| r_long_equals o pre v : In o (option_strings p) -> long s -> s = pre ++ equals :: v -> ~ In equals pre -> begins pre o -> reading p s o (Some v)
| r_short o : In o (option_strings p) -> ~ long s -> o <> firstn 2 s -> begins s o -> reading p s o None
| r_short_attached o : In o (option_strings p) -> ~ long s -> o = firstn 2 s -> reading p s o (Some (skipn 2 s)).
(** An option string itself, or the only reading there is. *)
Definition denotes (p : parser) (s o : text) (e : option text) : Prop :=
  (In s (option_strings p) /\ o = s /\ e = None) \/
  (~ In s (option_strings p) /\ hd blank s = dash /\ (exists c, In c s /\ c <> dash) /\ reading p s o e /\ forall o' e', reading p s o' e' -> o' = o).
Definition owner (p : parser) (o : text) (i : nat) (a : argument) : Prop := nth_error p i = Some a /\ In o (spellings a).
Definition two_dashes : text := [dash; dash].
(** What looks like a negative number: a dash and a digit, or a dash, digits, any character and digits to the end (or to a newline at the end). *)
Definition is_digit (c : ascii) : Prop := 48 <= nat_of_ascii c <= 57.
Definition line_end : ascii := ascii_of_nat 10.
Inductive number_like : text -> Prop :=
| nl_start d s : is_digit d -> number_like (dash :: d :: s)
| nl_end ds c es z : Forall is_digit ds -> c <> line_end -> es <> [] -> Forall is_digit es -> z = [] \/ z = [line_end] -> number_like (dash :: ds ++ c :: es ++ z).
(** The strings that are not options. *)
Definition operand (p : parser) (s : text) : Prop :=
  s <> two_dashes /\
  (hd blank s <> dash \/ (forall c, In c s -> c = dash) \/
   ((forall o e, ~ reading p s o e) /\ ~ In s (option_strings p) /\ (In blank s \/ (number_like s /\ forall o, In o (option_strings p) -> ~ number_like o)))).

(** Two dashes are dropped wherever they are among the strings of an argument. *)
Definition kept (l : list text) : list text := filter (fun s => negb (text_eqb s two_dashes)) l.
(** An option with what is attached to it: a value, or further options of one letter if it takes no value; [vals] are the strings that follow. *)
Inductive attached (p : parser) : nat -> argument -> text -> text -> list occurrence -> list text -> Prop :=
| at_value i a o e : can_take (takes a) 1 -> attached p i a o e [(i, kept [e])] []
| at_more i a o c e j b occs vals : can_take (takes a) 0 -> ~ can_take (takes a) 1 -> ~ long o -> owner p [dash; c] j b -> e <> [] -> attached p j b [dash; c] e occs vals ->
    attached p i a o (c :: e) ((i, []) :: occs) vals
| at_last i a o c j b vals : can_take (takes a) 0 -> ~ can_take (takes a) 1 -> ~ long o -> owner p [dash; c] j b -> can_take (takes b) (length vals) ->
    attached p i a o [c] [(i, []); (j, vals)] vals.
(** An option, or several in one string, with its values. *)
Inductive spelled (p : parser) : list occurrence -> list text -> Prop :=
| sp_plain s o i a vals : denotes p s o None -> owner p o i a -> can_take (takes a) (length vals) -> Forall (operand p) vals -> spelled p [(i, vals)] (s :: vals)
| sp_attached s o e i a occs vals : denotes p s o (Some e) -> owner p o i a -> attached p i a o e occs vals -> Forall (operand p) vals -> spelled p occs (s :: vals).

(** A whole command line; after two dashes there are no options. *)
Inductive operands_only (p : parser) : list occurrence -> list text -> Prop :=
| oo_end : operands_only p [] []
| oo_more i a ws occs rest : nth_error p i = Some a -> positional a = true -> can_take (takes a) (length ws) -> operands_only p occs rest -> operands_only p ((i, kept ws) :: occs) (ws ++ rest).
Inductive reads (p : parser) : list occurrence -> list text -> Prop :=
| rd_end : reads p [] []
| rd_option os ws occs rest : spelled p os ws -> reads p occs rest -> reads p (os ++ occs) (ws ++ rest)
| rd_operands i a ws occs rest : nth_error p i = Some a -> positional a = true -> can_take (takes a) (length ws) -> Forall (operand p) ws -> reads p occs rest ->
    reads p ((i, ws) :: occs) (ws ++ rest)
| rd_two_dashes i a ws1 ws2 occs rest : nth_error p i = Some a -> positional a = true -> can_take (takes a) (length ws1 + length ws2) -> Forall (operand p) ws1 ->
    operands_only p occs rest -> reads p ((i, ws1 ++ kept ws2) :: occs) (ws1 ++ two_dashes :: ws2 ++ rest).
(** The positional arguments, in order. *)
Fixpoint positionals_from (i : nat) (p : parser) : list nat :=
  match p with [] => [] | a :: p' => if positional a then i :: positionals_from (S i) p' else positionals_from (S i) p' end.
Definition positionals (p : parser) : list nat := positionals_from 0 p.
Definition is_positional (p : parser) (i : nat) : bool := match nth_error p i with Some a => positional a | None => false end.

(** How many of n strings each of the positional arguments gets: as many as possible, those on the left first. *)
Definition deals (ms : list amount) (n : nat) (cs : list nat) : Prop := Forall2 can_take ms cs /\ fold_right Nat.add 0 cs <= n.
Inductive lex_le : list nat -> list nat -> Prop :=
| lex_end : lex_le [] []
| lex_less a b l m : a < b -> lex_le (a :: l) (b :: m)
| lex_same a l m : lex_le l m -> lex_le (a :: l) (a :: m).
Definition best_deal (ms : list amount) (n : nat) (cs : list nat) : Prop := deals ms n cs /\ forall ds, deals ms n ds -> lex_le ds cs.
Fixpoint deal_out (is cs : list nat) (l : list text) : list occurrence :=
  match is, cs with i :: is', c :: cs' => (i, firstn c l) :: deal_out is' cs' (skipn c l) | _, _ => [] end.
Definition amounts (p : parser) : list amount := map takes (filter positional p).
Definition all_kept (os : list occurrence) : list occurrence := map (fun x => (fst x, kept (snd x))) os.

(** Options one after another. *)
Inductive options (p : parser) : list occurrence -> list text -> Prop :=
| os_end : options p [] []
| os_more os ws occs rest : spelled p os ws -> options p occs rest -> options p (os ++ occs) (ws ++ rest).
(** The last of them does not take as many strings as it can get. *)
Definition settled (p : parser) (occs : list occurrence) : Prop :=
  match rev occs with
  | [] => True
  | (i, _) :: _ => match nth_error p i with Some a => match takes a with One | Exactly _ => True | _ => False end | None => False end
  end.
