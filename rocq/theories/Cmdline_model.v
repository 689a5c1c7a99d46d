(** Model of the command line parsing of the scripts in bin/: ArgumentParser.parse_args() of lib/daeso/thirdparty/argparse.py 1654-2195,
    lib/daeso/utils/cli.py 34-46.  Left out because no script uses them: nargs '?', argparse.REMAINDER/PARSER and subparsers, choices, const,
    required options, groups of options that exclude each other, prefix characters other than '-', arguments from files, conversion of defaults
    that are strings (they are of type None), types other than int, the texts of messages.
    arg_strings, and the pattern with a letter for each of them, are represented as one list of strings with tags; an index is
    represented by the remaining list. *)
From Coq Require Import Ascii String.
From Verif Require Import Py Cmdline_spec.
Open Scope string_scope.
Open Scope nat_scope.
Open Scope list_scope.

(** an option string with the action it was found for, if any, and what follows it after "=" or directly (1988-2036) *)
Inductive tag := TA | TD | TO (i : option nat) (o : text) (e : option text).
(** the letters of the pattern: A, - and O *)
Inductive letter := A | D | O.
Definition letter_of (t : tag) : letter := match t with TA => A | TD => D | TO _ _ _ => O end.
Inductive stop := SHelp | SVersion | SUsage | SCrash | SLoop.   (* SCrash: another exception; SLoop: out of fuel *)
Inductive run (X : Type) := Go (x : X) | Stop (s : stop).
Arguments Go {X} x.
Arguments Stop {X} s.
Definition and_then {X Y} (m : run X) (f : X -> run Y) : run Y := match m with Go x => f x | Stop s => Stop s end.
Notation "x <~ m ;; k" := (and_then m (fun x => k)) (at level 61, m at next level, right associativity).

(** _option_string_actions, 1288-1290: from option strings to actions, by their numbers *)
Fixpoint table_from (i : nat) (p : parser) : list (text * nat) :=
  match p with [] => [] | a :: p' => map (fun o => (o, i)) (spellings a) ++ table_from (S i) p' end.
Definition table (p : parser) : list (text * nat) := table_from 0 p.
(** str.startswith *)
Fixpoint starts (s pre : text) : bool :=
  match pre, s with [], _ => true | c :: pre', d :: s' => (if ascii_dec c d then true else false) && starts s' pre' | _ :: _, [] => false end.
(** str.split('=', 1) if '=' is in the string (2047-2052) *)
Fixpoint split_eq (s : text) : text * option text :=
  match s with
  | [] => ([], None)
  | c :: s' => if ascii_dec c equals then ([], Some s') else let (a, b) := split_eq s' in (c :: a, b)
  end.
Definition is_dash (c : ascii) : bool := if ascii_dec c dash then true else false.
Definition second_dash (s : text) : bool := match s with _ :: c :: _ => is_dash c | _ => false end.
(** 2038-2080 *)
Definition get_option_tuples (p : parser) (s : text) : list (nat * text * option text) :=
  if second_dash s then
    let (pre, e) := split_eq s in
    map (fun x => (snd x, fst x, e)) (filter (fun x => starts (fst x) pre) (table p))
  else
    flat_map (fun x => if text_eqb (fst x) (firstn 2 s) then [(snd x, fst x, Some (skipn 2 s))]
                       else if starts (fst x) s then [(snd x, fst x, None)] else []) (table p).
(** 1206, the regular expression ^-\d+|-\d*.\d+$ matched from the start: "." stands for any character but a newline, and "$" also
    matches before a newline at the end *)
Definition digit (c : ascii) : bool := (48 <=? nat_of_ascii c) && (nat_of_ascii c <=? 57).
Definition newline : ascii := ascii_of_nat 10.
Definition at_end (s : text) : bool := match s with [] => true | [c] => if ascii_dec c newline then true else false | _ => false end.
Fixpoint digits_end (s : text) : bool :=     (* \d+$ *)
  match s with [] => false | c :: s' => digit c && (at_end s' || digits_end s') end.
Definition any_digits_end (s : text) : bool :=   (* .\d+$ *)
  match s with [] => false | c :: s' => (if ascii_dec c newline then false else true) && digits_end s' end.
Fixpoint fraction (s : text) : bool :=       (* \d*.\d+$ *)
  any_digits_end s || match s with c :: s' => digit c && fraction s' | [] => false end.
Definition negative_number (s : text) : bool :=
  match s with c :: s' => is_dash c && (match s' with d :: _ => digit d | [] => false end || fraction s') | [] => false end.
(** 1292-1296 *)
Definition has_negative_number_optionals (p : parser) : bool := existsb negative_number (option_strings p).
Definition contains (c : ascii) (s : text) : bool := existsb (fun d => if ascii_dec c d then true else false) s.
(** 1988-2036: _parse_optional; self.error() exits *)
Definition parse_optional (p : parser) (s : text) : run tag :=
  match s with
  | [] => Go TA
  | c :: _ =>
      if negb (is_dash c) then Go TA
      else if forallb is_dash s then Go TA
      else match dget text_eqb (table p) s with
      | Some i => Go (TO (Some i) s None)
      | None =>
          match get_option_tuples p s with
          | _ :: _ :: _ => Stop SUsage
          | [(i, o, e)] => Go (TO (Some i) o e)
          | [] =>
              if negative_number s && negb (has_negative_number_optionals p) then Go TA
              else if contains blank s then Go TA
              else Go (TO None s None)
          end
      end
  end.
Definition double_dash : text := [dash; dash].
(** 1707-1732 *)
Fixpoint tagged (p : parser) (l : list text) : run (list (text * tag)) :=
  match l with
  | [] => Go []
  | s :: l' =>
      if text_eqb s double_dash then Go ((s, TD) :: map (fun t => (t, TA)) l')
      else t <~ parse_optional p s ;; r <~ tagged p l' ;; Go ((s, t) :: r)
  end.

(** Regular expressions: each item is a letter, or any number of letters, from a set; a group is a list of items. *)
Inductive item := L (f : letter -> bool) | L0 (f : letter -> bool).
Definition is_A (l : letter) : bool := match l with A => true | _ => false end.
Definition is_D (l : letter) : bool := match l with D => true | _ => false end.
Definition is_AD (l : letter) : bool := match l with O => false | _ => true end.
(** 2082-2117: _get_nargs_pattern *)
Fixpoint joined_A (n : nat) (sep : list item) : list item :=
  match n with 0 => [] | 1 => [L is_A] | S n' => L is_A :: sep ++ joined_A n' sep end.
Definition nargs_pattern (a : argument) : list item :=
  if positional a then
    match takes a with
    | One => [L0 is_D; L is_A; L0 is_D]
    | Star => [L0 is_D; L0 is_AD]
    | Plus => [L0 is_D; L is_A; L0 is_AD]
    | Exactly n => L0 is_D :: joined_A n [L0 is_D] ++ [L0 is_D]
    end
  else
    match takes a with
    | One => [L is_A]
    | Star => [L0 is_A]
    | Plus => [L is_A; L0 is_A]
    | Exactly n => joined_A n []
    end.
(** re.match: backtracking, longest first.  [k] tries the rest of the expression on the rest of the string, [n] letters have been read. *)
Section Match.
Variable R : Type.
Fixpoint match_star (f : letter -> bool) (s : list letter) (n : nat) (k : nat -> list letter -> option R) : option R :=
  match s with
  | c :: s' => if f c then match match_star f s' (S n) k with Some r => Some r | None => k n s end else k n s
  | [] => k n s
  end.
Fixpoint match_items (l : list item) (s : list letter) (n : nat) (k : nat -> list letter -> option R) : option R :=
  match l with
  | [] => k n s
  | L f :: l' => match s with c :: s' => if f c then match_items l' s' (S n) k else None | [] => None end
  | L0 f :: l' => match_star f s n (fun n s => match_items l' s n k)
  end.
End Match.
Fixpoint match_groups (gs : list (list item)) (s : list letter) : option (list nat) :=
  match gs with
  | [] => Some []
  | g :: gs' => match_items (list nat) g s 0 (fun n s' => option_map (cons n) (match_groups gs' s'))
  end.
(** 1953-1970: _match_argument; no match is an ArgumentError *)
Definition match_argument (a : argument) (s : list letter) : run nat :=
  match match_groups [nargs_pattern a] s with Some [n] => Go n | _ => Stop SUsage end.
(** 1972-1986: _match_arguments_partial, for the first n actions, then fewer *)
Fixpoint match_first (n : nat) (acts : list argument) (s : list letter) : list nat :=
  match n with
  | 0 => []
  | S n' => match match_groups (map nargs_pattern (firstn n acts)) s with Some l => l | None => match_first n' acts s end
  end.
Definition match_arguments_partial (acts : list argument) (s : list letter) : list nat := match_first (length acts) acts s.

Section Parse.
Variable to_int : text -> option Z.   (* int() *)
Variable p : parser.
Definition get_argument (i : nat) : run argument := match nth_error p i with Some a => Go a | None => Stop SCrash end.
(** 2167-2185: _get_value; ValueError, and a type that cannot be called, become an ArgumentError *)
Definition get_value (a : argument) (s : text) : run value :=
  match type a with
  | Any => Go (Text s)
  | Number => match to_int s with Some z => Go (Int z) | None => Stop SUsage end
  | Uncallable => Stop SUsage
  end.
Fixpoint get_values_list (a : argument) (l : list text) : run (list value) :=
  match l with [] => Go [] | s :: l' => v <~ get_value a s ;; vs <~ get_values_list a l' ;; Go (v :: vs) end.
(** 2122-2165: _get_values *)
Definition get_values (a : argument) (l : list text) : run value :=
  let l := filter (fun s => negb (text_eqb s double_dash)) l in
  match takes a, l with
  | Star, [] => if positional a then match default a with Nothing => Go (Many []) | d => Go d end else Go (Many [])
  | One, [s] => get_value a s
  | _, _ => vs <~ get_values_list a l ;; Go (Many vs)
  end.
(** names: the attributes of the namespace; left: the positionals to be parsed; extras *)
Record state := { values : names; left : list nat; extras : list text }.
(** 1738-1757 (take_action) and the __call__ of the actions: 843-844, 863-864, 937-940, 1004-1006, 1023-1026; _ensure_value 167-170 *)
Definition take_action (v : names) (i : nat) (l : list text) : run names :=
  a <~ get_argument i ;;
  x <~ get_values a l ;;
  match does a with
  | Store => Go (put v (name a) x)
  | SetTrue => Go (put v (name a) (Truth true))
  | Append => match v (name a) with
              | Nothing => Go (put v (name a) (Many [x]))
              | Many xs => Go (put v (name a) (Many (xs ++ [x])))
              | _ => Stop SCrash                              (* no append() *)
              end
  | ShowHelp => Stop SHelp
  | ShowVersion => Stop SVersion
  end.
Fixpoint take_actions (v : names) (l : list (nat * list text)) : run names :=
  match l with [] => Go v | (i, ss) :: l' => v' <~ take_action v i ss ;; take_actions v' l' end.
Definition letters (l : list (text * tag)) : list letter := map (fun x => letter_of (snd x)) l.
(** 1809-1815: the following strings; the number of them used *)
Definition separate (i : nat) (rest : list (text * tag)) : run (list (nat * list text) * nat) :=
  a <~ get_argument i ;;
  n <~ match_argument a (letters rest) ;;
  Go ([(i, map fst (firstn n rest))], n).
(** 1774-1807: the options in one string -xyz, with what follows each of them *)
Fixpoint joined (i : nat) (o e : text) (rest : list (text * tag)) : run (list (nat * list text) * nat) :=
  a <~ get_argument i ;;
  n <~ match_argument a [A] ;;
  if (n =? 0) && negb (second_dash o) then
    match e with
    | [] => Stop SCrash                                       (* explicit_arg[0] *)
    | c :: e' =>
        match dget text_eqb (table p) [dash; c] with
        | None => Stop SUsage
        | Some j => r <~ (match e' with [] => separate j rest | _ => joined j [dash; c] e' rest end) ;;
                    Go ((i, []) :: fst r, snd r)
        end
    end
  else if n =? 1 then Go ([(i, [e])], 0)
  else Stop SUsage.
(** 1760-1822: consume_optional, for the option string s with its tag *)
Definition consume_optional (st : state) (s : text) (i : option nat) (o : text) (e : option text) (rest : list (text * tag)) : run (state * list (text * tag)) :=
  match i with
  | None => Go ({| values := values st; left := left st; extras := extras st ++ [s] |}, rest)
  | Some i =>
      r <~ match e with Some e => joined i o e rest | None => separate i rest end ;;
      v <~ take_actions (values st) (fst r) ;;
      Go ({| values := v; left := left st; extras := extras st |}, skipn (snd r) rest)
  end.
(** slices of the strings *)
Fixpoint deal (acts : list nat) (counts : list nat) (l : list text) : list (nat * list text) :=
  match acts, counts with i :: acts', n :: counts' => (i, firstn n l) :: deal acts' counts' (skipn n l) | _, _ => [] end.
(** 1829-1846: consume_positionals *)
Definition consume_positionals (st : state) (rest : list (text * tag)) : run (state * list (text * tag)) :=
  acts <~ fold_right (fun i r => a <~ get_argument i ;; l <~ r ;; Go (a :: l)) (Go []) (left st) ;;
  let counts := match_arguments_partial acts (letters rest) in
  v <~ take_actions (values st) (deal (left st) counts (map fst rest)) ;;
  Go ({| values := v; left := skipn (length counts) (left st); extras := extras st |}, skipn (list_sum counts) rest).
Fixpoint before_option (l : list (text * tag)) : list (text * tag) :=
  match l with (s, TO _ _ _) :: _ => [] | x :: l' => x :: before_option l' | [] => [] end.
Definition has_option (l : list (text * tag)) : bool := existsb (fun x => match snd x with TO _ _ _ => true | _ => false end) l.
Definition add_extras (st : state) (l : list (text * tag)) : state := {| values := values st; left := left st; extras := extras st ++ map fst l |}.
(** 1850-1886: the loop up to the last option *)
Fixpoint loop (fuel : nat) (st : state) (rest : list (text * tag)) : run (state * list (text * tag)) :=
  match fuel with
  | 0 => Stop SLoop
  | S fuel' =>
      if negb (has_option rest) then Go (st, rest)
      else
        r <~ match before_option rest with
             | [] => Go (st, rest)
             | _ => consume_positionals st rest
             end ;;
        if length (snd r) <? length rest then loop fuel' (fst r) (snd r)
        else
          let b := before_option rest in
          match skipn (length b) rest with
          | (s, TO i o e) :: rest' =>
              r2 <~ consume_optional (add_extras (fst r) b) s i o e rest' ;; loop fuel' (fst r2) (snd r2)
          | _ => Stop SCrash
          end
  end.
(** 1674-1680 and Action.__init__: the defaults; -h and -v have none.  The first of several arguments with one name counts. *)
Definition default_names : names :=
  fold_right (fun a v => match does a with ShowHelp | ShowVersion => v | _ => put v (name a) (default a) end) (fun _ => Nothing) p.
Fixpoint numbers_from (i : nat) (l : parser) : list nat :=
  match l with [] => [] | a :: l' => if positional a then i :: numbers_from (S i) l' else numbers_from (S i) l' end.
(** 1654-1925: parse_args and _parse_known_args; a required positional that has been consumed has been seen *)
Definition parse_args (args : list text) : run names :=
  l <~ tagged p args ;;
  r <~ loop (S (length args)) {| values := default_names; left := numbers_from 0 p; extras := [] |} l ;;
  r2 <~ consume_positionals (fst r) (snd r) ;;
  match left (fst r2), extras (fst r2) ++ map fst (snd r2) with
  | [], [] => Go (values (fst r2))
  | _, _ => Stop SUsage
  end.
End Parse.
