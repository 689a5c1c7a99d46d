(** Model of the usage that ArgumentParser shows before an error and at the top of its help: HelpFormatter of
    lib/daeso/thirdparty/argparse.py 184-500, 577-608.  Left out because no script uses it: usage="...", groups of options that exclude each
    other, help=SUPPRESS, required options, choices, metavar as a tuple, nargs '?' and argparse.PARSER.  An AssertionError is
    represented by None. *)
From Coq Require Import Ascii String.
From Verif Require Import Py Cmdline_spec Usage_spec.
Open Scope string_scope.
Open Scope nat_scope.
Open Scope list_scope.

(** 189-196: the width, from the variable COLUMNS; [to_int] is int() *)
Definition formatter_width (to_int : text -> option Z) (columns : option text) : Z :=
  (match columns with Some s => match to_int s with Some n => n | None => 80 end | None => 80 end - 2)%Z.
(** ' '.join(...) *)
Fixpoint blank_join (l : list text) : text := match l with [] => [] | s :: l' => match l' with [] => s | _ => s ++ " "%char :: blank_join l' end end.
(** '\n'.join(...) *)
Fixpoint newline_join (l : list text) : text := match l with [] => [] | s :: l' => match l' with [] => s | _ => s ++ "010"%char :: newline_join l' end end.
(** str.upper on a character *)
Definition upper_char (c : ascii) : ascii :=
  let n := nat_of_ascii c in if (97 <=? n) && (n <=? 122) then ascii_of_nat (n - 32) else c.
(** \s and str.strip() *)
Definition space_char (c : ascii) : bool := let n := nat_of_ascii c in (n =? 32) || ((9 <=? n) && (n <=? 13)).
(** 577-590 *)
Definition get_metavar (x : shown) (default_metavar : text) : text := match metavar x with Some m => m | None => default_metavar end.
(** 592-608 *)
Definition format_args (x : shown) (default_metavar : text) : text :=
  let m := get_metavar x default_metavar in
  match takes (arg x) with
  | One => m
  | Star => chars "[" ++ m ++ chars " [" ++ m ++ chars " ...]]"
  | Plus => m ++ chars " [" ++ m ++ chars " ...]"
  | Exactly n => blank_join (repeat m n)
  end.
(** 438-480: the string for one argument *)
Definition part_of (x : shown) : text :=
  match spellings (arg x) with
  | [] => format_args x (name (arg x))
  | o :: _ =>
      let part := match takes (arg x) with
                  | Exactly 0 => o
                  | _ => o ++ chars " " ++ format_args x (map upper_char (name (arg x)))
                  end in
      chars "[" ++ part ++ chars "]"
  end.

(** [\[(] and [\])] *)
Definition opening (c : ascii) : bool := Ascii.eqb c "[" || Ascii.eqb c "(".
(** [\[(] and [\])] *)
Definition closing (c : ascii) : bool := Ascii.eqb c "]" || Ascii.eqb c ")".
(** 491: _re.sub(r'([\[(]) ', r'\1', text) *)
Fixpoint sub_after_open (s : text) : text :=
  match s with
  | [] => []
  | c :: s1 => if opening c then match s1 with d :: s2 => if Ascii.eqb d " " then c :: sub_after_open s2 else c :: sub_after_open s1 | [] => [c] end
               else c :: sub_after_open s1
  end.
(** 492: _re.sub(r' ([\])])', r'\1', text) *)
Fixpoint sub_before_close (s : text) : text :=
  match s with
  | [] => []
  | c :: s1 => if Ascii.eqb c " " then match s1 with d :: s2 => if closing d then d :: sub_before_close s2 else c :: sub_before_close s1 | [] => [c] end
               else c :: sub_before_close s1
  end.
(** the characters at the beginning that fulfil [f], and the others *)
Fixpoint span (f : ascii -> bool) (s : text) : text * text :=
  match s with [] => ([], []) | c :: s' => if f c then let (a, b) := span f s' in (c :: a, b) else ([], s) end.
(** 493: _re.sub(r'[\[(] *[\])]', r'', text) *)
Fixpoint sub_empty (fuel : nat) (s : text) : text :=
  match fuel, s with
  | S fuel', c :: s1 =>
      if opening c then match snd (span (Ascii.eqb " ") s1) with
                        | d :: s2 => if closing d then sub_empty fuel' s2 else c :: sub_empty fuel' s1
                        | [] => c :: sub_empty fuel' s1
                        end
      else c :: sub_empty fuel' s1
  | _, _ => []
  end.
(** s[:i], s[i+1:] for the index i of the last occurrence of c *)
Fixpoint split_last (c : ascii) (s : text) : option (text * text) :=
  match s with
  | [] => None
  | d :: s' => match split_last c s' with
               | Some (a, b) => Some (d :: a, b)
               | None => if Ascii.eqb d c then Some ([], s') else None
               end
  end.
(** 494: drop an opening parenthesis and the last closing one that follows it, if there is no | in between; from left to right *)
Fixpoint sub_parentheses (fuel : nat) (s : text) : text :=
  match fuel, s with
  | S fuel', c :: s1 =>
      if Ascii.eqb c "(" then
        let (run, rest) := span (fun d => negb (Ascii.eqb d "|")) s1 in
        match split_last ")" run with
        | Some (a, b) => a ++ sub_parentheses fuel' (b ++ rest)
        | None => c :: sub_parentheses fuel' s1
        end
      else c :: sub_parentheses fuel' s1
  | _, _ => []
  end.
(** s.strip(), s.strip(c) *)
Definition strip_left (f : ascii -> bool) (s : text) : text := snd (span f s).
Definition strip_both (f : ascii -> bool) (s : text) : text := rev (strip_left f (rev (strip_left f s))).
(** 412-500 *)
Definition format_actions_usage (actions : list shown) : text :=
  let text := blank_join (map part_of actions) in
  let text := sub_after_open text in
  let text := sub_before_close text in
  let text := sub_empty (length text) text in
  let text := sub_parentheses (length text) text in
  strip_both space_char text.

(** '\(.*?\)+' and '\[.*?\]+' after the opening bracket: up to the first closing one, on the same line *)
Fixpoint up_to (close : ascii) (s : text) : option (text * text) :=
  match s with
  | [] => None
  | c :: s' => if Ascii.eqb c close then let (a, b) := span (Ascii.eqb close) s' in Some (c :: a, b)
               else if Ascii.eqb c "010" then None
               else match up_to close s' with Some (a, b) => Some (c :: a, b) | None => None end
  end.
(** 350: one match of part_regexp at the beginning of a string *)
Definition match_part (s : text) : option (text * text) :=
  match s with
  | [] => None
  | c :: s' =>
      let bracketed := if Ascii.eqb c "(" then up_to ")" s' else if Ascii.eqb c "[" then up_to "]" s' else None in
      match bracketed with
      | Some (a, b) => Some (c :: a, b)
      | None => match span (fun d => negb (space_char d)) s with ([], _) => None | (a, b) => Some (a, b) end
      end
  end.
(** 353-354: _re.findall(part_regexp, s) *)
Fixpoint find_parts (fuel : nat) (s : text) : list text :=
  match fuel, s with
  | S fuel', c :: s' => match match_part s with Some (a, b) => a :: find_parts fuel' b | None => find_parts fuel' s' end
  | _, _ => []
  end.
Definition text_same (a b : text) : bool := if list_eq_dec ascii_dec a b then true else false.

(** len(s) *)
Definition len (s : text) : Z := Z.of_nat (length s).
(** 359-377: get_lines(parts, indent, prefix) *)
Definition line_step (text_width : Z) (indent : text) (state : list text * list text * Z) (part : text) : list text * list text * Z :=
  let '(lines, line, line_len) := state in
  let '(lines, line, line_len) :=
    if (line_len + 1 + len part >? text_width)%Z then (lines ++ [indent ++ blank_join line], [], (len indent - 1)%Z) else (lines, line, line_len) in
  (lines, line ++ [part], (line_len + (len part + 1))%Z).
Definition get_lines (text_width : Z) (parts : list text) (indent : text) (prefix : option text) : list text :=
  let line_len := match prefix with Some p => (len p - 1)%Z | None => (len indent - 1)%Z end in
  let '(lines, line, _) := fold_left (line_step text_width indent) parts ([], [], line_len) in
  let lines := match line with [] => lines | _ => lines ++ [indent ++ blank_join line] end in
  match prefix, lines with
  | Some _, l0 :: ls => skipn (length indent) l0 :: ls
  | _, _ => lines
  end.

(** 320-410, with usage=None; 0.75 * text_width is exact *)
Definition format_usage_item (text_width : Z) (prog : text) (actions : list shown) (prefix : text) : option text :=
  match actions with
  | [] => Some (prefix ++ prog ++ ["010"%char; "010"%char])
  | _ =>
      let optionals := filter (fun x => match spellings (arg x) with [] => false | _ => true end) actions in
      let positionals := filter (fun x => match spellings (arg x) with [] => true | _ => false end) actions in
      let action_usage := format_actions_usage (optionals ++ positionals) in
      let usage := blank_join (filter (fun s => match s with [] => false | _ => true end) [prog; action_usage]) in
      if (len prefix + len usage >? text_width)%Z then
        let opt_usage := format_actions_usage optionals in
        let pos_usage := format_actions_usage positionals in
        let opt_parts := find_parts (length opt_usage) opt_usage in
        let pos_parts := find_parts (length pos_usage) pos_usage in
        if text_same (blank_join opt_parts) opt_usage then
          if text_same (blank_join pos_parts) pos_usage then
            let lines :=
              if (4 * (len prefix + len prog) <=? 3 * text_width)%Z then
                let indent := repeat " "%char (length prefix + length prog + 1) in
                match opt_parts, pos_parts with
                | _ :: _, _ => get_lines text_width (prog :: opt_parts) indent (Some prefix) ++ get_lines text_width pos_parts indent None
                | [], _ :: _ => get_lines text_width (prog :: pos_parts) indent (Some prefix)
                | [], [] => [prog]
                end
              else
                let indent := repeat " "%char (length prefix) in
                let lines := get_lines text_width (opt_parts ++ pos_parts) indent None in
                let lines := if 1 <? length lines then get_lines text_width opt_parts indent None ++ get_lines text_width pos_parts indent None else lines in
                prog :: lines in
            Some (prefix ++ newline_join lines ++ ["010"%char; "010"%char])
          else None
        else None
      else Some (prefix ++ usage ++ ["010"%char; "010"%char])
  end.

(** 310: _long_break_matcher.sub('\n\n', s); [n] newlines have been seen *)
Fixpoint long_breaks (n : nat) (s : text) : text :=
  match s with
  | [] => repeat "010"%char (min n 2)
  | c :: s' => if Ascii.eqb c "010" then long_breaks (S n) s' else repeat "010"%char (min n 2) ++ c :: long_breaks 0 s'
  end.
(** 308-313, and 233-256 for the section of the usage *)
Definition format_help_of (item : text) : text :=
  match item with
  | [] => []
  | _ => strip_both (Ascii.eqb "010") (long_breaks 0 ("010"%char :: item ++ ["010"%char])) ++ ["010"%char]
  end.
(** ArgumentParser.format_usage, 2197-2201 *)
Definition format_usage (to_int : text -> option Z) (columns : option text) (prog : text) (actions : list shown) : option text :=
  option_map format_help_of (format_usage_item (formatter_width to_int columns) prog actions (chars "usage: ")).
(** ArgumentParser.error, 2260-2271: the text on stderr, and the status of exit *)
Definition error (to_int : text -> option Z) (columns : option text) (prog : text) (actions : list shown) (message : text) : option (text * Z) :=
  match format_usage to_int columns prog actions with
  | Some u => Some (u ++ prog ++ chars ": error: " ++ message ++ ["010"%char], 2%Z)
  | None => None
  end.
