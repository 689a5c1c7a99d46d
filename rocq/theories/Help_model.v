(** Model of the help that ArgumentParser shows: HelpFormatter of lib/daeso/thirdparty/argparse.py 225-318, 502-576, 610-653 and
    ArgumentParser.format_help, 2203-2225, for the parsers of lib/daeso/utils/cli.py 34-46, whose descriptions are kept as they are.  textwrap.wrap is [wrap] (None for
    ValueError).  Left out: help=SUPPRESS, other groups, sub-parsers, and conversions after a percent sign other than %% and %(name)s. *)
From Coq Require Import Ascii String.
From Verif Require Import Py Cmdline_spec Usage_spec Help_spec Usage_model.
Open Scope string_scope.
Open Scope nat_scope.
Open Scope list_scope.

(** ', '.join(...) *)
Fixpoint comma_join (l : list text) : text := match l with [] => [] | s :: l' => match l' with [] => s | _ => s ++ chars ", " ++ comma_join l' end end.
(** 554-575 *)
Definition format_action_invocation (x : shown) : text :=
  match spellings (arg x) with
  | [] => get_metavar x (name (arg x))
  | os => match takes (arg x) with
          | Exactly 0 => comma_join os
          | _ => comma_join (map (fun o => o ++ chars " " ++ format_args x (map upper_char (name (arg x)))) os)
          end
  end.
(** 283-299, called at an indentation of 2 *)
Definition add_argument (action_max_length : nat) (e : entry) : nat := Nat.max action_max_length (length (format_action_invocation (item e)) + 2).

(** the key up to the closing parenthesis, and what follows *)
Fixpoint find_key (s : text) : option (text * text) :=
  match s with
  | [] => None
  | c :: s' => if Ascii.eqb c ")" then Some ([], s') else if Ascii.eqb c "(" then None
               else match find_key s' with Some (k, r) => Some (c :: k, r) | None => None end
  end.
(** 618: self._get_help_string(action) % params *)
Fixpoint expand (fuel : nat) (params : text -> option text) (s : text) : res text :=
  match fuel, s with
  | _, [] => Ok []
  | 0, _ => Err OutOfFuel
  | S fuel', c :: s1 =>
      if Ascii.eqb c "%" then
        match s1 with
        | [] => Err ValueError
        | d :: s2 =>
            if Ascii.eqb d "%" then t <- expand fuel' params s2 ;; Ok ("%"%char :: t)
            else if Ascii.eqb d "(" then
              match find_key s2 with
              | Some (k, x :: s3) =>
                  if Ascii.eqb x "s" then
                    match params k with
                    | Some v => t <- expand fuel' params s3 ;; Ok (v ++ t)
                    | None => Err KeyError
                    end
                  else Err NotImplementedError
              | _ => Err NotImplementedError
              end
            else Err NotImplementedError
        end
      else t <- expand fuel' params s1 ;; Ok (c :: t)
  end.
(** 610-618 *)
Definition expand_help (e : entry) (s : text) : res text := expand (length s) (attribute e) s.
(** 203: _re.compile(r'\s+').sub(' ', s); [b]: after white space *)
Fixpoint sub_white (b : bool) (s : text) : text :=
  match s with
  | [] => []
  | c :: s' => if space_char c then if b then sub_white true s' else " "%char :: sub_white true s' else c :: sub_white false s'
  end.

Section Wrap.
Variable wrap : text -> Z -> option (list text).
(** 631-633 *)
Definition split_lines (s : text) (width : Z) : option (list text) := wrap (strip_both space_char (sub_white false s)) width.
(** 507-552; the indentation is 2 *)
Definition format_action (width : Z) (help_position : nat) (e : entry) : res text :=
  let help_width := (width - Z.of_nat help_position)%Z in
  let action_width := (Z.of_nat help_position - 2 - 2)%Z in
  let action_header := format_action_invocation (item e) in
  match help e with
  | None | Some [] => Ok (repeat " "%char 2 ++ action_header ++ ["010"%char])
  | Some s =>
      let '(action_header, indent_first) :=
        if (len action_header <=? action_width)%Z
        then (repeat " "%char 2 ++ action_header ++ repeat " "%char (Z.to_nat (action_width - len action_header)) ++ chars "  ", 0)
        else (repeat " "%char 2 ++ action_header ++ ["010"%char], help_position) in
      help_text <- expand_help e s ;;
      match split_lines help_text help_width with
      | None => Err ValueError
      | Some [] => Err IndexError
      | Some (l0 :: ls) =>
          Ok (action_header ++ (repeat " "%char indent_first ++ l0 ++ ["010"%char])
                ++ concat (map (fun l => repeat " "%char help_position ++ l ++ ["010"%char]) ls))
      end
  end.
(** 233-256 for a group, 2214-2218 *)
Definition format_section (width : Z) (help_position : nat) (title : text) (actions : list entry) : res text :=
  items <- mapM (format_action width help_position) actions ;;
  match concat items with
  | [] => Ok []
  | item_help => Ok ("010"%char :: title ++ chars ":" ++ ["010"%char] ++ item_help ++ ["010"%char])
  end.
(** 502-505 and 651-652: nothing is changed *)
Definition format_text (s : option text) : text := match s with Some s => s ++ ["010"%char; "010"%char] | None => [] end.
(** 2203-2225 and 308-313; positional arguments come first, 1559-1560 *)
Definition format_help (to_int : text -> option Z) (columns : option text) (prog : text) (description epilog : option text) (actions : list entry) : res text :=
  let width := formatter_width to_int columns in
  let help_position := Nat.min (fold_left add_argument actions 0 + 2) 24 in
  match format_usage_item width prog (map item actions) (chars "usage: ") with
  | None => Err AssertionError
  | Some usage =>
      a <- format_section width help_position (chars "positional arguments") (filter (fun e => match spellings (arg (item e)) with [] => true | _ => false end) actions) ;;
      b <- format_section width help_position (chars "optional arguments") (filter (fun e => match spellings (arg (item e)) with [] => false | _ => true end) actions) ;;
      Ok (format_help_of (usage ++ format_text description ++ a ++ b ++ format_text epilog))
  end.
End Wrap.
