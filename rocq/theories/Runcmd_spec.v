(** How a command line is written, where a program is found, and what running a command returns.  Does not use the model. *)
From Coq Require Import String Ascii List Arith ZArith Bool.
From Verif Require Import Expect_spec.
Import ListNotations.
Open Scope string_scope.
Open Scope nat_scope.
Open Scope list_scope.

(** * Arguments on a command line *)
Definition backslash : ascii := ascii_of_nat 92.
Definition apostrophe : ascii := ascii_of_nat 39.
Definition quotation : ascii := ascii_of_nat 34.
(** blank, tab, line feed, vertical tab, form feed, carriage return *)
Definition space (c : ascii) : Prop := In (nat_of_ascii c) [32; 9; 10; 11; 12; 13].
(** A piece of an argument: a character that means itself; a character after a backslash; characters between apostrophes or quotation marks. *)
Inductive piece := Plain (c : ascii) | Escaped (c : ascii) | Single (s : text) | Double (s : text).
Definition fine (p : piece) : Prop :=
  match p with
  | Plain c => c <> backslash /\ c <> apostrophe /\ c <> quotation /\ ~ space c
  | Escaped _ => True
  | Single s => ~ In apostrophe s
  | Double s => ~ In quotation s
  end.
Definition written (p : piece) : text :=
  match p with
  | Plain c => [c] | Escaped c => [backslash; c]
  | Single s => apostrophe :: s ++ [apostrophe] | Double s => quotation :: s ++ [quotation]
  end.
Definition meant (p : piece) : text := match p with Plain c | Escaped c => [c] | Single s | Double s => s end.
Definition write (w : list piece) : text := concat (map written w).
Definition mean (w : list piece) : text := concat (map meant w).
(** A backslash, or a quotation that is not closed, at the end of the line. *)
Inductive open := Closed | OpenEscape | OpenSingle (s : text) | OpenDouble (s : text).
Definition open_fine (o : open) : Prop := match o with OpenSingle s => ~ In apostrophe s | OpenDouble s => ~ In quotation s | _ => True end.
Definition open_written (o : open) : text :=
  match o with Closed => [] | OpenEscape => [backslash] | OpenSingle s => apostrophe :: s | OpenDouble s => quotation :: s end.
Definition open_meant (o : open) : text := match o with OpenSingle s | OpenDouble s => s | _ => [] end.
(** A line: space, arguments followed by space, and the last argument, which may be nothing. *)
Record line := { lead : text; words : list (list piece * text); final : list piece; tail : open }.
Definition proper_line (l : line) : Prop :=
  Forall space (lead l) /\ Forall (fun w => fst w <> [] /\ Forall fine (fst w) /\ snd w <> [] /\ Forall space (snd w)) (words l) /\
  Forall fine (final l) /\ open_fine (tail l).
Definition write_line (l : line) : text :=
  lead l ++ concat (map (fun w => write (fst w) ++ snd w) (words l)) ++ write (final l) ++ open_written (tail l).
(** Its arguments.  (Space at the beginning counts as an empty argument; an empty last argument does not count.) *)
Definition arguments (l : line) : list text :=
  (match lead l with [] => [] | _ => [[]] end) ++ map (fun w => mean (fst w)) (words l) ++
  (match mean (final l) ++ open_meant (tail l) with [] => [] | m => [m] end).

(** * Programs *)
Definition slash : ascii := ascii_of_nat 47.
Definition colon : ascii := ascii_of_nat 58.
(** A name in a directory, as os.path.join() writes it. *)
Definition in_dir (d f : text) : text :=
  if ascii_dec (hd colon f) slash then f else if ascii_dec (List.last d slash) slash then d ++ f else d ++ slash :: f.
(** A search path: directories with colons between them. *)
Fixpoint with_colons (ds : list text) : text := match ds with [] => [] | [d] => d | d :: r => d ++ colon :: with_colons r end.
Definition dirs_of (ds : list text) (p : text) : Prop := ds <> [] /\ Forall (fun d => ~ In colon d) ds /\ p = with_colons ds.
(** The search path of the environment, or that of the system, given by its directories. *)
Definition search_path (env : option text) (ds : list text) : Prop :=
  match env with Some (c :: p) => dirs_of ds (c :: p) | _ => ds = [[]; slash :: list_ascii_of_string "bin"; slash :: list_ascii_of_string "usr/bin"] end.
(** The program for a name: itself, if it has a slash and can be executed; or else the first that can be executed in the directories. *)
Definition program (can_execute : text -> bool) (ds : list text) (f p : text) : Prop :=
  (In slash f /\ can_execute f = true /\ p = f) \/
  ((In slash f -> can_execute f = false) /\ can_execute p = true /\
   exists before_ d after_, ds = before_ ++ d :: after_ /\ p = in_dir d f /\ Forall (fun d' => can_execute (in_dir d' f) = false) before_).
Definition no_program (can_execute : text -> bool) (ds : list text) (f : text) : Prop :=
  (In slash f -> can_execute f = false) /\ Forall (fun d => can_execute (in_dir d f) = false) ds.

(** * Running a command *)
(** What the response to an event does: it sends something or not, it stops the run, or it is an error.  It may depend on everything. *)
Inductive reaction := Continue | Break | Bad.
Definition responses := nat -> nat -> spawn -> reaction.
(** A new child. *)
Definition new_spawn (tm : option Z) : spawn :=
  {| buffer := []; before := []; after := Unset; matched := Unset; match_index := None; timeout := tm; window := None |}.
(** Patterns that match something, and are neither EOF nor TIMEOUT. *)
Definition texts_only (ps : list pattern) : Prop := forall p, In p ps -> exists r, p = Re r /\ sane r.
Definition never_empty (ps : list pattern) : Prop := forall r b n e, In (Re r) ps -> r b 0 = Some (n, e) -> n < e.
(** The part of the output that is not returned: what came after the match at which a response stopped the run. *)
Definition unreturned (st : spawn) : text := match after st with TheText _ => buffer st | _ => [] end.
(** Every argument between apostrophes, or every character after a backslash, with blanks between the arguments. *)
Definition blank : ascii := ascii_of_nat 32.
Definition escaped (s : text) : text := flat_map (fun c => [backslash; c]) s.
Definition quoted (s : text) : text := apostrophe :: s ++ [apostrophe].
Fixpoint with_blanks (ss : list text) : text := match ss with [] => [] | [s] => s | s :: r => s ++ blank :: with_blanks r end.
(** A run as its events are answered: each event, with its number in the list and the number of events before, gets its response, and the output
    up to it is returned; the end of the output and the time-out end the run. *)
Definition shown (st : spawn) : text := match after st with TheText s => before st ++ s | _ => before st end.
Inductive runs (ps : list pattern) (respond : responses) : nat -> spawn -> Z -> list event -> text -> Prop :=
  | r_continue : forall n st now evs a rest i st' t out,
      answers ps (deadline (Some (-1)%Z) st now) (buffer st) now evs a rest -> seen ps st a (Index i) st' ->
      respond i n st' = Continue -> runs ps respond (S n) st' t rest out -> runs ps respond n st now evs (shown st' ++ out)
  | r_break : forall n st now evs a rest i st',
      answers ps (deadline (Some (-1)%Z) st now) (buffer st) now evs a rest -> seen ps st a (Index i) st' ->
      respond i n st' = Break -> runs ps respond n st now evs (shown st')
  | r_end : forall n st now evs a rest o st',
      answers ps (deadline (Some (-1)%Z) st now) (buffer st) now evs a rest -> seen ps st a o st' -> o = RaisesEof \/ o = RaisesTimeout ->
      runs ps respond n st now evs (before st').
