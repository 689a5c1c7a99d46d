(** Model of reading from a child process with lib/daeso/thirdparty/pexpect.py: spawn.expect_exact(), expect_list(), expect_loop(), read(),
    readline(), next() and readlines() (852-926, 1318-1420) and the classes searcher_string and searcher_re (1586-1766).
    Left out: compile_pattern_list() (a pattern is given as what re.search() does with it), the fields closed and terminated, the log files,
    the delay of 0.0001 s, str() of the objects and the messages of exceptions.  read_nonblocking() (775-850) is represented by the list of its
    outcomes; its argument for the time is left out: the outcome says whether it gave up. *)
From Coq Require Import Ascii.
From Verif Require Import Py Expect_spec.
Open Scope nat_scope.
Open Scope list_scope.

(** str.startswith *)
Fixpoint starts (b s : text) {struct s} : bool :=
  match s, b with [], _ => true | c :: s', d :: b' => (if ascii_dec c d then true else false) && starts b' s' | _ :: _, [] => false end.
(** str.find(s) *)
Fixpoint find (b s : text) : option nat :=
  if starts b s then Some 0 else match b with [] => None | _ :: b' => option_map S (find b' s) end.
(** str.find(s, offset): a negative offset counts from the end, and is 0 if that is before the beginning *)
Definition find_from (b s : text) (offset : Z) : option nat :=
  let start := if (offset <? 0)%Z then Z.to_nat (Z.max 0 (Z.of_nat (length b) + offset)) else Z.to_nat offset in
  if start <=? length b then option_map (Nat.add start) (find (skipn start b) s) else None.

(** searcher_string.__init__ and searcher_re.__init__, 1604-1620, 1704-1721: the patterns with their numbers; the last EOF and TIMEOUT *)
Fixpoint strings_from (n : nat) (ps : list pattern) : list (nat * text) :=
  match ps with [] => [] | Str s :: r => (n, s) :: strings_from (S n) r | _ :: r => strings_from (S n) r end.
Fixpoint searches_from (n : nat) (ps : list pattern) : list (nat * regex) :=
  match ps with [] => [] | Re r :: l => (n, r) :: searches_from (S n) l | _ :: l => searches_from (S n) l end.
Fixpoint eof_from (n : nat) (i : option nat) (ps : list pattern) : option nat :=
  match ps with [] => i | AtEof :: r => eof_from (S n) (Some n) r | _ :: r => eof_from (S n) i r end.
Fixpoint timeout_from (n : nat) (i : option nat) (ps : list pattern) : option nat :=
  match ps with [] => i | AtTimeout :: r => timeout_from (S n) (Some n) r | _ :: r => timeout_from (S n) i r end.

(** searcher_string.search, 1635-1680: the best string so far and its place; the number, start and end of a match *)
Definition string_step (b : text) (freshlen : nat) (w : option nat) (acc : nat * option (nat * nat)) (x : nat * text) : nat * option (nat * nat) :=
  let (i, s) := x in
  let offset := match w with None => (- Z.of_nat (freshlen + length s))%Z | Some k => (- Z.of_nat k)%Z end in
  match find_from b s offset with
  | Some n => if n <? fst acc then (n, Some (i, n + length s)) else acc
  | None => acc
  end.
Definition search_strings (ps : list pattern) (b : text) (freshlen : nat) (w : option nat) : option (nat * nat * nat) :=
  match fold_left (string_step b freshlen w) (strings_from 0 ps) (length b, None) with
  | (_, None) => None
  | (n, Some (i, e)) => if n =? length b then None else Some (i, n, e)
  end.
(** searcher_re.search, 1733-1766 *)
Definition regex_step (b : text) (w : option nat) (acc : nat * option (nat * nat)) (x : nat * regex) : nat * option (nat * nat) :=
  let (i, r) := x in
  let searchstart := match w with None => 0 | Some k => length b - k end in
  match r b searchstart with
  | Some (n, e) => if n <? fst acc then (n, Some (i, e)) else acc
  | None => acc
  end.
Definition search_regexes (ps : list pattern) (b : text) (_ : nat) (w : option nat) : option (nat * nat * nat) :=
  match fold_left (regex_step b w) (searches_from 0 ps) (length b, None) with
  | (_, None) => None
  | (n, Some (i, e)) => if n =? length b then None else Some (i, n, e)
  end.

(** 1367-1386: the loop. [late]: the remaining time is negative.  With it, the time and what is left to be read. *)
Fixpoint loop (search : text -> nat -> option nat -> option (nat * nat * nat)) (w : option nat) (end_time : option Z)
              (incoming : text) (freshlen : nat) (now : Z) (evs : list event) : answer * Z * list event :=
  match search incoming freshlen w with
  | Some (i, n, e) => (Found i n e incoming, now, evs)
  | None =>
      if match end_time with Some d => (d - now <? 0)%Z | None => false end then (TimedOut incoming, now, evs)
      else match evs with
           | [] => (Waiting incoming, now, [])
           | Chunk c t :: r => loop search w end_time (incoming ++ c) (length c) t r
           | Eof t :: _ => (Ended incoming, t, evs)
           | NoData t :: r => (TimedOut incoming, t, r)
           | Failure t :: r => (Failed incoming, t, r)
           end
  end.
(** 1371-1420: what is stored and returned *)
Definition store (st : spawn) (b bf : text) (af m : found) (i : option nat) : spawn :=
  {| buffer := b; before := bf; after := af; matched := m; match_index := i; timeout := timeout st; window := window st |}.
Definition finish (ps : list pattern) (st : spawn) (a : answer) : outcome * spawn :=
  match a with
  | Found i n e b => (Index i, store st (skipn e b) (firstn n b) (TheText (firstn (e - n) (skipn n b))) (TheText (firstn (e - n) (skipn n b))) (Some i))
  | Ended b => match eof_from 0 None ps with
               | Some i => (Index i, store st [] b TheEof TheEof (Some i))
               | None => (RaisesEof, store st [] b TheEof Unset None)
               end
  | TimedOut b => match timeout_from 0 None ps with
                  | Some i => (Index i, store st b b TheTimeout TheTimeout (Some i))
                  | None => (RaisesTimeout, store st b b TheTimeout Unset None)
                  end
  | Failed b => (RaisesOther, store st (buffer st) b Unset Unset None)
  | Waiting _ => (Waits, st)
  end.
(** 1358-1368: -1 stands for the value of the object.  [tm] is the argument timeout, [sw] the argument searchwindowsize (None: -1). *)
Definition expect_loop (search : list pattern -> text -> nat -> option nat -> option (nat * nat * nat)) (ps : list pattern) (tm : option Z) (sw : option (option nat))
                       (st : spawn) (now : Z) (evs : list event) : outcome * spawn * Z * list event :=
  let limit := match tm with Some z => if (z =? -1)%Z then timeout st else tm | None => None end in
  let w := match sw with Some x => x | None => window st end in
  let '(a, t, rest) := loop (search ps) w (option_map (Z.add now) limit) (buffer st) (length (buffer st)) now evs in
  let (o, st') := finish ps st a in (o, st', t, rest).
(** expect_exact, 1332-1348 *)
Definition expect_exact := expect_loop search_strings.
(** expect and expect_list, 1238-1330 *)
Definition expect := expect_loop search_regexes.

(** the regular expressions of read() and readline(): '.{n}' with DOTALL, and '\r\n' *)
Definition dots (k : nat) : regex := fun b i => if i + k <=? length b then Some (i, i + k) else None.
Definition literal (s : text) : regex := fun b i => match find_from b s (Z.of_nat i) with Some n => Some (n, n + length s) | None => None end.

(** A string that is returned, or an exception, or waiting. *)
Inductive result (A : Type) := Value (v : A) | Stopped (o : outcome).
Arguments Value {A} v.
Arguments Stopped {A} o.
(** read, 852-877 *)
Definition read (size : Z) (st : spawn) (now : Z) (evs : list event) : result text * spawn * Z * list event :=
  if (size =? 0)%Z then (Value [], st, now, evs)
  else if (size <? 0)%Z then
    let '(o, st', t, rest) := expect [AtEof] (Some (-1)%Z) None st now evs in
    (match o with Index _ => Value (before st') | _ => Stopped o end, st', t, rest)
  else
    let '(o, st', t, rest) := expect [Re (dots (Z.to_nat size)); AtEof] (Some (-1)%Z) None st now evs in
    (match o with
     | Index 0 => match after st' with TheText s => Value s | _ => Stopped o end
     | Index _ => Value (before st')
     | _ => Stopped o
     end, st', t, rest).
(** readline, 879-896 *)
Definition readline (size : Z) (st : spawn) (now : Z) (evs : list event) : result text * spawn * Z * list event :=
  if (size =? 0)%Z then (Value [], st, now, evs)
  else
    let '(o, st', t, rest) := expect [Re (literal crlf); AtEof] (Some (-1)%Z) None st now evs in
    (match o with
     | Index 0 => Value (before st' ++ crlf)
     | Index _ => Value (before st')
     | _ => Stopped o
     end, st', t, rest).
(** readlines, 912-926, with the number of lines that may be read; None: too few *)
Fixpoint readlines (fuel : nat) (lines : list text) (st : spawn) (now : Z) (evs : list event) : option (result (list text) * spawn * Z * list event) :=
  match fuel with
  | 0 => None
  | S fuel' =>
      let '(r, st', t, rest) := readline (-1) st now evs in
      match r with
      | Value [] => Some (Value lines, st', t, rest)
      | Value l => readlines fuel' (lines ++ [l]) st' t rest
      | Stopped o => Some (Stopped o, st', t, rest)
      end
  end.
