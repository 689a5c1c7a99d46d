(** What it means to wait for something in the output of a program that arrives in pieces.  Does not use the model. *)
From Coq Require Import Ascii List Arith ZArith Bool.
Import ListNotations.
Open Scope nat_scope.

Definition text := list ascii.
(** A regular expression, by what re.search() finds in a text from an index on: where the match begins and where it ends. *)
Definition regex := text -> nat -> option (nat * nat).
Inductive pattern := Str (s : text) | Re (r : regex) | AtEof | AtTimeout.

(** [s] is in [b] at index [n]. *)
Definition occurs (s b : text) (n : nat) : Prop := exists u v, b = u ++ s ++ v /\ length u = n.
Definition matches (p : pattern) (b : text) (n e : nat) : Prop :=
  match p with
  | Str s => occurs s b n /\ e = n + length s
  | Re r => r b 0 = Some (n, e)
  | _ => False
  end.
(** Pattern number [i] is the one found in the text [b], from [n] to [e]: the first match in the text, and of those that begin there
    the leftmost in the list.  (An empty match at the very end of the text does not count.) *)
Definition chosen (ps : list pattern) (b : text) (i n e : nat) : Prop :=
  (exists p, nth_error ps i = Some p /\ matches p b n e) /\ n < length b /\
  forall j q m f, nth_error ps j = Some q -> matches q b m f -> m < length b -> n < m \/ n = m /\ i <= j.
Definition nothing (ps : list pattern) (b : text) : Prop :=
  forall j q m f, nth_error ps j = Some q -> matches q b m f -> length b <= m.

(** What reading from the program can give, with the time afterwards: some output, the end of the output (for ever), no output in time, an error.
    A list that is used up means that the program is silent and the caller is waiting. *)
Inductive event := Chunk (c : text) (t : Z) | Eof (t : Z) | NoData (t : Z) | Failure (t : Z).
Fixpoint data (evs : list event) : text := match evs with Chunk c _ :: r => c ++ data r | _ => [] end.
Definition too_late (deadline : option Z) (t : Z) : bool := match deadline with Some d => (d <? t)%Z | None => false end.

Inductive answer :=
  | Found (i n e : nat) (b : text)
  | Ended (b : text) | TimedOut (b : text) | Failed (b : text)
  | Waiting (b : text).
(** What the one who waits is told, after how much of the output, searching everything every time: [b] has been read before. *)
Inductive answers (ps : list pattern) (deadline : option Z) : text -> Z -> list event -> answer -> list event -> Prop :=
  | a_found : forall b t evs i n e, chosen ps b i n e -> answers ps deadline b t evs (Found i n e b) evs
  | a_late : forall b t evs, nothing ps b -> too_late deadline t = true -> answers ps deadline b t evs (TimedOut b) evs
  | a_more : forall b t c u evs a rest, nothing ps b -> too_late deadline t = false ->
      answers ps deadline (b ++ c) u evs a rest -> answers ps deadline b t (Chunk c u :: evs) a rest
  | a_eof : forall b t u evs, nothing ps b -> too_late deadline t = false -> answers ps deadline b t (Eof u :: evs) (Ended b) (Eof u :: evs)
  | a_silent : forall b t u evs, nothing ps b -> too_late deadline t = false -> answers ps deadline b t (NoData u :: evs) (TimedOut b) evs
  | a_error : forall b t u evs, nothing ps b -> too_late deadline t = false -> answers ps deadline b t (Failure u :: evs) (Failed b) evs
  | a_wait : forall b t, nothing ps b -> too_late deadline t = false -> answers ps deadline b t [] (Waiting b) [].

(** The last place of EOF or TIMEOUT in the list. *)
Definition last_of (p : pattern) (ps : list pattern) (i : nat) : Prop :=
  nth_error ps i = Some p /\ forall j, nth_error ps j = Some p -> j <= i.

(** The attributes of a spawn object that waiting reads or writes. *)
Inductive found := Unset | TheText (s : text) | TheEof | TheTimeout.
Record spawn := { buffer : text; before : text; after : found; matched : found; match_index : option nat;
                  timeout : option Z; window : option nat }.
Inductive outcome := Index (i : nat) | RaisesEof | RaisesTimeout | RaisesOther | Waits.
Definition part (b : text) (n e : nat) : text := firstn (e - n) (skipn n b).
(** What can be seen of an answer: the value or exception, and the attributes. *)
Definition seen (ps : list pattern) (st : spawn) (a : answer) (o : outcome) (st' : spawn) : Prop :=
  timeout st' = timeout st /\ window st' = window st /\
  match a with
  | Found i n e b => o = Index i /\ buffer st' = skipn e b /\ before st' = firstn n b /\ after st' = TheText (part b n e) /\
                     matched st' = TheText (part b n e) /\ match_index st' = Some i
  | Ended b => buffer st' = [] /\ before st' = b /\ after st' = TheEof /\
      ((exists i, last_of AtEof ps i /\ o = Index i /\ matched st' = TheEof /\ match_index st' = Some i) \/
       (~ In AtEof ps /\ o = RaisesEof /\ matched st' = Unset /\ match_index st' = None))
  | TimedOut b => buffer st' = b /\ before st' = b /\ after st' = TheTimeout /\
      ((exists i, last_of AtTimeout ps i /\ o = Index i /\ matched st' = TheTimeout /\ match_index st' = Some i) \/
       (~ In AtTimeout ps /\ o = RaisesTimeout /\ matched st' = Unset /\ match_index st' = None))
  | Failed b => o = RaisesOther /\ buffer st' = buffer st /\ before st' = b /\ after st' = Unset /\ matched st' = Unset /\ match_index st' = None
  | Waiting _ => o = Waits
  end.

(** Lists of strings or of regular expressions, with EOF and TIMEOUT. *)
Definition stringy (ps : list pattern) : Prop := forall r, ~ In (Re r) ps.
Definition regexy (ps : list pattern) : Prop := forall s, ~ In (Str s) ps.
(** A regular expression finds a match from the index on, inside the text. *)
Definition sane (r : regex) : Prop := forall b k n e, r b k = Some (n, e) -> k <= n <= e /\ e <= length b.
(** No search string is inside another one. *)
Definition apart (ps : list pattern) : Prop := forall s t n, In (Str s) ps -> In (Str t) ps -> occurs s t n -> s = t.

(** The attributes after a match, and the output that was read but not returned: what later calls will see. *)
Definition to_come (st : spawn) (evs : list event) : text := buffer st ++ data evs.
(** Output that arrives in these pieces at these times, and then ends. *)
Definition pieces (cs : list (text * Z)) : list event := map (fun x => Chunk (fst x) (snd x)) cs.
Definition arrives (cs : list (text * Z)) (u : Z) : list event := pieces cs ++ [Eof u].
Definition output (cs : list (text * Z)) : text := concat (map fst cs).
(** The reading never lasts too long: there is no timeout, or every piece comes before it. *)
Definition prompt (limit : option Z) (now : Z) (evs : list event) : Prop :=
  match limit with
  | None => True
  | Some d => (0 <= d)%Z /\ forall c t, In (Chunk c t) evs -> (now <= t <= now + d)%Z
  end.

(** The lines of a terminal: each ends with a carriage return and a line feed, the last one perhaps not. *)
Definition crlf : text := [ascii_of_nat 13; ascii_of_nat 10].
Definition full_line (l : text) : Prop := exists u, l = u ++ crlf /\ forall n, occurs crlf l n -> n = length u.
Definition loose_line (l : text) : Prop := l <> [] /\ forall n, ~ occurs crlf l n.
Definition lines_of (ls : list text) (b : text) : Prop :=
  concat ls = b /\ exists full last, ls = full ++ last /\ Forall full_line full /\ (last = [] \/ exists l, last = [l] /\ loose_line l).

(** The argument timeout: -1 stands for the attribute of the object. *)
Definition limit (tm : option Z) (st : spawn) : option Z :=
  match tm with Some z => if (z =? -1)%Z then timeout st else Some z | None => None end.
Definition deadline (tm : option Z) (st : spawn) (now : Z) : option Z := option_map (fun d => now + d)%Z (limit tm st).

(** Every byte that was read is in one of the attributes, in order; after an error of another kind only in [before]. *)
Definition kept_whole (st st' : spawn) (evs rest : list event) : Prop :=
  exists cs more, evs = pieces cs ++ more /\ (rest = more \/ exists u, more = NoData u :: rest \/ more = Failure u :: rest) /\
    match after st' with
    | TheText s => before st' ++ s ++ buffer st' = buffer st ++ output cs
    | TheEof => before st' = buffer st ++ output cs /\ buffer st' = []
    | TheTimeout => before st' = buffer st ++ output cs /\ buffer st' = buffer st ++ output cs
    | Unset => before st' = buffer st ++ output cs /\ buffer st' = buffer st
    end.

(** What is returned when all the output is there at once, and what later calls will see. *)
Definition whole_answer (ps : list pattern) (st : spawn) (all : text) (o : outcome) (st' : spawn) (rest : list event) : Prop :=
  (exists i n e, chosen ps all i n e /\ o = Index i /\ before st' = firstn n all /\ after st' = TheText (part all n e) /\
     matched st' = TheText (part all n e) /\ match_index st' = Some i /\ to_come st' rest = skipn e all) \/
  (nothing ps all /\ seen ps st (Ended all) o st' /\ data rest = []).
