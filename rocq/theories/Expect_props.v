(** C70: waiting for output of a child process. *)
From Coq Require Import Ascii Lia.
From Verif Require Import Py Expect_spec Expect_model Expect_proof Expect_proof2 Expect_proof3 Expect_proof4.
Open Scope nat_scope.
Open Scope list_scope.

(** expect_exact() searches only what is new, and answers as if it searched everything each time. *)
Theorem expect_exact_answers : forall ps tm sw st now evs o st' t rest,
  stringy ps -> (match sw with Some x => x | None => window st end) = None ->
  expect_exact ps tm sw st now evs = (o, st', t, rest) ->
  exists a, answers ps (deadline tm st now) (buffer st) now evs a rest /\ seen ps st a o st'.
Proof. exact expect_exact_answers_l. Qed.
Theorem expect_answers : forall ps tm sw st now evs o st' t rest,
  regexy ps -> (match sw with Some x => x | None => window st end) = None ->
  expect ps tm sw st now evs = (o, st', t, rest) ->
  exists a, answers ps (deadline tm st now) (buffer st) now evs a rest /\ seen ps st a o st'.
Proof. exact expect_answers_l. Qed.
Theorem answers_are_unique : forall ps dl b t evs a rest a' rest',
  answers ps dl b t evs a rest -> answers ps dl b t evs a' rest' -> a = a' /\ rest = rest'.
Proof. intros ps dl b t evs a rest a' rest' H H'. exact (answers_fun _ _ _ _ _ _ _ H _ _ H'). Qed.

(** A search window as long as the longest string and the longest piece together changes nothing. *)
Theorem wide_window_is_harmless : forall ps tm sw st now evs o st' t rest w,
  stringy ps -> (match sw with Some x => x | None => window st end) = Some w -> length (buffer st) <= w ->
  (forall s c u, In (Str s) ps -> In (Chunk c u) evs -> length s + length c <= w) ->
  expect_exact ps tm sw st now evs = (o, st', t, rest) ->
  exists a, answers ps (deadline tm st now) (buffer st) now evs a rest /\ seen ps st a o st'.
Proof. exact window_answers_l. Qed.

(** Whatever happens, and with any window, every byte read is in before, after and buffer, in order. *)
Theorem nothing_is_lost : forall ps tm sw st now evs o st' t rest,
  expect_exact ps tm sw st now evs = (o, st', t, rest) -> o <> Waits -> kept_whole st st' evs rest.
Proof.
  intros ps tm sw st now evs o st' t rest E. refine (loop_keeps _ _ _ _ _ _ _ _ _ _ _ _ E). intros b fr i n e. apply search_strings_order.
Qed.
Theorem nothing_is_lost_with_regular_expressions : forall ps tm sw st now evs o st' t rest, (forall r, In (Re r) ps -> sane r) ->
  expect ps tm sw st now evs = (o, st', t, rest) -> o <> Waits -> kept_whole st st' evs rest.
Proof.
  intros ps tm sw st now evs o st' t rest Sn E. refine (loop_keeps _ _ _ _ _ _ _ _ _ _ _ _ E). intros b fr i n e. apply search_regexes_order. exact Sn.
Qed.

(** If no string is inside another one, it does not matter in which pieces and when the output comes. *)
Theorem as_if_all_at_once : forall ps tm sw st now cs u o st' t rest,
  stringy ps -> apart ps -> (match sw with Some x => x | None => window st end) = None -> prompt (limit tm st) now (arrives cs u) ->
  expect_exact ps tm sw st now (arrives cs u) = (o, st', t, rest) -> whole_answer ps st (buffer st ++ output cs) o st' rest.
Proof.
  intros ps tm sw st now cs u o st' t rest St Ap W P E. destruct (expect_exact_answers_l _ _ _ _ _ _ _ _ _ _ St W E) as (a & A & Sn).
  exact (answers_whole _ _ _ _ _ _ _ _ _ _ St Ap P A Sn).
Qed.
Theorem pieces_do_not_matter : forall ps tm sw st now1 now2 cs1 cs2 u1 u2 o1 o2 s1 s2 t1 t2 r1 r2,
  stringy ps -> apart ps -> (match sw with Some x => x | None => window st end) = None ->
  prompt (limit tm st) now1 (arrives cs1 u1) -> prompt (limit tm st) now2 (arrives cs2 u2) -> output cs1 = output cs2 ->
  expect_exact ps tm sw st now1 (arrives cs1 u1) = (o1, s1, t1, r1) -> expect_exact ps tm sw st now2 (arrives cs2 u2) = (o2, s2, t2, r2) ->
  o1 = o2 /\ before s1 = before s2 /\ after s1 = after s2 /\ matched s1 = matched s2 /\ match_index s1 = match_index s2 /\ to_come s1 r1 = to_come s2 r2.
Proof.
  intros ps tm sw st now1 now2 cs1 cs2 u1 u2 o1 o2 s1 s2 t1 t2 r1 r2 St Ap W P1 P2 Q E1 E2.
  assert (A := as_if_all_at_once _ _ _ _ _ _ _ _ _ _ _ St Ap W P1 E1). assert (B := as_if_all_at_once _ _ _ _ _ _ _ _ _ _ _ St Ap W P2 E2).
  rewrite Q in A. exact (whole_answer_unique _ _ _ _ _ _ _ _ _ A B).
Qed.

(** Reading as from a file, in any pieces. *)
Theorem read_returns_the_next_bytes : forall size st now cs u, (0 < size)%Z -> window st = None -> prompt (timeout st) now (arrives cs u) ->
  exists st' t rest, read size st now (arrives cs u) = (Value (firstn (Z.to_nat size) (buffer st ++ output cs)), st', t, rest) /\
    to_come st' rest = skipn (Z.to_nat size) (buffer st ++ output cs).
Proof. intros size st now cs u Sz W P. exact (read_some size st now cs u Sz W (prompt_within _ _ _ _ P)). Qed.
Theorem read_returns_everything : forall size st now cs u, (size < 0)%Z -> window st = None -> prompt (timeout st) now (arrives cs u) ->
  exists st' t rest, read size st now (arrives cs u) = (Value (buffer st ++ output cs), st', t, rest) /\ to_come st' rest = [].
Proof. intros size st now cs u Sz W P. exact (read_all_l size st now cs u Sz W (prompt_within _ _ _ _ P)). Qed.
Theorem readline_returns_the_next_line : forall size st now cs u, size <> 0%Z -> window st = None -> prompt (timeout st) now (arrives cs u) ->
  exists l st' t rest, readline size st now (arrives cs u) = (Value l, st', t, rest) /\ l ++ to_come st' rest = buffer st ++ output cs /\
    (full_line l \/ (forall n, ~ occurs crlf l n) /\ to_come st' rest = []).
Proof.
  intros size st now cs u Sz W P. destruct (readline_one size st now cs u Sz W (prompt_within _ _ _ _ P)) as (l & st' & t & c2 & E & _ & _ & _ & A & B).
  exists l, st', t, (arrives c2 u). unfold to_come. rewrite data_arrives. auto.
Qed.
Theorem readlines_returns_the_lines : forall fuel st now cs u, length (buffer st ++ output cs) < fuel -> window st = None ->
  prompt (timeout st) now (arrives cs u) ->
  exists ls st' t rest, readlines fuel [] st now (arrives cs u) = Some (Value ls, st', t, rest) /\ lines_of ls (buffer st ++ output cs) /\ to_come st' rest = [].
Proof. intros fuel st now cs u F W P. exact (readlines_l _ fuel [] st now cs u (le_n _) F W (prompt_within _ _ _ _ P)). Qed.
Theorem lines_are_unique : forall b ls ms, lines_of ls b -> lines_of ms b -> ls = ms.
Proof. exact lines_unique_l. Qed.

(** The hypotheses hold of a session with two prompts, and what happens. *)
From Coq Require Import String.
Definition tx (s : string) : text := list_ascii_of_string s.
Arguments tx s%string.
Definition fresh_spawn : spawn :=
  {| buffer := []; before := []; after := Unset; matched := Unset; match_index := None; timeout := Some 30%Z; window := None |}.
Definition login : list pattern := [Str (tx "password: "); Str (tx "$ "); AtEof; AtTimeout].
Definition session : list (text * Z) := [(tx "hello pass", 1%Z); (tx "word", 2%Z); (tx ": x$ ", 3%Z)].
Example login_is_proper : stringy login /\ apart login /\ prompt (limit (Some (-1)%Z) fresh_spawn) 0 (arrives session 4).
Proof.
  split; [intros r [H|[H|[H|[H|[]]]]]; discriminate|]. split.
  - intros s t n [Hs|[Hs|[Hs|[Hs|[]]]]] [Ht|[Ht|[Ht|[Ht|[]]]]] O; try discriminate; injection Hs as <-; injection Ht as <-; try reflexivity; exfalso;
      assert (L := occurs_length _ _ _ O); cbn in L; [lia|]. clear L. destruct O as (u & v & E & _).
    match type of E with ?b = _ => assert (I : In "$"%char b) by (rewrite E; apply in_or_app; right; left; reflexivity) end.
    cbn in I. intuition discriminate.
  - split; [cbn; lia|]. intros c t [H|[H|[H|[H|[]]]]]; inversion H; subst; cbn; lia.
Qed.
Example login_session : exists st' rest, expect_exact login (Some (-1)%Z) None fresh_spawn 0 (arrives session 4) = (Index 0, st', 3%Z, rest) /\
  before st' = tx "hello " /\ after st' = TheText (tx "password: ") /\ buffer st' = tx "x$ " /\ rest = [Eof 4].
Proof. eexists _, _. split; [reflexivity|]. repeat split. Qed.
Example two_lines : exists st' t rest, readlines 20 [] fresh_spawn 0 (arrives [(tx "ab" ++ [ascii_of_nat 13], 1%Z); ([ascii_of_nat 10] ++ tx "c", 2%Z)] 3) =
  Some (Value [tx "ab" ++ crlf; tx "c"], st', t, rest).
Proof. eexists _, _, _. reflexivity. Qed.

(** Why the hypotheses are needed.  A string inside another one: the answer depends on the pieces. *)
Definition outcome_of {A B C D} (x : A * B * C * D) : A := fst (fst (fst x)).
Definition spawn_of {A B C D} (x : A * B * C * D) : B := snd (fst (fst x)).
Definition contained : list pattern := [Str (tx "abcd"); Str (tx "bc")].
Theorem pieces_matter_for_contained_strings :
  outcome_of (expect_exact contained None None fresh_spawn 0 (arrives [(tx "abcd", 1%Z)] 2)) = Index 0 /\
  outcome_of (expect_exact contained None None fresh_spawn 0 (arrives [(tx "abc", 1%Z); (tx "d", 1%Z)] 2)) = Index 1.
Proof. split; reflexivity. Qed.
(** A window that is too small hides a string; a window of 0 hides nothing from expect_exact(). *)
Theorem small_window_hides :
  outcome_of (expect_exact [Str (tx "ab")] None (Some (Some 3)) fresh_spawn 0 (arrives [(tx "abcd", 1%Z)] 2)) = RaisesEof /\
  outcome_of (expect_exact [Str (tx "ab")] None (Some (Some 0)) fresh_spawn 0 (arrives [(tx "abcd", 1%Z)] 2)) = Index 0.
Proof. split; reflexivity. Qed.
(** With a window, read(3) does not return the first three bytes, and drops the first one. *)
Definition narrow : spawn := {| buffer := []; before := []; after := Unset; matched := Unset; match_index := None; timeout := None; window := Some 4 |}.
Theorem read_with_a_window_drops_bytes :
  outcome_of (read 3 narrow 0 (arrives [(tx "abcde", 1%Z)] 2)) = Value (tx "bcd") /\ buffer (spawn_of (read 3 narrow 0 (arrives [(tx "abcde", 1%Z)] 2))) = tx "e".
Proof. split; reflexivity. Qed.
(** After another exception, such as an error of select(), the next call does not see what was read. *)
Theorem error_forgets_what_was_read :
  let r := expect_exact [Str (tx "abcd")] None None fresh_spawn 0 [Chunk (tx "ab") 1; Failure 2; Chunk (tx "cd") 3; Eof 4] in
  outcome_of r = RaisesOther /\ to_come (spawn_of r) (snd r) = tx "cd" /\
  outcome_of (expect_exact [Str (tx "abcd")] None None (spawn_of r) 2 (snd r)) = RaisesEof.
Proof. split; [|split]; reflexivity. Qed.

Print Assumptions expect_exact_answers.
Print Assumptions expect_answers.
Print Assumptions answers_are_unique.
Print Assumptions wide_window_is_harmless.
Print Assumptions nothing_is_lost.
Print Assumptions nothing_is_lost_with_regular_expressions.
Print Assumptions as_if_all_at_once.
Print Assumptions pieces_do_not_matter.
Print Assumptions read_returns_the_next_bytes.
Print Assumptions read_returns_everything.
Print Assumptions readline_returns_the_next_line.
Print Assumptions readlines_returns_the_lines.
Print Assumptions lines_are_unique.
Print Assumptions pieces_matter_for_contained_strings.
Print Assumptions small_window_hides.
Print Assumptions read_with_a_window_drops_bytes.
Print Assumptions error_forgets_what_was_read.
