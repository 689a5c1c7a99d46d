(** C71: running a command. *)
From Coq Require Import String Ascii Lia.
From Verif Require Import Py Expect_spec Expect_model Expect_proof4 Runcmd_spec Runcmd_model Runcmd_proof Runcmd_proof2.
Open Scope string_scope.
Open Scope nat_scope.
Open Scope list_scope.

(** Any string is a way to write some arguments, and they are what it is split into. *)
Theorem command_line_is_split : forall l, proper_line l -> split_command_line (write_line l) = arguments l.
Proof. exact split_reads. Qed.
Theorem every_command_line_can_be_read : forall s, exists l, proper_line l /\ write_line l = s.
Proof. exact every_line. Qed.
Lemma concat_blanks : forall (f : text -> text) ss s, with_blanks (map f (ss ++ [s])) = concat (map (fun x => f x ++ [blank]) ss) ++ f s.
Proof.
  intros f. induction ss as [|x ss IH]; intros s; [reflexivity|]. cbn [app map concat]. rewrite <- app_assoc, <- IH. destruct (ss ++ [s]) eqn:E; [destruct ss; discriminate|].
  cbn [map]. rewrite <- app_assoc. reflexivity.
Qed.
Lemma space_blank : Forall space [blank].
Proof. constructor; [left; reflexivity|constructor]. Qed.
Lemma split_written : forall (f : text -> text) (g : text -> list piece) ss, (forall s, In s ss -> g s <> [] /\ Forall fine (g s) /\ write (g s) = f s /\ mean (g s) = s) ->
  (forall s, In s ss -> s <> []) -> split_command_line (with_blanks (map f ss)) = ss.
Proof.
  intros f g ss H Ne. destruct ss as [|s ss _] using rev_ind; [reflexivity|]. rewrite concat_blanks.
  set (l := {| lead := []; words := map (fun x => (g x, [blank])) ss; final := g s; tail := Closed |}).
  assert (Hs : forall x, In x ss -> In x (ss ++ [s])) by (intros; apply in_or_app; auto).
  assert (Hl : In s (ss ++ [s])) by (apply in_or_app; right; left; reflexivity).
  assert (P : proper_line l).
  { split; [constructor|]. split; [|split; [apply (H s Hl)|exact I]]. apply Forall_forall. intros w Hw. apply in_map_iff in Hw as (x & <- & Hx). cbn.
    destruct (H x (Hs x Hx)) as (A & B & _). split; [exact A|]. split; [exact B|]. split; [discriminate|apply space_blank]. }
  assert (W : write_line l = concat (map (fun x => f x ++ [blank]) ss) ++ f s).
  { unfold write_line, l. cbn [lead words final tail open_written app]. rewrite app_nil_r, map_map. cbn [fst snd]. f_equal; [|apply (H s Hl)].
    f_equal. apply map_ext_in. intros x Hx. destruct (H x (Hs x Hx)) as (_ & _ & -> & _). reflexivity. }
  rewrite <- W, split_reads by exact P. unfold arguments, l. cbn [lead words final tail open_meant app]. rewrite app_nil_r.
  destruct (H s Hl) as (_ & _ & _ & ->). rewrite map_map. cbn [fst]. assert (N := Ne s Hl). destruct s as [|c s]; [contradiction|]. f_equal.
  rewrite <- (map_id ss) at 2. apply map_ext_in. intros x Hx. apply (H x (Hs x Hx)).
Qed.
(** Arguments survive being quoted and joined with blanks. *)
Theorem escaped_arguments_come_back : forall ss, (forall s, In s ss -> s <> []) -> split_command_line (with_blanks (map escaped ss)) = ss.
Proof.
  intros ss Ne. apply (split_written escaped (map Escaped)); [|exact Ne]. intros s Hs. split; [assert (N := Ne s Hs); destruct s; [contradiction|discriminate]|].
  split; [apply Forall_forall; intros p Hp; apply in_map_iff in Hp as (c & <- & _); exact I|]. clear Hs. unfold write, mean, escaped. split.
  - rewrite map_map, flat_map_concat_map. reflexivity.
  - induction s as [|c s IH]; [reflexivity|]. cbn in *. rewrite IH. reflexivity.
Qed.
Theorem quoted_arguments_come_back : forall ss, (forall s, In s ss -> s <> [] /\ ~ In apostrophe s) -> split_command_line (with_blanks (map quoted ss)) = ss.
Proof.
  intros ss H. apply (split_written quoted (fun s => [Single s])); [|intros s Hs; apply H; exact Hs]. intros s Hs. split; [discriminate|].
  split; [constructor; [apply H; exact Hs|constructor]|]. unfold write, mean, quoted. cbn [map concat written meant]. rewrite !app_nil_r. auto.
Qed.

(** The program that is found. *)
Theorem which_finds_the_program : forall access env ds f, search_path env ds ->
  match which access env f with Some p => program access ds f p | None => no_program access ds f end.
Proof. exact which_spec. Qed.
Theorem every_path_has_directories : forall p, exists ds, dirs_of ds p /\ forall es, dirs_of es p -> es = ds.
Proof.
  intros p. exists (split_colon p). split; [apply split_colon_spec|]. intros es (N & F & E). destruct (split_colon_spec p) as (N' & F' & E').
  apply with_colons_inj; auto. congruence.
Qed.
(** What the child is started with. *)
Theorem child_arguments : forall access env ds command args c r l, search_path env ds -> proper_line l -> write_line l = command ->
  (args = [] /\ arguments l = c :: r \/ args <> [] /\ c = command /\ r = args) ->
  match spawn_args access env command args with Some a => exists p, a = p :: r /\ program access ds c p | None => no_program access ds c end.
Proof.
  intros access env ds command args c r l S P E H. unfold spawn_args.
  assert (Q : match args with [] => split_command_line command | _ => command :: args end = c :: r).
  { destruct H as [[-> A]|(N & -> & ->)]; [rewrite <- E, split_reads by exact P; exact A|]. destruct args; [contradiction|reflexivity]. }
  rewrite Q. assert (W := which_spec access env ds c S). destruct (which access env c) as [p|]; cbn [option_map]; [exists p; auto|exact W].
Qed.

(** run() returns what the child wrote, each byte once. *)
Theorem run_returns_the_output : forall fuel ps respond tm now evs out st' t rest, texts_only ps ->
  run fuel ps respond tm now evs = Some (Value out, st', t, rest) ->
  exists cs more, evs = pieces cs ++ more /\ (rest = more \/ exists u, more = NoData u :: rest) /\ out ++ unreturned st' = output cs.
Proof.
  intros fuel ps respond tm now evs out st' t rest T E. unfold run in E. destruct (converse_keeps _ _ _ _ _ _ _ _ _ _ _ _ T (eq_refl : window (new_spawn _) = None) E) as (cs & more & A & B & C).
  exists cs, more. auto.
Qed.
(** Each event gets its own response. *)
Theorem run_follows_the_responses : forall fuel ps respond tm d now evs out st' t rest, regexy ps ->
  (tm = Some (-1)%Z /\ d = Some 30%Z \/ tm <> Some (-1)%Z /\ d = tm) ->
  run fuel ps respond tm now evs = Some (Value out, st', t, rest) -> runs ps respond 0 (new_spawn d) now evs out.
Proof.
  intros fuel ps respond tm d now evs out st' t rest Rg D E.
  assert (Q : match tm with Some z => if (z =? -1)%Z then Some 30%Z else tm | None => None end = d).
  { destruct D as [[-> ->]|[N ->]]; [reflexivity|]. destruct tm as [z|]; [|reflexivity]. destruct (Z.eqb_spec z (-1)); [congruence|reflexivity]. }
  unfold run in E. rewrite Q in E. destruct (converse_runs _ _ _ _ _ _ _ _ _ _ _ _ Rg (eq_refl : window (new_spawn d) = None) E) as (o & -> & R). exact R.
Qed.
Theorem run_ends : forall fuel ps respond tm now evs, texts_only ps -> never_empty ps -> length (data evs) < fuel ->
  exists r, run fuel ps respond tm now evs = Some r.
Proof. intros fuel ps respond tm now evs T N L. apply converse_ends; auto. Qed.
(** With an event for EOF that does not stop it, run() never ends. *)
Theorem run_with_an_eof_event_never_ends : forall fuel ps respond now cs u, regexy ps -> In AtEof ps -> (forall i n s, respond i n s = Continue) ->
  run fuel ps respond None now (arrives cs u) = None.
Proof. intros fuel ps respond now cs u Rg I Rs. apply converse_eof_loops; auto. exact Logic.I. Qed.

(** The hypotheses hold: a command line, and a run with a password. *)
Definition tx (s : string) : text := list_ascii_of_string s.
Arguments tx s%string.
Definition some_line : line :=
  {| lead := []; words := [([Plain "l"%char; Plain "s"%char], tx " "); ([Single (tx "a b"); Plain "c"%char], tx "  "); ([Double []], tx " ")]; final := [Escaped " "%char]; tail := OpenSingle (tx "x y") |}.
Example some_line_is_proper : proper_line some_line /\ write_line some_line = tx "ls 'a b'c  """" \ 'x y" /\ arguments some_line = [tx "ls"; tx "a bc"; []; tx " x y"].
Proof.
  split; [|split; reflexivity]. assert (F : forall c, In c [("l"%char); ("s"%char); ("c"%char)] -> fine (Plain c)).
  { intros c H. cbn in H. repeat (destruct H as [<-|H]; [repeat split; try discriminate; unfold space; cbn; intuition discriminate|]). destruct H. }
  assert (B : space " "%char) by (left; reflexivity).
  repeat split; try (repeat constructor); try discriminate; try apply F; try (left; reflexivity); try (right; left; reflexivity); try (right; right; left; reflexivity);
    cbn; try (intuition discriminate).
Qed.
Example arguments_with_blanks : split_command_line (with_blanks (map escaped [tx "grep"; tx "it's"; tx "a b"])) = [tx "grep"; tx "it's"; tx "a b"].
Proof. apply escaped_arguments_come_back. intros s [<-|[<-|[<-|[]]]]; discriminate. Qed.
Definition eqt (s t : text) : bool := if list_eq_dec ascii_dec s t then true else false.
Definition path : text := tx "/usr/bin::/opt/".
Example path_parts : search_path (Some path) [tx "/usr/bin"; []; tx "/opt/"].
Proof.
  split; [discriminate|]. split; [|reflexivity].
  repeat constructor; cbn; intros H; repeat (destruct H as [H|H]; [discriminate|]); exact H.
Qed.
Example found_in_opt : which (fun p => eqt p (tx "/opt/ls")) (Some path) (tx "ls") = Some (tx "/opt/ls").
Proof. reflexivity. Qed.
Definition password : list pattern := [Re (literal (tx "word:"))].
Lemma literal_sane : forall s, s <> [] -> sane (literal s) /\ never_empty [Re (literal s)].
Proof.
  intros s Ns. assert (H : forall b k n e, literal s b k = Some (n, e) -> k <= n <= e /\ e <= length b /\ n < e).
  { intros b k n e E. unfold literal in E. destruct (find_from b s (Z.of_nat k)) as [m|] eqn:F; [|discriminate]. injection E as <- <-.
    destruct (Expect_proof.find_from_Some _ _ _ _ F) as (A & B & _). apply Expect_proof.occurs_length in B.
    unfold Expect_proof.beginning in A. destruct (Z.ltb_spec (Z.of_nat k) 0); [lia|]. destruct s; [contradiction|]. cbn [length] in *. lia. }
  split; [intros b k n e E; destruct (H b k n e E) as (A & B & _); auto|]. intros r b n e [[= <-]|[]] E. apply (H b 0 n e E).
Qed.
Example password_is_proper : texts_only password /\ never_empty password.
Proof.
  split; [|apply literal_sane; discriminate]. intros p [<-|[]]. exists (literal (tx "word:")). split; [reflexivity|apply literal_sane; discriminate].
Qed.
Example password_run : exists st' t rest, run 9 password (fun _ _ _ => Continue) (Some (-1)%Z) 0 (arrives [(tx "pass", 1%Z); (tx "word: ", 2%Z); (tx "hi", 3%Z)] 4) =
  Some (Value (tx "password: hi"), st', t, rest).
Proof. eexists _, _, _. reflexivity. Qed.

(** Findings: with an event for TIMEOUT, run() returns output more than once; a blank before a command makes it look for a program
    without name, which is the first directory that can be entered; a name with a slash that cannot be executed is looked for in the
    search path. *)
Theorem run_with_a_timeout_event_repeats : exists st' t rest,
  run 9 [AtTimeout] (fun _ _ _ => Continue) None 0 [Chunk (tx "ab") 1; NoData 2; Chunk (tx "c") 3; Eof 4] = Some (Value (tx "ababc"), st', t, rest).
Proof. eexists _, _, _. reflexivity. Qed.
Theorem blank_before_a_command_runs_a_directory : forall access command d ds, search_path (Some (with_colons (d :: ds))) (d :: ds) ->
  access (in_dir d []) = true -> exists r, spawn_args access (Some (with_colons (d :: ds))) (blank :: command) [] = Some (in_dir d [] :: r).
Proof.
  intros access command d ds S A. destruct (every_line command) as ([ld ws la tl] & P & E).
  assert (P2 : exists l, proper_line l /\ write_line l = blank :: command /\ exists r, arguments l = [] :: r).
  { exists {| lead := blank :: ld; words := ws; final := la; tail := tl |}. destruct P as (P1 & P2). split; [split; [constructor; [left; reflexivity|exact P1]|exact P2]|].
    split; [rewrite <- E; reflexivity|]. eexists. reflexivity. }
  destruct P2 as (l & Pl & El & r & Ar). exists r. unfold spawn_args. rewrite <- El, split_reads, Ar by exact Pl. unfold which. cbn [has_dirname existsb andb].
  rewrite (search_path_split _ _ S). cbn [search_dirs]. rewrite path_join_spec, A. reflexivity.
Qed.
Theorem which_searches_for_names_with_a_slash : forall p, which (fun q => eqt q (tx "/usr/bin/./ls")) (Some path) (tx "./ls") = Some p <-> p = tx "/usr/bin/./ls".
Proof. intros p. cbn. split; [intros [= <-]; reflexivity|intros ->; reflexivity]. Qed.

Print Assumptions command_line_is_split.
Print Assumptions every_command_line_can_be_read.
Print Assumptions escaped_arguments_come_back.
Print Assumptions quoted_arguments_come_back.
Print Assumptions which_finds_the_program.
Print Assumptions every_path_has_directories.
Print Assumptions child_arguments.
Print Assumptions run_returns_the_output.
Print Assumptions run_follows_the_responses.
Print Assumptions run_ends.
Print Assumptions run_with_an_eof_event_never_ends.
Print Assumptions run_with_a_timeout_event_repeats.
Print Assumptions blank_before_a_command_runs_a_directory.
Print Assumptions which_searches_for_names_with_a_slash.
