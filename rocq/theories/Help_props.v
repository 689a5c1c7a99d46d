(** C77: the help of a program. *)
From Coq Require Import Ascii String Lia.
From Verif Require Import Py Cmdline_spec Cmdline_scripts Usage_spec Usage_model Help_spec Help_model Help_proof Help_proof2 Help_proof3.
Open Scope string_scope.
Open Scope nat_scope.
Open Scope list_scope.

(** Names without line ends. *)
Definition one_line_names (l : list entry) : Prop := Forall (fun e => ~ In newline (heading (item e))) l.
Lemma width_is to_int columns w : line_width to_int columns w -> formatter_width to_int columns = w.
Proof. destruct 1 as [s n H|s H|]; unfold formatter_width; try rewrite H; reflexivity. Qed.

(** The help shows the usage, the description, all operands, all options and the epilog, in this order, each argument once, with all of its help text. *)
Theorem help_shows_everything wrap to_int columns w prog description epilog l out : wraps wrap -> line_width to_int columns w -> one_line_names l ->
  format_help wrap to_int columns prog description epilog l = Ok out ->
  exists usage a b, format_usage to_int columns prog (map item l) = Some usage /\
    group_lines w (column l) (chars "positional arguments") (operands l) a /\ group_lines w (column l) (chars "optional arguments") (options l) b /\
    full_lines out = full_lines usage ++ given_lines description ++ a ++ b ++ given_lines epilog.
Proof.
  intros W L P H. apply help_all in H as (u & a & b & U & A & B & Q & _); [|easy|easy]. rewrite (width_is _ _ _ L) in *. exists (format_help_of u), a, b. unfold format_usage. rewrite (width_is _ _ _ L), U, fl_help. easy.
Qed.
Theorem help_is_tidy wrap to_int columns prog description epilog l out : wraps wrap -> one_line_names l ->
  format_help wrap to_int columns prog description epilog l = Ok out -> tidy out.
Proof. intros W P H. now apply help_all in H as (u & a & b & _ & _ & _ & _ & T). Qed.
(** When there is help: the usage can be laid out, and every help text can be filled in, is not blank, and has a column. *)
Theorem help_is_shown_if wrap to_int columns w prog description epilog l : wraps wrap -> line_width to_int columns w -> one_line_names l ->
  ((exists out, format_help wrap to_int columns prog description epilog l = Ok out) <->
   format_usage to_int columns prog (map item l) <> None /\
   Forall (fun e => helped e -> exists s s', help e = Some s /\ filled_in (attribute e) s s' /\ visible s' <> [] /\ (Z.of_nat (column l) < w)%Z) l).
Proof.
  intros W L P. rewrite (help_ok wrap W to_int columns prog description epilog l P). unfold format_usage. rewrite (width_is _ _ _ L). unfold good. destruct (format_usage_item w prog (map item l) (chars "usage: ")); cbn [option_map]; intuition discriminate.
Qed.
(** A finding: on lines that are not longer than the left column, help raises ValueError. *)
Theorem narrow_lines_refuse_help wrap to_int columns w prog description epilog l : wraps wrap -> line_width to_int columns w -> one_line_names l ->
  format_usage to_int columns prog (map item l) <> None -> Forall (fun e => helped e -> exists s s', help e = Some s /\ filled_in (attribute e) s s') l ->
  Exists helped l -> (w <= Z.of_nat (column l))%Z -> format_help wrap to_int columns prog description epilog l = Err ValueError.
Proof.
  intros W L P U F X N. unfold format_usage in U. rewrite (width_is _ _ _ L) in U. rewrite Forall_forall in F. unfold one_line_names in P.
  assert (forall e, In e l -> helped e -> format_action wrap w (column l) e = Err ValueError) as V. { intros e I H. rewrite Forall_forall in P. apply (action_spec wrap w (column l) e W (column_4 l) (P e I)); [easy|now apply F|easy]. }
  apply help_err; try easy; rewrite (width_is _ _ _ L).
  - now destruct (format_usage_item _ _ _ _).
  - intros e I. destruct (help_cases e) as [(H & _)|(H & _)]; [left|right; now apply V]. rewrite Forall_forall in P. apply (action_spec wrap w (column l) e W (column_4 l) (P e I)). now intros Q.
  - apply Exists_exists in X as (e & I & H). exists e. split; [easy|]. now apply V.
Qed.
(** A finding: a help text of white space raises IndexError. *)
Theorem blank_help_is_refused wrap to_int columns w prog description epilog l : wraps wrap -> line_width to_int columns w -> one_line_names l ->
  format_usage to_int columns prog (map item l) <> None -> Forall (fun e => helped e -> exists s s', help e = Some s /\ filled_in (attribute e) s s') l ->
  Exists (fun e => exists s, help e = Some s /\ s <> [] /\ filled_in (attribute e) s s /\ visible s = []) l -> (Z.of_nat (column l) < w)%Z ->
  format_help wrap to_int columns prog description epilog l = Err IndexError.
Proof.
  intros W L P U F X N. unfold format_usage in U. rewrite (width_is _ _ _ L) in U. rewrite Forall_forall in F. unfold one_line_names in P. pose proof P as P0. rewrite Forall_forall in P.
  apply help_err; try easy; rewrite (width_is _ _ _ L).
  - now destruct (format_usage_item _ _ _ _).
  - intros e I. destruct (action_spec wrap w (column l) e W (column_4 l) (P e I)) as (_ & G & _ & B). destruct (help_cases e) as [(H & _)|(H & _)]; [left; apply G; now intros Q|].
    destruct (F e I H) as (s & s' & S1 & S2). destruct (list_eq_dec ascii_dec (visible s') []) as [E|E]; [right; apply B; [easy|now exists s, s'|easy]|left; apply G]. intros _. now exists s, s'.
  - apply Exists_exists in X as (e & I & s & S1 & S2 & S3 & S4). exists e. split; [easy|]. apply (action_spec wrap w (column l) e W (column_4 l) (P e I)); [unfold helped; rewrite S1; now destruct s|now exists s, s|easy].
Qed.
(** A finding: a percent sign at the end, or the name of something that is not an attribute, is an error only when help is asked for. *)
Theorem stray_percent_is_refused wrap to_int columns prog description epilog l e s k s' : wraps wrap -> one_line_names l -> In e l ->
  (help e = Some (s ++ ["%"%char]) /\ ~ In "%"%char s \/
   help e = Some (s ++ chars "%(" ++ k ++ chars ")s" ++ s') /\ ~ In "%"%char s /\ ~ In "("%char k /\ ~ In ")"%char k /\ attribute e k = None) ->
  forall out, format_help wrap to_int columns prog description epilog l <> Ok out.
Proof.
  intros W P I H out Q. assert (exists out, format_help wrap to_int columns prog description epilog l = Ok out) as X by now exists out. apply help_ok in X as (_ & G); [|easy|easy]. rewrite Forall_forall in G. specialize (G e I).
  assert (forall t r, ~ In "%"%char s -> filled_in (attribute e) (s ++ t) r -> exists r', filled_in (attribute e) t r') as K.
  { clear. induction s as [|c s IH]; intros t r N F; [now exists r|]. cbn [app] in F. inversion F as [|? ? ? ? F1|? ? F1|]; subst; try (exfalso; apply N; now left). apply (IH t s'); [|easy]. intros J. apply N. now right. }
  destruct H as [(H & N)|(H & N & N1 & N2 & A)].
  - destruct G as (t & r & T & F & _); [unfold helped; rewrite H; now destruct s|]. rewrite H in T. injection T as <-. apply K in F as (r' & F); [|easy]. inversion F; subst; congruence.
  - destruct G as (t & r & T & F & _); [unfold helped; rewrite H; now destruct s|]. rewrite H in T. injection T as <-. apply K in F as (r' & F); [|easy]. apply expand_iff with (e := {| item := item e; help := None; attribute := attribute e |}) in F.
    change (chars "%(" ++ k ++ chars ")s" ++ s') with ("%"%char :: "("%char :: k ++ ")"%char :: "s"%char :: s') in F. unfold expand_help in F. cbn in F. rewrite find_key_of in F by easy. cbn in F. now rewrite A in F.
Qed.

Print Assumptions help_shows_everything.
Print Assumptions help_is_tidy.
Print Assumptions help_is_shown_if.
Print Assumptions narrow_lines_refuse_help.
Print Assumptions blank_help_is_refused.
Print Assumptions stray_percent_is_refused.

(** Concrete cases; [sample_wrap] is a wrap. *)
Definition fixed (n : Z) (s : text) : option Z := Some n.
Definition attributes (a : argument) (k : text) : option text := if text_eqb k (chars "dest") then Some (name a) else if text_eqb k (chars "prog") then Some (chars "p") else None.
Definition explained (a : argument) (m : option string) (h : option string) : entry := {| item := {| arg := a; metavar := option_map chars m |}; help := option_map chars h; attribute := attributes a |}.
Definition sample : list entry :=
  [explained help_arg None (Some "show this help message and exit"); explained (option_arg ["-F"; "--format"] "format" One Any Nothing) (Some "FILE_FORMAT") (Some "set the %(dest)s, 100%% of
    it"); explained (operand_arg "corpus" Plus Nothing) None (Some "a corpus"); explained (flag_arg ["-V"] "verbose") None None].
Definition nl : string := String newline "".
Definition help_at (n : Z) (d : string) (l : list entry) : res string :=
  match format_help sample_wrap (fixed n) (Some []) (chars "p") (Some (chars d)) None l with Ok s => Ok (string_of_list_ascii s) | Err e => Err e end.
Example sample_is_a_wrap : wraps sample_wrap.
Proof. exact sample_wraps. Qed.
Example names_of_sample : one_line_names sample.
Proof. repeat constructor; cbn; intuition discriminate. Qed.
Example a_help : help_at 50 ("It does" ++ nl ++ nl ++ nl ++ "  this.") sample = Ok
  ("usage: p [-h] [-F FILE_FORMAT] [-V]" ++ nl ++ "         corpus [corpus ...]" ++ nl ++ nl ++ "It does" ++ nl ++ nl ++ "  this." ++ nl ++ nl ++
   "positional arguments:" ++ nl ++ "  corpus                a corpus" ++ nl ++ nl ++
   "optional arguments:" ++ nl ++ "  -h, --help            show this help message" ++ nl ++ "                        and exit" ++ nl ++
   "  -F FILE_FORMAT, --format FILE_FORMAT" ++ nl ++ "                        set the format, 100% of" ++ nl ++ "                        it" ++ nl ++ "  -V" ++ nl)%string.
Proof. vm_compute. reflexivity. Qed.
Example no_room : help_at 26 "" sample = Err ValueError /\ column sample = 24.
Proof. now vm_compute. Qed.
Example some_room : match help_at 27 "" sample with Ok _ => True | Err _ => False end.
Proof. now vm_compute. Qed.
Example blank_text : help_at 50 "" [explained help_arg None (Some " ")] = Err IndexError.
Proof. now vm_compute. Qed.
Example stray : help_at 50 "" [explained help_arg None (Some "100%")] = Err ValueError /\ help_at 50 "" [explained help_arg None (Some "a %(thing)s")] = Err KeyError.
Proof. now vm_compute. Qed.
