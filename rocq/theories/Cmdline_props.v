(** C69: command lines of the scripts. *)
From Coq Require Import Ascii String.
From Verif Require Import Py PyLemmas Cmdline_spec Cmdline_model Cmdline_scripts Cmdline_proof1 Cmdline_proof2 Cmdline_proof3 Cmdline_proof4 Cmdline_proof5 Cmdline_proof6.
Open Scope string_scope.
Open Scope nat_scope.
Open Scope list_scope.

(** The model's outcomes, in the words of the specification. *)
Definition outcome_of (o : outcome) : run names := match o with Parsed v => Go v | Help => Stop SHelp | Version => Stop SVersion | Usage => Stop SUsage end.

(** Whatever the command line: names with values, or exit with help, version or a usage error; no other exception, and it ends. *)
Theorem command_line_outcomes to_int p args : proper p ->
  (exists v, parse_args to_int p args = Go v) \/ parse_args to_int p args = Stop SHelp \/ parse_args to_int p args = Stop SVersion \/ parse_args to_int p args = Stop SUsage.
Proof.
  intros P. pose proof (parse_args_spec to_int p P args) as H. destruct (parse_args to_int p args) as [v|s]; [eauto|]. right. destruct H as [->|[->| ->]]; auto.
Qed.

(** The values are those of a reading of the whole command line, in order, with each argument without option read once, in the order of the parser. *)
Theorem command_line_is_read to_int p args v : proper p -> parse_args to_int p args = Go v ->
  exists occs, reads p occs args /\ effects to_int p (defaults p) occs Parsed = Parsed v /\ map fst (filter (fun x => is_positional p (fst x)) occs) = positionals p.
Proof. intros P E. pose proof (parse_args_spec to_int p P args) as H. now rewrite E in H. Qed.

(** A name has its default, or the value of what is read for an argument with this name. *)
Theorem values_are_defaults_or_given to_int p args v : proper p -> parse_args to_int p args = Go v ->
  exists occs, reads p occs args /\ forall d, v d = defaults p d \/ exists i l a x, In (i, l) occs /\ nth_error p i = Some a /\ name a = d /\ value_of to_int a l = Some x /\
    match does a with Store => v d = x | SetTrue => v d = Truth true | Append => exists xs, v d = Many (xs ++ [x]) | _ => False end.
Proof.
  intros P E. destruct (command_line_is_read to_int p args v P E) as (occs & R & F & _). exists occs. split; auto. intros d. exact (effects_set to_int p occs _ _ F d).
Qed.

(** Options, operands, options: read as written, the operands dealt out as far to the left as possible; this decides the outcome also if it is help, version or a usage error. *)
Theorem options_around_operands to_int p occs1 ws1 block occs2 ws2 ds : proper p -> options p occs1 ws1 -> Forall (operand p) block -> options p occs2 ws2 ->
  (block = [] -> ws2 = []) -> (block <> [] -> settled p occs1) ->
  Forall2 can_take (amounts p) ds -> fold_right Nat.add 0 ds = length block ->
  exists cs, best_deal (amounts p) (length block) cs /\ fold_right Nat.add 0 cs = length block /\
    parse_args to_int p (ws1 ++ block ++ ws2) = outcome_of (effects to_int p (defaults p) (occs1 ++ deal_out (positionals p) cs block ++ occs2) Parsed).
Proof.
  intros P O1 O O2 H1 H2 D S. destruct (deals_best _ _ _ D S) as (cs & B & X). exists cs. split; auto. split; auto. apply (options_args to_int p P); auto.
  - destruct block; [right; auto|left; discriminate].
  - destruct block; [left; auto|right; apply H2; discriminate].
Qed.

(** After two dashes everything is an operand, except that further two dashes are dropped. *)
Theorem operands_after_two_dashes to_int p occs ws block ds : proper p -> positionals p <> [] -> options p occs ws ->
  Forall2 can_take (amounts p) ds -> fold_right Nat.add 0 ds = length block ->
  exists cs, best_deal (amounts p) (length block) cs /\ fold_right Nat.add 0 cs = length block /\
    parse_args to_int p (ws ++ two_dashes :: block) = outcome_of (effects to_int p (defaults p) (occs ++ all_kept (deal_out (positionals p) cs block)) Parsed).
Proof.
  intros P N O D S. destruct (deals_best _ _ _ D S) as (cs & B & X). exists cs. split; auto. split; auto. now apply (options_dashes to_int p P).
Qed.

(** There is only one best deal. *)
Theorem best_deal_unique ms n cs ds : best_deal ms n cs -> best_deal ms n ds -> cs = ds.
Proof. intros [C1 C2] [D1 D2]. apply lex_antisym; auto. Qed.

(** If values are returned, every string before two dashes is an operand or spells an option without ambiguity. *)
Theorem no_unknown_options to_int p args v before s after : proper p -> parse_args to_int p args = Go v -> args = before ++ s :: after -> ~ In two_dashes before -> s <> two_dashes ->
  operand p s \/ exists o e, denotes p s o e.
Proof. intros P E A N1 N2. destruct (command_line_is_read to_int p args v P E) as (occs & R & _). eapply reads_in; eauto. Qed.

(** All scripts have parsers for which this holds. *)
Theorem scripts_are_proper : Forall proper scripts.
Proof. apply Forall_forall. intros p I. apply parser_ok_proper. revert p I. apply forallb_forall. vm_compute. reflexivity. Qed.

(** pgc_stats.py cannot be given a threshold: its type is the string "int", not the function int. *)
Theorem pgc_stats_has_no_threshold to_int args v : parse_args to_int pgc_stats args = Go v -> v (t "threshold") = Int 0 \/ v (t "threshold") = Many [].
Proof.
  intros E. assert (P : proper pgc_stats) by (apply parser_ok_proper; vm_compute; reflexivity). destruct (values_are_defaults_or_given to_int _ args v P E) as (occs & _ & H). destruct (H (t "threshold")) as [D|(i & l & a & x & _ & A & N & X & G)].
  - left. rewrite D. vm_compute. reflexivity.
  - do 11 (destruct i as [|i]; [injection A as <-; try discriminate N; destruct l as [|s [|s2 l]]; try discriminate X; injection X as <-; right; exact G|]). destruct i; discriminate.
Qed.
Print Assumptions command_line_outcomes.
Print Assumptions command_line_is_read.
Print Assumptions values_are_defaults_or_given.
Print Assumptions options_around_operands.
Print Assumptions operands_after_two_dashes.
Print Assumptions best_deal_unique.
Print Assumptions no_unknown_options.
Print Assumptions scripts_are_proper.
Print Assumptions pgc_stats_has_no_threshold.

(** Examples. *)
Definition digits_value (s : text) : option Z :=
  match s with [] => None | _ => fold_left (fun r c => match r with Some n => if digit c then Some (10 * n + Z.of_nat (nat_of_ascii c - 48))%Z else None | None => None end) s (Some 0%Z) end.
Definition int_of (s : text) : option Z := match s with c :: s' => if is_dash c then option_map Z.opp (digits_value s') else digits_value s | [] => None end.
Definition shown (p : parser) (args : list string) (ns : list string) : run (list value) := v <~ parse_args int_of p (map t args) ;; Go (map (fun d => v (t d)) ns).
Lemma is_denoted p s i o e : proper p -> parse_optional p s = Go (TO (Some i) o e) -> denotes p s o e /\ exists a, owner p o i a.
Proof. intros P. now apply parse_optional_option. Qed.
Lemma is_operand p s : proper p -> text_eqb s two_dashes = false -> parse_optional p s = Go TA -> operand p s.
Proof. intros P N E. apply (parse_optional_operand p P); auto. intros ->. now rewrite text_eqb_refl in N. Qed.
Lemma pgc_chdir_proper : proper pgc_chdir.
Proof. apply parser_ok_proper. vm_compute. reflexivity. Qed.
(** pgc_chdir.py -tV a.pgc b.pgc -p old new: the theorem applies *)
Example chdir_options : options pgc_chdir [(4, []); (5, [])] [t "-tV"].
Proof.
  apply (os_more pgc_chdir [(4, []); (5, [])] [t "-tV"] [] []); [|constructor]. destruct (is_denoted pgc_chdir (t "-tV") 4 (t "-t") (Some (t "V")) pgc_chdir_proper eq_refl) as [De (a & Ow)].
  apply (sp_attached pgc_chdir (t "-tV") (t "-t") (t "V") 4 a _ []); auto. pose proof Ow as [E _]. injection E as <-.
  destruct (is_denoted pgc_chdir (t "-V") 5 (t "-V") None pgc_chdir_proper eq_refl) as [_ (b & Ob)]. apply (at_last pgc_chdir 4 _ (t "-t") "V"%char 5 b []); auto.
  - reflexivity.
  - discriminate.
  - intros (r & X). discriminate.
  - destruct Ob as [E _]. injection E as <-. reflexivity.
Qed.
Example chdir_more_options : options pgc_chdir [(3, [t "old"; t "new"])] [t "-p"; t "old"; t "new"].
Proof.
  apply (os_more pgc_chdir [(3, [t "old"; t "new"])] [t "-p"; t "old"; t "new"] [] []); [|constructor]. destruct (is_denoted pgc_chdir (t "-p") 3 (t "-p") None pgc_chdir_proper eq_refl) as [De (a & Ow)]. apply (sp_plain pgc_chdir (t "-p") (t "-p") 3 a); auto.
  - destruct Ow as [E _]. injection E as <-. reflexivity.
  - constructor; [|constructor; [|constructor]]; apply is_operand; auto using pgc_chdir_proper.
Qed.
Example chdir_line : exists cs, best_deal (amounts pgc_chdir) 2 cs /\ fold_right Nat.add 0 cs = 2 /\
  parse_args int_of pgc_chdir ([t "-tV"] ++ [t "a.pgc"; t "b.pgc"] ++ [t "-p"; t "old"; t "new"]) =
  outcome_of (effects int_of pgc_chdir (defaults pgc_chdir) ([(4, []); (5, [])] ++ deal_out (positionals pgc_chdir) cs [t "a.pgc"; t "b.pgc"] ++ [(3, [t "old"; t "new"])]) Parsed).
Proof.
  apply (options_around_operands int_of pgc_chdir _ _ [t "a.pgc"; t "b.pgc"] _ _ [2] pgc_chdir_proper chdir_options); auto using chdir_more_options.
  - constructor; [|constructor; [|constructor]]; apply is_operand; auto using pgc_chdir_proper.
  - discriminate.
  - intros _. vm_compute. exact I.
  - repeat constructor.
Qed.
Example chdir_values : shown pgc_chdir ["-tV"; "a.pgc"; "b.pgc"; "-p"; "old"; "new"] ["corpus"; "test"; "verbose"; "path_prefix_pair"] =
  Go [Many [str "a.pgc"; str "b.pgc"]; Truth true; Truth true; Many [str "old"; str "new"]].
Proof. vm_compute. reflexivity. Qed.
(** the hypotheses of [operands_after_two_dashes] *)
Example chdir_dashes : exists cs, best_deal (amounts pgc_chdir) 3 cs /\ fold_right Nat.add 0 cs = 3 /\
  parse_args int_of pgc_chdir ([t "-tV"] ++ two_dashes :: [t "-p"; two_dashes; t "--verbose"]) =
  outcome_of (effects int_of pgc_chdir (defaults pgc_chdir) ([(4, []); (5, [])] ++ all_kept (deal_out (positionals pgc_chdir) cs [t "-p"; two_dashes; t "--verbose"])) Parsed).
Proof. apply (operands_after_two_dashes int_of pgc_chdir _ _ [t "-p"; two_dashes; t "--verbose"] [3] pgc_chdir_proper); [discriminate|exact chdir_options|repeat constructor|auto]. Qed.
(** options can be shortened, values attached; only numbers are numbers; help comes first *)
Example split_values : shown pgc_split ["--pa=3"; "-Vs7"; "big.pgc"] ["filename"; "parts"; "size"; "verbose"; "format"] = Go [str "big.pgc"; Int 3; Int 7; Truth true; Truth false].
Proof. vm_compute. reflexivity. Qed.
Example split_number : shown pgc_split ["-p"; "three"; "big.pgc"] [] = Stop SUsage /\ shown pgc_split ["-p"; "3"] [] = Stop SUsage /\ shown pgc_split ["-h"; "-p"; "three"] [] = Stop SHelp /\ shown pgc_split ["--vers"] [] = Stop SVersion.
Proof. vm_compute. auto. Qed.
Example split_ambiguous : shown pgc_split ["--ver"; "big.pgc"] [] = Stop SUsage /\ shown pgc_split ["--unknown"; "big.pgc"] [] = Stop SUsage.
Proof. vm_compute. auto. Qed.
Example agreement_appends : shown pgc_agreement ["-a"; "AA"; "x.pgc"; "y.pgc"; "--annotator=BB"] ["corpus_fns"; "annotators"] = Go [Many [str "x.pgc"; str "y.pgc"]; Many [str "AA"; str "BB"]].
Proof. vm_compute. reflexivity. Qed.
Example cp_deals : shown pgc_cp ["a"; "b"; "c"; "-o"] ["source"; "target"; "overwrite"] = Go [Many [str "a"; str "b"]; str "c"; Truth true].
Proof. vm_compute. reflexivity. Qed.
(** The operands of one argument must be together: a flag between them makes a usage error. *)
Example operands_apart : shown pgc_join ["a.pgc"; "-V"; "b.pgc"] [] = Stop SUsage /\ shown pgc_join ["-V"; "a.pgc"; "b.pgc"] ["file"] = Go [Many [str "a.pgc"; str "b.pgc"]] /\
  shown pgc_cp ["a"; "b"; "-o"; "c"] [] = Stop SUsage /\ shown pgc_cp ["a"; "-o"; "b"] ["source"; "target"] = Go [Many [str "a"]; str "b"].
Proof. vm_compute. auto. Qed.
(** An option that takes any number of strings takes the operands too. *)
Example option_takes_operands : shown pgc_diff ["-r"; "equals"; "a.pgc"; "b.pgc"] [] = Stop SUsage /\ shown pgc_diff ["a.pgc"; "b.pgc"; "-r"; "equals"] ["corpus1"; "corpus2"; "relations"] = Go [str "a.pgc"; str "b.pgc"; Many [str "equals"]].
Proof. vm_compute. auto. Qed.
(** A mistyped option that ends like a number is an operand, if no option looks like a number. *)
Example mistyped_option : shown gb_stats ["-q5"] ["pattern"] = Go [str "-q5"] /\ shown pgc_diff ["-q5"; "b.pgc"] [] = Stop SUsage /\ shown gb_stats ["-t"; "-5"; "x"] ["threshold"; "pattern"] = Go [Int (-5); str "x"].
Proof. vm_compute. auto. Qed.
(** Two dashes as a value are lost: an option for one string gets an empty list. *)
Example lost_dashes : shown ptc_diff ["a"; "b"; "--tag=--"] ["tag"] = Go [Many []] /\ shown ptc_eval ["-t"; "a"; "-p"; "b"; "--"] [] = Stop SUsage.
Proof. vm_compute. auto. Qed.
Example stats_threshold : shown pgc_stats ["-t"; "3"; "x.pgc"] [] = Stop SUsage /\ shown gb_stats ["-t"; "3"; "x.xml"] ["threshold"] = Go [Int 3] /\ shown pgc_stats ["x.pgc"; "--token=--"] ["threshold"] = Go [Many []].
Proof. vm_compute. auto. Qed.
Example unknown_reaches : exists v, parse_args int_of pgc_join (map t ["-V"; "a.pgc"]) = Go v.
Proof. eexists. vm_compute. reflexivity. Qed.
Example best_deal_example : best_deal [Plus; One] 3 [2; 1].
Proof.
  split; [split; [repeat constructor|auto]|]. intros ds [D L]. inversion D as [|? a ? l Ca D2]; subst. inversion D2 as [|? b ? l2 Cb D3]; subst. inversion D3; subst. cbn in *. subst b. destruct (Nat.eq_dec a 2) as [->|N]; [apply lex_same, lex_same, lex_end|apply lex_less; lia].
Qed.
Example fifteen_scripts : length scripts = 15 /\ positionals pgc_cp = [2; 3] /\ amounts pgc_cp = [Plus; One].
Proof. vm_compute. auto. Qed.
