(** C72: usage. *)
From Coq Require Import String Ascii Lia.
From Verif Require Import Py Cmdline_spec Cmdline_scripts Usage_spec Usage_model Usage_scripts Usage_proof Usage_proof2 Usage_proof3.
Open Scope string_scope.
Open Scope nat_scope.
Open Scope list_scope.

Lemma width_is to_int columns w : line_width to_int columns w -> formatter_width to_int columns = w.
Proof. intros [s n E|s E|]; unfold formatter_width; rewrite ?E; reflexivity. Qed.
Lemma width_some to_int columns : line_width to_int columns (formatter_width to_int columns).
Proof. destruct columns as [s|]; [|constructor]. unfold formatter_width. destruct (to_int s) eqn:E; now constructor. Qed.
Lemma name_newline prog : program_name prog -> prog <> [] /\ no_newline prog.
Proof. intros [N I]. split; [easy|]. apply Forall_forall. intros c Hc ->. now apply I. Qed.

(** The usage is one line if that fits. *)
Theorem usage_in_one_line to_int columns w prog l : line_width to_int columns w -> program_name prog -> Forall well_named l ->
  l = [] \/ (Z.of_nat (length (one_line prog l)) <= w)%Z -> format_usage to_int columns prog l = Some (one_line prog l ++ [newline]).
Proof.
  intros <-%width_is [N NP]%name_newline G [->|F]; [now apply no_arguments|now apply result_fits].
Qed.
(** Otherwise it is laid out: there is one layout, and no argument is broken, lost or moved. *)
Theorem usage_is_laid_out to_int columns w prog l : line_width to_int columns w -> program_name prog -> Forall well_named l ->
  l <> [] -> (w < Z.of_nat (length (one_line prog l)))%Z ->
  exists ls, layout w prog (option_units l) (operand_units l) ls /\ format_usage to_int columns prog l = Some (in_lines ls).
Proof. intros <-%width_is [N NP]%name_newline G L F. now apply result_wraps. Qed.
Theorem layout_is_determined w prog opts ops ls ms : layout w prog opts ops ls -> layout w prog opts ops ms -> ls = ms.
Proof. apply layout_unique. Qed.
(** So it never fails, *)
Theorem usage_is_shown to_int columns prog l : program_name prog -> Forall well_named l -> exists s, format_usage to_int columns prog l = Some s.
Proof.
  intros P G. pose proof (width_some to_int columns) as W. set (w := formatter_width to_int columns) in W. clearbody w.
  destruct l as [|x l']; [eexists; apply (usage_in_one_line _ _ _ _ _ W); auto|].
  destruct (Z.le_gt_cases (Z.of_nat (length (one_line prog (x :: l')))) w) as [F|F]; [eexists; apply (usage_in_one_line _ _ _ _ _ W); auto|].
  destruct (usage_is_laid_out _ _ _ _ (x :: l') W P G) as (ls & _ & E); [easy|lia|]. now exists (in_lines ls).
Qed.
(** says the same for every width, *)
Theorem usage_says_the_same to_int columns prog l s : program_name prog -> Forall well_named l -> format_usage to_int columns prog l = Some s -> words s = words (one_line prog l).
Proof.
  intros P G E. pose proof (width_some to_int columns) as W. set (w := formatter_width to_int columns) in W. clearbody w.
  assert (l = [] \/ (Z.of_nat (length (one_line prog l)) <= w)%Z \/ l <> [] /\ (w < Z.of_nat (length (one_line prog l)))%Z) as [H|[H|[H1 H2]]] by (destruct l; [now left|right]; destruct (Z.le_gt_cases (Z.of_nat (length (one_line prog (s0 :: l)))) w); [now left|right; now split]).
  - rewrite (usage_in_one_line _ _ _ _ _ W P G) in E by tauto. assert (s = one_line prog l ++ [newline]) as -> by congruence. rewrite words_app by easy. now rewrite app_nil_r.
  - rewrite (usage_in_one_line _ _ _ _ _ W P G) in E by tauto. assert (s = one_line prog l ++ [newline]) as -> by congruence. rewrite words_app by easy. now rewrite app_nil_r.
  - destruct (usage_is_laid_out _ _ _ _ _ W P G H1 H2) as (ls & L & E2). rewrite E2 in E. injection E as <-. apply (words_layout _ _ _ _ _ L).
Qed.
(** and its lines are not too long, except for a name of a program or a unit that is alone on a line. *)
Theorem lines_fit w prog opts ops ls s : layout w prog opts ops ls -> In s ls ->
  (Z.of_nat (length s) <= w)%Z \/ s = usage_word ++ prog \/ exists k u, In u ([] :: opts ++ ops) /\ s = repeat blank k ++ u.
Proof. apply layout_widths. Qed.

(** The scripts show their usage, whatever their name and the width of the screen. *)
Theorem scripts_show_usage to_int columns prog f l : In (f, l) script_usages -> program_name prog -> Forall well_named l /\ exists s, format_usage to_int columns prog l = Some s /\ words s = words (one_line prog l).
Proof.
  intros H P. assert (Forall well_named l) as G. { pose proof scripts_well_named as A. rewrite Forall_forall in A. exact (A _ H). }
  split; [easy|]. destruct (usage_is_shown to_int columns prog l P G) as (s & E). exists s. split; [easy|]. now apply (usage_says_the_same to_int columns).
Qed.
(** After a wrong command line: the usage, the message, and status 2. *)
Theorem error_shows_usage to_int columns prog l message : program_name prog -> Forall well_named l ->
  exists s, format_usage to_int columns prog l = Some s /\ error to_int columns prog l message = Some (s ++ prog ++ chars ": error: " ++ message ++ [newline], 2%Z).
Proof. intros P G. destruct (usage_is_shown to_int columns prog l P G) as (s & E). exists s. unfold error. now rewrite E. Qed.
(** On a narrow screen there is an empty line before the first unit if it is too long. *)
Theorem empty_line_before_a_long_argument to_int columns w prog l u us : line_width to_int columns w -> program_name prog -> Forall well_named l ->
  option_units l = u :: us -> (3 * w < 4 * Z.of_nat (length (usage_word ++ prog)))%Z -> (w < Z.of_nat (7 + length u))%Z ->
  exists rest, format_usage to_int columns prog l = Some (usage_word ++ prog ++ newline :: repeat blank 7 ++ newline :: rest).
Proof.
  intros W P G U S F. assert (l <> []) as N by now intros ->. destruct (usage_is_laid_out _ _ _ _ l W P G N) as (ls & L & ->).
  { unfold one_line. rewrite U. cbn [app]. rewrite line_cons by easy. rewrite !app_length. cbn [length]. rewrite app_length in S. cbn [app] in *.
    assert (length u <= length (line (u :: us ++ operand_units l))) as B by (destruct (us ++ operand_units l); [easy|]; rewrite line_cons by easy; rewrite app_length; lia). change (length usage_word) with 7 in *. unfold text in *. lia. }
  assert (forall gs, filled w 7 (u :: us ++ operand_units l) gs \/ filled w 7 (u :: us) gs -> exists g t, gs = [] :: g :: t) as Q.
  { intros gs H. assert (exists us', filled w 7 (u :: us') gs) as (us' & (E & _ & _ & T & Ne & B)) by (destruct H; eauto). destruct gs as [|[|v g] gs]; [easy| |].
    - destruct gs as [|g gs]; [easy|]. now exists g, gs.
    - cbn in E. injection E as -> _. pose proof (B u g eq_refl) as X. unfold wide in X. cbn [line] in X. lia. }
  rewrite U in L. inversion L as [k us0 rest g gs hs S' K H F1 F2|k gs S' K F1 L1|k gs g1 g2 S' K F0 L1 F1 F2]; subst.
  - lia.
  - destruct (Q gs (or_introl F1)) as (g & t & ->). cbn in L1. lia.
  - destruct (Q g1 (or_intror F1)) as (g & t & ->). exists (in_lines (map (indented (length usage_word)) (g :: t ++ g2))). cbn [app map in_lines]. f_equal.
Qed.

Print Assumptions usage_in_one_line.
Print Assumptions usage_is_laid_out.
Print Assumptions layout_is_determined.
Print Assumptions usage_is_shown.
Print Assumptions usage_says_the_same.
Print Assumptions lines_fit.
Print Assumptions scripts_show_usage.
Print Assumptions error_shows_usage.
Print Assumptions empty_line_before_a_long_argument.

(** Examples. *)
Definition no_int (s : text) : option Z := None.
Definition fixed_int (n : Z) (s : text) : option Z := Some n.
Definition usage_at (n : Z) (prog : string) (l : list shown) : option string := option_map string_of_list_ascii (format_usage (fixed_int n) (Some (chars "n")) (chars prog) l).
Definition script (f : string) : list shown := match find (fun x => String.eqb (fst x) f) script_usages with Some x => snd x | None => [] end.
Definition nl : string := String newline "".
Example diff_usage : usage_at 80 "pgc_diff.py" (script "pgc_diff.py") = Some
  ("usage: pgc_diff.py [-h] [-v] [-1 NAME] [-2 NAME] [-c] [-e] [-i]" ++ nl ++ "                   [-r [REL [REL ...]]]" ++ nl ++ "                   corpus1 corpus2" ++ nl)%string.
Proof. vm_compute. reflexivity. Qed.
Example diff_narrow : usage_at 20 "pgc_diff.py" (script "pgc_diff.py") = Some
  ("usage: pgc_diff.py" ++ nl ++ "       [-h] [-v]" ++ nl ++ "       [-1 NAME]" ++ nl ++ "       [-2 NAME]" ++ nl ++ "       [-c] [-e]" ++ nl ++ "       [-i]" ++ nl ++ "       [-r [REL [REL ...]]]" ++ nl ++
   "       corpus1" ++ nl ++ "       corpus2" ++ nl)%string.
Proof. vm_compute. reflexivity. Qed.
Example join_one_line : usage_at 80 "pgc_join.py" (script "pgc_join.py") = Some ("usage: pgc_join.py [-h] [-v] [-f] [-V] FILE [FILE ...]" ++ nl)%string /\ program_name (chars "pgc_join.py").
Proof. split; [vm_compute; reflexivity|]. split; [easy|]. cbn. intros H. repeat (destruct H as [H|H]; [discriminate|]). destruct H. Qed.
Example join_no_columns : option_map string_of_list_ascii (format_usage no_int None (chars "pgc_join.py") (script "pgc_join.py")) = usage_at 80 "pgc_join.py" (script "pgc_join.py").
Proof. vm_compute. reflexivity. Qed.
(** With a name of a program of more than three quarters of a line, the arguments start on the next line. *)
Example join_below : usage_at 24 "pgc_join.py" (script "pgc_join.py") = Some ("usage: pgc_join.py" ++ nl ++ "       [-h] [-v] [-f]" ++ nl ++ "       [-V]" ++ nl ++ "       FILE [FILE ...]" ++ nl)%string.
Proof. vm_compute. reflexivity. Qed.
Example join_error : error (fixed_int 80) None (chars "p") [{| arg := help_arg; metavar := None |}] (chars "no") = Some (chars ("usage: p [-h]" ++ nl ++ "p: error: no" ++ nl)%string, 2%Z).
Proof. vm_compute. reflexivity. Qed.
Example empty_line : usage_at 12 "zip" (script "ptc_eval.py") = Some
  ("usage: zip" ++ nl ++ "       " ++ nl ++ "       [-h]" ++ nl ++ "       [-v]" ++ nl ++ "       [-t TRUE_CORPORA [TRUE_CORPORA ...]]" ++ nl ++ "       [-p PRED_CORPORA [PRED_CORPORA ...]]" ++ nl ++ "       [--tag TAG]" ++ nl)%string.
Proof. vm_compute. reflexivity. Qed.
(** Names with brackets are changed, or fail on a narrow screen only. *)
Definition bracketed (m : string) : list shown := [{| arg := help_arg; metavar := None |}; {| arg := option_arg ["-n"] "n" One Any Nothing; metavar := Some (chars m) |}].
Example brackets_matter : usage_at 80 "p" (bracketed "a[b]c") = Some ("usage: p [-h] [-n a[b]c]" ++ nl)%string /\ usage_at 22 "p" (bracketed "a[b]c") = None /\
  usage_at 80 "p" (bracketed "N (default 3)") = Some ("usage: p [-h] [-n N default 3]" ++ nl)%string.
Proof. repeat split; vm_compute; reflexivity. Qed.
(** All usages of the scripts, with their names, have lines of at most 78 characters. *)
Definition line_lengths (s : text) : list nat := snd (fold_right (fun c a => if Ascii.eqb c newline then (0, fst a :: snd a) else (S (fst a), snd a)) (0, []) s).
Example all_fit : forallb (fun x => match format_usage no_int None (chars (fst x)) (snd x) with Some s => forallb (fun n => n <=? 78) (line_lengths s) | None => false end) script_usages = true /\ length script_usages = 15.
Proof. split; vm_compute; reflexivity. Qed.
