From Coq Require Import Ascii String.
From Coq Require Import Lia.
From Verif Require Import Py Cmdline_spec Cmdline_scripts Usage_spec Usage_model Usage_proof Usage_proof2 Usage_scripts.
Open Scope string_scope.
Open Scope nat_scope.
Open Scope list_scope.

(** *** newlines around the usage *)
Definition no_newline (s : text) : Prop := Forall (fun c => c <> "010"%char) s.
Lemma long_breaks_app n a s : a <> [] -> no_newline a -> long_breaks n (a ++ s) = repeat "010"%char (min n 2) ++ a ++ long_breaks 0 s.
Proof.
  intros N F. revert n. induction F as [|c a H F IH]; intros n; [easy|]. cbn [app long_breaks]. destruct (Ascii.eqb_spec c "010"); [easy|]. f_equal. f_equal.
  destruct a as [|d a]; [easy|]. now rewrite IH.
Qed.
Lemma long_breaks_lines (ls : list text) : forall n (s : text), Forall (fun l => l <> [] /\ no_newline l) (s :: ls) ->
  long_breaks n (newline_join (s :: ls) ++ repeat newline 3) = repeat newline (min n 2) ++ newline_join (s :: ls) ++ [newline; newline].
Proof.
  induction ls as [|s' ls IH]; intros n s F; inversion F as [|? ? (N & H) F']; subst.
  - cbn [newline_join]. now rewrite long_breaks_app.
  - change (newline_join (s :: s' :: ls)) with (s ++ newline :: newline_join (s' :: ls)). rewrite <- !app_assoc. rewrite long_breaks_app by easy. do 2 f_equal.
    change (long_breaks 0 ((newline :: newline_join (s' :: ls)) ++ repeat newline 3)) with (long_breaks 1 (newline_join (s' :: ls) ++ repeat newline 3)). now rewrite IH.
Qed.
Lemma newline_join_last ls s : last (newline_join (s :: ls)) " "%char = last (last (s :: ls) []) " "%char \/ last (s :: ls) [] = [].
Proof.
  revert s. induction ls as [|s' ls IH]; intros s; [now left|]. change (newline_join (s :: s' :: ls)) with (s ++ newline :: newline_join (s' :: ls)). rewrite last_app' by easy.
  change (last (s :: s' :: ls) []) with (last (s' :: ls) ([] : text)). destruct (IH s') as [E|E]; [|now right]. destruct (newline_join (s' :: ls)) eqn:Q.
  - destruct ls as [|s2 ls]; [right; exact Q|]. cbn in Q. now destruct s'.
  - left. rewrite last_cons by easy. exact E.
Qed.
Lemma Forall_last {A} (P : A -> Prop) l d : l <> [] -> Forall P l -> P (last l d).
Proof. intros N F. destruct (exists_last N) as (r & x & ->). rewrite last_last. apply Forall_app in F as [_ F]. now inversion F. Qed.
Lemma newline_first c : c <> "010"%char -> Ascii.eqb "010" c = false.
Proof. intros H. apply Ascii.eqb_neq. congruence. Qed.
Lemma strip_newlines u : u <> [] -> hd " "%char u <> "010"%char -> last u " "%char <> "010"%char -> strip_both (Ascii.eqb "010") (newline :: u ++ [newline; newline]) = u.
Proof.
  intros N H L. unfold strip_both, strip_left. destruct (exists_last N) as (r & z & E). assert (last u " "%char = z) as Z by (rewrite E; apply last_last). rewrite Z in L.
  assert (snd (span (Ascii.eqb "010") (newline :: u ++ [newline; newline])) = u ++ [newline; newline]) as ->.
  { destruct u as [|c u]; [easy|]. cbn [hd] in H. cbn [app span]. change (Ascii.eqb "010" newline) with true. cbv iota. rewrite (newline_first c H). easy. }
  rewrite E. rewrite !rev_app_distr. cbn [rev app span]. change (Ascii.eqb "010" newline) with true. cbv iota. rewrite (newline_first z L). cbn [snd rev]. rewrite rev_involutive. easy.
Qed.
Lemma help_of_lines (s : text) (ls : list text) : Forall (fun l => l <> [] /\ no_newline l) (s :: ls) -> format_help_of (newline_join (s :: ls) ++ [newline; newline]) = in_lines (s :: ls).
Proof.
  intros F. unfold format_help_of. assert (newline_join (s :: ls) <> []) as N by (inversion F as [|? ? (N & _) _]; destruct ls; [easy|]; cbn; now destruct s).
  destruct (newline_join (s :: ls) ++ [newline; newline]) eqn:E; [now destruct (newline_join (s :: ls))|]. rewrite <- E. clear E.
  change (long_breaks 0 ("010"%char :: (newline_join (s :: ls) ++ [newline; newline]) ++ ["010"%char])) with (long_breaks 1 ((newline_join (s :: ls) ++ [newline; newline]) ++ [newline])).
  rewrite <- app_assoc. change ([newline; newline] ++ [newline]) with (repeat newline 3). rewrite (long_breaks_lines ls 1 s F). cbn [Nat.min repeat app]. rewrite strip_newlines; [apply newline_join_snoc|easy| |].
  - inversion F as [|? ? (Ns & H) _]; subst. destruct s as [|c s]; [easy|]. inversion H; subst. now destruct ls.
  - assert (last (s :: ls) [] <> [] /\ no_newline (last (s :: ls) [])) as [A B] by (apply (Forall_last (fun l => l <> [] /\ no_newline l)); easy).
    destruct (newline_join_last ls s) as [->|Q]; [|easy]. now apply (Forall_last (fun c => c <> "010"%char)).
Qed.

(** *** no newline in a line *)
Lemma no_newline_app a b : no_newline a -> no_newline b -> no_newline (a ++ b).
Proof. intros. apply Forall_app. now split. Qed.
Lemma no_newline_line l : Forall no_newline l -> no_newline (line l).
Proof. induction 1 as [|s l H F IH]; [constructor|]. destruct l; [easy|]. rewrite line_cons by easy. apply no_newline_app; [easy|]. now constructor. Qed.
Lemma plain_no_newline s : plain s -> no_newline s.
Proof. intros P. destruct (plain_chars s P) as [_ F]. eapply Forall_impl; [|exact F]. intros c (A & _) ->. discriminate A. Qed.
Lemma no_newline_brackets s : no_newline s -> no_newline (in_brackets s).
Proof. intros H. constructor; [easy|]. apply no_newline_app; [easy|]. now repeat constructor. Qed.
Lemma values_no_newline m l : plain l -> Forall no_newline (values m l).
Proof.
  intros P%plain_no_newline. assert (no_newline (in_brackets (line [l; chars "..."]))) as B by (apply no_newline_brackets, no_newline_line; apply Forall_cons; [easy|]; apply Forall_cons; [now repeat constructor|constructor]).
  destruct m; cbn [values].
  - now constructor.
  - constructor; [|constructor]. apply no_newline_brackets, no_newline_line. apply Forall_cons; [easy|]; apply Forall_cons; [easy|constructor].
  - apply Forall_cons; [easy|]; apply Forall_cons; [easy|constructor].
  - apply Forall_forall. now intros s ->%repeat_spec.
Qed.
Lemma units_no_newline x : well_named x -> Forall no_newline (units x).
Proof.
  intros W. pose proof W as [_ W2]. unfold units. destruct (positional (arg x)) eqn:E.
  - now apply values_no_newline.
  - constructor; [|constructor]. apply no_newline_brackets, no_newline_line. constructor; [now apply plain_no_newline, plain_first|].
    destruct W2 as [->|P]; [constructor|now apply values_no_newline].
Qed.
Lemma option_units_no_newline l : Forall well_named l -> Forall no_newline (option_units l).
Proof. intros F. unfold option_units. apply Forall_flat_map. apply Forall_filter. eapply Forall_impl; [|exact F]. apply units_no_newline. Qed.
Lemma operand_units_no_newline l : Forall well_named l -> Forall no_newline (operand_units l).
Proof. intros F. unfold operand_units. apply Forall_flat_map. apply Forall_filter. eapply Forall_impl; [|exact F]. apply units_no_newline. Qed.
Lemma concat_no_newline gs : Forall no_newline (concat gs) -> Forall (Forall no_newline) gs.
Proof. induction gs as [|g gs IH]; cbn; intros F; constructor; apply Forall_app in F as [A B]; auto. Qed.
Lemma groups_lines k gs us w : 0 < k -> Forall no_newline us -> filled w k us gs -> Forall (fun l => l <> [] /\ no_newline l) (map (indented k) gs).
Proof.
  intros K F (E & _). subst us. apply concat_no_newline in F. apply Forall_forall. intros s (g & <- & Hg)%in_map_iff. rewrite Forall_forall in F. split.
  - unfold indented. destruct k; [lia|easy].
  - apply no_newline_app; [|now apply no_newline_line, F]. apply Forall_forall. now intros c ->%repeat_spec.
Qed.
Lemma layout_lines w prog opts ops ls : no_newline prog -> Forall no_newline opts -> Forall no_newline ops -> layout w prog opts ops ls -> Forall (fun l => l <> [] /\ no_newline l) ls.
Proof.
  intros P A B L. assert (no_newline usage_word) as U by now repeat constructor. destruct L as [k us rest g gs hs S K H F1 F2|k gs S K F L|k gs g1 g2 S K F L F1 F2].
  - assert (Forall no_newline us /\ Forall no_newline rest) as [AU AR] by (destruct H as [(?&->&->)|(?&->&->)]; easy). constructor.
    + split; [easy|]. apply no_newline_app; [easy|]. apply no_newline_line. constructor; [easy|]. destruct F1 as (E & _). subst us. cbn in AU. now apply Forall_app in AU.
    + rewrite map_app. apply Forall_app. split; [|apply (groups_lines k hs rest w); [lia|easy|easy]].
      pose proof (groups_lines k (g :: gs) us w) as Q. cbn [map] in Q. assert (0 < k) as K0 by lia. specialize (Q K0 AU F1). now inversion Q.
  - constructor; [split; [easy|now apply no_newline_app]|]. apply (groups_lines k gs (opts ++ ops) w); [subst k; cbn; lia|now apply Forall_app|easy].
  - constructor; [split; [easy|now apply no_newline_app]|]. assert (0 < k) as K0 by (subst k; cbn; lia). rewrite map_app. apply Forall_app. split; [now apply (groups_lines k g1 opts w)|now apply (groups_lines k g2 ops w)].
Qed.

(** *** what format_usage returns *)
Section Result.
Variables (to_int : text -> option Z) (columns : option text) (prog : text) (l : list shown).
Hypotheses (G : Forall well_named l) (P : prog <> []) (NP : no_newline prog).
Notation w := (formatter_width to_int columns).
Lemma result_fits : (Z.of_nat (length (one_line prog l)) <= w)%Z -> format_usage to_int columns prog l = Some (one_line prog l ++ [newline]).
Proof.
  intros F. unfold format_usage. change (chars "usage: ") with usage_word. rewrite (item_fits w prog l G P F). cbn [option_map]. f_equal. change (one_line prog l ++ [newline; newline]) with (newline_join [one_line prog l] ++ [newline; newline]).
  rewrite help_of_lines; [easy|]. constructor; [|constructor]. split; [easy|]. unfold one_line. apply no_newline_app; [now repeat constructor|]. apply no_newline_line. constructor; [easy|].
  apply Forall_app. split; [now apply option_units_no_newline|now apply operand_units_no_newline].
Qed.
Lemma result_wraps : l <> [] -> (w < Z.of_nat (length (one_line prog l)))%Z -> exists ls, layout w prog (option_units l) (operand_units l) ls /\ format_usage to_int columns prog l = Some (in_lines ls).
Proof.
  intros N F. destruct (item_wraps w prog l G P N F) as (s & ls & E & L). exists (s :: ls). split; [easy|]. unfold format_usage. change (chars "usage: ") with usage_word. rewrite E. cbn [option_map]. f_equal.
  apply help_of_lines. apply (layout_lines w prog (option_units l) (operand_units l)); [easy|now apply option_units_no_newline|now apply operand_units_no_newline|easy].
Qed.
End Result.
Lemma no_arguments to_int columns prog : no_newline prog -> format_usage to_int columns prog [] = Some (one_line prog [] ++ [newline]).
Proof.
  intros NP. unfold format_usage, format_usage_item. cbn [option_map]. f_equal. change (chars "usage: " ++ prog ++ ["010"%char; "010"%char]) with (newline_join [usage_word ++ prog] ++ [newline; newline]).
  rewrite help_of_lines; [easy|]. constructor; [|constructor]. split; [easy|]. apply no_newline_app; [now repeat constructor|easy].
Qed.

(** *** words *)
Lemma words_from_app a s c r : white_b c = true -> words_from a (s ++ c :: r) = words_from a s ++ words r.
Proof.
  intros W. revert a. induction s as [|d s IH]; intros a; cbn [app words_from]; [now rewrite W|]. destruct (white_b d); [|apply IH]. rewrite IH. now rewrite app_assoc.
Qed.
Lemma words_app s c r : white_b c = true -> words (s ++ c :: r) = words s ++ words r.
Proof. apply words_from_app. Qed.
Lemma words_line l : words (line l) = flat_map words l.
Proof. induction l as [|s l IH]; [easy|]. destruct l as [|s' l]; [cbn [line flat_map]; now rewrite app_nil_r|]. rewrite line_cons by easy. rewrite words_app by easy. now rewrite IH. Qed.
Lemma words_lines ls : words (in_lines ls) = flat_map words ls.
Proof. induction ls as [|s ls IH]; [easy|]. cbn [in_lines flat_map]. rewrite words_app by easy. now rewrite IH. Qed.
Lemma words_blank s : words (blank :: s) = words s.
Proof. reflexivity. Qed.
Lemma words_indented k g : words (indented k g) = flat_map words g.
Proof. unfold indented. induction k as [|k IH]; [apply words_line|]. cbn [repeat app]. now rewrite words_blank. Qed.
Lemma words_usage s : words (usage_word ++ s) = words usage_word ++ words s.
Proof. change (usage_word ++ s) with (chars "usage:" ++ blank :: s). now rewrite words_app. Qed.
Lemma flat_words_concat gs : flat_map words (concat gs) = flat_map (flat_map words) gs.
Proof. induction gs as [|g gs IH]; [easy|]. cbn. rewrite flat_map_app. now rewrite IH. Qed.
Lemma words_groups k gs : flat_map words (map (indented k) gs) = flat_map words (concat gs).
Proof. rewrite flat_words_concat. induction gs as [|g gs IH]; [easy|]. cbn [map flat_map]. now rewrite words_indented, IH. Qed.
Lemma words_layout w prog opts ops ls : layout w prog opts ops ls -> words (in_lines ls) = words (usage_word ++ line (prog :: opts ++ ops)).
Proof.
  intros L. rewrite words_lines, words_usage, words_line. cbn [flat_map]. rewrite flat_map_app. destruct L as [k us rest g gs hs S K H (F1 & _) (F2 & _)|k gs S K (F & _) L|k gs g1 g2 S K F L (F1 & _) (F2 & _)]; cbn [flat_map]; rewrite words_usage.
  - rewrite words_groups, concat_app, flat_map_app, words_line. cbn [flat_map]. rewrite F2. rewrite <- !app_assoc. do 2 f_equal.
    assert (flat_map words g ++ flat_map words (concat gs) = flat_map words us) as E by (rewrite <- F1; cbn; now rewrite flat_map_app).
    rewrite app_assoc, E. destruct H as [(_ & -> & ->)|(-> & -> & ->)]; [easy|cbn; now rewrite app_nil_r].
  - rewrite words_groups, F, flat_map_app. now rewrite <- !app_assoc.
  - rewrite words_groups, concat_app, F1, F2, flat_map_app. now rewrite <- !app_assoc.
Qed.

(** *** the widths of lines *)
Lemma filled_widths w k us gs g : filled w k us gs -> In g gs -> (Z.of_nat (length (indented k g)) <= w)%Z \/ exists u, In u ([] :: us) /\ indented k g = repeat blank k ++ u.
Proof.
  intros (E & F & _) Hg. destruct g as [|u [|v g]].
  - right. exists []. split; [now left|easy].
  - right. exists u. split; [|easy]. right. rewrite <- E. apply in_concat. exists [u]. split; [easy|now left].
  - left. specialize (F _ Hg). unfold wide in F. unfold indented. rewrite app_length, repeat_length. apply F. cbn. lia.
Qed.
Lemma layout_widths w prog opts ops ls s : layout w prog opts ops ls -> In s ls ->
  (Z.of_nat (length s) <= w)%Z \/ s = usage_word ++ prog \/ exists k u, In u ([] :: opts ++ ops) /\ s = repeat blank k ++ u.
Proof.
  intros L Hs. assert (forall k us gs, (forall u, In u us -> In u (opts ++ ops)) -> filled w k us gs -> In s (map (indented k) gs) -> (Z.of_nat (length s) <= w)%Z \/ s = usage_word ++ prog \/ exists k u, In u ([] :: opts ++ ops) /\ s = repeat blank k ++ u) as Q.
  { intros k us gs I F (g & <- & Hg)%in_map_iff. destruct (filled_widths w k us gs g F Hg) as [H|(u & Hu & H)]; [now left|right; right]. exists k, u. split; [|easy]. destruct Hu as [<-|Hu]; [now left|right; now apply I]. }
  destruct L as [k us rest g gs hs S K H F1 F2|k gs S K F L|k gs g1 g2 S K F L F1 F2].
  - assert ((forall u, In u us -> In u (opts ++ ops)) /\ (forall u, In u rest -> In u (opts ++ ops))) as [IU IR].
    { destruct H as [(_ & -> & ->)|(_ & -> & ->)]; (split; intros u Hu; [apply in_or_app; tauto|]); [apply in_or_app; tauto|easy]. }
    destruct Hs as [<-|Hs].
    + destruct g as [|u g]; [right; left; easy|]. left. rewrite line_cons by easy. rewrite !app_length. cbn [length]. rewrite app_length in K. destruct F1 as (E & F & G & T & N & B).
      assert (wide k (u :: g) <= w)%Z as W by (destruct g as [|v g]; [now apply (B u [])|apply F; [now left|cbn; lia]]). unfold wide in W. lia.
    + rewrite map_app in Hs. apply in_app_or in Hs as [Hs|Hs].
      * apply (Q k us (g :: gs)); [easy|easy|now right].
      * now apply (Q k rest hs).
  - destruct Hs as [<-|Hs]; [right; now left|]. now apply (Q k (opts ++ ops) gs).
  - destruct Hs as [<-|Hs]; [right; now left|]. rewrite map_app in Hs. apply in_app_or in Hs as [Hs|Hs].
    + apply (Q k opts g1); [|easy|easy]. intros u Hu. apply in_or_app. tauto.
    + apply (Q k ops g2); [|easy|easy]. intros u Hu. apply in_or_app. tauto.
Qed.

(** *** the scripts *)
Definition plain_b (s : text) : bool := match s with [] => false | _ => forallb (fun c => negb (space_char c) && negb (opening c) && negb (closing c)) s end.
Lemma plain_b_plain s : plain_b s = true -> plain s.
Proof.
  unfold plain_b. destruct s as [|c r] eqn:E; [easy|]. rewrite <- E. intros H. split; [now subst|]. apply Forall_forall. intros d Hd. rewrite forallb_forall in H. specialize (H d Hd).
  apply andb_true_iff in H as [[A B]%andb_true_iff C]. apply negb_true_iff in A, B, C. split; [rewrite white_space; now rewrite A|]. intros [ -> | [ -> | [ -> | -> ]]]; discriminate.
Qed.
Definition well_named_b (x : shown) : bool :=
  forallb plain_b (spellings (arg x)) &&
  (if positional (arg x) then match takes (arg x) with Exactly 0 => false | _ => true end && plain_b (label x) else match takes (arg x) with Exactly 0 => true | _ => plain_b (label x) end).
Lemma well_named_b_ok x : well_named_b x = true -> well_named x.
Proof.
  unfold well_named_b, well_named. intros [A B]%andb_true_iff. split; [apply Forall_forall; rewrite forallb_forall in A; intros s Hs; now apply plain_b_plain, A|].
  destruct (positional (arg x)).
  - apply andb_true_iff in B as [B C]. split; [intros E; rewrite E in B; easy|now apply plain_b_plain].
  - destruct (takes (arg x)) as [| | |[|n]]; try (right; now apply plain_b_plain). now left.
Qed.
Lemma scripts_well_named : Forall (fun x => Forall well_named (snd x)) script_usages.
Proof.
  assert (forallb (fun x => forallb well_named_b (snd x)) script_usages = true) as H by (vm_compute; reflexivity).
  rewrite forallb_forall in H. apply Forall_forall. intros x Hx. specialize (H x Hx). rewrite forallb_forall in H. apply Forall_forall. intros y Hy. now apply well_named_b_ok, H.
Qed.
