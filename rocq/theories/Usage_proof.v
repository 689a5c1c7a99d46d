From Coq Require Import Ascii String.
From Coq Require Import Lia.
From Verif Require Import Py Cmdline_spec Usage_spec Usage_model.
Open Scope string_scope.
Open Scope nat_scope.
Open Scope list_scope.

(** *** words, units and lines *)
Lemma blank_join_line l : blank_join l = line l.
Proof. induction l as [|s [|s' l'] IH]; [easy|easy|]. change (s ++ " "%char :: blank_join (s' :: l') = s ++ blank :: line (s' :: l')). now rewrite IH. Qed.
Lemma line_cons s l : l <> [] -> line (s :: l) = s ++ blank :: line l.
Proof. now destruct l. Qed.
Lemma line_app a b : a <> [] -> b <> [] -> line (a ++ b) = line a ++ blank :: line b.
Proof.
  intros A B. induction a as [|s a IH]; [easy|]. destruct a as [|s' a]; [now apply line_cons|].
  change (line ((s :: s' :: a) ++ b)) with (s ++ blank :: line ((s' :: a) ++ b)). rewrite IH by easy.
  change (line (s :: s' :: a)) with (s ++ blank :: line (s' :: a)). now rewrite <- app_assoc.
Qed.
Lemma line_brackets s : chars "[" ++ s ++ chars "]" = in_brackets s.
Proof. reflexivity. Qed.
Lemma values_line x d : format_args x d = line (values (takes (arg x)) (get_metavar x d)).
Proof.
  unfold format_args. set (m := get_metavar x d). clearbody m. destruct (takes (arg x)); cbn [values].
  - reflexivity.
  - unfold in_brackets, text in *. cbn. repeat (rewrite <- app_assoc; cbn). reflexivity.
  - unfold in_brackets, text in *. cbn. repeat (rewrite <- app_assoc; cbn). reflexivity.
  - apply blank_join_line.
Qed.
Lemma values_none m l : values m l = [] <-> m = Exactly 0.
Proof. destruct m as [| | |[|n]]; cbn; split; intros H; try easy. Qed.
Lemma upper_char_capital s : map upper_char s = map capital s.
Proof. reflexivity. Qed.
Lemma units_some x : (positional (arg x) = true -> takes (arg x) <> Exactly 0) -> units x <> [].
Proof. unfold units. destruct (positional (arg x)); [|easy]. intros H. rewrite values_none. now apply H. Qed.
Lemma part_of_line x : part_of x = line (units x).
Proof.
  unfold part_of, units, first_spelling, label, positional. destruct (spellings (arg x)) as [|o r]; [exact (values_line x _)|].
  cbn [hd line]. rewrite line_brackets. f_equal. rewrite values_line, upper_char_capital. unfold get_metavar.
  set (L := match metavar x with Some m => m | None => map capital (name (arg x)) end). clearbody L.
  destruct (takes (arg x)) as [| | |[|n]] eqn:E; try reflexivity.
  all: cbn [values]; rewrite line_cons by easy; reflexivity.
Qed.
Lemma parts_line xs : (forall x, In x xs -> units x <> []) -> blank_join (map part_of xs) = line (flat_map units xs).
Proof.
  rewrite blank_join_line. induction xs as [|x xs IH]; intros H; [easy|]. cbn [map flat_map].
  destruct xs as [|y ys].
  - cbn [map flat_map]. rewrite app_nil_r. apply part_of_line.
  - rewrite line_cons by easy. rewrite IH by (intros z Hz; apply H; now right). rewrite part_of_line. symmetry. apply line_app; [apply H; now left|].
    cbn [flat_map]. intros E. apply app_eq_nil in E. now apply (H y); [right; left|].
Qed.

(** *** The substitutions change nothing. *)
Definition blank_b (c : ascii) : bool := Ascii.eqb c " ".
Definition calm (a b : ascii) : bool := negb (opening a && (blank_b b || closing b)) && negb (blank_b a && closing b).
Fixpoint tame (s : text) : bool := match s with a :: s' => match s' with b :: _ => calm a b && tame s' | [] => true end | [] => true end.
Definition first_ok (c : ascii) : bool := negb (space_char c) && negb (closing c).
Definition last_ok (c : ascii) : bool := negb (space_char c) && negb (opening c).
Definition piece (s : text) : Prop := tame s = true /\ first_ok (hd " "%char s) = true /\ last_ok (last s " "%char) = true /\ Forall (fun c => c <> "("%char) s.
Lemma piece_nonempty s : piece s -> s <> [].
Proof. intros (_ & H & _) ->. discriminate H. Qed.
Lemma last_cons {A} (a : A) s d : s <> [] -> last (a :: s) d = last s d.
Proof. now destruct s. Qed.
Lemma last_app' {A} (a b : list A) d : b <> [] -> last (a ++ b) d = last b d.
Proof. intros B. induction a as [|x a IH]; [easy|]. cbn [app]. rewrite last_cons; [easy|]. now destruct a. Qed.
Lemma hd_app {A} (a b : list A) d : a <> [] -> hd d (a ++ b) = hd d a.
Proof. now destruct a. Qed.
Lemma tame_app a b : a <> [] -> b <> [] -> tame a = true -> tame b = true -> calm (last a " "%char) (hd " "%char b) = true -> tame (a ++ b) = true.
Proof.
  intros A B Ha Hb C. induction a as [|x a IH]; [easy|]. destruct a as [|y a].
  - destruct b as [|z b]; [easy|]. change (calm x z && tame (z :: b) = true). cbn [last hd] in C. now rewrite C, Hb.
  - cbn [tame] in Ha. apply andb_true_iff in Ha as [Hx Ha]. change (calm x y && tame ((y :: a) ++ b) = true). rewrite Hx. apply IH; [easy|easy|exact C].
Qed.
Lemma calm_blank c : last_ok c = true -> calm c " " = true.
Proof. unfold last_ok, calm. intros [_ H]%andb_true_iff. apply negb_true_iff in H. rewrite H. now rewrite andb_false_r. Qed.
Lemma blank_calm c : first_ok c = true -> calm " " c = true.
Proof. unfold first_ok, calm. intros [_ H]%andb_true_iff. apply negb_true_iff in H. now rewrite H. Qed.
Lemma space_blank c : space_char c = false -> blank_b c = false.
Proof. intros H. unfold blank_b. destruct (Ascii.eqb_spec c " "); [subst; discriminate H|easy]. Qed.
Lemma open_calm c : first_ok c = true -> calm "[" c = true.
Proof. unfold first_ok, calm. intros [S H]%andb_true_iff. apply negb_true_iff in H, S. rewrite H, (space_blank _ S). reflexivity. Qed.
Lemma calm_close c : last_ok c = true -> calm c "]" = true.
Proof. unfold last_ok, calm. intros [S H]%andb_true_iff. apply negb_true_iff in H, S. rewrite H, (space_blank _ S). reflexivity. Qed.
Lemma piece_join a b : piece a -> piece b -> piece (a ++ blank :: b).
Proof.
  intros PA PB. pose proof (piece_nonempty _ PA) as NA. pose proof (piece_nonempty _ PB) as NB.
  destruct PA as (Ta & Fa & La & Oa), PB as (Tb & Fb & Lb & Ob). split; [|split; [|split]].
  - apply tame_app; try easy.
    + destruct b as [|c b]; [easy|]. change (calm " " c && tame (c :: b) = true). now rewrite (blank_calm c Fb), Tb.
    + now apply calm_blank.
  - now rewrite hd_app.
  - rewrite last_app' by easy. now rewrite last_cons.
  - apply Forall_app. split; [easy|]. now constructor.
Qed.
Lemma piece_brackets s : piece s -> piece (in_brackets s).
Proof.
  intros P. pose proof (piece_nonempty _ P) as N. destruct P as (T & F & L & O). unfold in_brackets. split; [|split; [|split]].
  - destruct s as [|c s]; [easy|]. change (calm "[" c && tame ((c :: s) ++ ["]"%char]) = true). rewrite (open_calm c F).
    apply tame_app; try easy. now apply calm_close.
  - easy.
  - rewrite last_cons by (now destruct s). now rewrite last_app'.
  - constructor; [easy|]. apply Forall_app. split; [easy|]. now repeat constructor.
Qed.
Lemma piece_line l : l <> [] -> Forall piece l -> piece (line l).
Proof. intros N F. induction F as [|s l P F IH]; [easy|]. destruct l as [|s' l]; [easy|]. apply piece_join; [easy|]. now apply IH. Qed.
Lemma white_space c : white c <-> space_char c = true.
Proof. unfold white, space_char. rewrite orb_true_iff, andb_true_iff, Nat.eqb_eq, !Nat.leb_le. tauto. Qed.
Lemma plain_chars s : plain s -> s <> [] /\ Forall (fun c => space_char c = false /\ opening c = false /\ closing c = false) s.
Proof.
  intros [N F]. split; [easy|]. eapply Forall_impl; [|exact F]. intros c [W B]. split; [|].
  - destruct (space_char c) eqn:E; [|easy]. exfalso. now apply W, white_space.
  - unfold bracket in B. unfold opening, closing. split; apply orb_false_iff; split; apply Ascii.eqb_neq; tauto.
Qed.
Lemma calm_plain a b : opening a = false -> space_char a = false -> calm a b = true.
Proof. intros O S. unfold calm. now rewrite O, (space_blank _ S). Qed.
Lemma word_piece s : s <> [] -> Forall (fun c => space_char c = false /\ opening c = false /\ closing c = false) s -> piece s.
Proof.
  intros N F. split; [|split; [|split]].
  - clear N. induction F as [|c s (A & B & C) F IH]; [easy|]. destruct s as [|d s]; [easy|]. cbn [tame]. now rewrite calm_plain.
  - destruct F as [|c s (A & B & C) F]; [easy|]. cbn. unfold first_ok. now rewrite A, C.
  - destruct (exists_last N) as (r & c & ->). apply Forall_app in F as [_ F]. inversion F as [|? ? (A & B & C) _]; subst. rewrite last_last. unfold last_ok. now rewrite A, B.
  - eapply Forall_impl; [|exact F]. intros c (A & B & C) ->. discriminate B.
Qed.
Lemma plain_piece s : plain s -> piece s.
Proof. intros P. destruct (plain_chars s P). now apply word_piece. Qed.

Lemma sub_after_open_tame s : tame s = true -> sub_after_open s = s.
Proof.
  induction s as [|c s IH]; [easy|]. intros T. cbn [sub_after_open]. assert (tame s = true) as Ts by (destruct s; [easy|cbn [tame] in T; now apply andb_true_iff in T]).
  destruct (opening c) eqn:O; [|now rewrite IH]. destruct s as [|d s]; [easy|].
  assert (Ascii.eqb d " " = false) as ->. { cbn [tame] in T. apply andb_true_iff in T as [C _]. unfold calm in C. rewrite O in C. apply andb_true_iff in C as [C _]. apply negb_true_iff in C. cbn [andb] in C. now apply orb_false_iff in C. }
  now rewrite IH.
Qed.
Lemma sub_before_close_tame s : tame s = true -> sub_before_close s = s.
Proof.
  induction s as [|c s IH]; [easy|]. intros T. cbn [sub_before_close]. assert (tame s = true) as Ts by (destruct s; [easy|cbn [tame] in T; now apply andb_true_iff in T]).
  destruct (Ascii.eqb c " ") eqn:O; [|now rewrite IH]. destruct s as [|d s]; [easy|].
  assert (closing d = false) as ->. { cbn [tame] in T. apply andb_true_iff in T as [C _]. unfold calm, blank_b in C. rewrite O in C. apply andb_true_iff in C as [_ C]. apply negb_true_iff in C. exact C. }
  now rewrite IH.
Qed.
Lemma sub_empty_tame n s : length s <= n -> tame s = true -> sub_empty n s = s.
Proof.
  revert s. induction n as [|n IH]; intros s L T; [destruct s; [easy|cbn in L; lia]|]. destruct s as [|c s]; [easy|]. cbn [sub_empty]. cbn in L.
  assert (tame s = true) as Ts by (destruct s; [easy|cbn [tame] in T; now apply andb_true_iff in T]). rewrite (IH s) by (lia || easy).
  destruct (opening c) eqn:O; [|easy]. destruct s as [|d s]; [easy|].
  cbn [tame] in T. apply andb_true_iff in T as [C _]. unfold calm in C. rewrite O in C. apply andb_true_iff in C as [C _]. apply negb_true_iff in C. cbn [andb] in C. apply orb_false_iff in C as [B C].
  cbn [span]. unfold blank_b in B. rewrite Ascii.eqb_sym in B. rewrite B. cbn [snd]. now rewrite C.
Qed.
Lemma sub_parentheses_none n s : length s <= n -> Forall (fun c => c <> "("%char) s -> sub_parentheses n s = s.
Proof.
  revert s. induction n as [|n IH]; intros s L F; [destruct s; [easy|cbn in L; lia]|]. destruct F as [|c s N F]; [easy|]. cbn [sub_parentheses]. cbn in L.
  destruct (Ascii.eqb_spec c "("); [easy|]. rewrite IH; [easy|lia|easy].
Qed.
Lemma strip_none f s : f (hd " "%char s) = false -> f (last s " "%char) = false -> s <> [] -> strip_both f s = s.
Proof.
  intros H L N. unfold strip_both, strip_left. assert (snd (span f s) = s) as ->. { destruct s as [|c s]; [easy|]. cbn in H. cbn [span]. now rewrite H. }
  destruct (exists_last N) as (r & c & ->). rewrite last_last in L. rewrite rev_app_distr. cbn [rev app span]. rewrite L. cbn [snd]. now rewrite <- (rev_involutive r) at 2.
Qed.
Lemma usage_pieces xs : (forall x, In x xs -> units x <> []) -> Forall piece (flat_map units xs) -> format_actions_usage xs = line (flat_map units xs).
Proof.
  intros U P. unfold format_actions_usage. rewrite (parts_line xs U). destruct (flat_map units xs) as [|u us] eqn:E; [easy|]. rewrite <- E in *.
  assert (piece (line (flat_map units xs))) as PL. { apply piece_line; [now rewrite E|easy]. } set (s := line (flat_map units xs)) in *. clearbody s.
  pose proof (piece_nonempty _ PL) as N. destruct PL as (T & F & L & O). rewrite sub_after_open_tame by easy. rewrite sub_before_close_tame by easy.
  rewrite sub_empty_tame by easy. rewrite sub_parentheses_none by easy. apply andb_true_iff in F as [F _], L as [L _]. apply negb_true_iff in F, L. now apply strip_none.
Qed.

(** *** The parts of a usage are its units. *)
Definition is_unit (u : text) : Prop := u <> [] /\ forall rest, rest = [] \/ (exists r, rest = blank :: r) -> match_part (u ++ rest) = Some (u, rest).
Lemma span_app f s rest : Forall (fun c => f c = true) s -> rest = [] \/ (exists c r, rest = c :: r /\ f c = false) -> span f (s ++ rest) = (s, rest).
Proof.
  intros F R. induction F as [|c s H F IH].
  - destruct R as [->|(c & r & -> & E)]; [easy|]. cbn. now rewrite E.
  - cbn [app span]. now rewrite H, IH.
Qed.
Lemma word_unit s : s <> [] -> Forall (fun c => space_char c = false) s -> opening (hd " "%char s) = false -> is_unit s.
Proof.
  intros N F O. split; [easy|]. intros rest R. assert (span (fun d => negb (space_char d)) (s ++ rest) = (s, rest)) as E.
  { apply span_app; [eapply Forall_impl; [|exact F]; intros c ->; easy|]. destruct R as [->|(r & ->)]; [now left|right]. now exists blank, r. }
  destruct s as [|c s]; [easy|]. cbn [app match_part]. cbn in O. apply orb_false_iff in O as [O1 O2]. rewrite O1, O2. cbn [app] in E. now rewrite E.
Qed.
Lemma up_to_app close x z rest : Forall (fun c => c <> close /\ c <> "010"%char) x -> z <> [] -> Forall (fun c => c = close) z -> rest = [] \/ (exists c r, rest = c :: r /\ c <> close) ->
  up_to close (x ++ z ++ rest) = Some (x ++ z, rest).
Proof.
  intros F N Z R. induction F as [|c x (A & B) F IH].
  - destruct Z as [|c z -> Z]; [easy|]. cbn [app up_to]. rewrite Ascii.eqb_refl. rewrite span_app; [easy| |].
    + eapply Forall_impl; [|exact Z]. intros a ->. apply Ascii.eqb_refl.
    + destruct R as [->|(c & r & -> & E)]; [now left|right]. exists c, r. split; [easy|]. apply Ascii.eqb_neq; congruence.
  - cbn [app up_to]. destruct (Ascii.eqb_spec c close); [easy|]. destruct (Ascii.eqb_spec c "010"); [easy|]. now rewrite IH.
Qed.
Lemma bracket_unit x z : Forall (fun c => c <> "]"%char /\ c <> "010"%char) x -> z <> [] -> Forall (fun c => c = "]"%char) z -> is_unit ("["%char :: x ++ z).
Proof.
  intros X N Z. split; [easy|]. intros rest R. cbn [app match_part]. rewrite <- app_assoc. change (Ascii.eqb "[" "(") with false. change (Ascii.eqb "[" "[") with true. cbv iota.
  rewrite up_to_app; try easy. destruct R as [->|(r & ->)]; [now left|right]. now exists blank, r.
Qed.
Lemma find_parts_line us n : Forall is_unit us -> length (line us) <= n -> find_parts n (line us) = us.
Proof.
  intros F. revert n. induction F as [|u us [N U] F IH]; intros n L; [now destruct n|].
  destruct us as [|v vs].
  - cbn [line] in *. specialize (U [] (or_introl eq_refl)). rewrite app_nil_r in U. destruct u as [|c u]; [easy|]. destruct n as [|n]; [cbn in L; lia|]. cbn [find_parts]. rewrite U. now destruct n.
  - rewrite line_cons in * by easy. specialize (U (blank :: line (v :: vs)) (or_intror (ex_intro _ _ eq_refl))).
    destruct u as [|c u]; [easy|]. cbn [app length] in *. rewrite app_length in L. cbn [length] in L. destruct n as [|n]; [lia|]. cbn [find_parts]. rewrite U. f_equal.
    destruct n as [|n]; [lia|]. change (find_parts (S n) (blank :: line (v :: vs))) with (find_parts n (line (v :: vs))). apply IH. lia.
Qed.

(** *** The units of well named arguments *)
Lemma plain_facts s : plain s -> piece s /\ is_unit s /\ Forall (fun c => c <> "]"%char /\ c <> "010"%char) s.
Proof.
  intros P. pose proof (plain_piece s P) as Q. destruct (plain_chars s P) as [N F]. split; [easy|split].
  - apply word_unit; [easy|eapply Forall_impl; [|exact F]; intros c (A & _); exact A|]. destruct F as [|c s (A & B & C) F]; [easy|exact B].
  - eapply Forall_impl; [|exact F]. intros c (A & B & C). split; intros ->; [discriminate C|discriminate A].
Qed.
Lemma dots_piece : piece (chars "...").
Proof. repeat split. repeat constructor; easy. Qed.
Definition no_close (s : text) : Prop := Forall (fun c => c <> "]"%char /\ c <> "010"%char) s.
(** brackets around words with closing brackets at the end only *)
Definition open_part (s : text) : Prop := exists x z, s = x ++ z /\ no_close x /\ Forall (fun c => c = "]"%char) z.
Lemma open_part_unit s : open_part s -> is_unit (in_brackets s).
Proof.
  intros (x & z & -> & X & Z). unfold in_brackets. rewrite <- app_assoc. apply bracket_unit; [easy|now destruct z|]. apply Forall_app. split; [easy|]. now constructor.
Qed.
Lemma open_part_line a s : no_close a -> open_part s -> open_part (a ++ blank :: s).
Proof. intros A (x & z & -> & X & Z). exists (a ++ blank :: x), z. rewrite <- app_assoc. split; [easy|]. split; [|easy]. apply Forall_app. split; [easy|]. now constructor. Qed.
Lemma open_part_word s : no_close s -> open_part s.
Proof. intros A. exists s, []. rewrite app_nil_r. split; [easy|]. split; [easy|]. constructor. Qed.
Lemma open_part_brackets s : open_part s -> open_part (in_brackets s).
Proof.
  intros (x & z & -> & X & Z). exists ("["%char :: x), (z ++ ["]"%char]). unfold in_brackets. rewrite <- app_assoc. split; [easy|]. split; [constructor; easy|]. apply Forall_app. split; [easy|]. now constructor.
Qed.
Lemma dots_no_close : no_close (chars "...").
Proof. now repeat constructor. Qed.
Lemma values_facts m l : plain l -> Forall piece (values m l) /\ Forall is_unit (values m l) /\ (values m l <> [] -> open_part (line (values m l))).
Proof.
  intros P. destruct (plain_facts l P) as (Q & U & C). assert (piece (in_brackets (line [l; chars "..."]))) as B by (apply piece_brackets, piece_line; [easy|]; apply Forall_cons; [exact Q|]; apply Forall_cons; [exact dots_piece|constructor]).
  assert (open_part (line [l; chars "..."])) as O by (apply open_part_line; [exact C|]; apply open_part_word, dots_no_close).
  destruct m as [| | |n]; cbn [values].
  - split; [|split]; [now constructor|now constructor|]. intros _. now apply open_part_word.
  - assert (open_part (line [l; in_brackets (line [l; chars "..."])])) as O2 by (apply open_part_line; [exact C|]; now apply open_part_brackets). split; [|split].
    + constructor; [|constructor]. apply piece_brackets, piece_line; [easy|]. apply Forall_cons; [exact Q|]; apply Forall_cons; [exact B|constructor].
    + constructor; [|constructor]. now apply open_part_unit.
    + intros _. now apply open_part_brackets.
  - split; [|split].
    + apply Forall_cons; [exact Q|]; apply Forall_cons; [exact B|constructor].
    + constructor; [easy|]. constructor; [|constructor]. now apply open_part_unit.
    + intros _. apply open_part_line; [exact C|]. now apply open_part_brackets.
  - split; [|split]; [apply Forall_forall; intros s ->%repeat_spec; easy|apply Forall_forall; intros s ->%repeat_spec; easy|].
    induction n as [|n IH]; [easy|]. intros _. cbn [repeat]. destruct n as [|n]; [now apply open_part_word|]. rewrite line_cons by easy. apply open_part_line; [exact C|]. now apply IH.
Qed.
Lemma plain_first x : positional (arg x) = false -> well_named x -> plain (first_spelling x).
Proof. unfold positional, first_spelling, well_named. destruct (spellings (arg x)) as [|o r]; [easy|]. intros _ [F _]. now inversion F. Qed.
Lemma units_facts x : well_named x -> units x <> [] /\ Forall piece (units x) /\ Forall is_unit (units x).
Proof.
  intros W. pose proof W as [_ W2]. unfold units. destruct (positional (arg x)) eqn:E.
  - destruct W2 as [N P]. destruct (values_facts (takes (arg x)) _ P) as (A & B & _). split; [|easy]. now rewrite values_none.
  - destruct (plain_facts _ (plain_first x E W)) as (Q & U & C).
    assert (piece (line (first_spelling x :: values (takes (arg x)) (label x))) /\ open_part (line (first_spelling x :: values (takes (arg x)) (label x)))) as [A B].
    { destruct W2 as [W2|P]; [rewrite W2; split; [exact Q|now apply open_part_word]|]. destruct (values_facts (takes (arg x)) _ P) as (A & _ & B). split; [apply piece_line; [easy|]; now constructor|].
      destruct (values (takes (arg x)) (label x)) as [|v vs] eqn:V; [now apply open_part_word|]. rewrite line_cons by easy. apply open_part_line; [exact C|]. now apply B. }
    split; [easy|]. split; (constructor; [|constructor]); [now apply piece_brackets|now apply open_part_unit].
Qed.
Lemma all_units_facts l : Forall well_named l -> (forall x, In x l -> units x <> []) /\ Forall piece (flat_map units l) /\ Forall is_unit (flat_map units l).
Proof.
  intros F. split; [|split].
  - intros x Hx. rewrite Forall_forall in F. now apply units_facts, F.
  - induction F as [|x l W F IH]; [constructor|]. cbn [flat_map]. apply Forall_app. split; [now apply units_facts|easy].
  - induction F as [|x l W F IH]; [constructor|]. cbn [flat_map]. apply Forall_app. split; [now apply units_facts|easy].
Qed.
