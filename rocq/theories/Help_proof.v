(** Proofs about the help of a program. *)
From Coq Require Import Ascii String Lia.
From Verif Require Import Py Cmdline_spec Usage_spec Help_spec Usage_model Help_model Usage_proof.
Open Scope string_scope.
Open Scope nat_scope.
Open Scope list_scope.

Lemma nl_eq : newline = "010"%char. Proof. reflexivity. Qed.
Definition flush (cur : text) : list text := match cur with [] => [] | _ => [cur] end.
Lemma fl_nl cur s : full_lines_from cur (newline :: s) = flush cur ++ full_lines s.
Proof. cbn [full_lines_from]. now rewrite Ascii.eqb_refl. Qed.
Lemma fl_other cur c s : c <> newline -> full_lines_from cur (c :: s) = full_lines_from (cur ++ [c]) s.
Proof. intros N. cbn [full_lines_from]. now destruct (Ascii.eqb_spec c newline). Qed.
Lemma fl_app a : forall cur b, full_lines_from cur (a ++ newline :: b) = full_lines_from cur a ++ full_lines b.
Proof.
  induction a as [|c a IH]; intros cur b. { cbn [app]. rewrite fl_nl. reflexivity. }
  cbn [app]. destruct (Ascii.eqb_spec c newline) as [En|En].
  - rewrite En, !fl_nl. unfold full_lines at 1 2. now rewrite IH, app_assoc.
  - rewrite !fl_other by easy. apply IH.
Qed.
Lemma fl_repeat n : full_lines (repeat newline n) = [].
Proof. induction n; [easy|]. cbn [repeat]. unfold full_lines. rewrite fl_nl. exact IHn. Qed.
Lemma fl_lead n s : full_lines (repeat newline n ++ s) = full_lines s.
Proof. induction n; [easy|]. cbn [repeat app]. unfold full_lines at 1. rewrite fl_nl. exact IHn. Qed.
Lemma fl_lead_from n cur s : full_lines_from cur (repeat newline (S n) ++ s) = flush cur ++ full_lines s.
Proof. cbn [repeat app]. rewrite fl_nl. f_equal. apply fl_lead. Qed.
Lemma fl_trail n cur s : full_lines_from cur (s ++ repeat newline n) = full_lines_from cur s.
Proof. destruct n; cbn [repeat]; [now rewrite app_nil_r|]. rewrite fl_app, fl_repeat. apply app_nil_r. Qed.
Lemma fl_plain l : ~ In newline l -> forall cur, full_lines_from cur l = flush (cur ++ l).
Proof.
  induction l as [|c l IH]; intros N cur. { now rewrite app_nil_r. }
  rewrite fl_other by (intros ->; apply N; now left). rewrite IH by (intros I; apply N; now right). now rewrite <- app_assoc.
Qed.
Lemma fl_line l r : ~ In newline l -> l <> [] -> full_lines (l ++ newline :: r) = l :: full_lines r.
Proof. intros N E. unfold full_lines at 1. rewrite fl_app, fl_plain by easy. cbn [app]. now destruct l. Qed.
Lemma fl_lines ls : Forall (fun l => ~ In newline l /\ l <> []) ls -> full_lines (concat (map (fun l => l ++ [newline]) ls)) = ls.
Proof. induction 1 as [|l ls (A & B) F IH]; [easy|]. cbn [map concat]. rewrite <- app_assoc. cbn [app]. rewrite fl_line by easy. now rewrite IH. Qed.
Lemma fl_breaks s : forall n cur, full_lines_from cur (long_breaks n s) = full_lines_from cur (repeat newline n ++ s).
Proof.
  induction s as [|c s IH]; intros n cur.
  - cbn [long_breaks]. rewrite app_nil_r. change (repeat "010"%char (min n 2)) with (repeat newline (min n 2)).
    pose proof (fl_trail (min n 2) cur []) as A. pose proof (fl_trail n cur []) as B. cbn [app] in A, B. now rewrite A, B.
  - cbn [long_breaks]. destruct (Ascii.eqb_spec c "010") as [En|En].
    + rewrite IH. rewrite En. f_equal. change "010"%char with newline. change (repeat newline (S n)) with ([newline] ++ repeat newline n). clear.
      induction n; [easy|]. cbn [repeat app] in *. now rewrite <- IHn.
    + change (repeat "010"%char (min n 2)) with (repeat newline (min n 2)). assert (forall cu, full_lines_from cu (c :: long_breaks 0 s) = full_lines_from cu (c :: s)) as Q. { intros cu. rewrite !fl_other by exact En. now rewrite IH. }
      destruct n as [|n]; [apply Q|]. replace (min (S n) 2) with (S (min n 1)) by lia. rewrite !fl_lead_from. f_equal. apply Q.
Qed.
Lemma span_eq f s : s = fst (span f s) ++ snd (span f s) /\ Forall (fun c => f c = true) (fst (span f s)) /\ (forall c r, snd (span f s) = c :: r -> f c = false).
Proof.
  induction s as [|c s (A & B & C)]. { split; [easy|]. split; [constructor|]. intros c r Q. discriminate Q. } cbn [span]. destruct (f c) eqn:F.
  - destruct (span f s) as [a b]. cbn in *. split; [now f_equal|]. split; [now constructor|easy].
  - cbn. split; [easy|]. split; [constructor|]. now intros ? ? [= -> ->].
Qed.
Lemma strip_eq f s : exists a b, s = a ++ strip_both f s ++ b /\ Forall (fun c => f c = true) a /\ Forall (fun c => f c = true) b /\
  (forall c r, strip_both f s = c :: r -> f c = false) /\ (forall c r, strip_both f s = r ++ [c] -> f c = false).
Proof.
  unfold strip_both, strip_left. destruct (span_eq f s) as (A & B & C). set (m := snd (span f s)) in *. destruct (span_eq f (rev m)) as (D & E & F). set (a := fst (span f s)) in *. set (b := fst (span f (rev m))) in *. set (k := snd (span f (rev m))) in *. clearbody a b k m.
  exists a, (rev b). assert (m = rev k ++ rev b) as M by (rewrite <- rev_app_distr, <- D; now rewrite rev_involutive).
  split; [now rewrite <- M|]. split; [easy|]. split; [now apply Forall_rev|]. split.
  - intros c r Q. apply (C c (r ++ rev b)). rewrite M, Q. reflexivity.
  - intros c r Q. apply (F c (rev r)). rewrite <- (rev_involutive k), Q, rev_app_distr. reflexivity.
Qed.
Lemma all_nl a : Forall (fun c => Ascii.eqb "010" c = true) a -> a = repeat newline (length a).
Proof. induction 1 as [|c a H F IH]; [easy|]. apply Ascii.eqb_eq in H. subst c. cbn [length repeat]. now rewrite <- IH. Qed.
Lemma fl_strip s : full_lines (strip_both (Ascii.eqb "010") s) = full_lines s.
Proof.
  destruct (strip_eq (Ascii.eqb "010") s) as (a & b & A & B & C & _). apply all_nl in B, C. rewrite A at 2. rewrite B, C, fl_lead. unfold full_lines. now rewrite fl_trail.
Qed.
Lemma fl_help item : full_lines (format_help_of item) = full_lines item.
Proof.
  unfold format_help_of. destruct item as [|c s]; [easy|]. change ["010"%char] with (repeat newline 1). unfold full_lines at 1. rewrite fl_trail. fold (full_lines (strip_both (Ascii.eqb "010") (long_breaks 0 ("010"%char :: (c :: s) ++ repeat newline 1)))).
  rewrite fl_strip. unfold full_lines at 1. rewrite fl_breaks. change (repeat newline 0 ++ "010"%char :: (c :: s) ++ repeat newline 1) with (newline :: (c :: s) ++ repeat newline 1). rewrite fl_nl. unfold full_lines. rewrite (fl_trail 1 [] (c :: s)). reflexivity.
Qed.

(** tidy *)
Definition triple : text := [newline; newline; newline].
Lemma triple_after k c (r a b : text) : k <= 2 -> c <> newline -> repeat newline k ++ c :: r = a ++ triple ++ b -> exists a', r = a' ++ triple ++ b.
Proof.
  intros K N. unfold triple. destruct k as [|[|[|k]]]; [| | |lia]; destruct a as [|a1 [|a2 [|a3 a]]]; cbn; intros Q; injection Q; intros; subst; try congruence; try (now exists a); try (now exists (a3 :: a)); try (now exists (a2 :: a3 :: a)); try (now exists [a2]); now exists [].
Qed.
Lemma breaks_tidy s : forall n a b, long_breaks n s <> a ++ triple ++ b.
Proof.
  induction s as [|c s IH]; intros n a b.
  - cbn [long_breaks]. intros Q. apply (f_equal (@length _)) in Q. rewrite repeat_length, !app_length in Q. change (length triple) with 3 in Q. lia.
  - cbn [long_breaks]. destruct (Ascii.eqb_spec c "010") as [En|En]; [apply IH|]. intros Q. change (repeat "010"%char (min n 2)) with (repeat newline (min n 2)) in Q. apply triple_after in Q as (a' & Q); [|lia|exact En]. now apply IH in Q.
Qed.
Lemma help_tidy item : item <> [] -> tidy (format_help_of item).
Proof.
  intros N. unfold format_help_of. destruct item as [|c0 s0]; [easy|]. set (s := long_breaks 0 _). assert (forall a b, s <> a ++ triple ++ b) as S by apply breaks_tidy. clearbody s.
  destruct (strip_eq (Ascii.eqb "010") s) as (a & b & A & _ & _ & H & L). set (t := strip_both (Ascii.eqb "010") s) in *. clearbody t. assert (last t blank <> newline) as LT.
  { destruct (list_eq_dec ascii_dec t []) as [->|NT]; [easy|]. destruct (exists_last NT) as (r & c & E). rewrite E, last_last. intros ->. apply L in E. discriminate. }
  split.
  - exists t. split; [easy|]. split; [|easy]. destruct t as [|c t]; [easy|]. cbn. intros ->. now specialize (H _ _ eq_refl).
  - intros x y Q. destruct (list_eq_dec ascii_dec y []) as [->|NY].
    + change (x ++ [newline; newline; newline] ++ []) with (x ++ [newline; newline; newline]) in Q. change [newline; newline; newline] with ([newline; newline] ++ [newline]) in Q. rewrite app_assoc in Q. apply app_inj_tail in Q as (Q & _). rewrite Q in LT. apply LT. change (x ++ [newline; newline]) with (x ++ [newline] ++ [newline]). rewrite app_assoc. apply last_last.
    + destruct (exists_last NY) as (y' & c & ->). rewrite !app_assoc in Q. apply app_inj_tail in Q as (Q & _). apply (S (a ++ x) (y' ++ b)). rewrite A, Q. unfold triple. now rewrite <- !app_assoc.
Qed.

(** visible characters *)
Lemma vis_app a b : visible (a ++ b) = visible a ++ visible b.
Proof. apply filter_app. Qed.
Lemma space_white c : space_char c = white_b c. Proof. reflexivity. Qed.
Lemma vis_none a : Forall (fun c => space_char c = true) a -> visible a = [].
Proof. induction 1 as [|c a H F IH]; [easy|]. unfold visible in *. cbn. rewrite <- space_white, H. exact IH. Qed.
Lemma vis_sub s : forall b, visible (sub_white b s) = visible s.
Proof.
  induction s as [|c s IH]; intros b; [easy|]. cbn [sub_white]. destruct (space_char c) eqn:S.
  - assert (visible (c :: s) = visible s) as -> by (unfold visible; cbn [filter]; now rewrite <- space_white, S). destruct b; [apply IH|]. change (visible (" "%char :: sub_white true s)) with (visible (sub_white true s)). apply IH.
  - unfold visible in *. cbn [filter]. now rewrite IH.
Qed.
Lemma vis_strip s : visible (strip_both space_char s) = visible s.
Proof. destruct (strip_eq space_char s) as (a & b & A & B & C & _). rewrite A at 2. rewrite !vis_app, (vis_none a), (vis_none b) by easy. now rewrite app_nil_r. Qed.
Lemma split_spec wrap s w : wraps wrap -> match split_lines wrap s w with
  | None => (w <= 0)%Z
  | Some ls => (0 < w)%Z /\ visible (concat ls) = visible s /\ Forall (fun l => visible l <> [] /\ ~ In newline l /\ (Z.of_nat (length l) <= w)%Z) ls
  end.
Proof. intros W. unfold split_lines. specialize (W (strip_both space_char (sub_white false s)) w). destruct (wrap _ w); [|easy]. now rewrite vis_strip, vis_sub in W. Qed.

(** expanding *)
Lemma find_key_some s : forall k r, find_key s = Some (k, r) -> s = k ++ ")"%char :: r /\ ~ In "("%char k /\ ~ In ")"%char k.
Proof.
  induction s as [|c s IH]; intros k r; [easy|]. cbn [find_key]. destruct (Ascii.eqb_spec c ")") as [En|En]. { intros [= <- <-]. now subst. }
  destruct (Ascii.eqb_spec c "(") as [Em|Em]; [easy|]. destruct (find_key s) as [[k' r']|]; [|easy]. intros [= <- <-]. destruct (IH _ _ eq_refl) as (A & B & C). split; [now rewrite A at 1|]. split; intros [Q|Q]; subst; easy.
Qed.
Lemma find_key_of k r : ~ In "("%char k -> ~ In ")"%char k -> find_key (k ++ ")"%char :: r) = Some (k, r).
Proof.
  induction k as [|c k IH]; intros A B; [easy|]. cbn [app find_key]. destruct (Ascii.eqb_spec c ")") as [En|En]; [exfalso; apply B; now left|]. destruct (Ascii.eqb_spec c "(") as [Em|Em]; [exfalso; apply A; now left|].
  rewrite IH; [easy| |]; intros I; [apply A|apply B]; now right.
Qed.
Lemma expand_ok f n : forall s s', expand n f s = Ok s' -> filled_in f s s'.
Proof.
  induction n as [|n IH]; intros s s'. { destruct s; [intros [= <-]; constructor|easy]. }
  destruct s as [|c s]; [intros [= <-]; constructor|]. cbn [expand]. destruct (Ascii.eqb_spec c "%") as [En|En].
  - rewrite En. clear En. destruct s as [|d s2]; [easy|]. destruct (Ascii.eqb_spec d "%") as [Ed|Ed].
    + rewrite Ed. destruct (expand n f s2) eqn:E; [|easy]. intros [= <-]. apply percent. now apply IH.
    + destruct (Ascii.eqb_spec d "(") as [Ep|Ep]; [|easy]. rewrite Ep. destruct (find_key s2) as [[k [|x s3]]|] eqn:K; [easy| |easy]. apply find_key_some in K as (K & N1 & N2). destruct (Ascii.eqb_spec x "s") as [Ex|Ex]; [|easy].
      destruct (f k) as [v|] eqn:V; [|easy]. destruct (expand n f s3) eqn:E; [|easy]. intros [= <-]. rewrite K, Ex. apply (mention f k v s3); try easy. now apply IH.
  - destruct (expand n f s) eqn:E; [|easy]. intros [= <-]. constructor; [easy|now apply IH].
Qed.
Lemma expand_of f s s' : filled_in f s s' -> forall n, length s <= n -> expand n f s = Ok s'.
Proof.
  induction 1 as [|c s s' N F IH|s s' F IH|k v s s' A B V F IH]; intros n L.
  - now destruct n.
  - destruct n as [|n]; [cbn in L; lia|]. cbn [expand]. destruct (Ascii.eqb_spec c "%"); [easy|]. rewrite IH by (cbn in L; lia). reflexivity.
  - destruct n as [|n]; [cbn in L; lia|]. cbn. rewrite IH by (cbn in L; lia). reflexivity.
  - destruct n as [|n]; [cbn in L; lia|]. cbn in L. rewrite app_length in L. cbn in L. change (chars "%(" ++ k ++ chars ")s" ++ s) with ("%"%char :: "("%char :: k ++ ")"%char :: "s"%char :: s). cbn. rewrite find_key_of by easy. cbn. rewrite V. rewrite IH by lia. reflexivity.
Qed.
Lemma expand_iff e s s' : expand_help e s = Ok s' <-> filled_in (attribute e) s s'.
Proof. split; [apply expand_ok|]. intros H. now apply (expand_of _ _ _ H). Qed.

(** one argument *)
Lemma comma_join_commas l : comma_join l = commas l.
Proof. induction l as [|s [|s' l] IH]; [easy|easy|]. change (s ++ chars ", " ++ comma_join (s' :: l) = s ++ chars ", " ++ commas (s' :: l)). now rewrite IH. Qed.
Lemma line_two (o : text) v : v <> [] -> line (o :: v) = o ++ chars " " ++ line v.
Proof. now destruct v. Qed.
Lemma invocation_heading x : format_action_invocation x = heading x.
Proof.
  unfold format_action_invocation, heading, positional, label, get_metavar, positional. destruct (spellings (arg x)) as [|o os] eqn:S; [reflexivity|].
  assert (forall o, takes (arg x) <> Exactly 0 -> o ++ chars " " ++ format_args x (map upper_char (name (arg x))) = line (o :: values (takes (arg x)) match metavar x with Some m => m | None => map capital (name (arg x)) end)) as Q.
  { intros p N. rewrite line_two. - now rewrite values_line. - now destruct (takes (arg x)) as [| | |[|n]]. }
  destruct (takes (arg x)) as [| | |[|n]]; rewrite comma_join_commas; f_equal; try (apply map_ext; intros p; now apply Q).
  cbn [values repeat]. now rewrite map_id.
Qed.
Lemma max_length es : forall n, fold_left add_argument es n = Nat.max n (match es with [] => 0 | _ => longest es + 2 end).
Proof.
  induction es as [|e es IH]; intros n; cbn [fold_left]; [lia|]. rewrite IH. unfold add_argument. rewrite invocation_heading. unfold longest. cbn [map list_max fold_right]. destruct es; cbn; unfold list_max in *; lia.
Qed.
Lemma the_column es : es <> [] -> Nat.min (fold_left add_argument es 0 + 2) 24 = column es.
Proof. intros N. rewrite max_length. unfold column. destruct es; [easy|]. f_equal. lia. Qed.

Definition with_newlines (ls : list text) : text := concat (map (fun l => l ++ [newline]) ls).
Lemma wn_app a b : with_newlines (a ++ b) = with_newlines a ++ with_newlines b.
Proof. unfold with_newlines. now rewrite map_app, concat_app. Qed.
Definition good (w : Z) (c : nat) (e : entry) : Prop := helped e -> exists s s', help e = Some s /\ filled_in (attribute e) s s' /\ visible s' <> [] /\ (Z.of_nat c < w)%Z.
Lemma help_cases e : ~ helped e /\ (help e = None \/ help e = Some []) \/ helped e /\ exists c s, help e = Some (c :: s).
Proof. unfold helped. destruct (help e) as [[|c s]|]; [left; tauto| |left; tauto]. right. split; [easy|now exists c, s]. Qed.
Lemma visible_lines ls w : Forall (fun l => visible l <> [] /\ ~ In newline l /\ (Z.of_nat (length l) <= w)%Z) ls -> visible (concat ls) = [] -> ls = [].
Proof. intros F. destruct F as [|l ls (A & _)]; [easy|]. cbn. rewrite vis_app. now destruct (visible l). Qed.
Lemma pad_lines c ls : concat (map (fun l => repeat " "%char c ++ l ++ ["010"%char]) ls) = with_newlines (map (fun l => repeat blank c ++ l) ls).
Proof. unfold with_newlines. rewrite map_map. f_equal. apply map_ext. intros l. now rewrite <- app_assoc. Qed.
Lemma action_spec wrap w c e : wraps wrap -> 4 <= c -> ~ In newline (heading (item e)) ->
  (forall x, format_action wrap w c e = Ok x -> exists ls, entry_lines w c e ls /\ x = with_newlines ls /\ Forall (fun l => ~ In newline l /\ l <> []) ls) /\
  (good w c e <-> exists x, format_action wrap w c e = Ok x) /\
  (helped e -> (exists s s', help e = Some s /\ filled_in (attribute e) s s') -> (w <= Z.of_nat c)%Z -> format_action wrap w c e = Err ValueError) /\
  (helped e -> (exists s s', help e = Some s /\ filled_in (attribute e) s s' /\ visible s' = []) -> (Z.of_nat c < w)%Z -> format_action wrap w c e = Err IndexError).
Proof.
  intros W C N. unfold format_action, good. rewrite invocation_heading. cbv zeta. set (h := heading (item e)) in *.
  destruct (help_cases e) as [(NH & H)|(HH & c0 & s0 & H)].
  - assert (match help e with None | Some [] => True | _ => False end) as M by (destruct H as [-> | ->]; easy).
    destruct (help e) as [[|]|]; try easy; (split; [|split; [split; [intros _; eexists; reflexivity|tauto]|tauto]]); intros x [= <-]; exists [repeat blank 2 ++ h]; (split; [now apply no_help|]); (split; [unfold with_newlines; cbn; now rewrite ?app_nil_r|]); (constructor; [split; [intros [Q|[Q|Q]]; easy|easy]|constructor]).
  - rewrite H. set (s := c0 :: s0) in *. pose proof (expand_iff e s) as X.
    assert (repeat " "%char 2 ++ h ++ ["010"%char] = with_newlines [repeat blank 2 ++ h]) as B1 by (unfold with_newlines; cbn; now rewrite ?app_nil_r).
    destruct (expand_help e s) as [s'|er] eqn:E.
    2:{ assert (forall s'', ~ filled_in (attribute e) s s'') as NF by (intros s'' F; apply X in F; discriminate).
        split; [destruct (len h <=? Z.of_nat c - 2 - 2)%Z; easy|]. split; [|split].
        - split; [intros G; destruct (G HH) as (t & s'' & [= <-] & F & _); now apply NF in F|]. destruct (len h <=? _)%Z; now intros (x & Q).
        - intros _ (t & s'' & [= <-] & F) _. now apply NF in F.
        - intros _ (t & s'' & [= <-] & F & _) _. now apply NF in F. }
    assert (filled_in (attribute e) s s') as F by now apply X.
    assert (forall s'', filled_in (attribute e) s s'' -> s'' = s') as U by (intros s'' F'; apply X in F'; congruence). clear X.
    cbn [bind]. pose proof (split_spec wrap s' (w - Z.of_nat c) W) as L. set (sl := split_lines wrap s' (w - Z.of_nat c)) in *. clearbody sl.
    destruct sl as [[|l ls]|].
    + destruct L as (L1 & L2 & _). change (visible (concat [])) with (@nil ascii) in L2.
      split; [destruct (len h <=? _)%Z; cbn; intros x Q; discriminate Q|]. split; [|split].
      * split; [intros G; destruct (G HH) as (t & s'' & [= <-] & F' & V & _); apply U in F'; subst s''; congruence|]. destruct (len h <=? _)%Z; now intros (x & Q).
      * intros _ _ Q. lia.
      * intros _ _ _. now destruct (len h <=? _)%Z.
    + destruct L as (L1 & L2 & L3). assert (visible s' <> []) as V. { rewrite <- L2. intros Q. now apply (visible_lines (l :: ls) _ L3) in Q. }
      assert (Forall (fun l => l <> [] /\ (Z.of_nat (c + length l) <= w)%Z) (l :: ls)) as K. { eapply Forall_impl; [|exact L3]. cbn. intros a (A1 & A2 & A3). split; [now intros ->|lia]. }
      assert (forall k (a : text), In newline (repeat blank k ++ a) -> In newline a) as R. { intros k a I. apply in_app_or in I as [I|I]; [|easy]. apply repeat_spec in I. discriminate. }
      assert (Forall (fun l0 => ~ In newline l0 /\ l0 <> []) (map (fun l0 : list ascii => repeat blank c ++ l0) (l :: ls))) as PL.
      { apply Forall_map. eapply Forall_impl; [|exact L3]. cbn. intros a (A1 & A2 & A3). split; [intros I; now apply R in I|]. intros Q. apply app_eq_nil in Q as (_ & ->). easy. }
      assert (good w c e) as G. { intros _. exists s, s'. repeat split; try easy. lia. } unfold good in G. rewrite H in G.
      split; [|split; [split; [intros _; destruct (len h <=? _)%Z; eexists; reflexivity|intros _; exact G]|split; [intros _ _ Q; lia|intros _ (t & s'' & [= <-] & F' & Q) _; apply U in F'; congruence]]].
      destruct (Z.leb_spec (len h) (Z.of_nat c - 2 - 2)) as [J|J]; unfold len in J; intros x [= <-].
      * exists ((repeat blank 2 ++ h ++ repeat blank (c - 2 - length h) ++ l) :: map (fun l => repeat blank c ++ l) ls). split; [|split].
        -- now apply (beside_it w c e s s'); try easy; fold h; try lia.
        -- rewrite pad_lines. unfold with_newlines at 2. cbn [map concat]. fold (with_newlines (map (fun l1 : list ascii => repeat blank c ++ l1) ls)). change (" "%char) with blank. unfold len.
           replace (c - 2 - length h) with (Z.to_nat (Z.of_nat c - 2 - 2 - Z.of_nat (length h)) + 2) by lia. rewrite repeat_app. cbn. change "010"%char with newline. now rewrite <- !app_assoc.
        -- constructor; [|now inversion PL]. split; [|easy]. intros I. apply R in I. apply in_app_or in I as [I|I]; [easy|]. apply R in I. inversion L3 as [|? ? (_ & A2 & _)]; subst. easy.
      * exists ((repeat blank 2 ++ h) :: map (fun l => repeat blank c ++ l) (l :: ls)). split; [|split].
        -- apply (below_it w c e s s'); try easy. fold h. lia.
        -- rewrite pad_lines. cbn [map]. unfold with_newlines. cbn. change "010"%char with newline. now rewrite <- !app_assoc.
        -- constructor; [|exact PL]. split; [|easy]. intros I. now apply R in I.
    + split; [destruct (len h <=? _)%Z; cbn; intros x Q; discriminate Q|]. split; [|split].
      * split; [intros G; destruct (G HH) as (t & s'' & _ & _ & _ & Q); lia|]. destruct (len h <=? _)%Z; now intros (x & Q).
      * intros _ _ _. now destruct (len h <=? _)%Z.
      * intros _ _ Q. lia.
Qed.
