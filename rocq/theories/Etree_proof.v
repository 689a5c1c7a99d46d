From Coq Require Import String.
From Verif Require Import Py PyLemmas Etree_spec Etree_model.
Open Scope nat_scope.

Lemma node_ind2 (P : node -> Prop) (H : forall tg tx tl at_ ch, Forall P ch -> P (Node tg tx tl at_ ch)) : forall e, P e.
Proof.
  fix IH 1. intros [tg tx tl at_ ch]. apply H. induction ch as [|c ch IHc]; constructor; [apply IH|exact IHc].
Qed.

(** ** Texts *)
Lemma asciib_spec t : asciib t = true <-> is_ascii t.
Proof.
  unfold asciib, is_ascii. rewrite forallb_forall, Forall_forall. split; intros H c I; specialize (H c I); now apply N.ltb_lt.
Qed.
Lemma byte_space_spec c : byte_space c = true <-> byte_white c.
Proof. unfold byte_space, byte_white. rewrite orb_true_iff, andb_true_iff, !N.leb_le, N.eqb_eq. tauto. Qed.
Lemma uni_space_spec c : uni_space c = true <-> white c.
Proof.
  unfold uni_space, white. cbn [existsb]. rewrite !orb_true_iff, !andb_true_iff, !N.leb_le, !N.eqb_eq, byte_space_spec.
  intuition discriminate.
Qed.
Lemma space_of_spec t c : space_of t c = true <-> white_in t c.
Proof.
  unfold space_of, white_in. destruct (asciib t) eqn:A.
  - apply asciib_spec in A. rewrite byte_space_spec. tauto.
  - assert (~ is_ascii t) by (intros H; apply asciib_spec in H; congruence). rewrite uni_space_spec. tauto.
Qed.
Lemma space_of_no t c : space_of t c = false <-> ~ white_in t c.
Proof. rewrite <- space_of_spec. destruct (space_of t c); intuition congruence. Qed.
Lemma drop_app p l k : Forall (fun c => p c = true) l -> drop_while p (l ++ k) = drop_while p k.
Proof. induction 1 as [|c l H _ IH]; [reflexivity|]. cbn [app drop_while]. now rewrite H. Qed.
Lemma drop_split p t : exists l, t = l ++ drop_while p t /\ Forall (fun c => p c = true) l /\ (forall c s, drop_while p t = c :: s -> p c = false).
Proof.
  induction t as [|c t [l [E [F G]]]]; cbn [drop_while].
  - exists []. repeat split; [constructor|discriminate].
  - destruct (p c) eqn:P.
    + exists (c :: l). repeat split; [cbn; now f_equal|now constructor|trivial].
    + exists []. repeat split; [constructor|]. intros d s Q. now injection Q as <- _.
Qed.
Lemma forall_white t l : Forall (fun c => space_of t c = true) l <-> Forall (white_in t) l.
Proof. split; intros H; (eapply Forall_impl; [|exact H]); intros c; apply space_of_spec. Qed.
Lemma strip_trimmed t : trimmed t (strip t).
Proof.
  unfold strip. destruct (drop_split (space_of t) t) as [l [E [F G]]]. set (u := drop_while (space_of t) t) in *.
  destruct (drop_split (space_of t) (rev u)) as [r [E' [F' G']]]. set (v := drop_while (space_of t) (rev u)) in *.
  exists l, (rev r). assert (U : u = rev v ++ rev r) by (rewrite <- rev_app_distr, <- E'; symmetry; apply rev_involutive).
  split; [congruence|]. split; [now apply forall_white|]. split; [apply forall_white; now apply Forall_rev|]. split.
  - intros c s Q. apply space_of_no. destruct u as [|d u'] eqn:EU.
    + apply (f_equal (@length N)) in U. rewrite Q in U. cbn in U. lia.
    + rewrite Q in U. cbn in U. injection U as -> _. now apply (G c u').
  - intros c s Q. apply space_of_no. apply (f_equal (@rev N)) in Q. rewrite rev_involutive, rev_app_distr in Q. cbn in Q. now apply (G' c (rev s)).
Qed.
Lemma trimmed_strip t s : trimmed t s -> s = strip t.
Proof.
  intros [l [r [E [L [R [A B]]]]]]. unfold strip. apply forall_white in L, R.
  assert (U : drop_while (space_of t) t = drop_while (space_of t) (s ++ r)) by (rewrite E at 2; now apply drop_app).
  rewrite U. destruct s as [|c s'].
  - cbn [app]. rewrite <- (app_nil_r r). rewrite drop_app by trivial. reflexivity.
  - cbn [app drop_while]. specialize (A c s' eq_refl). apply space_of_no in A. rewrite A.
    change (c :: s' ++ r) with ((c :: s') ++ r). rewrite rev_app_distr, drop_app by now apply Forall_rev.
    destruct (rev (c :: s')) as [|d v] eqn:EV.
    { apply (f_equal (@length N)) in EV. rewrite rev_length in EV. discriminate. }
    assert (EV' : c :: s' = rev v ++ [d]) by (rewrite <- (rev_involutive (c :: s')), EV; reflexivity).
    specialize (B d (rev v) EV'). apply space_of_no in B. cbn [drop_while]. rewrite B. rewrite <- EV. now rewrite rev_involutive.
Qed.
Lemma same_text_strip a b : same_text a b <-> strip (shown a) = strip (shown b).
Proof.
  split.
  - intros [s [A B]]. apply trimmed_strip in A, B. congruence.
  - intros E. exists (strip (shown a)). split; [apply strip_trimmed|]. rewrite E. apply strip_trimmed.
Qed.
Lemma text_eqb_spec a b : text_eqb a b = true <-> a = b.
Proof. unfold text_eqb. destruct (list_eq_dec N.eq_dec a b); intuition congruence. Qed.
Lemma str_of_ok o : is_ascii (shown o) -> str_of o = Ok (shown o).
Proof. destruct o as [t|]; cbn; [|reflexivity]. intros A. apply asciib_spec in A. now rewrite A. Qed.
Lemma str_of_cases o : (is_ascii (shown o) /\ str_of o = Ok (shown o)) \/ (~ is_ascii (shown o) /\ str_of o = Err ValueError).
Proof.
  destruct o as [t|]; cbn [shown str_of].
  - destruct (asciib t) eqn:A; [left; split; [now apply asciib_spec|reflexivity]|right; split; [|reflexivity]].
    intros H. apply asciib_spec in H. congruence.
  - left. split; [repeat constructor|reflexivity].
Qed.

(** ** Attributes *)
Lemma dict_eqb_spec a b : NoDup (map fst a) -> NoDup (map fst b) -> (dict_eqb a b = true <-> forall k v, In (k, v) a <-> In (k, v) b).
Proof.
  intros Na Nb. unfold dict_eqb. rewrite andb_true_iff, Nat.eqb_eq, forallb_forall.
  assert (I : (forall kv, In kv a -> match dget String.eqb b (fst kv) with Some v => text_eqb (snd kv) v | None => false end = true) <-> incl a b).
  { split.
    - intros H [k v] X. specialize (H (k, v) X). cbn [fst snd] in H. destruct (dget String.eqb b k) as [w|] eqn:D; [|discriminate].
      apply text_eqb_spec in H. subst w. now apply (dget_in String.eqb String.eqb_eq).
    - intros H [k v] X. cbn [fst snd]. rewrite (in_dget String.eqb String.eqb_eq b k v Nb (H _ X)). now apply text_eqb_spec. }
  rewrite I. assert (Na' : NoDup a) by (eapply NoDup_map_inv; eauto). assert (Nb' : NoDup b) by (eapply NoDup_map_inv; eauto). split.
  - intros [L X] k v. split; [apply X|]. apply (NoDup_length_incl Na'); [lia|trivial].
  - intros H. split.
    + apply Nat.le_antisymm; apply NoDup_incl_length; trivial; intros [k v] Q; now apply H.
    + intros [k v] Q. now apply H.
Qed.

(** ** Equality *)
Definition go := fix go (l1 l2 : list node) : res (list bool) :=
               match l1, l2 with
               | c1 :: l1', c2 :: l2' => b <- equals c1 c2 ;; bs <- go l1' l2' ;; Ok (b :: bs)
               | _, _ => Ok []
               end.
Definition texts (a b : option text) (r : res bool) : res bool :=
  s1 <- str_of a ;; s2 <- str_of b ;; and_then (text_eqb (strip s1) (strip s2)) r.
Lemma equals_eq tg1 tx1 tl1 at1 ch1 tg2 tx2 tl2 at2 ch2 :
  equals (Node tg1 tx1 tl1 at1 ch1) (Node tg2 tx2 tl2 at2 ch2) =
  and_then (String.eqb tg1 tg2) (texts tx1 tx2 (texts tl1 tl2 (and_then (dict_eqb at1 at2) (and_then (length ch1 =? length ch2)
    (bs <- go ch1 ch2 ;; Ok (forallb (fun b => b) bs)))))).
Proof. reflexivity. Qed.
Lemma texts_true a b r : texts a b r = Ok true <-> is_ascii (shown a) /\ is_ascii (shown b) /\ same_text a b /\ r = Ok true.
Proof.
  unfold texts. destruct (str_of_cases a) as [[A ->]|[A ->]]; cbn [bind]; [|split; [discriminate|tauto]].
  destruct (str_of_cases b) as [[B ->]|[B ->]]; cbn [bind]; [|split; [discriminate|tauto]]. rewrite same_text_strip.
  unfold and_then. destruct (text_eqb _ _) eqn:E.
  - apply text_eqb_spec in E. tauto.
  - split; [discriminate|]. intros [_ [_ [H _]]]. apply text_eqb_spec in H. congruence.
Qed.
Lemma texts_err a b r x : texts a b r = Err x -> (x = ValueError /\ (~ is_ascii (shown a) \/ ~ is_ascii (shown b))) \/ r = Err x.
Proof.
  unfold texts. destruct (str_of_cases a) as [[A ->]|[A ->]]; cbn [bind]; [|intros E; injection E as <-; auto].
  destruct (str_of_cases b) as [[B ->]|[B ->]]; cbn [bind]; [|intros E; injection E as <-; auto].
  unfold and_then. destruct (text_eqb _ _); [auto|discriminate].
Qed.
Lemma and_then_true b r : and_then b r = Ok true <-> b = true /\ r = Ok true.
Proof. destruct b; cbn; intuition congruence. Qed.
Lemma and_then_err b r x : and_then b r = Err x -> r = Err x.
Proof. destruct b; cbn; [trivial|discriminate]. Qed.
Lemma ok_true_iff (r : res (list bool)) : (bs <- r ;; Ok (forallb (fun b => b) bs)) = Ok true <-> exists bs, r = Ok bs /\ forallb (fun b => b) bs = true.
Proof.
  destruct r; cbn; [|split; [discriminate|intros [bs [E _]]; discriminate]]. split.
  - intros E. injection E as E. eauto.
  - intros [bs [E F]]. injection E as ->. now rewrite F.
Qed.
Lemma go_true ch1 ch2 : length ch1 = length ch2 ->
  ((exists bs, go ch1 ch2 = Ok bs /\ forallb (fun b => b) bs = true) <-> Forall2 (fun a b => equals a b = Ok true) ch1 ch2).
Proof.
  revert ch2. induction ch1 as [|a l IH]; intros [|b k] L; try discriminate L.
  - split; [constructor|exists []; auto].
  - injection L as L. cbn [go]. fold go. split.
    + intros [bs [E F]]. destruct (equals a b) as [x|] eqn:Q; [|discriminate]. cbn [bind] in E.
      destruct (go l k) as [ys|] eqn:G; [|discriminate]. cbn [bind] in E. injection E as <-. cbn [forallb] in F.
      apply andb_true_iff in F. destruct F as [-> F]. constructor; [trivial|]. apply (IH k L). exists ys. auto.
    + intros F. inversion F as [|? ? ? ? Q R]; subst. rewrite Q. cbn [bind]. apply (IH k L) in R. destruct R as [ys [-> Y]].
      exists (true :: ys). auto.
Qed.

Lemma wf_inv tg tx tl at_ ch : well_formed (Node tg tx tl at_ ch) -> NoDup (map fst at_) /\ Forall well_formed ch.
Proof. intros H. inversion H; auto. Qed.
Lemma ao_inv tg tx tl at_ ch : ascii_only (Node tg tx tl at_ ch) <-> is_ascii (shown tx) /\ is_ascii (shown tl) /\ Forall ascii_only ch.
Proof. split; [intros H; inversion H; auto|intros [A [B C]]; now constructor]. Qed.
Lemma equals_true : forall a b, well_formed a -> well_formed b ->
  (equals a b = Ok true <-> ascii_only a /\ ascii_only b /\ same a b).
Proof.
  induction a as [tg tx tl at_ ch IH] using node_ind2. intros [tg2 tx2 tl2 at2 ch2] W1 W2.
  apply wf_inv in W1, W2. destruct W1 as [N1 W1], W2 as [N2 W2].
  rewrite equals_eq, and_then_true, String.eqb_eq, !texts_true, !and_then_true, (dict_eqb_spec _ _ N1 N2), Nat.eqb_eq, ok_true_iff, !ao_inv.
  assert (X : length ch = length ch2 -> ((exists bs, go ch ch2 = Ok bs /\ forallb (fun b => b) bs = true) <->
     Forall ascii_only ch /\ Forall ascii_only ch2 /\ Forall2 same ch ch2)).
  { intros L. rewrite (go_true _ _ L). clear N1 N2. revert ch2 W2 L. induction IH as [|a l H _ IHl]; intros [|b k] W2 L; try discriminate L.
    - repeat split; constructor.
    - inversion W1; subst. inversion W2; subst. injection L as L. specialize (IHl H3 k H5 L). specialize (H b H2 H4). split.
      + intros F. inversion F as [|? ? ? ? F1 F2]; subst. apply IHl in F2. apply H in F1. destruct F1 as [? [? ?]], F2 as [? [? ?]]. repeat split; constructor; trivial.
      + intros [A [B C]]. inversion A; subst. inversion B; subst. inversion C; subst. constructor; [apply H; auto|]. apply IHl. auto. }
  split.
  - intros [T [A1 [A2 [T1 [A3 [A4 [T2 [D [L G]]]]]]]]]. apply (X L) in G. destruct G as [G1 [G2 G3]].
    repeat split; trivial; apply D.
  - intros [[A1 [A2 A3]] [[B1 [B2 B3]] S]]. inversion S as [? ? S1 S2 S3 S4 S5]; subst. cbn [tag txt tail attrib children] in *.
    assert (L : length ch = length ch2) by (clear -S5; induction S5; cbn; congruence).
    repeat split; trivial; try apply S4. apply (X L). auto.
Qed.
Lemma go_err ch1 ch2 x : Forall (fun a => forall b, equals a b = Err x -> x = ValueError /\ ~ (ascii_only a /\ ascii_only b)) ch1 ->
  go ch1 ch2 = Err x -> x = ValueError /\ ~ (Forall ascii_only ch1 /\ Forall ascii_only ch2).
Proof.
  intros F. revert ch2. induction F as [|a l H _ IH]; intros [|b k]; cbn [go]; fold go; try discriminate.
  destruct (equals a b) as [r|y] eqn:E; cbn [bind].
  - destruct (go l k) as [rs|y] eqn:G; cbn [bind]; [discriminate|]. intros Q. injection Q as ->. destruct (IH k G) as [-> N]. split; [reflexivity|].
    intros [A B]. inversion A; subst. inversion B; subst. tauto.
  - intros Q. injection Q as ->. destruct (H b E) as [-> N]. split; [reflexivity|]. intros [A B]. inversion A; subst. inversion B; subst. tauto.
Qed.
Lemma equals_err : forall a b x, equals a b = Err x -> x = ValueError /\ ~ (ascii_only a /\ ascii_only b).
Proof.
  induction a as [tg tx tl at_ ch IH] using node_ind2. intros [tg2 tx2 tl2 at2 ch2] x E. rewrite equals_eq in E. rewrite !ao_inv.
  apply and_then_err in E. apply texts_err in E. destruct E as [[-> E]|E]; [split; [reflexivity|tauto]|].
  apply texts_err in E. destruct E as [[-> E]|E]; [split; [reflexivity|tauto]|].
  do 2 apply and_then_err in E. destruct (go ch ch2) as [bs|y] eqn:G; [discriminate|]. cbn in E. injection E as ->.
  destruct (go_err ch ch2 x) as [A B]; [eapply Forall_impl; [|exact IH]; intros a H b; apply H|trivial|]. split; [trivial|tauto].
Qed.
Lemma text_eqb_sym a b : text_eqb a b = text_eqb b a.
Proof. apply Bool.eq_true_iff_eq. rewrite !text_eqb_spec. intuition. Qed.
Lemma texts_sym a b r : texts a b r = texts b a r.
Proof.
  unfold texts. destruct (str_of_cases a) as [[A ->]|[A ->]], (str_of_cases b) as [[B ->]|[B ->]]; cbn [bind]; try reflexivity.
  now rewrite text_eqb_sym.
Qed.
Lemma equals_sym : forall a b, well_formed a -> well_formed b -> equals a b = equals b a.
Proof.
  induction a as [tg tx tl at_ ch IH] using node_ind2. intros [tg2 tx2 tl2 at2 ch2] W1 W2. rewrite !equals_eq.
  apply wf_inv in W1, W2. destruct W1 as [N1 W1], W2 as [N2 W2].
  rewrite String.eqb_sym, texts_sym, (texts_sym tl), (Nat.eqb_sym (length ch)).
  replace (dict_eqb at_ at2) with (dict_eqb at2 at_) by (apply Bool.eq_true_iff_eq; rewrite !dict_eqb_spec by trivial; split; intros H k v; now rewrite H).
  replace (go ch ch2) with (go ch2 ch); [reflexivity|]. clear N1 N2. revert ch2 W2. induction IH as [|a l H _ IHl]; intros [|b k] W2; try reflexivity.
  cbn [go]. fold go. inversion W1; subst. inversion W2; subst. rewrite (H b) by trivial. rewrite (IHl H3 k) by trivial. reflexivity.
Qed.
Lemma same_refl : forall a, same a a.
Proof.
  induction a as [tg tx tl at_ ch IH] using node_ind2. constructor; cbn; try reflexivity; try (apply same_text_strip; reflexivity).
  induction IH; constructor; trivial.
Qed.
Lemma same_trans : forall a b c, same a b -> same b c -> same a c.
Proof.
  induction a as [tg tx tl at_ ch IH] using node_ind2. intros b c A B. inversion A; subst. inversion B; subst.
  cbn [tag txt tail attrib children] in *. rewrite same_text_strip in *. constructor; cbn [tag txt tail attrib children]; try congruence.
  - apply same_text_strip. congruence.
  - apply same_text_strip. congruence.
  - intros k v. rewrite H2. apply H7.
  - clear -IH H3 H8. revert H3 H8. generalize (children b), (children c). intros l2. revert l2. induction IH as [|x l H _ IHl]; intros l2 l3 F G.
    + inversion F; subst. inversion G; subst. constructor.
    + inversion F; subst. inversion G; subst. constructor; eauto.
Qed.

(** ** Indentation *)
Lemma strip_nil t : strip t = [] <-> Forall (white_in t) t.
Proof.
  split.
  - intros E. destruct (strip_trimmed t) as [l [r [E' [L [R _]]]]]. rewrite E in E'. cbn [app] in E'. rewrite E' at 2. apply Forall_app. auto.
  - intros F. symmetry. apply trimmed_strip. exists t, []. rewrite app_nil_r. repeat split; trivial; try constructor; intros c s Q; [discriminate|destruct s; discriminate].
Qed.
Lemma blankb_spec o : blankb o = true <-> blank o.
Proof.
  destruct o as [[|c t]|]; cbn [blankb blank]; [split; constructor| |tauto]. rewrite <- strip_nil. destruct (strip (c :: t)); intuition discriminate.
Qed.
Lemma blankb_no o : blankb o = false <-> ~ blank o.
Proof. rewrite <- blankb_spec. destruct (blankb o); intuition congruence. Qed.
Lemma line_eq d : 10%N :: concat (repeat [32; 32]%N d) = line d.
Proof.
  unfold line. f_equal. induction d as [|d IH]; [reflexivity|]. cbn [repeat concat]. rewrite IH.
  replace (2 * S d) with (S (S (2 * d))) by lia. reflexivity.
Qed.
Lemma line_S d : line d ++ [32; 32]%N = line (S d).
Proof.
  unfold line. replace (2 * S d) with (2 * d + 2) by lia. rewrite repeat_app. reflexivity.
Qed.
Lemma line_in d c : In c (line d) -> (c = 10 \/ c = 32)%N.
Proof. unfold line. intros [<-|I]; [auto|]. apply repeat_spec in I. auto. Qed.
Lemma line_ascii d : is_ascii (line d).
Proof. apply Forall_forall. intros c I. apply line_in in I. lia. Qed.
Lemma line_blank d : blank (Some (line d)).
Proof.
  apply Forall_forall. intros c I. apply line_in in I. split; intros A; [|exfalso; apply A, line_ascii]. unfold byte_white. lia.
Qed.

Lemma line_if (b : bool) d d' : blank (Some (if b then line d else line d')).
Proof. destruct b; apply line_blank. Qed.
Lemma line_if_ascii (b : bool) d d' : is_ascii (if b then line d else line d').
Proof. destruct b; apply line_ascii. Qed.
Lemma line_if_ex (b : bool) d d' : exists n, (if b then line d else line d') = line n.
Proof. destruct b; eauto. Qed.
Lemma indent_eq tg tx tl at_ ch level : indent (Node tg tx tl at_ ch) level =
  Node tg (match ch with [] => tx | _ => if blankb tx then Some (line (S level)) else tx end)
       (if negb (level =? 0) && blankb tl then Some (line level) else tl) at_ (fix_last (line level) (map (fun c => indent c (S level)) ch)).
Proof. cbn [indent]. rewrite line_eq, line_S. reflexivity. Qed.
Lemma fix_last_length i l : length (fix_last i l) = length l.
Proof. induction l as [|a [|b l] IH]; [reflexivity|reflexivity|]. cbn [fix_last length] in *. now rewrite IH. Qed.
Lemma fix_last_nth i l k c : nth_error l k = Some c -> nth_error (fix_last i l) k = Some (if S k =? length l then fix_tail i c else c).
Proof.
  revert k. induction l as [|a [|b l] IH]; intros k E.
  - destruct k; discriminate.
  - destruct k as [|[|k]]; [|discriminate..]. injection E as ->. reflexivity.
  - destruct k as [|k]; [injection E as ->; reflexivity|]. cbn [fix_last nth_error] in *. apply IH in E. rewrite E. reflexivity.
Qed.
Lemma fix_tail_pretty d s i e e' : blank (Some s) -> pretty d (Some s) e e' -> pretty d (Some i) e (fix_tail i e').
Proof.
  intros B P. inversion P as [? ? ? ? H1 H2 H3 H4 H5 H6 H7]; subst. destruct e' as [tg tx tl at_ ch]. cbn [fix_tail tag attrib txt tail children] in *.
  constructor; cbn [tag attrib txt tail children]; trivial; [|discriminate].
  intros s' Q. injection Q as <-. destruct (H4 s eq_refl) as [A C]. split; intros X.
  - rewrite (A X). replace (blankb (Some s)) with true by (symmetry; now apply blankb_spec). reflexivity.
  - rewrite (C X). replace (blankb (tail e)) with false by (symmetry; now apply blankb_no). reflexivity.
Qed.
Lemma indent_pretty : forall e level, pretty level (match level with O => None | S _ => Some (line level) end) e (indent e level).
Proof.
  induction e as [tg tx tl at_ ch IH] using node_ind2. intros level. rewrite indent_eq.
  constructor; cbn [tag attrib txt tail children]; try reflexivity.
  - destruct ch as [|c ch]; [split; [intros [[] _]; reflexivity|reflexivity]|]. split; intros H.
    + destruct H as [_ B]. apply blankb_spec in B. now rewrite B.
    + destruct H as [H|H]; [discriminate|]. apply blankb_no in H. now rewrite H.
  - intros s Q. destruct level as [|level]; [discriminate|]. injection Q as <-. cbn [Nat.eqb negb andb]. split; intros B.
    + apply blankb_spec in B. now rewrite B.
    + apply blankb_no in B. now rewrite B.
  - intros Q. destruct level; [reflexivity|discriminate].
  - now rewrite fix_last_length, map_length.
  - intros k c E. assert (E' : nth_error (map (fun c => indent c (S level)) ch) k = Some (indent c (S level))) by now rewrite nth_error_map, E.
    apply fix_last_nth with (i := line level) in E'. rewrite E'. eexists. split; [reflexivity|]. rewrite map_length.
    apply nth_error_In in E. rewrite Forall_forall in IH. specialize (IH c E (S level)). cbn match in IH.
    destruct (S k =? length ch); [|exact IH]. eapply fix_tail_pretty; [|exact IH]. apply line_blank.
Qed.

Lemma nth_eq (A : Type) (l k : list A) : length l = length k -> (forall n a, nth_error l n = Some a -> nth_error k n = Some a) -> l = k.
Proof.
  revert k. induction l as [|a l IH]; intros [|b k] L H; try discriminate L; [reflexivity|].
  pose proof (H 0 a eq_refl) as Q. cbn in Q. injection Q as ->. f_equal. apply IH; [now injection L|]. intros n x X. exact (H (S n) x X).
Qed.
Lemma blank_dec o : blank o \/ ~ blank o.
Proof. destruct (blankb o) eqn:B; [left; now apply blankb_spec|right; now apply blankb_no]. Qed.
Lemma pretty_again : forall e d t e' e'', (forall s, t = Some s -> blank (Some s)) -> pretty d t e e' -> pretty d t e' e'' -> e'' = e'.
Proof.
  induction e as [tg tx tl at_ ch IH] using node_ind2. intros d t e' e'' T P Q.
  inversion P as [? ? ? ? P1 P2 P3 P4 P5 P6 P7]; subst. inversion Q as [? ? ? ? Q1 Q2 Q3 Q4 Q5 Q6 Q7]; subst.
  destruct e' as [tg' tx' tl' at' ch'], e'' as [tg'' tx'' tl'' at'' ch'']. cbn [tag attrib txt tail children] in *.
  assert (C : ch'' = ch').
  { apply nth_eq; [trivial|]. intros k c E. assert (K : k < length ch) by (rewrite <- P6, <- Q6; apply nth_error_Some; congruence).
    destruct (nth_error ch k) as [x|] eqn:X; [|apply nth_error_None in X; lia]. destruct (P7 k x X) as [x' [X' PX]]. destruct (Q7 k x' X') as [x'' [X'' QX]].
    assert (x'' = c) by congruence. subst x''. rewrite X'. f_equal. symmetry. rewrite P6 in QX. rewrite Forall_forall in IH.
    eapply (IH x (nth_error_In _ _ X)); [|exact PX|exact QX]. intros s E2. injection E2 as <-. apply line_if. }
  assert (X : tx'' = tx').
  { destruct ch as [|c0 ch0].
    - assert (N : ch' = []) by (destruct ch'; [reflexivity|discriminate]). apply Q3. auto.
    - assert (N : ch' <> []) by (intros ->; discriminate). destruct (blank_dec tx) as [B|B].
      + assert (E : tx' = Some (line (S d))) by (apply P3; split; [discriminate|trivial]).
        rewrite E. apply Q3. split; [trivial|]. rewrite E. apply line_blank.
      + assert (E : tx' = tx) by (apply P3; auto). apply Q3. right. now rewrite E. }
  assert (Y : tl'' = tl').
  { destruct t as [s|]; [|now rewrite Q5, P5 by reflexivity]. destruct (P4 s eq_refl) as [A1 A2], (Q4 s eq_refl) as [B1 B2].
    destruct (blank_dec tl) as [B|B].
    - pose proof (A1 B) as E. rewrite E. apply B1. rewrite E. now apply T.
    - pose proof (A2 B) as E. apply B2. now rewrite E. }
  congruence.
Qed.
Lemma f2_nth (A B : Type) (R : A -> B -> Prop) l k : length k = length l ->
  (forall n a, nth_error l n = Some a -> exists b, nth_error k n = Some b /\ R a b) -> Forall2 R l k.
Proof.
  revert k. induction l as [|a l IH]; intros [|b k] L H; try discriminate L; constructor.
  - destruct (H 0 a eq_refl) as [b' [E R']]. cbn in E. congruence.
  - apply IH; [now injection L|]. intros n x X. exact (H (S n) x X).
Qed.
Lemma pretty_layout : forall e d t e', (forall s, t = Some s -> blank (Some s)) -> pretty d t e e' -> only_layout e e'.
Proof.
  induction e as [tg tx tl at_ ch IH] using node_ind2. intros d t e' T P.
  inversion P as [? ? ? ? P1 P2 P3 P4 P5 P6 P7]; subst. cbn [tag attrib txt tail children] in *. constructor; trivial; cbn [txt tail children].
  - destruct ch as [|c ch]; [left; apply P3; auto|]. destruct (blank_dec tx) as [B|B]; [|left; apply P3; auto].
    right. split; [trivial|]. rewrite (proj1 P3); [apply line_blank|]. split; [discriminate|trivial].
  - destruct t as [s|]; [|left; auto]. destruct (P4 s eq_refl) as [A1 A2]. destruct (blank_dec tl) as [B|B]; [|left; auto].
    right. split; [trivial|]. rewrite (A1 B). now apply T.
  - apply f2_nth; [trivial|]. intros k c E. destruct (P7 k c E) as [c' [E' Q]]. exists c'. split; [trivial|].
    rewrite Forall_forall in IH. eapply (IH c (nth_error_In _ _ E)); [|exact Q]. intros s X. injection X as <-. apply line_if.
Qed.
Lemma same_line_none d : ~ same_text None (Some (line d)).
Proof.
  rewrite same_text_strip. cbn [shown]. replace (strip (line d)) with (@nil N) by (symmetry; apply strip_nil; exact (line_blank d)).
  vm_compute. discriminate.
Qed.
Lemma same_blank t d : blank (Some t) -> same_text (Some t) (Some (line d)).
Proof. intros B. apply same_text_strip. cbn [shown]. rewrite (proj2 (strip_nil t) B). symmetry. apply strip_nil. exact (line_blank d). Qed.
Lemma same_text_refl o : same_text o o.
Proof. now apply same_text_strip. Qed.
Lemma f2_nth_inv (A B : Type) (R : A -> B -> Prop) l k : Forall2 R l k -> forall n a b, nth_error l n = Some a -> nth_error k n = Some b -> R a b.
Proof. induction 1 as [|a b l k H _ IH]; intros [|n] x y X Y; try discriminate; cbn in *; [congruence|eauto]. Qed.
Lemma f2_same_nth (l k : list node) : Forall2 same l k -> forall n a b, nth_error l n = Some a -> nth_error k n = Some b -> same a b.
Proof. apply f2_nth_inv. Qed.
Lemma pretty_same : forall e d t e', (forall s, t = Some s -> exists n, s = line n) -> pretty d t e e' ->
  (same e e' <-> filled (match t with None => true | Some _ => false end) e).
Proof.
  induction e as [tg tx tl at_ ch IH] using node_ind2. intros d t e' T P.
  inversion P as [? ? ? ? P1 P2 P3 P4 P5 P6 P7]; subst. destruct e' as [tg' tx' tl' at' ch']. cbn [tag attrib txt tail children] in *. subst tg' at'.
  rewrite Forall_forall in IH.
  assert (C : Forall2 same ch ch' <-> Forall (filled false) ch).
  { split.
    - intros F. apply Forall_forall. intros c I. destruct (In_nth_error _ _ I) as [k K]. destruct (P7 k c K) as [c' [K' Q]].
      apply (IH c I) in Q; [|intros s E; injection E as <-; apply line_if_ex]. cbn match in Q. apply Q. eapply f2_same_nth; eauto.
    - intros F. apply f2_nth; [trivial|]. intros k c K. destruct (P7 k c K) as [c' [K' Q]]. exists c'. split; [trivial|].
      apply (IH c (nth_error_In _ _ K)) in Q; [|intros s E; injection E as <-; apply line_if_ex]. apply Q. rewrite Forall_forall in F.
      apply F. eapply nth_error_In; eauto. }
  assert (X : same_text tx tx' <-> (ch <> [] -> tx <> None)).
  { destruct ch as [|c ch0]; [rewrite (proj2 P3) by auto; split; [intros _ []; reflexivity|intros _; apply same_text_refl]|].
    destruct (blank_dec tx) as [B|B].
    - rewrite (proj1 P3) by (split; [discriminate|trivial]). destruct tx as [x|].
      + split; [discriminate|intros _; now apply same_blank].
      + split; [intros H; exfalso; exact (same_line_none _ H)|intros H; exfalso; apply H; [discriminate|reflexivity]].
    - rewrite (proj2 P3) by auto. split; [intros _ _ ->; apply B; exact I|intros _; apply same_text_refl]. }
  assert (Y : same_text tl tl' <-> (match t with None => true | Some _ => false end = false -> tl <> None)).
  { destruct t as [s|]; [|rewrite P5 by reflexivity; split; [discriminate|intros _; apply same_text_refl]].
    destruct (P4 s eq_refl) as [A1 A2]. destruct (T s eq_refl) as [n ->]. destruct (blank_dec tl) as [B|B].
    - rewrite (A1 B). destruct tl as [x|].
      + split; [discriminate|intros _; now apply same_blank].
      + split; [intros H; exfalso; exact (same_line_none _ H)|intros H; exfalso; apply H; reflexivity].
    - rewrite (A2 B). split; [intros _ _ ->; apply B; exact I|intros _; apply same_text_refl]. }
  split.
  - intros S. inversion S as [? ? S1 S2 S3 S4 S5]; subst. cbn [tag attrib txt tail children] in *. constructor; cbn [tail txt children]; tauto.
  - intros F. inversion F as [? ? F1 F2 F3]; subst. cbn [tail txt children] in *. constructor; cbn [tag attrib txt tail children]; tauto.
Qed.
Lemma pretty_ascii : forall e d t e', (forall s, t = Some s -> is_ascii s) -> pretty d t e e' -> ascii_only e -> ascii_only e'.
Proof.
  induction e as [tg tx tl at_ ch IH] using node_ind2. intros d t e' T P A. apply ao_inv in A. destruct A as [A1 [A2 A3]].
  inversion P as [? ? ? ? P1 P2 P3 P4 P5 P6 P7]; subst. destruct e' as [tg' tx' tl' at' ch']. cbn [tag attrib txt tail children] in *.
  apply ao_inv. repeat split.
  - destruct ch as [|c ch0]; [now rewrite (proj2 P3) by auto|]. destruct (blank_dec tx) as [B|B].
    + rewrite (proj1 P3) by (split; [discriminate|trivial]). apply line_ascii.
    + now rewrite (proj2 P3) by auto.
  - destruct t as [s|]; [|now rewrite P5]. destruct (P4 s eq_refl) as [B1 B2]. destruct (blank_dec tl) as [B|B].
    + rewrite (B1 B). now apply T.
    + now rewrite (B2 B).
  - apply Forall_forall. intros c' I. destruct (In_nth_error _ _ I) as [k K]. assert (L : k < length ch) by (rewrite <- P6; apply nth_error_Some; congruence).
    destruct (nth_error ch k) as [c|] eqn:E; [|apply nth_error_None in E; lia]. destruct (P7 k c E) as [c'' [E' Q]]. assert (c'' = c') by congruence. subst c''.
    rewrite Forall_forall in IH, A3. eapply (IH c (nth_error_In _ _ E)); [|exact Q|apply A3; eapply nth_error_In; eauto].
    intros s X. injection X as <-. apply line_if_ascii.
Qed.
Lemma layout_wf : forall e e', only_layout e e' -> well_formed e -> well_formed e'.
Proof.
  induction e as [tg tx tl at_ ch IH] using node_ind2. intros [tg' tx' tl' at' ch'] O W. apply wf_inv in W. destruct W as [N W].
  inversion O as [? ? O1 O2 O3 O4 O5]; subst. cbn [tag attrib txt tail children] in *. subst at'. constructor; [trivial|].
  clear -IH W O5. revert ch' O5. induction IH as [|c l H _ IHl]; intros ch' F; inversion F; subst; constructor; inversion W; subst; auto.
Qed.
Lemma equals_self_ok : forall a r, well_formed a -> equals a a = Ok r -> ascii_only a.
Proof.
  induction a as [tg tx tl at_ ch IH] using node_ind2. intros r W E. apply wf_inv in W. destruct W as [N W]. rewrite equals_eq in E.
  rewrite String.eqb_refl in E. cbn [and_then] in E. unfold texts in E. rewrite ao_inv.
  assert (R : forall t, text_eqb t t = true) by (intros t; now apply text_eqb_spec).
  destruct (str_of_cases tx) as [[A1 A]|[A1 A]]; rewrite A in E; cbn [bind] in E; [|discriminate]. rewrite R in E. cbn [and_then] in E.
  destruct (str_of_cases tl) as [[B1 B]|[B1 B]]; rewrite B in E; cbn [bind] in E; [|discriminate]. rewrite R in E. cbn [and_then] in E.
  replace (dict_eqb at_ at_) with true in E by (symmetry; apply dict_eqb_spec; trivial; intros; reflexivity). rewrite Nat.eqb_refl in E. cbn [and_then] in E.
  split; [trivial|]. split; [trivial|]. destruct (go ch ch) as [bs|] eqn:G; [|discriminate]. clear E N. revert bs G.
  induction IH as [|c l H _ IHl]; intros bs G; constructor; inversion W; subst; cbn [go] in G; fold go in G;
    destruct (equals c c) as [x|] eqn:Q; try discriminate; cbn [bind] in G.
  - eauto.
  - destruct (go l l) as [ys|] eqn:Y; [|discriminate]. eauto.
Qed.
