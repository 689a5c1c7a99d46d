(** Lemmas for command lines: how operands are dealt, what is not an option, and a check of parsers. *)
From Coq Require Import Ascii.
From Verif Require Import Py PyLemmas Cmdline_spec Cmdline_model Cmdline_proof1 Cmdline_proof2 Cmdline_proof3 Cmdline_proof4 Cmdline_proof5.
Open Scope nat_scope.
Open Scope list_scope.

Lemma take_more m c d : can_take m c -> ~ fixed m -> c <= d -> can_take m d.
Proof. destruct m; cbn; intros; auto; try tauto. lia. Qed.
Lemma take_fixed m c d : can_take m c -> can_take m d -> fixed m -> c = d.
Proof. destruct m; cbn; intros; subst; tauto || lia. Qed.
Lemma fixed_dec m : fixed m \/ ~ fixed m.
Proof. destruct m; cbn; tauto. Qed.
Lemma deals_sum : forall ms n cs ds, deals ms n cs -> (forall es, deals ms n es -> lex_le es cs) -> Forall2 can_take ms ds -> fold_right Nat.add 0 ds = n -> fold_right Nat.add 0 cs = n.
Proof.
  induction ms as [|m ms IH]; intros n cs ds [C1 C2] B D S; inversion D as [|? d ? ds' Dm Dms]; subst; inversion C1 as [|? c ? cs' Cm Cms]; subst.
  - auto.
  - cbn in *. destruct (lt_eq_lt_dec c d) as [[H| ->]|H].
    + exfalso. assert (X : lex_le (d :: ds') (c :: cs')). { apply B. split; [constructor; auto|cbn; lia]. } inversion X; subst; lia.
    + f_equal. apply (IH (fold_right Nat.add 0 ds') cs' ds'); auto.
      * split; auto. lia.
      * intros es [E1 E2]. assert (X : lex_le (d :: es) (d :: cs')). { apply B. split; [constructor; auto|cbn; lia]. } inversion X; subst; [lia|auto].
    + destruct (fixed_dec m) as [F|F]; [assert (c = d) by (eapply take_fixed; eauto); lia|].
      set (n := d + fold_right Nat.add 0 ds') in *. destruct (le_lt_eq_dec _ _ C2) as [L|L]; [|auto]. exfalso.
      assert (X : lex_le ((n - fold_right Nat.add 0 cs') :: cs') (c :: cs')). { apply B. split; [constructor; auto; eapply take_more; eauto; lia|cbn; lia]. } inversion X; subst; lia.
Qed.
Lemma deals_best ms n ds : Forall2 can_take ms ds -> fold_right Nat.add 0 ds = n -> exists cs, best_deal ms n cs /\ fold_right Nat.add 0 cs = n.
Proof.
  intros D S. set (arg := fun m => {| spellings := []; name := []; takes := m; does := Store; type := Any; default := Nothing |}).
  assert (F : Forall (fun a => positional a = true) (map arg ms)). { apply Forall_forall. intros a I. apply in_map_iff in I as (m & <- & _). reflexivity. }
  pose proof (groups_best [] (or_introl eq_refl) (map arg ms) n F) as G. assert (ME : map takes (map arg ms) = ms) by (rewrite map_map; apply map_id). rewrite ME in G. destruct (match_groups _ _) as [cs|].
  - destruct G as [G1 G2]. exists cs. split; [split; auto|]. exact (deals_sum _ _ _ _ G1 G2 D S).
  - destruct (G ds). split; auto. lia.
Qed.

Section Lines.
Variable p : parser.
Lemma spelled_in os ws : spelled p os ws -> forall s, In s ws -> operand p s \/ exists o e, denotes p s o e.
Proof. destruct 1 as [s o i a vals De Ow C O|s o e i a occs vals De Ow At O]; intros x [<-|I]; eauto; rewrite Forall_forall in O; auto. Qed.
Lemma reads_in occs l : reads p occs l -> forall before s after, l = before ++ s :: after -> ~ In two_dashes before -> s <> two_dashes -> operand p s \/ exists o e, denotes p s o e.
Proof.
  assert (SPLIT : forall (ws rest before after : list text) s, ws ++ rest = before ++ s :: after -> In s ws \/ exists b, before = ws ++ b /\ rest = b ++ s :: after).
  { induction ws as [|w ws IH]; intros rest [|x b] after s E; cbn in *; eauto.
    - injection E as -> _. auto.
    - injection E as <- E. apply IH in E as [E|(b' & -> & E)]; eauto. }
  induction 1 as [|os ws occs rest Sp R IH|i a ws occs rest E Pa C O R IH|i a ws1 ws2 occs rest E Pa C O R]; intros before s after EQ ND NS.
  - destruct before; discriminate.
  - apply SPLIT in EQ as [I|(b & -> & EQ)]; [eapply spelled_in; eauto|]. eapply IH; eauto. intros J. apply ND. apply in_app_iff. auto.
  - apply SPLIT in EQ as [I|(b & -> & EQ)]; [left; rewrite Forall_forall in O; auto|]. eapply IH; eauto. intros J. apply ND. apply in_app_iff. auto.
  - apply SPLIT in EQ as [I|(b & -> & EQ)]; [left; rewrite Forall_forall in O; auto|]. exfalso. destruct b as [|x b].
    + cbn in EQ. injection EQ as EQ _. congruence.
    + cbn in EQ. injection EQ as <- _. apply ND. apply in_app_iff. right. now left.
Qed.
End Lines.

(** a check of parsers *)
Fixpoint distinct (l : list text) : bool := match l with [] => true | s :: l' => negb (existsb (text_eqb s) l') && distinct l' end.
Definition option_ok (s : text) : bool := match s with c :: _ :: _ => is_dash c && existsb (fun d => negb (is_dash d)) s | _ => false end.
Definition default_ok (b : argument) : bool := match does b with Append => match default b with Nothing | Many _ => true | _ => false end | _ => false end.
Definition argument_ok (p : parser) (a : argument) : bool :=
  Bool.eqb (match takes a with Exactly 0 => true | _ => false end) (flag a) && (if flag a then negb (positional a) else true) &&
  match does a with Append => forallb (fun b => if text_eqb (name b) (name a) then default_ok b else true) p | _ => true end.
Definition parser_ok (p : parser) : bool := distinct (option_strings p) && forallb option_ok (option_strings p) && forallb (argument_ok p) p.
Lemma distinct_nodup l : distinct l = true -> NoDup l.
Proof.
  induction l as [|s l IH]; cbn; [constructor|]. intros H. apply andb_true_iff in H as [H1 H2]. constructor; auto. intros I. apply negb_true_iff in H1. assert (X : existsb (text_eqb s) l = true) by (apply existsb_exists; exists s; split; [auto|apply text_eqb_refl]). congruence.
Qed.
Lemma parser_ok_proper p : parser_ok p = true -> proper p.
Proof.
  intros H. unfold parser_ok in H. apply andb_true_iff in H as [H H3]. apply andb_true_iff in H as [H1 H2]. split; [now apply distinct_nodup|]. split.
  - apply Forall_forall. intros s I. rewrite forallb_forall in H2. specialize (H2 s I). unfold option_ok in H2. destruct s as [|c [|d s]]; try discriminate. apply andb_true_iff in H2 as [E X]. apply is_dash_eq in E.
    split; [cbn; lia|]. split; [exact E|]. apply existsb_exists in X as (x & I2 & N). exists x. split; auto. intros ->. discriminate.
  - apply Forall_forall. intros a I. rewrite forallb_forall in H3. specialize (H3 a I). unfold argument_ok in H3. apply andb_true_iff in H3 as [H3 A3]. apply andb_true_iff in H3 as [A1 A2]. apply Bool.eqb_prop in A1. repeat split.
    + intros T. rewrite T in A1. auto.
    + intros F. rewrite F in A1. destruct (takes a) as [| | |[|n]]; congruence || auto.
    + intros F. rewrite F in A2. now apply negb_true_iff in A2.
    + rewrite H in A3. rewrite forallb_forall in A3. specialize (A3 b H0). assert (X : text_eqb (name b) (name a) = true) by now apply text_eqb_eq. rewrite X in A3. unfold default_ok in A3. destruct (does b); congruence || auto.
    + rewrite H in A3. rewrite forallb_forall in A3. specialize (A3 b H0). assert (X : text_eqb (name b) (name a) = true) by now apply text_eqb_eq. rewrite X in A3. unfold default_ok in A3. destruct (does b); try discriminate. destruct (default b); try discriminate; eauto.
Qed.
Section Values.
Variable to_int : text -> option Z.
Variable p : parser.
Definition set_by (v v' : names) (occs : list occurrence) (d : text) : Prop :=
  v' d = v d \/ exists i l a x, In (i, l) occs /\ nth_error p i = Some a /\ name a = d /\ value_of to_int a l = Some x /\
    match does a with Store => v' d = x | SetTrue => v' d = Truth true | Append => exists xs, v' d = Many (xs ++ [x]) | _ => False end.
Lemma effects_set : forall occs v v', effects to_int p v occs Parsed = Parsed v' -> forall d, set_by v v' occs d.
Proof.
  induction occs as [|[i l] occs IH]; intros v v' E d; cbn [effects] in E.
  - injection E as <-. now left.
  - destruct (nth_error p i) as [a|] eqn:A; [|discriminate]. destruct (value_of to_int a l) as [x|] eqn:X; [|discriminate].
    assert (TAIL : forall w, set_by w v' occs d -> (w d = v d \/ (name a = d /\ match does a with Store => w d = x | SetTrue => w d = Truth true | Append => exists xs, w d = Many (xs ++ [x]) | _ => False end)) -> set_by v v' ((i, l) :: occs) d).
    { intros w [H|(j & m & b & y & I & B & N & Y & H)] C.
      - destruct C as [C|[N C]]; [left; congruence|]. right. exists i, l, a, x. split; [now left|]. repeat split; auto. rewrite H. exact C.
      - right. exists j, m, b, y. split; [now right|]. auto. }
    assert (PUT : forall y, put v (name a) y d = v d \/ name a = d /\ put v (name a) y d = y).
    { intros y. destruct (list_eq_dec ascii_dec d (name a)) as [Ed|N]; [right; subst d; split; [auto|apply put_same]|left; now apply put_other]. }
    destruct (does a); try discriminate; apply IH with (d := d) in E; apply (TAIL _ E).
    + apply PUT.
    + apply PUT.
    + destruct (PUT (Many (match v (name a) with Many xs => xs ++ [x] | _ => [x] end))) as [H|[N H]]; [now left|right; split; auto]. rewrite H. destruct (v (name a)); eauto; exists []; reflexivity.
Qed.
End Values.
