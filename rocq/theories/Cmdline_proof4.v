(** Lemmas for command lines: the loop, no other exceptions, what is read. *)
From Coq Require Import Ascii.
From Verif Require Import Py PyLemmas Cmdline_spec Cmdline_model Cmdline_proof1 Cmdline_proof2 Cmdline_proof3.
Open Scope nat_scope.
Open Scope list_scope.

Section Lines.
Variable to_int : text -> option Z.
Variable p : parser.
Hypothesis P : proper p.

Lemma owner_not_positional o i a : owner p o i a -> positional a = false.
Proof. intros [_ I]. unfold positional. destruct (spellings a); [destruct I|auto]. Qed.
Definition from_option (x : occurrence) : Prop := known p (fst x) /\ is_positional p (fst x) = false.
Lemma owner_from o i a l : owner p o i a -> from_option (i, l).
Proof. intros Ow. pose proof Ow as [E _]. split; [exists a; auto|]. unfold is_positional. cbn. rewrite E. now apply owner_not_positional in Ow. Qed.
Lemma letters_length ts : length (letters ts) = length ts.
Proof. apply map_length. Qed.
Lemma separate_spec o i a rest : owner p o i a -> match separate p i rest with
  | Go (os, n) => n <= length rest /\ firstn n (letters rest) = repeat A n /\ can_take (takes a) n /\ os = [(i, map fst (firstn n rest))]
  | Stop s => s = SUsage end.
Proof.
  intros Ow. pose proof (owner_not_positional _ _ _ Ow) as N. destruct Ow as [E _]. unfold separate, get_argument. rewrite E. cbn [and_then]. destruct (match_argument a (letters rest)) as [n|s] eqn:M; cbn [and_then].
  - apply match_argument_sound in M as (L & F & C); auto. rewrite letters_length in L. auto.
  - now apply match_argument_stops in M.
Qed.
Lemma owner_dash o i a : owner p o i a -> hd blank o = dash.
Proof. intros Ow. apply (option_string_dash p P). apply option_owner. eauto. Qed.
Lemma not_long o i a : owner p o i a -> second_dash o = false -> ~ long o.
Proof. intros Ow S L. apply second_dash_long in L; [congruence|]. eapply owner_dash; eauto. Qed.
Lemma joined_spec : forall e i a o rest, owner p o i a -> second_dash o = true \/ e <> [] ->
  match joined p i o e rest with
  | Go (os, n) => n <= length rest /\ firstn n (letters rest) = repeat A n /\ Forall from_option os /\
                  (kept (map fst (firstn n rest)) = map fst (firstn n rest) -> attached p i a o e (kept_all os) (map fst (firstn n rest)))
  | Stop s => s = SUsage end.
Proof.
  assert (VAL : forall i a o e rest, owner p o i a -> can_take (takes a) 1 -> 0 <= length rest /\ firstn 0 (letters rest) = repeat A 0 /\ Forall from_option [(i, [e])] /\
    (kept (map fst (firstn 0 rest)) = map fst (firstn 0 rest) -> attached p i a o e (kept_all [(i, [e])]) (map fst (firstn 0 rest)))).
  { intros i a o e rest Ow C. repeat split; auto with arith; [|]. { constructor; [|constructor]. eapply owner_from; eauto. } intros _. cbn. apply (at_value p i a o e C). }
  induction e as [|c e IH]; intros i a o rest Ow H; pose proof Ow as [E _]; cbn [joined]; unfold get_argument; rewrite E; cbn [and_then];
    (destruct (match_one a (owner_not_positional _ _ _ Ow)) as [[C M]|[(C0 & C1 & M)|(C1 & C0 & M)]]; rewrite M; cbn [and_then Nat.eqb andb]; [now apply VAL| |auto]).
  - destruct H as [H|H]; [rewrite H; cbn; auto|congruence].
  - destruct (second_dash o) eqn:SD; cbn [negb]; [auto|]. pose proof (not_long _ _ _ Ow SD) as NL. destruct (dget text_eqb (table p) [dash; c]) as [j|] eqn:T; [|auto]. apply (dget_table p P) in T as (b & Ob).
    destruct e as [|c' e].
    + pose proof (separate_spec _ _ _ rest Ob) as S. destruct (separate p j rest) as [[os n]|s]; cbn [and_then fst snd]; [|auto]. destruct S as (L & F & C & ->). repeat split; auto.
      * constructor; [eapply owner_from; eauto|]. constructor; [eapply owner_from; eauto|constructor].
      * intros K. unfold all_kept. cbn [map fst snd]. rewrite K. eapply at_last; eauto. rewrite map_length, firstn_length_le; auto.
    + specialize (IH j b [dash; c] rest Ob ltac:(right; discriminate)). destruct (joined p j [dash; c] (c' :: e) rest) as [[os n]|s]; cbn [and_then fst snd]; [|auto]. destruct IH as (L & F & G & At). repeat split; auto.
      * constructor; [eapply owner_from; eauto|auto].
      * intros K. unfold all_kept. cbn [map fst snd]. eapply at_more; eauto. discriminate.
Qed.
Lemma attached_not_empty s o e : denotes p s o (Some e) -> second_dash o = true \/ e <> [].
Proof.
  intros [(_ & _ & X)|(NI & H & _ & R & _)]; [discriminate|]. inversion R as [|o' pre v I L E NE B E1 E2| |o' I NL E E1 E2]; subst.
  - left. destruct L as (r & L). destruct pre as [|x [|y pre]]; try discriminate; cbn [app] in L. injection L as L1 L2 L3. subst x y. destruct B as (q & ->). reflexivity.
  - right. intros X. apply NI. assert (Y : s = firstn 2 s) by (rewrite <- (firstn_skipn 2 s) at 1; change (skipn 2 s = []) in X; rewrite X; apply app_nil_r). rewrite Y. auto.
Qed.

Definition good (st : state) : Prop := lists_ok p (values st) /\ Forall (fun i => exists a, is_arg p i a) (left st).
Lemma firstn_tags n l ts : tags p l ts -> map fst (firstn n ts) = firstn n l.
Proof. intros T. apply tags_fst in T as <-. now rewrite firstn_map. Qed.
Lemma spelled_known os : Forall from_option os -> Forall (fun x => known p (fst x)) os.
Proof. apply Forall_impl. now intros x [K _]. Qed.
Lemma from_kept os : Forall from_option os -> Forall from_option (kept_all os).
Proof. unfold all_kept. induction 1; cbn; constructor; auto. Qed.
Lemma consume_optional_spec st s i a o e l ts : good st -> denotes p s o e -> owner p o i a -> tags p l ts ->
  match consume_optional to_int p st s (Some i) o e ts with
  | Go (st', ts') => good st' /\ left st' = left st /\ extras st' = extras st /\ exists os n, n <= length ts /\ ts' = skipn n ts /\ tags p (skipn n l) ts' /\ spelled p os (s :: firstn n l) /\ Forall from_option os /\
      forall rest k, effects to_int p (values st) (os ++ rest) k = effects to_int p (values st') rest k
  | Stop x => harmless x end.
Proof.
  intros [G1 G2] De Ow T. cbn [consume_optional].
  set (r := match e with Some e => joined p i o e ts | None => separate p i ts end).
  assert (R : match r with
    | Go (os, n) => n <= length ts /\ firstn n (letters ts) = repeat A n /\ Forall from_option os /\ (Forall (operand p) (firstn n l) -> spelled p (kept_all os) (s :: firstn n l))
    | Stop x => x = SUsage end).
  { subst r. destruct e as [e|].
    - pose proof (joined_spec e i a o ts Ow (attached_not_empty _ _ _ De)) as J. destruct (joined p i o e ts) as [[os n]|x]; [|auto]. destruct J as (L & F & G & At). repeat split; auto.
      intros O. rewrite (firstn_tags n l ts T) in At. eapply sp_attached; eauto. apply At. now apply (operand_kept p).
    - pose proof (separate_spec o i a ts Ow) as J. destruct (separate p i ts) as [[os n]|x]; [|auto]. destruct J as (L & F & C & ->). repeat split; auto.
      + constructor; [eapply owner_from; eauto|constructor].
      + intros O. rewrite (firstn_tags n l ts T). unfold all_kept. cbn [map fst snd]. rewrite (operand_kept p) by auto. eapply sp_plain; eauto. rewrite firstn_length_le; auto. apply tags_length in T. lia. }
  destruct r as [[os n]|x]; cbn [and_then fst snd]; [|subst; right; right; auto]. destruct R as (L & F & G & Sp). destruct (tags_advance p l ts T n L F) as [O T'].
  pose proof (fun rest k => take_actions_spec to_int p P k rest os (values st) G1 (spelled_known _ G)) as TA. destruct (take_actions to_int p (values st) os) as [v|x]; cbn [and_then].
  - split; [|split; [auto|split; [auto|]]].
    + split; [|exact G2]. cbn. now destruct (TA [] Parsed).
    + exists (kept_all os), n. repeat split; auto; [now apply from_kept|]. intros rest k. apply TA.
  - now destruct (TA [] Parsed).
Qed.

Lemma get_acts left : Forall (fun i => exists a, is_arg p i a) left ->
  exists acts, fold_right (fun i r => a <~ get_argument p i;; l <~ r;; Go (a :: l)) (Go []) left = Go acts /\ Forall2 (is_arg p) left acts.
Proof.
  induction 1 as [|i is (a & Ai) _ (acts & E & F)].
  - exists []. split; [auto|constructor].
  - exists (a :: acts). cbn [fold_right]. rewrite E. unfold get_argument. destruct Ai as [Ai Pi]. rewrite Ai. cbn. split; [auto|]. constructor; auto. split; auto.
Qed.
Lemma deal_known : forall cs is acts l, Forall2 (is_arg p) is acts -> Forall (fun x => known p (fst x)) (deal is cs l).
Proof. induction cs as [|c cs IH]; intros is acts l F; destruct F as [|i a is acts [Ai _] F]; cbn; constructor; [exists a; auto|]. eapply IH; eauto. Qed.
Lemma deal_positional : forall cs is acts l, Forall2 (is_arg p) is acts -> map fst (filter (fun x => is_positional p (fst x)) (kept_all (deal is cs l))) = firstn (length cs) is.
Proof.
  induction cs as [|c cs IH]; intros is acts l F; destruct F as [|i a is acts [Ai Pi] F]; auto. cbn. unfold is_positional at 1. rewrite Ai, Pi. cbn. f_equal. eapply IH; eauto.
Qed.
Lemma consume_positionals_spec st l ts : good st -> tags p l ts ->
  match consume_positionals to_int p st ts with
  | Go (st', ts') => good st' /\ extras st' = extras st /\ exists os n, n <= length ts /\ ts' = skipn n ts /\ no_O (firstn n (letters ts)) /\
      (forall occs, (In D (firstn n (letters ts)) -> occs = [] /\ skipn n l = []) -> reads p occs (skipn n l) -> reads p (os ++ occs) l) /\
      map fst (filter (fun x => is_positional p (fst x)) os) ++ left st' = left st /\
      forall rest k, effects to_int p (values st) (os ++ rest) k = effects to_int p (values st') rest k
  | Stop x => harmless x end.
Proof.
  intros [G1 G2] T. unfold consume_positionals. destruct (get_acts _ G2) as (acts & E & F). rewrite E. cbn [and_then]. pose proof (partial_sound acts (letters ts)) as (L1 & L2 & LG). rewrite letters_length in L2.
  set (cs := match_arguments_partial acts (letters ts)) in *. clearbody cs. rewrite (tags_fst p l ts T).
  pose proof (fun rest k => take_actions_spec to_int p P k rest (deal (left st) cs l) (values st) G1 (deal_known _ _ _ _ F)) as TA. destruct (take_actions to_int p (values st) (deal (left st) cs l)) as [v|x]; cbn [and_then].
  - split; [|split; [auto|]].
    + split; [now destruct (TA [] Parsed)|]. cbn. clear - G2. revert G2. generalize (left st), (length cs). intros q m. revert q. induction m as [|m IH]; intros q H; [auto|]. destruct q; [auto|]. cbn. inversion H; auto.
    + exists (kept_all (deal (left st) cs l)), (list_sum cs). cbn [values left]. repeat split; auto.
      * clear - LG F. revert acts LG F. generalize (left st), (letters ts), cs. intros is w cs'. revert is w. induction cs' as [|c cs' IH]; intros is w acts LG F; [intros []|].
        destruct acts as [|a acts]; [inversion LG|]. cbn in LG. inversion LG as [|? ? ? ? Ga Gs]; subst. inversion F as [|i ? is' ? [_ Pi] F']; subst. change (list_sum (c :: cs')) with (c + list_sum cs'). rewrite firstn_plus. apply no_O_app.
        apply pattern_positional in Ga as [Ga _]; auto. split; auto. eapply IH; eauto.
      * intros occs H R. eapply deal_reads; eauto.
      * rewrite (deal_positional _ _ _ _ F). apply firstn_skipn.
      * intros rest k. apply TA.
  - now destruct (TA [] Parsed).
Qed.

Lemma before_option_spec : forall l ts, tags p l ts -> has_option ts = true ->
  exists ws, before_option ts = map (fun t => (t, TA)) ws /\ Forall (operand p) ws /\ exists s i o e l2 ts2, ts = map (fun t => (t, TA)) ws ++ (s, TO i o e) :: ts2 /\ l = ws ++ s :: l2 /\ tags p l2 ts2 /\
    s <> two_dashes /\ match i with Some i => denotes p s o e /\ exists a, owner p o i a | None => True end.
Proof.
  induction 1 as [|l|s l ts O T IH|s o e i a l ts N De Ow T IH|s o e l ts N T IH]; intros H.
  - discriminate.
  - exfalso. cbn in H. clear - H. induction l; cbn in *; [discriminate|auto].
  - destruct (IH H) as (ws & B & F & s' & i & o & e & l2 & ts2 & -> & -> & T2 & M). exists (s :: ws). cbn. rewrite B. split; auto. split; [now constructor|]. exists s', i, o, e, l2, ts2. auto.
  - exists []. cbn. split; auto. split; [constructor|]. exists s, (Some i), o, e, l, ts. repeat split; auto. eauto.
  - exists []. cbn. split; auto. split; [constructor|]. exists s, None, o, e, l, ts. auto.
Qed.
Lemma skip_map_app ws (r : list (text * tag)) (f : text -> text * tag) : skipn (length (map f ws)) (map f ws ++ r) = r.
Proof. rewrite skipn_app, skipn_all, Nat.sub_diag. reflexivity. Qed.
Lemma extras_consume st s i o e ts st' ts' : consume_optional to_int p st s i o e ts = Go (st', ts') -> extras st' = [] -> extras st = [].
Proof.
  destruct i as [i|]; cbn [consume_optional].
  - destruct (match e with Some e => joined p i o e ts | None => separate p i ts end) as [r|x]; cbn; [|discriminate]. destruct (take_actions _ _ _ _) as [v|x]; cbn; [|discriminate]. intros H. injection H as <- <-. auto.
  - intros H. injection H as <- <-. cbn. intros H. destruct (extras st); [auto|discriminate].
Qed.
(** the rest of a command line, all read, and the last positional arguments *)
Definition all_read (st : state) (l : list text) (r : run (state * list (text * tag))) : Prop :=
  match r with
  | Go (st', ts') =>
      match consume_positionals to_int p st' ts' with
      | Go (st2, ts2) => left st2 = [] -> extras st2 ++ map fst ts2 = [] ->
          extras st = [] /\ exists occs, reads p occs l /\ effects to_int p (values st) occs Parsed = Parsed (values st2) /\ map fst (filter (fun x => is_positional p (fst x)) occs) = left st
      | Stop x => harmless x
      end
  | Stop x => harmless x
  end.
Lemma options_no_positional os : Forall from_option os -> map fst (filter (fun x => is_positional p (fst x)) os) = [].
Proof. induction 1 as [|x os [_ N] _ IH]; cbn; [auto|]. now rewrite N. Qed.
Lemma loop_spec : forall fuel st l ts, length ts < fuel -> good st -> tags p l ts -> all_read st l (loop to_int p fuel st ts).
Proof.
  induction fuel as [|fuel IH]; intros st l ts LF G T; [lia|]. cbn [loop]. destruct (has_option ts) eqn:HO; cbn [negb].
  - destruct (before_option_spec _ _ T HO) as (ws & B & F & s & i & o & e & l2 & ts2 & ET & EL & T2 & ND & M).
    set (r := match before_option ts with [] => Go (st, ts) | _ => consume_positionals to_int p st ts end).
    assert (R : match r with
      | Go (st1, ts1) => good st1 /\ extras st1 = extras st /\ exists os n, n <= length ts /\ ts1 = skipn n ts /\ tags p (skipn n l) ts1 /\ (forall occs, reads p occs (skipn n l) -> reads p (os ++ occs) l) /\
          map fst (filter (fun x => is_positional p (fst x)) os) ++ left st1 = left st /\
          forall rest k, effects to_int p (values st) (os ++ rest) k = effects to_int p (values st1) rest k
      | Stop x => harmless x end).
    { subst r. assert (R0 : good st /\ extras st = extras st /\ exists os n, n <= length ts /\ ts = skipn n ts /\ tags p (skipn n l) ts /\ (forall occs, reads p occs (skipn n l) -> reads p (os ++ occs) l) /\
          map fst (filter (fun x => is_positional p (fst x)) os) ++ left st = left st /\ forall rest k, effects to_int p (values st) (os ++ rest) k = effects to_int p (values st) rest k).
      { split; auto. split; auto. exists [], 0. cbn. repeat split; auto with arith. }
      destruct (before_option ts) as [|x b]; [exact R0|]. pose proof (consume_positionals_spec st l ts G T) as C. destruct (consume_positionals to_int p st ts) as [[st1 ts1]|x']; [|exact C].
      destruct C as (G1 & X1 & os & n & Ln & -> & NO & Rd & Ps & Ef). split; auto. split; auto. exists os, n. pose proof (before_has_option p _ _ T HO n NO) as NDs.
      assert (LA : firstn n (letters ts) = repeat A n). { rewrite (all_A _ NO NDs). rewrite firstn_length_le; auto. now rewrite letters_length. }
      destruct (tags_advance p l ts T n Ln LA) as [_ T']. repeat split; auto. intros occs. apply Rd. intros I. now destruct (NDs I). }
    destruct r as [[st1 ts1]|x]; cbn [and_then fst snd]; [|exact R]. destruct R as (G1 & X1 & os & n & Ln & E1 & T1 & Rd & Ps & Ef). destruct (length ts1 <? length ts) eqn:LT.
    + apply Nat.ltb_lt in LT. specialize (IH st1 (skipn n l) ts1 ltac:(lia) G1 T1). unfold all_read in *. destruct (loop to_int p fuel st1 ts1) as [[st' ts']|x]; [|exact IH].
      destruct (consume_positionals to_int p st' ts') as [[st2 tsz]|x]; [|exact IH]. intros L0 E0. destruct (IH L0 E0) as (X & occs & Ro & Eo & Po). split; [congruence|]. exists (os ++ occs). split; auto. split.
      * rewrite Ef. auto.
      * rewrite filter_app, map_app. unfold occurrence in *. rewrite Po. auto.
    + apply Nat.ltb_ge in LT. assert (n = 0). { rewrite E1, skipn_length in LT. rewrite ET, app_length in *. cbn in *. lia. } subst n. cbn [skipn] in *. subst ts1.
      rewrite B, ET, skip_map_app. set (sb := add_extras st1 (map (fun t => (t, TA)) ws)).
      assert (Gb : good sb) by exact G1.
      destruct (consume_optional to_int p sb s i o e ts2) as [[st3 ts3]|x] eqn:C; cbn [and_then fst snd].
      2: { destruct i as [i|]; [|discriminate]. destruct M as (De & a & Ow). pose proof (consume_optional_spec sb s i a o e l2 ts2 Gb De Ow T2) as CS. rewrite C in CS. exact CS. }
      assert (LTS : length ts2 < fuel) by (rewrite ET, app_length in LF; cbn in LF; lia).
      destruct i as [i|].
      * destruct M as (De & a & Ow). pose proof (consume_optional_spec sb s i a o e l2 ts2 Gb De Ow T2) as CS. rewrite C in CS. destruct CS as (G3 & Lf & X3 & os3 & m & Lm & -> & T3 & Sp & Fo & Ef3).
        specialize (IH st3 (skipn m l2) (skipn m ts2) ltac:(rewrite skipn_length; lia) G3 T3). unfold all_read in *. destruct (loop to_int p fuel st3 (skipn m ts2)) as [[st' ts']|x]; [|exact IH].
        destruct (consume_positionals to_int p st' ts') as [[st2 tsz]|x]; [|exact IH]. intros L0 E0. destruct (IH L0 E0) as (X & occs & Ro & Eo & Po). rewrite X in X3. cbn in X3. symmetry in X3. apply app_eq_nil in X3 as [Xa Xb].
        split; [congruence|]. rewrite map_map in Xb. cbn in Xb. rewrite map_id in Xb. subst ws. cbn [app] in EL. exists (os ++ os3 ++ occs). split; [|split].
        -- apply Rd. subst l. rewrite <- (firstn_skipn m l2). apply (rd_option p os3 (s :: firstn m l2)); auto.
        -- rewrite Ef. change (values st1) with (values sb). rewrite Ef3. auto.
        -- rewrite !filter_app, !map_app. pose proof (options_no_positional _ Fo) as N3. unfold occurrence in *. rewrite Po, N3, Lf. auto.
      * cbn [consume_optional] in C. injection C as <- <-. specialize (IH {| values := values sb; left := left sb; extras := extras sb ++ [s] |} l2 ts2 LTS ltac:(exact Gb) T2). unfold all_read in *.
        destruct (loop to_int p fuel _ ts2) as [[st' ts']|x]; [|exact IH]. destruct (consume_positionals to_int p st' ts') as [[st2 tsz]|x]; [|exact IH]. intros L0 E0. destruct (IH L0 E0) as (X & _). cbn in X.
        apply app_eq_nil in X as [_ X]. discriminate.
  - unfold all_read. pose proof (consume_positionals_spec st l ts G T) as C. destruct (consume_positionals to_int p st ts) as [[st1 ts1]|x']; [|exact C].
    destruct C as (G1 & X1 & os & n & Ln & -> & NO & Rd & Ps & Ef). intros L0 E0. apply app_eq_nil in E0 as [X0 E0]. split; [congruence|].
    assert (E1 : skipn n l = []). { apply map_eq_nil in E0. assert (X : length (skipn n ts) = 0) by now rewrite E0. rewrite skipn_length in X. apply tags_length in T. apply length_zero_iff_nil. rewrite skipn_length. lia. }
    exists os. rewrite <- (app_nil_r os). split; [|split].
    + apply Rd; auto. rewrite E1. constructor.
    + rewrite Ef. reflexivity.
    + rewrite app_nil_r. rewrite L0, app_nil_r in Ps. auto.
Qed.
Lemma numbers_positionals : forall q i, numbers_from i q = positionals_from i q.
Proof. induction q as [|a q IH]; intros i; cbn; [auto|]. rewrite IH. reflexivity. Qed.
Lemma positionals_args : forall q i, (forall k a, nth_error q k = Some a -> nth_error p (i + k) = Some a) -> Forall (fun i => exists a, is_arg p i a) (positionals_from i q).
Proof.
  induction q as [|a q IH]; intros i H; cbn; [constructor|]. assert (H' : forall k b, nth_error q k = Some b -> nth_error p (S i + k) = Some b) by (intros k b E; replace (S i + k) with (i + S k) by lia; now apply H).
  destruct (positional a) eqn:Pa; [constructor|]; auto. exists a. split; auto. replace i with (i + 0) by lia. now apply H.
Qed.
Lemma default_defaults : default_names p = defaults p.
Proof. unfold defaults, default_names. now rewrite fold_left_rev_right || (rewrite <- fold_left_rev_right, rev_involutive). Qed.
Lemma defaults_ok : lists_ok p (default_names p).
Proof.
  unfold default_names. pose proof P as (_ & _ & F). rewrite Forall_forall in F. assert (X : forall q, incl q p -> lists_ok p (fold_right (fun a v => match does a with ShowHelp | ShowVersion => v | _ => put v (name a) (default a) end) (fun _ => Nothing) q)); [|apply X, incl_refl].
  induction q as [|a q IH]; intros I b Ib Db; cbn [fold_right]; [now left|]. assert (IH' := IH (fun x h => I x (or_intror h)) b Ib Db). assert (Ia : In a p) by (apply I; now left).
  assert (PUT : forall v, v (name b) = Nothing \/ (exists l, v (name b) = Many l) -> put v (name a) (default a) (name b) = Nothing \/ exists l, put v (name a) (default a) (name b) = Many l).
  { intros v H. destruct (list_eq_dec ascii_dec (name b) (name a)) as [E|NE].
    - rewrite E, put_same. destruct (F b Ib) as (_ & _ & H3). symmetry in E. now destruct (H3 Db a Ia E).
    - now rewrite put_other. }
  destruct (does a); auto.
Qed.
Lemma parse_args_spec args : match parse_args to_int p args with
  | Go v => exists occs, reads p occs args /\ effects to_int p (defaults p) occs Parsed = Parsed v /\ map fst (filter (fun x => is_positional p (fst x)) occs) = positionals p
  | Stop x => harmless x end.
Proof.
  unfold parse_args. pose proof (tagged_spec p P args) as T. destruct (tagged p args) as [ts|x]; cbn [and_then]; [|subst; right; right; auto].
  assert (G : good {| values := default_names p; left := numbers_from 0 p; extras := [] |}).
  { split; [apply defaults_ok|]. cbn. rewrite numbers_positionals. now apply positionals_args. }
  pose proof (loop_spec (S (length args)) _ args ts ltac:(apply tags_length in T; lia) G T) as L. unfold all_read in L.
  destruct (loop to_int p (S (length args)) _ ts) as [[st' ts']|x]; cbn [and_then fst snd]; [|exact L].
  destruct (consume_positionals to_int p st' ts') as [[st2 tsz]|x]; cbn [and_then fst snd]; [|exact L]. destruct (left st2) eqn:L0; [|right; right; auto].
  destruct (extras st2 ++ map fst tsz) eqn:E0; [|right; right; auto]. destruct (L eq_refl eq_refl) as (_ & occs & R & E & N). exists occs. split; auto. split.
  - rewrite <- default_defaults. exact E.
  - rewrite N. apply numbers_positionals.
Qed.
End Lines.
