(** Lemmas for command lines: options and operands are read as written. *)
From Coq Require Import Ascii.
From Verif Require Import Py PyLemmas Cmdline_spec Cmdline_model Cmdline_proof1 Cmdline_proof2 Cmdline_proof3 Cmdline_proof4.
Open Scope nat_scope.
Open Scope list_scope.

Section Lines.
Variable to_int : text -> option Z.
Variable p : parser.
Hypothesis P : proper p.

Lemma effects_app : forall a v b k, effects to_int p v (a ++ b) k = effects to_int p v a (fun w => effects to_int p w b k).
Proof.
  induction a as [|[i l] a IH]; intros v b k; cbn [effects app]; [auto|]. destruct (nth_error p i) as [x|]; [|auto]. destruct (value_of to_int x l); [|auto]. destruct (does x); auto.
Qed.
Lemma denotes_not_dashes s o e : denotes p s o e -> s <> two_dashes.
Proof.
  intros H ->. assert (X : exists c, In c two_dashes /\ c <> dash); [|destruct X as (c & [<-|[<-|[]]] & N); congruence].
  destruct H as [(I & _)|(_ & _ & X & _)]; [now apply (option_string_dash p P) in I|auto].
Qed.
Definition TAs (ws : list text) : list (text * tag) := map (fun t => (t, TA)) ws.
Lemma tagged_operands ws l : Forall (operand p) ws -> tagged p (ws ++ l) = (r <~ tagged p l ;; Go (TAs ws ++ r)).
Proof.
  induction 1 as [|s ws O _ IH]; cbn [app tagged].
  - destruct (tagged p l); reflexivity.
  - destruct (text_eqb s double_dash) eqn:E; [apply text_eqb_eq in E; destruct O; contradiction|]. assert (N : s <> two_dashes) by apply O.
    apply (parse_optional_operand p P s N) in O. rewrite O. cbn [and_then]. rewrite IH. destruct (tagged p l); reflexivity.
Qed.
Lemma tagged_an_option s o e i a l : denotes p s o e -> owner p o i a -> tagged p (s :: l) = (r <~ tagged p l ;; Go ((s, TO (Some i) o e) :: r)).
Proof.
  intros De Ow. cbn [tagged]. destruct (text_eqb s double_dash) eqn:E; [apply text_eqb_eq in E; now apply denotes_not_dashes in De|].
  assert (X : parse_optional p s = Go (TO (Some i) o e)) by (apply (parse_optional_option p P); eauto). rewrite X. cbn [and_then]. destruct (tagged p l); reflexivity.
Qed.

Definition not_A (ls : list letter) : Prop := forall s, ls <> A :: s.
Definition safe (occs : list occurrence) (ls : list letter) : Prop := settled p occs \/ not_A ls.
Lemma letters_TAs ws r : letters (TAs ws ++ r) = repeat A (length ws) ++ letters r.
Proof. rewrite letters_app. f_equal. apply letters_A. Qed.
Lemma first_TAs ws r : firstn (length ws) (TAs ws ++ r) = TAs ws.
Proof. unfold TAs. rewrite firstn_app, map_length, Nat.sub_diag. cbn. rewrite app_nil_r. rewrite <- (map_length (fun t => (t, TA)) ws). apply firstn_all. Qed.
Lemma fst_TAs ws : map fst (TAs ws) = ws.
Proof. unfold TAs. rewrite map_map. apply map_id. Qed.
Lemma settled_one i a l o : owner p o i a -> settled p [(i, l)] -> fixed (takes a).
Proof. intros [E _] S. unfold settled in S. cbn in S. rewrite E in S. exact S. Qed.
Lemma settled_cons x y l : settled p (x :: y :: l) -> settled p (y :: l).
Proof. unfold settled. cbn [rev]. destruct (rev l); cbn; auto. Qed.
Lemma separate_complete i a o vals r : owner p o i a -> can_take (takes a) (length vals) -> fixed (takes a) \/ not_A (letters r) -> separate p i (TAs vals ++ r) = Go ([(i, vals)], length vals).
Proof.
  intros Ow C S. pose proof (owner_not_positional _ _ _ _ Ow) as N. destruct Ow as [E _]. unfold separate, get_argument. rewrite E. cbn [and_then]. rewrite letters_TAs, match_argument_complete by auto. cbn [and_then].
  now rewrite first_TAs, fst_TAs.
Qed.
Lemma attached_cons i a o e occs vals : attached p i a o e occs vals -> exists y l, occs = y :: l.
Proof. destruct 1; eauto. Qed.
Lemma short_dash o i a : owner p o i a -> ~ long o -> second_dash o = false.
Proof. intros Ow N. destruct (second_dash o) eqn:E; [|auto]. destruct N. apply second_dash_long; auto. eapply owner_dash; eauto. Qed.
Lemma joined_complete i a o e occs vals r : attached p i a o e occs vals -> owner p o i a -> kept vals = vals -> safe occs (letters r) ->
  exists os, joined p i o e (TAs vals ++ r) = Go (os, length vals) /\ kept_all os = occs /\ Forall (fun x => known p (fst x)) os.
Proof.
  induction 1 as [i a o e C|i a o c e j b occs vals C0 C1 NL Ob NE At IH|i a o c j b vals C0 C1 NL Ob Cv]; intros Ow K S; pose proof Ow as [E _].
  - exists [(i, [e])]. split; [|split; [reflexivity|constructor; [exists a; auto|constructor]]]. destruct e; cbn [joined]; unfold get_argument; rewrite E; cbn [and_then];
      (destruct (match_one a (owner_not_positional _ _ _ _ Ow)) as [[_ M]|[(_ & C1 & _)|(C1 & _)]]; [|contradiction|contradiction]); rewrite M; reflexivity.
  - destruct (attached_cons _ _ _ _ _ _ At) as (y & q & Ey). destruct IH as (os & J & Ko & Kn); auto. { destruct S as [S|S]; [left|right; auto]. subst occs. now apply settled_cons in S. }
    exists ((i, []) :: os). cbn [joined]. unfold get_argument. rewrite E. cbn [and_then]. destruct (match_one a (owner_not_positional _ _ _ _ Ow)) as [[C _]|[(_ & _ & M)|(_ & X & _)]]; [contradiction| |contradiction].
    rewrite M. cbn [and_then Nat.eqb]. rewrite (short_dash _ _ _ Ow NL). cbn [negb andb]. assert (T : dget text_eqb (table p) [dash; c] = Some j) by (apply (dget_table p P); eauto). rewrite T.
    destruct e as [|c' e']; [congruence|]. rewrite J. cbn [and_then fst snd]. split; auto. split; [|constructor; auto; exists a; auto]. rewrite <- Ko. reflexivity.
  - exists [(i, []); (j, vals)]. pose proof Ob as [Ej _]. cbn [joined]. unfold get_argument. rewrite E. cbn [and_then]. destruct (match_one a (owner_not_positional _ _ _ _ Ow)) as [[C _]|[(_ & _ & M)|(_ & X & _)]]; [contradiction| |contradiction].
    rewrite M. cbn [and_then Nat.eqb]. rewrite (short_dash _ _ _ Ow NL). cbn [negb andb]. assert (T : dget text_eqb (table p) [dash; c] = Some j) by (apply (dget_table p P); eauto). rewrite T.
    rewrite (separate_complete j b [dash; c]); auto.
    + cbn [and_then fst snd]. split; auto. split; [|constructor; [exists a; auto|constructor; [exists b; auto|constructor]]]. unfold all_kept. cbn [map fst snd]. now rewrite K.
    + destruct S as [S|S]; [left|right; auto]. apply settled_cons in S. eapply settled_one; eauto.
Qed.
Lemma state_extras st : add_extras st [] = st.
Proof. destruct st. unfold add_extras. cbn. now rewrite app_nil_r. Qed.

(** the loop and what follows *)
Definition finish (fuel : nat) (st : state) (ts : list (text * tag)) : run names :=
  r <~ loop to_int p fuel st ts ;;
  r2 <~ consume_positionals to_int p (fst r) (snd r) ;;
  match left (fst r2), extras (fst r2) ++ map fst (snd r2) with [], [] => Go (values (fst r2)) | _, _ => Stop SUsage end.
Lemma finish_option fuel st s i o e ts : finish (S fuel) st ((s, TO (Some i) o e) :: ts) = (r <~ consume_optional to_int p st s (Some i) o e ts ;; finish fuel (fst r) (snd r)).
Proof.
  unfold finish at 1. cbn [loop has_option existsb snd orb negb before_option and_then fst snd]. rewrite Nat.ltb_irrefl. cbn [length skipn]. rewrite state_extras.
  destruct (consume_optional _ _ _ _ _ _ _ _) as [r|x]; reflexivity.
Qed.
(** one option *)
Lemma spelled_tags os ws : spelled p os ws -> exists s i a o e vals, ws = s :: vals /\ denotes p s o e /\ owner p o i a /\ Forall (operand p) vals /\ os <> [] /\
  forall r, safe os (letters r) -> exists os', Forall (fun x => known p (fst x)) os' /\ kept_all os' = os /\
    match e with Some e => joined p i o e (TAs vals ++ r) | None => separate p i (TAs vals ++ r) end = Go (os', length vals).
Proof.
  destruct 1 as [s o i a vals De Ow C O|s o e i a occs vals De Ow At O].
  - exists s, i, a, o, None, vals. do 4 (split; auto). split; [discriminate|]. intros r S. exists [(i, vals)]. split; [constructor; [destruct Ow; exists a; auto|constructor]|]. split.
    + unfold all_kept. cbn. now rewrite (operand_kept p).
    + eapply separate_complete; eauto. destruct S as [S|S]; [left|right; auto]. eapply settled_one; eauto.
  - exists s, i, a, o, (Some e), vals. do 4 (split; auto). split. { destruct (attached_cons _ _ _ _ _ _ At) as (y & l & ->). discriminate. }
    intros r S. destruct (joined_complete i a o e occs vals r At Ow (operand_kept p vals O) S) as (os & J & K & Kn). exists os. auto.
Qed.
Lemma finish_one os ws : spelled p os ws -> exists T, T <> [] /\ not_A (letters T) /\ length T = length ws /\ (forall l, tagged p (ws ++ l) = (r <~ tagged p l ;; Go (T ++ r))) /\
  forall r k L E, safe os (letters r) ->
    (forall v fuel, length r < fuel -> lists_ok p v -> finish fuel {| values := v; left := L; extras := E |} r = as_run (k v)) ->
    forall v fuel, length (T ++ r) < fuel -> lists_ok p v -> finish fuel {| values := v; left := L; extras := E |} (T ++ r) = as_run (effects to_int p v os k).
Proof.
  intros Sp. destruct (spelled_tags os ws Sp) as (s & i & a & o & e & vals & -> & De & Ow & O & N & H). exists ((s, TO (Some i) o e) :: TAs vals). split; [discriminate|]. split; [intros q; discriminate|]. split; [cbn; unfold TAs; now rewrite map_length|]. split.
  - intros l. cbn [app]. rewrite (tagged_an_option s o e i a) by auto. rewrite tagged_operands by auto. destruct (tagged p l); reflexivity.
  - intros r k L E Sf Hk v [|fuel] F OK; [lia|]. cbn [app length] in *. rewrite finish_option. destruct (H r Sf) as (os' & Kn & Ko & J). cbn [consume_optional]. rewrite J. cbn [and_then fst snd values left extras].
    pose proof (take_actions_spec to_int p P k [] os' v OK Kn) as TA. rewrite Ko, app_nil_r in TA. destruct (take_actions to_int p v os') as [v'|x]; cbn [and_then fst snd].
    + destruct TA as [OK' Ef]. rewrite Ef. cbn [effects]. assert (X : skipn (length vals) (TAs vals ++ r) = r). { unfold TAs. rewrite <- (map_length (fun t => (t, TA)) vals). apply skip_map_app. }
      rewrite X. apply Hk; auto. rewrite app_length in F. lia.
    + symmetry. apply TA.
Qed.
Lemma settled_tail a b : b <> [] -> settled p (a ++ b) -> settled p b.
Proof. unfold settled. intros N. rewrite rev_app_distr. destruct (rev b) eqn:E; cbn; auto. Qed.
Lemma options_nil occs ws : options p occs ws -> (occs = [] <-> ws = []).
Proof.
  induction 1 as [|os ws occs rest Sp _ _]; [tauto|]. destruct (spelled_tags os ws Sp) as (s & i & a & o & e & vals & -> & _ & _ & _ & N & _). split; intros X; [|discriminate]. apply app_eq_nil in X as [X _]. contradiction.
Qed.
Lemma finish_options occs ws : options p occs ws -> exists T, (T = [] <-> ws = []) /\ (T <> [] -> not_A (letters T)) /\ length T = length ws /\ (forall l, tagged p (ws ++ l) = (r <~ tagged p l ;; Go (T ++ r))) /\
  forall r k L E, safe occs (letters r) ->
    (forall v fuel, length r < fuel -> lists_ok p v -> finish fuel {| values := v; left := L; extras := E |} r = as_run (k v)) ->
    forall v fuel, length (T ++ r) < fuel -> lists_ok p v -> finish fuel {| values := v; left := L; extras := E |} (T ++ r) = as_run (effects to_int p v occs k).
Proof.
  induction 1 as [|os ws occs rest Sp Op (T2 & N2 & A2 & L2 & G2 & H2)].
  - exists []. split; [tauto|]. split; [congruence|]. split; [auto|]. split; [intros l; cbn; destruct (tagged p l); reflexivity|]. intros r k L E _ Hk v fuel F OK. now apply Hk.
  - destruct (finish_one os ws Sp) as (T1 & N1 & A1 & L1 & G1 & H1). exists (T1 ++ T2). assert (W : ws <> []) by (intros ->; destruct T1; [congruence|discriminate]).
    split. { split; intros X; apply app_eq_nil in X as [X _]; contradiction. }
    split. { intros _ q. destruct T1; [congruence|]. intros X. eapply (A1 (letters T1)). cbn in *. injection X as -> X. f_equal. }
    split; [rewrite !app_length; lia|]. split.
    + intros l. rewrite <- app_assoc, G1, G2. destruct (tagged p l); cbn; [|auto]. now rewrite app_assoc.
    + intros r k L E Sf Hk v fuel F OK. rewrite <- app_assoc in *. rewrite effects_app. apply H1; auto.
      * destruct occs as [|y q] eqn:Eo.
        -- assert (X : rest = []) by now apply (options_nil _ _ Op). assert (Y : T2 = []) by now apply N2. subst T2. cbn [app]. rewrite app_nil_r in Sf. exact Sf.
        -- right. assert (X : T2 <> []). { intros Y. apply N2 in Y. apply (options_nil _ _ Op) in Y. discriminate. } intros u Z. destruct T2; [congruence|]. apply (A2 X (letters T2)). cbn in *. injection Z as -> Z. f_equal.
      * intros v' fuel' F' OK'. apply H2; auto. destruct occs as [|y q].
        -- left. exact I.
        -- destruct Sf as [Sf|Sf]; [left|right; auto]. eapply settled_tail; eauto. discriminate.
Qed.

(** operands *)
Lemma acts_filter : forall q i, (forall k a, nth_error q k = Some a -> nth_error p (i + k) = Some a) -> Forall2 (is_arg p) (positionals_from i q) (filter positional q).
Proof.
  induction q as [|a q IH]; intros i H; cbn; [constructor|]. assert (H' : forall k b, nth_error q k = Some b -> nth_error p (S i + k) = Some b) by (intros k b E; replace (S i + k) with (i + S k) by lia; now apply H).
  destruct (positional a) eqn:Pa; [constructor|]; auto. split; auto. replace i with (i + 0) by lia. now apply H.
Qed.
Lemma acts_all : Forall2 (is_arg p) (positionals p) (filter positional p).
Proof. apply acts_filter. auto. Qed.
Lemma get_acts_all : fold_right (fun i r => a <~ get_argument p i;; l <~ r;; Go (a :: l)) (Go []) (positionals p) = Go (filter positional p).
Proof. induction acts_all as [|i a is acts [Ai Pi] F IH]; [auto|]. cbn [fold_right]. rewrite IH. unfold get_argument. rewrite Ai. reflexivity. Qed.
Lemma deal_app : forall cs is l r, list_sum cs <= length l -> deal is cs (l ++ r) = deal_out is cs l.
Proof.
  induction cs as [|c cs IH]; intros [|i is] l r H; auto. change (list_sum (c :: cs)) with (c + list_sum cs) in H. cbn [deal deal_out]. rewrite firstn_app, skipn_app. replace (c - length l) with 0 by lia. cbn. rewrite app_nil_r. f_equal. apply IH. rewrite skipn_length. lia.
Qed.
Lemma deal_kept : forall cs is l, Forall (operand p) l -> kept_all (deal_out is cs l) = deal_out is cs l.
Proof.
  induction cs as [|c cs IH]; intros [|i is] l O; auto. cbn. f_equal.
  - f_equal. apply (operand_kept p). apply Forall_forall. intros x I. rewrite Forall_forall in O. apply O. rewrite <- (firstn_skipn c l). apply in_app_iff. auto.
  - apply IH. apply Forall_forall. intros x I. rewrite Forall_forall in O. apply O. rewrite <- (firstn_skipn c l). apply in_app_iff. auto.
Qed.
Lemma deal_out_deal : forall cs is l, deal is cs l = deal_out is cs l.
Proof. reflexivity. Qed.
Lemma all_positional : Forall (fun a => positional a = true) (filter positional p).
Proof. apply Forall_forall. intros a I. now apply filter_In in I. Qed.
Lemma best_length ms n cs : best_deal ms n cs -> length cs = length ms.
Proof. intros [[F _] _]. clear - F. induction F; cbn; auto. Qed.
Lemma sum_fold cs : list_sum cs = fold_right Nat.add 0 cs.
Proof. reflexivity. Qed.
Lemma positionals_length : length (positionals p) = length (amounts p).
Proof. unfold amounts. rewrite map_length. induction acts_all; cbn; auto. Qed.
Lemma consume_block v E block r cs : Forall (operand p) block -> stops_here (letters r) -> best_deal (amounts p) (length block) cs -> fold_right Nat.add 0 cs = length block ->
  consume_positionals to_int p {| values := v; left := positionals p; extras := E |} (TAs block ++ r) =
  (v' <~ take_actions to_int p v (deal_out (positionals p) cs block) ;; Go ({| values := v'; left := []; extras := E |}, r)).
Proof.
  intros O S B X. unfold consume_positionals. cbn [left values extras]. rewrite get_acts_all. cbn [and_then]. rewrite letters_TAs.
  assert (M : match_arguments_partial (filter positional p) (repeat A (length block) ++ letters r) = cs).
  { pose proof (groups_complete (letters r) (filter positional p) (length block) cs S all_positional B) as M. destruct (filter positional p) as [|a acts] eqn:FA.
    - cbn in *. injection M as <-. reflexivity.
    - apply partial_all; auto. discriminate. }
  rewrite M, map_app, fst_TAs, deal_app by (rewrite sum_fold; lia). destruct (take_actions _ _ _ _) as [v'|x]; cbn [and_then]; [|auto]. f_equal. f_equal.
  - f_equal. rewrite (best_length _ _ _ B), <- positionals_length. apply skipn_all.
  - rewrite sum_fold, X. unfold TAs. rewrite <- (map_length (fun t => (t, TA)) block). apply skip_map_app.
Qed.
Lemma deal_known' : forall cs l, Forall (fun x => known p (fst x)) (deal_out (positionals p) cs l).
Proof. intros cs l. rewrite <- deal_out_deal. eapply deal_known. apply acts_all. Qed.
Lemma consume_nothing v E : consume_positionals to_int p {| values := v; left := []; extras := E |} [] = Go ({| values := v; left := []; extras := E |}, []).
Proof. reflexivity. Qed.
Lemma has_option_TAs block r : has_option (TAs block ++ r) = has_option r.
Proof. unfold has_option, TAs. induction block; cbn; auto. Qed.
Lemma before_TAs block s i o e r : before_option (TAs block ++ (s, TO i o e) :: r) = TAs block.
Proof. unfold TAs. induction block as [|x block IH]; cbn; [auto|]. now rewrite IH. Qed.
Lemma options_O occs ws T : options p occs ws -> (forall l, tagged p (ws ++ l) = (r <~ tagged p l ;; Go (T ++ r))) -> T <> [] -> exists s i o e q, T = (s, TO i o e) :: q.
Proof.
  intros Op G N. destruct Op as [|os ws occs rest Sp Op].
  - specialize (G []). cbn in G. rewrite app_nil_r in G. congruence.
  - destruct (spelled_tags os ws Sp) as (s & i & a & o & e & vals & -> & De & Ow & _). specialize (G []). rewrite app_nil_r in G. cbn [tagged] in G. change ((s :: vals) ++ rest) with (s :: (vals ++ rest)) in G.
    rewrite (tagged_an_option s o e i a) in G by auto. destruct (tagged p (vals ++ rest)) as [q|x]; cbn in G; [|discriminate]. rewrite app_nil_r in G. injection G as <-. eauto 6.
Qed.
Lemma options_args occs1 ws1 block occs2 ws2 cs : options p occs1 ws1 -> Forall (operand p) block -> options p occs2 ws2 ->
  block <> [] \/ ws2 = [] -> block = [] \/ settled p occs1 -> best_deal (amounts p) (length block) cs -> fold_right Nat.add 0 cs = length block ->
  parse_args to_int p (ws1 ++ block ++ ws2) = as_run (effects to_int p (defaults p) (occs1 ++ deal_out (positionals p) cs block ++ occs2) Parsed).
Proof.
  intros O1 O O2 NE St B X. destruct (finish_options _ _ O1) as (T1 & N1 & A1 & L1 & G1 & H1). destruct (finish_options _ _ O2) as (T2 & N2 & A2 & L2 & G2 & H2).
  unfold parse_args. rewrite G1, tagged_operands by auto. rewrite <- (app_nil_r ws2) at 1. rewrite G2. cbn [tagged and_then]. rewrite app_nil_r.
  fold (finish (S (length (ws1 ++ block ++ ws2))) {| values := default_names p; left := numbers_from 0 p; extras := [] |} (T1 ++ TAs block ++ T2)).
  rewrite numbers_positionals. fold (positionals p). rewrite <- default_defaults. rewrite effects_app. apply H1.
  - destruct block as [|b0 block].
    + right. cbn [TAs map app]. destruct NE as [NE| ->]; [congruence|]. assert (Y : T2 = []) by now apply N2. subst T2. intros s. discriminate.
    + destruct St as [St|St]; [discriminate|]. now left.
  - intros v fuel F OK. rewrite effects_app.
    assert (ST : stops_here (letters T2)). { destruct T2 as [|x T2'] eqn:ET; [now left|right]. destruct (options_O _ _ _ O2 G2) as (s & i & o & e & q & E); [discriminate|]. rewrite E. exists (letters q). reflexivity. }
    assert (FIN : forall v' fuel', length T2 < fuel' -> lists_ok p v' -> finish fuel' {| values := v'; left := []; extras := [] |} T2 = as_run (effects to_int p v' occs2 Parsed)).
    { intros v' fuel' F' OK'. rewrite <- (app_nil_r T2). apply H2; auto.
      - right. intros s. discriminate.
      - intros v2 [|fuel2] F2 OK2; [cbn in F2; lia|]. reflexivity.
      - now rewrite app_nil_r. }
    pose proof (take_actions_spec to_int p P (fun w => effects to_int p w occs2 Parsed) [] (deal_out (positionals p) cs block) v OK (deal_known' cs block)) as TA. rewrite deal_kept, app_nil_r in TA by auto.
    destruct fuel as [|fuel]; [lia|]. unfold finish. cbn [loop]. rewrite has_option_TAs. destruct T2 as [|x T2'] eqn:ET.
    + cbn [has_option existsb negb and_then fst snd]. rewrite (consume_block v [] block [] cs) by auto. destruct (take_actions to_int p v _) as [v'|y]; cbn [and_then fst snd].
      * destruct TA as [OK' Ef]. rewrite Ef. cbn [effects left extras map app values]. specialize (FIN v' 1 ltac:(cbn; lia) OK'). exact FIN.
      * symmetry. apply TA.
    + destruct (options_O _ _ _ O2 G2) as (s & i & o & e & q & E); [discriminate|]. rewrite E in *. cbn [has_option existsb snd orb negb]. rewrite before_TAs.
      destruct block as [|b0 block]; [exfalso; destruct NE as [NE|NE]; [congruence|]; apply N2 in NE; discriminate|]. cbn [TAs map]. change ((b0, TA) :: map (fun t => (t, TA)) block) with (TAs (b0 :: block)).
      rewrite (consume_block v [] (b0 :: block) _ cs) by auto. destruct (take_actions to_int p v _) as [v'|y]; cbn [and_then fst snd].
      * destruct TA as [OK' Ef]. rewrite Ef. cbn [effects]. assert (LT : length ((s, TO i o e) :: q) <? length (TAs (b0 :: block) ++ (s, TO i o e) :: q) = true).
        { apply Nat.ltb_lt. rewrite app_length. unfold TAs. rewrite map_length. cbn. lia. }
        unfold TAs in LT. cbn [map] in LT. rewrite LT. apply FIN; auto. rewrite app_length in F. unfold TAs in F. rewrite map_length in F. cbn in *. lia.
      * symmetry. apply TA.
  - rewrite !app_length. unfold TAs. rewrite map_length. lia.
  - now apply defaults_ok.
Qed.
Lemma kept_dashes l : kept (two_dashes :: l) = kept l.
Proof. reflexivity. Qed.
Lemma options_dashes occs ws block cs : options p occs ws -> positionals p <> [] -> best_deal (amounts p) (length block) cs -> fold_right Nat.add 0 cs = length block ->
  parse_args to_int p (ws ++ two_dashes :: block) = as_run (effects to_int p (defaults p) (occs ++ kept_all (deal_out (positionals p) cs block)) Parsed).
Proof.
  intros O1 NP B X. destruct (finish_options _ _ O1) as (T1 & N1 & A1 & L1 & G1 & H1). unfold parse_args. rewrite G1. cbn [tagged]. change (text_eqb two_dashes double_dash) with (text_eqb two_dashes two_dashes). rewrite text_eqb_refl. cbn [and_then].
  change (map (fun t : text => (t, TA)) block) with (TAs block).
  fold (finish (S (length (ws ++ two_dashes :: block))) {| values := default_names p; left := numbers_from 0 p; extras := [] |} (T1 ++ (two_dashes, TD) :: TAs block)).
  rewrite numbers_positionals. fold (positionals p). rewrite <- default_defaults. rewrite effects_app. apply H1.
  - right. intros s. discriminate.
  - intros v [|fuel] F OK; [cbn in F; lia|]. unfold finish. cbn [loop]. change (has_option ((two_dashes, TD) :: TAs block)) with (has_option (TAs block)). rewrite <- (app_nil_r (TAs block)) at 1. rewrite has_option_TAs. cbn [has_option existsb negb and_then fst snd].
    unfold consume_positionals. cbn [left values extras]. rewrite get_acts_all. cbn [and_then]. change (letters ((two_dashes, TD) :: TAs block)) with (D :: letters (TAs block)).
    assert (LB : letters (TAs block) = repeat A (length block) ++ []) by (rewrite app_nil_r; apply letters_A).
    assert (PL : length (positionals p) = length cs) by (rewrite (best_length _ _ _ B); apply positionals_length).
    assert (M : match_arguments_partial (filter positional p) (D :: letters (TAs block)) = bump cs).
    { pose proof (groups_complete [] (filter positional p) (length block) cs (or_introl eq_refl) all_positional B) as M. rewrite <- LB in M. pose proof acts_all as AA. pose proof all_positional as AP. destruct (filter positional p) as [|a acts] eqn:FA.
      - exfalso. apply NP. now inversion AA.
      - apply partial_all; [|discriminate]. apply groups_dashes; auto. now inversion AP. }
    rewrite M. change (map fst ((two_dashes, TD) :: TAs block)) with (two_dashes :: map fst (TAs block)). rewrite fst_TAs.
    destruct cs as [|c cs]; [destruct (positionals p); [congruence|discriminate]|]. cbn [bump]. destruct (positionals p) as [|i is] eqn:PP; [congruence|]. cbn [deal firstn skipn].
    assert (KN : Forall (fun x => known p (fst x)) ((i, two_dashes :: firstn c block) :: deal is cs (skipn c block))).
    { pose proof (deal_known' (c :: cs) block) as K. rewrite PP in K. cbn in K. inversion K; subst. constructor; auto. }
    pose proof (take_actions_spec to_int p P Parsed [] _ v OK KN) as TA. rewrite app_nil_r in TA. unfold all_kept at 1 2 in TA. cbn [map fst snd] in TA. rewrite kept_dashes, deal_out_deal in TA.
    unfold all_kept. cbn [deal_out map fst snd]. rewrite deal_out_deal. destruct (take_actions to_int p v _) as [v'|y]; cbn [and_then fst snd left extras app values].
    + destruct TA as [OK' Ef]. rewrite Ef. cbn [effects as_run length]. cbn [length] in PL. injection PL as PL. cbn [skipn]. rewrite <- PL, skipn_all. change (list_sum (S c :: cs)) with (S (c + list_sum cs)). cbn [skipn].
      change (c + list_sum cs) with (fold_right Nat.add 0 (c :: cs)). rewrite X. unfold TAs. rewrite <- (map_length (fun t => (t, TA)) block), skipn_all. reflexivity.
    + symmetry. apply TA.
  - rewrite !app_length. cbn. unfold TAs. rewrite map_length. lia.
  - now apply defaults_ok.
Qed.
End Lines.
