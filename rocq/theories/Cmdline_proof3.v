(** Lemmas for command lines: actions, options and positional arguments. *)
From Coq Require Import Ascii.
From Verif Require Import Py PyLemmas Cmdline_spec Cmdline_model Cmdline_proof1 Cmdline_proof2.
Open Scope nat_scope.
Open Scope list_scope.

Definition harmless (s : stop) : Prop := s = SHelp \/ s = SVersion \/ s = SUsage.
Definition as_run (o : outcome) : run names := match o with Parsed v => Go v | Help => Stop SHelp | Version => Stop SVersion | Usage => Stop SUsage end.
Notation kept_all := all_kept.
Lemma kept_idem l : kept (kept l) = kept l.
Proof. unfold kept. induction l as [|s l IH]; cbn; [auto|]. destruct (negb (text_eqb s two_dashes)) eqn:E; cbn; [rewrite E; now f_equal|auto]. Qed.
Lemma kept_app l m : kept (l ++ m) = kept l ++ kept m.
Proof. apply filter_app. Qed.

Section Lines.
Variable to_int : text -> option Z.
Variable p : parser.
Hypothesis P : proper p.

Definition known (i : nat) : Prop := exists a, nth_error p i = Some a.
Definition lists_ok (v : names) : Prop := forall a, In a p -> does a = Append -> v (name a) = Nothing \/ exists l, v (name a) = Many l.

Lemma get_values_spec a l : get_values to_int a l = match value_of to_int a (kept l) with Some x => Go x | None => Stop SUsage end.
Proof.
  assert (L : forall l, get_values_list to_int a l = match all_converted to_int (type a) l with Some v => Go v | None => Stop SUsage end).
  { induction l0 as [|s l0 IH]; cbn; [auto|]. unfold get_value, converted. rewrite IH. destruct (type a).
    - cbn. now destruct (all_converted _ _ l0).
    - destruct (to_int s); cbn; [|auto]. now destruct (all_converted _ _ l0).
    - auto. }
  unfold get_values, value_of. change (filter (fun s => negb (text_eqb s double_dash)) l) with (kept l). set (m := kept l).
  assert (G : (vs <~ get_values_list to_int a m;; Go (Many vs)) = match option_map Many (all_converted to_int (type a) m) with Some x => Go x | None => Stop SUsage end) by (rewrite L; now destruct (all_converted _ _ m)).
  destruct (takes a); auto.
  - destruct m as [|s [|t m']]; auto. unfold get_value, converted. destruct (type a); [auto| |auto]. cbn. now destruct (to_int s).
  - destruct m; auto. destruct (positional a); [|auto]. now destruct (default a).
Qed.
Lemma put_same v d x : put v d x d = x.
Proof. unfold put. now rewrite text_eqb_refl. Qed.
Lemma put_other v d x e : e <> d -> put v d x e = v e.
Proof. intros N. unfold put. destruct (text_eqb e d) eqn:E; [apply text_eqb_eq in E; congruence|auto]. Qed.
Lemma take_action_spec v i l rest k : lists_ok v -> known i ->
  match take_action to_int p v i l with
  | Go v' => lists_ok v' /\ effects to_int p v ((i, kept l) :: rest) k = effects to_int p v' rest k
  | Stop s => harmless s /\ as_run (effects to_int p v ((i, kept l) :: rest) k) = Stop s
  end.
Proof.
  intros OK (a & A). unfold take_action, get_argument. rewrite A. cbn [and_then effects]. rewrite A, get_values_spec. destruct (value_of to_int a (kept l)) as [x|] eqn:V; cbn [and_then].
  2: { split; [right; right; auto|auto]. }
  pose proof P as (_ & _ & F). rewrite Forall_forall in F.
  assert (PUT : does a <> Append -> forall y, lists_ok (put v (name a) y)).
  { intros N y b B D. destruct (list_eq_dec ascii_dec (name b) (name a)) as [E|NE].
    - exfalso. apply F in B as (_ & _ & G). apply N. apply G; auto. now apply nth_error_In in A.
    - rewrite put_other by auto. now apply OK. }
  assert (APP : forall ys, lists_ok (put v (name a) (Many ys))).
  { intros ys b B D. destruct (list_eq_dec ascii_dec (name b) (name a)) as [E|NE].
    - rewrite E, put_same. eauto.
    - rewrite put_other by auto. now apply OK. }
  destruct (does a) eqn:D.
  - split; auto. apply PUT. congruence.
  - split; auto. apply PUT. congruence.
  - assert (I : In a p) by now apply nth_error_In in A. destruct (OK a I D) as [E|(ys & E)]; rewrite E; split; auto.
  - split; [left; auto|auto].
  - split; [right; left; auto|auto].
Qed.
Lemma take_actions_spec k rest : forall os v, lists_ok v -> Forall (fun x => known (fst x)) os ->
  match take_actions to_int p v os with
  | Go v' => lists_ok v' /\ effects to_int p v (kept_all os ++ rest) k = effects to_int p v' rest k
  | Stop s => harmless s /\ as_run (effects to_int p v (kept_all os ++ rest) k) = Stop s
  end.
Proof.
  induction os as [|[i l] os IH]; intros v OK K; cbn [take_actions all_kept map app fst snd].
  - auto.
  - inversion K as [|? ? Ki Kos]; subst. pose proof (take_action_spec v i l (kept_all os ++ rest) k OK Ki) as T. destruct (take_action to_int p v i l) as [v'|s]; cbn [and_then].
    + destruct T as [OK' E]. specialize (IH v' OK' Kos). destruct (take_actions to_int p v' os) as [v2|s].
      * split; [apply IH|]. etransitivity; [exact E|apply IH].
      * split; [apply IH|]. etransitivity; [|apply IH]. f_equal. exact E.
    + exact T.
Qed.

(** the tags of a command line *)
Inductive tags : list text -> list (text * tag) -> Prop :=
| tg_nil : tags [] []
| tg_dashes l : tags (two_dashes :: l) ((two_dashes, TD) :: map (fun t => (t, TA)) l)
| tg_operand s l ts : operand p s -> tags l ts -> tags (s :: l) ((s, TA) :: ts)
| tg_option s o e i a l ts : s <> two_dashes -> denotes p s o e -> owner p o i a -> tags l ts -> tags (s :: l) ((s, TO (Some i) o e) :: ts)
| tg_unknown s o e l ts : s <> two_dashes -> tags l ts -> tags (s :: l) ((s, TO None o e) :: ts).
Lemma tags_fst l ts : tags l ts -> map fst ts = l.
Proof. induction 1; cbn; try congruence. rewrite map_map. cbn. now rewrite map_id. Qed.
Lemma tags_length l ts : tags l ts -> length ts = length l.
Proof. intros H. apply tags_fst in H as <-. now rewrite map_length. Qed.
Lemma tagged_spec : forall l, match tagged p l with Go ts => tags l ts | Stop s => s = SUsage end.
Proof.
  induction l as [|s l IH]; cbn [tagged]; [constructor|]. destruct (text_eqb s double_dash) eqn:E.
  - apply text_eqb_eq in E as ->. apply tg_dashes.
  - assert (N : s <> two_dashes) by (intros ->; now rewrite text_eqb_refl in E). destruct (parse_optional p s) as [t|x] eqn:O; cbn [and_then]; [|now apply parse_optional_stops in O].
    destruct (tagged p l) as [ts|x]; cbn [and_then]; [|auto]. destruct t as [| |[i|] o e].
    + apply (parse_optional_operand p P s N) in O. now apply tg_operand.
    + now apply parse_optional_not_dd in O.
    + apply (parse_optional_option p P) in O as [De (a & Ow)]. eapply tg_option; eauto.
    + now apply tg_unknown.
Qed.

Definition letter_dec (x y : letter) : {x = y} + {x <> y}.
Proof. decide equality. Defined.
Definition no_D (w : list letter) : Prop := ~ In D w.
Lemma all_A w : no_O w -> no_D w -> w = repeat A (length w).
Proof.
  induction w as [|c w IH]; intros NO ND; [auto|]. cbn. destruct c; [|destruct ND; now left|destruct NO; now left]. f_equal. apply IH; intros I; [apply NO|apply ND]; now right.
Qed.
Lemma count_repeat n : count_A (repeat A n) = n.
Proof. induction n as [|n IH]; [auto|]. cbn in *. unfold count_A in *. cbn. now f_equal. Qed.
(** the part before an option has no two dashes *)
Lemma before_has_option : forall l ts, tags l ts -> has_option ts = true -> forall n, no_O (firstn n (letters ts)) -> no_D (firstn n (letters ts)).
Proof.
  induction 1 as [|l|s l ts O T IH|s o e i a l ts N De Ow T IH|s o e l ts N T IH]; intros H n NO.
  - rewrite firstn_nil. intros [].
  - exfalso. cbn in H. clear - H. induction l; cbn in *; [discriminate|auto].
  - destruct n as [|n]; [intros []|]. cbn in *. intros [I|I]; [discriminate|]. eapply IH; eauto. intros J. apply NO. now right.
  - destruct n as [|n]; [intros []|]. destruct NO. now left.
  - destruct n as [|n]; [intros []|]. destruct NO. now left.
Qed.
(** a part of operands *)
Lemma tags_advance : forall l ts, tags l ts -> forall n, n <= length ts -> firstn n (letters ts) = repeat A n -> Forall (operand p) (firstn n l) /\ tags (skipn n l) (skipn n ts).
Proof.
  induction 1 as [|l|s l ts O T IH|s o e i a l ts N De Ow T IH|s o e l ts N T IH]; intros n L F; (destruct n as [|n]; [cbn; split; [constructor|econstructor; eauto]|]).
  - cbn in L. lia.
  - discriminate.
  - cbn in *. injection F as F. destruct (IH n) as [G1 G2]; [lia|auto|]. auto.
  - discriminate.
  - discriminate.
Qed.
(** a part with the two dashes *)
Lemma tags_cross : forall l ts, tags l ts -> forall n, n <= length ts -> no_O (firstn n (letters ts)) -> In D (firstn n (letters ts)) ->
  exists ws l2, l = ws ++ two_dashes :: l2 /\ Forall (operand p) ws /\ length ws < n /\ ts = map (fun t => (t, TA)) ws ++ (two_dashes, TD) :: map (fun t => (t, TA)) l2.
Proof.
  induction 1 as [|l|s l ts O T IH|s o e i a l ts N De Ow T IH|s o e l ts N T IH]; intros n L NO I; (destruct n as [|n]; [destruct I|]).
  - destruct I.
  - exists [], l. cbn. repeat split; auto. lia.
  - cbn in *. destruct I as [I|I]; [discriminate|]. destruct (IH n) as (ws & l2 & -> & G & Ln & ->); [lia|intros J; apply NO; now right|auto|]. exists (s :: ws), l2. cbn. repeat split; auto. lia.
  - destruct NO. now left.
  - destruct NO. now left.
Qed.
Lemma letters_skip n ts : skipn n (letters ts) = letters (skipn n ts).
Proof. unfold letters. apply skipn_map. Qed.
Lemma letters_app a b : letters (a ++ b) = letters a ++ letters b.
Proof. apply map_app. Qed.
Lemma letters_A ws : letters (map (fun t => (t, TA)) ws) = repeat A (length ws).
Proof. induction ws as [|s ws IH]; cbn; [auto|]. now f_equal. Qed.

(** positional arguments *)
Definition is_arg (i : nat) (a : argument) : Prop := nth_error p i = Some a /\ positional a = true.
Lemma operand_kept ws : Forall (operand p) ws -> kept ws = ws.
Proof.
  induction 1 as [|s ws H _ IH]; [auto|]. unfold kept in *. cbn. destruct (text_eqb s two_dashes) eqn:E.
  - apply text_eqb_eq in E. destruct H. congruence.
  - cbn. now rewrite IH.
Qed.
Lemma firstn_plus {X} n m (l : list X) : firstn (n + m) l = firstn n l ++ firstn m (skipn n l).
Proof. revert l. induction n as [|n IH]; intros l; cbn; [auto|]. destruct l; cbn; [now rewrite firstn_nil|now rewrite IH]. Qed.
Lemma skipn_plus {X} n m (l : list X) : skipn (n + m) l = skipn m (skipn n l).
Proof. revert l. induction n as [|n IH]; intros l; cbn; [auto|]. destruct l; cbn; [now rewrite skipn_nil|apply IH]. Qed.
Lemma firstn_A n m : n <= m -> firstn n (repeat A m) = repeat A n.
Proof. revert m. induction n as [|n IH]; intros [|m] H; cbn; auto; [lia|]. f_equal. apply IH. lia. Qed.
Lemma skipn_A n m : skipn n (repeat A m) = repeat A (m - n).
Proof. revert m. induction n as [|n IH]; intros [|m]; cbn; auto. Qed.
Lemma split_at {X} (Q : list X -> Prop) c l : Q (firstn c l ++ skipn c l) -> Q l.
Proof. now rewrite firstn_skipn. Qed.
Lemma operands_deal : forall cs is acts l, Forall2 is_arg is acts -> Forall2 (fun a w => lang (nargs_pattern a) w) (firstn (length cs) acts) (segments cs (repeat A (length l))) ->
  list_sum cs = length l -> operands_only p (kept_all (deal is cs l)) l.
Proof.
  induction cs as [|c cs IH]; intros is acts l R F S; cbn in S.
  - destruct l; [|discriminate]. destruct is; constructor.
  - cbn [segments length firstn] in F. destruct acts as [|a acts]; [inversion F|]. inversion R as [|i ? is' ? [Ri Pi] R']; subst. cbn [firstn] in F. inversion F as [|? ? ? ? G F']; subst.
    apply pattern_positional in G as [_ G]; auto. change (fold_right Nat.add 0 cs) with (list_sum cs) in S.
    assert (E1 : firstn c (repeat A (length l)) = repeat A c) by (apply firstn_A; lia).
    assert (E2 : skipn c (repeat A (length l)) = repeat A (length (skipn c l))) by (rewrite skipn_length; apply skipn_A).
    rewrite E1 in G. rewrite E2 in F'. rewrite count_repeat in G. cbn [deal all_kept map fst snd]. refine (split_at (operands_only p _) c l _).
    eapply oo_more; eauto.
    + rewrite firstn_length_le by lia. auto.
    + apply (IH is' acts); auto. rewrite skipn_length. lia.
Qed.
Lemma deal_reads : forall cs is acts l ts, tags l ts -> Forall2 is_arg is acts -> Forall2 (fun a w => lang (nargs_pattern a) w) (firstn (length cs) acts) (segments cs (letters ts)) ->
  list_sum cs <= length ts -> forall occs, (In D (firstn (list_sum cs) (letters ts)) -> occs = [] /\ skipn (list_sum cs) l = []) -> reads p occs (skipn (list_sum cs) l) ->
  reads p (kept_all (deal is cs l) ++ occs) l.
Proof.
  induction cs as [|c cs IH]; intros is acts l ts T R F LS occs H E.
  - destruct is; exact E.
  - cbn [segments length firstn] in F. destruct acts as [|a acts]; [inversion F|]. inversion R as [|i ? is' ? [Ri Pi] R']; subst. cbn [firstn] in F. inversion F as [|? ? ? ? G F']; subst.
    change (list_sum (c :: cs)) with (c + list_sum cs) in *.
    apply pattern_positional in G as [NO G]; auto. assert (L : c <= length (letters ts)) by (unfold letters; rewrite map_length; lia).
    cbn [deal all_kept map fst snd app]. destruct (in_dec letter_dec D (firstn c (letters ts))) as [I|ND].
    + assert (I2 : In D (firstn (c + list_sum cs) (letters ts))) by (rewrite firstn_plus; apply in_app_iff; auto).
      destruct (H I2) as [-> E0]. rewrite app_nil_r. assert (Lc : c <= length ts) by lia. destruct (tags_cross _ _ T c Lc NO I) as (ws & l2 & -> & O & Ln & ->).
      set (d := c - length ws - 1). assert (Ed : c = length ws + S d) by lia.
      assert (F1 : firstn c (ws ++ two_dashes :: l2) = ws ++ two_dashes :: firstn d l2) by (rewrite Ed, firstn_plus, firstn_app, firstn_all, Nat.sub_diag, skipn_app, skipn_all, Nat.sub_diag; cbn; now rewrite app_nil_r).
      assert (F2 : skipn c (ws ++ two_dashes :: l2) = skipn d l2) by (rewrite Ed, skipn_plus, skipn_app, skipn_all, Nat.sub_diag; reflexivity).
      rewrite F1, F2. rewrite letters_app, letters_A in *. cbn [letters map letter_of snd] in *. change (map (fun x => letter_of (snd x)) (map (fun t => (t, TA)) l2)) with (letters (map (fun t => (t, TA)) l2)) in *. rewrite letters_A in *.
      rewrite app_length, map_length in Lc. cbn in Lc. rewrite map_length in Lc.
      assert (G1 : count_A (firstn c (repeat A (length ws) ++ D :: repeat A (length l2))) = length ws + d).
      { rewrite Ed, firstn_plus, firstn_app, repeat_length, Nat.sub_diag, firstn_A, skipn_app, repeat_length, Nat.sub_diag, skipn_A, Nat.sub_diag by lia. cbn [repeat firstn skipn app]. rewrite app_nil_r.
        rewrite firstn_A by lia. change (D :: repeat A d) with ([D] ++ repeat A d). rewrite !count_app, !count_repeat. reflexivity. }
      rewrite G1 in G. assert (KW : kept (ws ++ two_dashes :: firstn d l2) = ws ++ kept (firstn d l2)).
      { rewrite kept_app, (operand_kept ws O). f_equal. }
      rewrite KW. match goal with |- reads p ?os _ => refine (split_at (fun l => reads p os (ws ++ two_dashes :: l)) d l2 _) end. 
      apply rd_two_dashes with a; auto.
      * rewrite firstn_length_le by lia. auto.
      * assert (SK : skipn c (repeat A (length ws) ++ D :: repeat A (length l2)) = repeat A (length (skipn d l2))).
        { rewrite Ed, skipn_plus, skipn_app, repeat_length, Nat.sub_diag, skipn_A, Nat.sub_diag. cbn [repeat app skipn]. rewrite skipn_A. now rewrite skipn_length. }
        rewrite SK in F'. apply (operands_deal cs is' acts); auto.
        rewrite skipn_plus, F2 in E0. assert (X : length (skipn (list_sum cs) (skipn d l2)) = 0) by now rewrite E0. rewrite skipn_length in X.
        rewrite app_length, map_length in LS. cbn in LS. rewrite map_length in LS. rewrite skipn_length in *. lia.
    + assert (EA : firstn c (letters ts) = repeat A c). { rewrite (all_A _ NO ND) at 1. now rewrite firstn_length_le. }
      assert (Lc : c <= length ts) by lia. destruct (tags_advance _ _ T c Lc EA) as [O T'].
      rewrite EA, count_repeat in G. rewrite operand_kept by auto. refine (split_at (reads p _) c l _). eapply rd_operands; eauto.
      * rewrite firstn_length_le; auto. apply tags_length in T. lia.
      * apply (IH is' acts _ (skipn c ts)); auto.
        -- rewrite <- letters_skip. auto.
        -- rewrite skipn_length. lia.
        -- intros I. rewrite <- skipn_plus. apply H. rewrite firstn_plus. apply in_app_iff. right. now rewrite letters_skip.
        -- rewrite <- skipn_plus. exact E.
Qed.
End Lines.
