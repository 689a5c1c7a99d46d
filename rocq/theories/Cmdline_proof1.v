(** Lemmas for command lines: options and strings. *)
From Coq Require Import Ascii.
From Verif Require Import Py PyLemmas Cmdline_spec Cmdline_model.
Open Scope nat_scope.
Open Scope list_scope.

Lemma text_eqb_eq s t : text_eqb s t = true <-> s = t.
Proof. unfold text_eqb. destruct (list_eq_dec ascii_dec s t); split; congruence. Qed.
Lemma text_eqb_refl s : text_eqb s s = true.
Proof. now apply text_eqb_eq. Qed.
Lemma is_dash_eq c : is_dash c = true <-> c = dash.
Proof. unfold is_dash. destruct (ascii_dec c dash); split; congruence. Qed.
Lemma second_dash_long s : hd blank s = dash -> second_dash s = true <-> long s.
Proof.
  intros H. destruct s as [|c [|d s]]; cbn in *.
  - discriminate.
  - split; [discriminate|]. intros (r & E). discriminate.
  - rewrite is_dash_eq. split.
    + intros ->. exists s. now rewrite H.
    + intros (r & E). congruence.
Qed.

Section Table.
Variable p : parser.
Lemma table_from_in o j : forall q i, In (o, j) (table_from i q) <-> exists a k, nth_error q k = Some a /\ j = i + k /\ In o (spellings a).
Proof.
  induction q as [|a q IH]; intros i; cbn [table_from].
  - split; [easy|]. intros (a & k & E & _). destruct k; discriminate.
  - rewrite in_app_iff, in_map_iff, IH. split.
    + intros [(x & E & I)|(b & k & E & -> & I)].
      * injection E as -> <-. exists a, 0. cbn. auto.
      * exists b, (S k). cbn. split; [auto|]. split; [lia|auto].
    + intros (b & [|k] & E & -> & I); cbn in E.
      * injection E as <-. left. exists o. split; [f_equal; lia|auto].
      * right. exists b, k. split; [auto|]. split; [lia|auto].
Qed.
Lemma table_in o i : In (o, i) (table p) <-> exists a, owner p o i a.
Proof.
  unfold table, owner. rewrite table_from_in. split.
  - intros (a & k & E & -> & I). exists a. auto.
  - intros (a & E & I). exists a, i. auto.
Qed.
Lemma table_from_keys : forall q i, map fst (table_from i q) = option_strings q.
Proof. induction q as [|a q IH]; intros i; cbn; [auto|]. rewrite map_app, IH, map_map. cbn. now rewrite map_id. Qed.
Lemma table_keys : map fst (table p) = option_strings p.
Proof. apply table_from_keys. Qed.
Lemma option_owner o : In o (option_strings p) <-> exists i a, owner p o i a.
Proof.
  rewrite <- table_keys, in_map_iff. split.
  - intros ((o' & i) & E & I). cbn in E. subst o'. apply table_in in I as (a & I). eauto.
  - intros (i & a & I). exists (o, i). split; auto. apply table_in. eauto.
Qed.
Hypothesis P : proper p.
Lemma table_nodup : NoDup (map fst (table p)).
Proof. rewrite table_keys. apply P. Qed.
Lemma owner_fun o i j a b : owner p o i a -> owner p o j b -> i = j /\ a = b.
Proof.
  intros A B. assert (i = j).
  { assert (IA : In (o, i) (table p)) by (apply table_in; eauto). assert (IB : In (o, j) (table p)) by (apply table_in; eauto).
    pose proof table_nodup as N. clear A B. induction (table p) as [|x t IH]; [easy|]. cbn in N. inversion N as [|? ? X Y]; subst.
    destruct IA as [->|IA], IB as [B|IB].
    - congruence.
    - destruct X. apply in_map_iff. exists (o, j). auto.
    - subst x. destruct X. apply in_map_iff. exists (o, i). auto.
    - auto. }
  subst j. split; auto. destruct A as [A _], B as [B _]. congruence.
Qed.
Lemma dget_table o i : dget text_eqb (table p) o = Some i <-> exists a, owner p o i a.
Proof.
  split.
  - intros E. apply table_in. eapply (dget_in text_eqb text_eqb_eq); eauto.
  - intros (a & A). destruct (dget text_eqb (table p) o) as [j|] eqn:E.
    + apply (dget_in text_eqb text_eqb_eq) in E. apply table_in in E as (b & B). destruct (owner_fun _ _ _ _ _ A B) as [-> _]. auto.
    + exfalso. assert (I : In (o, i) (table p)) by (apply table_in; eauto). apply (dget_none text_eqb text_eqb_eq) in E. apply E. apply in_map_iff. exists (o, i). auto.
Qed.
Lemma dget_table_none o : dget text_eqb (table p) o = None <-> ~ In o (option_strings p).
Proof.
  destruct (dget text_eqb (table p) o) as [i|] eqn:E.
  - apply dget_table in E as (a & A). split; [discriminate|]. intros N. destruct N. apply option_owner. eauto.
  - split; [|auto]. intros _ I. apply option_owner in I as (i & a & A). assert (X : dget text_eqb (table p) o = Some i) by (apply dget_table; eauto). congruence.
Qed.
End Table.

Lemma starts_begins : forall pre s, starts s pre = true <-> begins pre s.
Proof.
  unfold begins. induction pre as [|c pre IH]; intros [|d s]; cbn.
  - split; eauto.
  - split; eauto.
  - split; [discriminate|]. intros (r & E). discriminate.
  - destruct (ascii_dec c d) as [->|N]; cbn.
    + rewrite IH. split; intros (r & E); exists r; congruence.
    + split; [discriminate|]. intros (r & E). congruence.
Qed.
Definition cut (s a : text) (e : option text) : Prop := match e with None => s = a | Some v => s = a ++ equals :: v end.
Lemma cut_once : forall s b f a e, ~ In equals b -> ~ In equals a -> cut s b f -> cut s a e -> b = a /\ f = e.
Proof.
  intros s b f. revert s. induction b as [|y b IH]; intros s a e NB NA F E; unfold cut in *.
  - destruct a as [|z a]; [split; auto; destruct f, e; cbn in *; congruence|]. exfalso. apply NA. left. destruct f, e; cbn in *; congruence.
  - destruct a as [|z a]; [exfalso; apply NB; left; destruct f, e; cbn in *; congruence|]. destruct s as [|w s]; [destruct f; discriminate|].
    assert (y = z) by (destruct f, e; cbn in *; congruence). subst z.
    assert (b = a /\ f = e) as [-> ->]; [|auto].
    apply (IH s); [intros H; apply NB; now right|intros H; apply NA; now right|destruct f; cbn in *; congruence|destruct e; cbn in *; congruence].
Qed.
Lemma split_eq_spec : forall s a e, split_eq s = (a, e) <-> ~ In equals a /\ match e with None => s = a | Some v => s = a ++ equals :: v end.
Proof.
  induction s as [|c s IH]; intros a e; cbn.
  - split.
    + intros E. injection E as <- <-. split; auto.
    + intros [N E]. destruct e; [destruct a; discriminate|]. now subst.
  - destruct (ascii_dec c equals) as [->|N].
    + split.
      * intros E. injection E as <- <-. split; auto.
      * intros [N E]. destruct a as [|x a]; destruct e as [v|]; cbn in E; try discriminate E.
        { injection E as E. now subst. }
        all: exfalso; apply N; left; injection E; congruence.
    + destruct (split_eq s) as [b f] eqn:E. assert (K : (b, f) = (b, f)) by auto. specialize (IH b f). rewrite ?E in IH. destruct IH as [IH _]. destruct (IH eq_refl) as [NB SB]. split.
      * intros X. injection X as <- <-. split; [intros [H|H]; auto|]. destruct f; cbn; congruence.
      * intros [NA X]. destruct a as [|x a].
        -- destruct e; cbn in X; congruence.
        -- assert (x = c) by (destruct e; cbn in X; congruence). subst x.
           assert (Z : ~ In equals a) by (intros Z; apply NA; now right).
           assert (Q : match e with None => s = a | Some v => s = a ++ equals :: v end) by (destruct e; cbn in X; congruence).
           destruct (cut_once s b f a e NB Z SB Q) as [-> ->]. reflexivity.
Qed.

Lemma digit_is c : digit c = true <-> is_digit c.
Proof. unfold digit, is_digit. rewrite andb_true_iff, !Nat.leb_le. tauto. Qed.
Lemma at_end_spec s : at_end s = true <-> s = [] \/ s = [line_end].
Proof.
  destruct s as [|c [|d s]]; cbn [at_end].
  - split; auto.
  - change newline with line_end. destruct (ascii_dec c line_end) as [E|N].
    + split; intros _; [right; now rewrite E|reflexivity].
    + split; [discriminate|]. intros [H|H]; [discriminate|]. congruence.
  - split; [discriminate|]. intros [H|H]; discriminate.
Qed.
Lemma digits_end_spec : forall s, digits_end s = true <-> exists es z, s = es ++ z /\ es <> [] /\ Forall is_digit es /\ (z = [] \/ z = [line_end]).
Proof.
  induction s as [|c s IH]; cbn.
  - split; [discriminate|]. intros (es & z & E & N & _). destruct es; [congruence|discriminate].
  - rewrite andb_true_iff, orb_true_iff, digit_is, at_end_spec, IH. split.
    + intros [D [E|(es & z & -> & N & F & Z)]].
      * exists [c], s. cbn. repeat split; auto; discriminate.
      * exists (c :: es), z. cbn. repeat split; auto; discriminate.
    + intros (es & z & E & N & F & Z). destruct es as [|d es]; [congruence|]. cbn in E. injection E as -> ->. inversion F; subst. split; auto.
      destruct es as [|d' es]; [now left|]. right. exists (d' :: es), z. repeat split; auto; discriminate.
Qed.
Lemma any_digits_end_spec s : any_digits_end s = true <-> exists c es z, s = c :: es ++ z /\ c <> line_end /\ es <> [] /\ Forall is_digit es /\ (z = [] \/ z = [line_end]).
Proof.
  destruct s as [|c s]; cbn [any_digits_end].
  - split; [discriminate|]. intros (c & es & z & E & _). discriminate.
  - rewrite andb_true_iff, digits_end_spec. change newline with line_end. destruct (ascii_dec c line_end) as [E0|N].
    + split; [intros [H _]; discriminate|]. intros (d & es & z & E & N & _). congruence.
    + split.
      * intros [_ (es & z & -> & H)]. exists c, es, z. tauto.
      * intros (d & es & z & E & H). injection E as -> ->. split; auto. exists es, z. tauto.
Qed.
Lemma fraction_spec : forall s, fraction s = true <-> exists ds c es z, s = ds ++ c :: es ++ z /\ Forall is_digit ds /\ c <> line_end /\ es <> [] /\ Forall is_digit es /\ (z = [] \/ z = [line_end]).
Proof.
  induction s as [|c s IH].
  - cbn. split; [discriminate|]. intros (ds & c & es & z & E & _). destruct ds; discriminate.
  - cbn [fraction]. rewrite orb_true_iff, andb_true_iff, any_digits_end_spec, digit_is, IH. split.
    + intros [(d & es & z & E & N & H)|[D (ds & d & es & z & -> & F & H)]].
      * exists [], d, es, z. auto.
      * exists (c :: ds), d, es, z. cbn. auto.
    + intros (ds & d & es & z & E & F & H). destruct ds as [|d' ds]; cbn in E.
      * left. exists d, es, z. tauto.
      * right. injection E as -> ->. inversion F; subst. split; auto. exists ds, d, es, z. tauto.
Qed.
Lemma negative_number_spec s : negative_number s = true <-> number_like s.
Proof.
  destruct s as [|c s].
  - cbn. split; [discriminate|]. inversion 1.
  - cbn [negative_number]. rewrite andb_true_iff, orb_true_iff, is_dash_eq, fraction_spec. split.
    + intros [-> [H|(ds & d & es & z & E & F & N & M & G & Z)]].
      * destruct s as [|d s]; [discriminate|]. apply nl_start. now apply digit_is.
      * rewrite E. apply nl_end; auto.
    + intros H. inversion H as [d s' D E|ds d es z F N M G Z E].
      * split; auto. left. now apply digit_is.
      * split; auto. right. exists ds, d, es, z. auto 10.
Qed.
Lemma contains_spec c s : contains c s = true <-> In c s.
Proof.
  unfold contains. rewrite existsb_exists. split.
  - intros (x & I & E). destruct (ascii_dec c x); congruence.
  - intros I. exists c. split; auto. destruct (ascii_dec c c); congruence.
Qed.
Lemma all_dashes s : forallb is_dash s = true <-> forall c, In c s -> c = dash.
Proof. rewrite forallb_forall. split; intros H c I; specialize (H c I); now apply is_dash_eq. Qed.
Lemma not_all_dashes s : forallb is_dash s = false -> exists c, In c s /\ c <> dash.
Proof.
  intros H. induction s as [|c s IH]; [discriminate|]. cbn in H. destruct (is_dash c) eqn:E.
  - destruct (IH H) as (d & I & N). exists d. split; auto. now right.
  - exists c. split; [now left|]. intros ->. assert (is_dash dash = true) by now apply is_dash_eq. congruence.
Qed.

Section Optional.
Variable p : parser.
Hypothesis P : proper p.
Lemma has_negative_spec : has_negative_number_optionals p = false <-> forall o, In o (option_strings p) -> ~ number_like o.
Proof.
  unfold has_negative_number_optionals. split.
  - intros H o I N. apply negative_number_spec in N. assert (X : existsb negative_number (option_strings p) = true) by (apply existsb_exists; eauto). congruence.
  - intros H. destruct (existsb _ _) eqn:E; auto. apply existsb_exists in E as (o & I & N). apply negative_number_spec in N. exfalso. eapply H; eauto.
Qed.
Lemma tuples_in s i o e : hd blank s = dash -> In (i, o, e) (get_option_tuples p s) <-> (exists a, owner p o i a) /\ reading p s o e.
Proof.
  intros H. unfold get_option_tuples. destruct (second_dash s) eqn:SD.
  - assert (LS : long s) by now apply second_dash_long. destruct (split_eq s) as [pre x] eqn:SE. rewrite in_map_iff.
    pose proof (proj1 (split_eq_spec s pre x) SE) as [NP CP]. split.
    + intros ((o' & i') & E & I). cbn in E. injection E as -> -> ->. apply filter_In in I as [I B]. cbn in B. apply starts_begins in B. apply table_in in I. split; auto.
      assert (In o (option_strings p)) by (apply option_owner; destruct I as (a & I); eauto).
      destruct e as [v|]; [eapply r_long_equals; eauto|]. apply r_long; auto; congruence.
    + intros [A R]. exists (o, i). cbn. assert (B : begins pre o /\ x = e).
      { inversion R as [o' I L N B|o' pre' v I L E N B|o' I L|o' I L]; subst; try contradiction.
        - assert (X : split_eq s = (s, None)) by (apply split_eq_spec; auto). split; congruence.
        - assert (X : split_eq (pre' ++ equals :: v) = (pre', Some v)) by (apply split_eq_spec; auto). split; congruence. }
      destruct B as [B ->]. split; auto. apply filter_In. split; [apply table_in; auto|]. now apply starts_begins.
  - assert (LS : ~ long s) by (intros L; apply second_dash_long in L; auto; congruence). rewrite in_flat_map. split.
    + intros ((o' & i') & I & J). cbn [fst snd] in J. apply table_in in I.
      assert (K : forall i, owner p o' i' i -> In o' (option_strings p)) by (intros a A; apply option_owner; eauto). destruct I as (a & A). specialize (K a A).
      destruct (text_eqb o' (firstn 2 s)) eqn:E.
      * apply text_eqb_eq in E. destruct J as [J|[]]. injection J as <- <- <-. split; eauto. now apply r_short_attached.
      * destruct (starts o' s) eqn:B; [|easy]. destruct J as [J|[]]. injection J as <- <- <-. split; eauto. apply r_short; auto; [|now apply starts_begins].
        intros X. apply text_eqb_eq in X. congruence.
    + intros [A R]. exists (o, i). split; [apply table_in; auto|]. cbn [fst snd]. inversion R as [o' I L N B|o' pre' v I L E N B|o' I L N B|o' I L E]; subst; try contradiction.
      * destruct (text_eqb o (firstn 2 s)) eqn:E; [apply text_eqb_eq in E; contradiction|]. apply starts_begins in B. rewrite B. now left.
      * rewrite text_eqb_refl. now left.
Qed.
Lemma tuples_keys s : NoDup (map (fun t => snd (fst t)) (get_option_tuples p s)).
Proof.
  pose proof (table_nodup p P) as N. unfold get_option_tuples. destruct (second_dash s).
  - destruct (split_eq s) as [pre x]. rewrite map_map. cbn. induction (table p) as [|y t IH]; cbn; [constructor|]. inversion N as [|? ? X Y]; subst.
    destruct (starts (fst y) pre); cbn; auto. constructor; auto. intros I. apply X. apply in_map_iff in I as (z & E & I). apply filter_In in I as [I _]. rewrite <- E. now apply in_map.
  - induction (table p) as [|y t IH]; [constructor|]. inversion N as [|? ? X Y]; subst. specialize (IH Y). cbn [flat_map].
    assert (Z : forall o, In o (map (fun t0 => snd (fst t0)) (flat_map (fun x => if text_eqb (fst x) (firstn 2 s) then [(snd x, fst x, Some (skipn 2 s))] else if starts (fst x) s then [(snd x, fst x, None)] else []) t)) -> In o (map fst t)).
    { intros o I. apply in_map_iff in I as (z & <- & I). apply in_flat_map in I as (w & I & J). apply in_map_iff. exists w. split; auto.
      destruct (text_eqb (fst w) (firstn 2 s)); [destruct J as [<-|[]]; auto|]. destruct (starts (fst w) s); [destruct J as [<-|[]]; auto|easy]. }
    destruct (text_eqb (fst y) (firstn 2 s)); cbn; [constructor; auto|]. destruct (starts (fst y) s); cbn; [constructor; auto|auto].
Qed.
Lemma one_of_nodup X Y (f : X -> Y) (l : list X) : NoDup (map f l) -> forall x, In x l -> (forall y, In y l -> f y = f x) -> l = [x].
Proof.
  intros N x I H. destruct l as [|a [|b l]]; [easy|destruct I as [->|[]]; auto|]. exfalso. cbn in N. inversion N as [|? ? A B]; subst. apply A. left.
  rewrite (H a), (H b); cbn; auto.
Qed.
Lemma option_string_dash o : In o (option_strings p) -> 2 <= length o /\ hd blank o = dash /\ exists c, In c o /\ c <> dash.
Proof. intros I. destruct P as (_ & F & _). rewrite Forall_forall in F. exact (F o I). Qed.
Lemma parse_optional_option s i o e : parse_optional p s = Go (TO (Some i) o e) <-> denotes p s o e /\ exists a, owner p o i a.
Proof.
  destruct s as [|c s'] eqn:S.
  { cbn. split; [discriminate|]. intros [[(I & _)|(_ & H & _)] _]; [apply option_string_dash in I; cbn in I; lia|discriminate]. }
  rewrite <- S. assert (HC : hd blank s = c) by now rewrite S. unfold parse_optional. rewrite S at 1.
  destruct (is_dash c) eqn:DC; cbn [negb].
  2:{ split; [discriminate|]. intros [[(I & _)|(_ & H & _)] _].
      - apply option_string_dash in I as (_ & I & _). rewrite HC in I. apply is_dash_eq in I. congruence.
      - rewrite HC in H. apply is_dash_eq in H. congruence. }
  apply is_dash_eq in DC. rewrite DC in HC. destruct (forallb is_dash s) eqn:AD.
  { rewrite all_dashes in AD. split; [discriminate|]. intros [[(I & _)|(_ & _ & (x & Ix & N) & _)] _].
    - apply option_string_dash in I as (_ & _ & (x & Ix & N)). destruct N. auto.
    - destruct N. auto. }
  apply not_all_dashes in AD. destruct (dget text_eqb (table p) s) as [j|] eqn:DG.
  { apply (dget_table p P) in DG. split.
    - intros E. injection E as <- <- <-. split; auto. left. split; auto. apply option_owner. destruct DG as (a & A). eauto.
    - intros [[(I & -> & ->)|(N & _)] (a & A)].
      + destruct DG as (b & B). destruct (owner_fun p P _ _ _ _ _ A B) as [-> _]. reflexivity.
      + destruct N. apply option_owner. destruct DG as (b & B). eauto. }
  apply (dget_table_none p P) in DG. destruct (get_option_tuples p s) as [|[[j o'] e'] [|y l]] eqn:T.
  - split.
    + destruct (negative_number s && negb _); [discriminate|]. destruct (contains blank s); discriminate.
    + intros [[(I & _)|(_ & _ & _ & R & U)] A]; [contradiction|]. assert (X : In (i, o, e) []) by (rewrite <- T; apply tuples_in; auto). easy.
  - split.
    + intros E. injection E as -> -> ->. assert (X : In (i, o, e) (get_option_tuples p s)) by (rewrite T; now left). apply tuples_in in X as [A R]; auto. split; auto. right. repeat split; auto.
      intros o1 e1 R1. assert (X : exists k, exists a, owner p o1 k a) by (apply option_owner; inversion R1; auto). destruct X as (k & A1).
      assert (X : In (k, o1, e1) (get_option_tuples p s)) by (apply tuples_in; auto). rewrite T in X. destruct X as [X|[]]. congruence.
    + intros [[(I & _)|(_ & _ & _ & R & U)] A]; [contradiction|]. assert (X : In (i, o, e) (get_option_tuples p s)) by (apply tuples_in; auto). rewrite T in X. destruct X as [X|[]]. now injection X as -> -> ->.
  - split; [discriminate|]. intros [[(I & _)|(_ & _ & _ & R & U)] A]; [contradiction|]. exfalso.
    assert (X : get_option_tuples p s = [(i, o, e)]).
    { apply (one_of_nodup _ _ (fun t => snd (fst t))); [apply tuples_keys|apply tuples_in; auto|]. intros [[k o1] e1] I. apply tuples_in in I as [_ R1]; auto. cbn. eauto. }
    congruence.
Qed.
Lemma parse_optional_operand s : s <> two_dashes -> parse_optional p s = Go TA <-> operand p s.
Proof.
  intros TDs. unfold operand. destruct s as [|c s'] eqn:S.
  { cbn. split; [|auto]. intros _. split; auto. left. discriminate. }
  rewrite <- S in *. assert (HC : hd blank s = c) by now rewrite S. unfold parse_optional. rewrite S at 1.
  destruct (is_dash c) eqn:DC; cbn [negb].
  2:{ split; [|auto]. intros _. split; auto. left. rewrite HC. intros H. apply is_dash_eq in H. congruence. }
  apply is_dash_eq in DC. rewrite DC in HC. destruct (forallb is_dash s) eqn:AD.
  { rewrite all_dashes in AD. tauto. }
  pose proof (not_all_dashes _ AD) as ND. assert (NA : ~ forall c, In c s -> c = dash) by (intros H; apply all_dashes in H; congruence). destruct (dget text_eqb (table p) s) as [j|] eqn:DG.
  { split; [discriminate|]. intros (_ & [H|[H|(_ & H & _)]]); try congruence. apply (dget_table_none p P) in H. congruence. }
  apply (dget_table_none p P) in DG. destruct (get_option_tuples p s) as [|[[j o'] e'] l] eqn:T.
  - assert (NR : forall o e, ~ reading p s o e).
    { intros o e R. assert (X : exists k, exists a, owner p o k a) by (apply option_owner; inversion R; auto). destruct X as (k & A). assert (X : In (k, o, e) []) by (rewrite <- T; apply tuples_in; auto). easy. }
    destruct (negative_number s) eqn:NN.
    + apply negative_number_spec in NN. destruct (has_negative_number_optionals p) eqn:HN; cbn [andb negb].
      * assert (Q : ~ forall o, In o (option_strings p) -> ~ number_like o) by (intros H; apply has_negative_spec in H; congruence).
        destruct (contains blank s) eqn:CB.
        -- apply contains_spec in CB. split; auto. intros _. split; auto. right. right. auto.
        -- split; [discriminate|]. intros (_ & [H|[H|(_ & _ & [H|[_ H]])]]); try congruence; try contradiction. apply contains_spec in H. congruence.
      * split; auto. intros _. split; auto. right. right. split; auto. split; auto. right. split; auto. now apply has_negative_spec.
    + cbn [andb]. destruct (contains blank s) eqn:CB.
      * apply contains_spec in CB. split; auto. intros _. split; auto. right. right. auto.
      * split; [discriminate|]. intros (_ & [H|[H|(_ & _ & [H|[H _]])]]); try congruence; try contradiction.
        -- apply contains_spec in H. congruence.
        -- apply negative_number_spec in H. congruence.
  - assert (X : In (j, o', e') (get_option_tuples p s)) by (rewrite T; now left). apply tuples_in in X as [_ R]; auto.
    destruct l; (split; [discriminate|]); intros (_ & [H|[H|(H & _)]]); try congruence; try contradiction; exfalso; eapply H; eauto.
Qed.
Lemma parse_optional_stops s x : parse_optional p s = Stop x -> x = SUsage.
Proof.
  unfold parse_optional. destruct s as [|c s']; [discriminate|]. destruct (negb _); [discriminate|]. destruct (forallb _ _); [discriminate|].
  destruct (dget _ _ _); [discriminate|]. destruct (get_option_tuples _ _) as [|[[i o] e] [|y l]]; try congruence.
  destruct (_ && _); [discriminate|]. destruct (contains _ _); discriminate.
Qed.
Lemma parse_optional_not_dd s : parse_optional p s <> Go TD.
Proof.
  unfold parse_optional. destruct s as [|c s']; [discriminate|]. destruct (negb _); [discriminate|]. destruct (forallb _ _); [discriminate|].
  destruct (dget _ _ _); [discriminate|]. destruct (get_option_tuples _ _) as [|[[i o] e] [|y l]]; try discriminate.
  destruct (_ && _); [discriminate|]. destruct (contains _ _); discriminate.
Qed.
End Optional.
