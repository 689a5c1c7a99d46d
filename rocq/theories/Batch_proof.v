From Coq Require Import String Ascii ZArith Lia List Bool.
From Verif Require Import Py PyLemmas PgcXml_model PgcXml_spec PgcXml_proof Ship_model Ship_spec Ship_proof Batch_model Batch_spec.
Import ListNotations.
Open Scope string_scope.
Open Scope list_scope.

Lemma app_nil_s (s : string) : (s ++ "")%string = s.
Proof. induction s; cbn; congruence. Qed.
Lemma app_assoc_s (a b c : string) : ((a ++ b) ++ c)%string = (a ++ b ++ c)%string.
Proof. induction a; cbn; congruence. Qed.
Lemma no_dot_nil : no_dot "".
Proof. intros [|x a] b; discriminate. Qed.
Lemma no_dot_cons c s : c <> "."%char -> no_dot s -> no_dot (String c s).
Proof. intros C N [|x a] b; cbn; intros [= ? ?]; [subst; now apply C|]. now apply (N a b). Qed.
Lemma last_dot_none s : last_dot s = None -> no_dot s.
Proof.
  induction s as [|c s IH]; intros H; [apply no_dot_nil|]. cbn in H. destruct (last_dot s); [discriminate|].
  destruct (c =? ".")%char eqn:E; [discriminate|]. apply no_dot_cons; [|now apply IH]. intros ->. now rewrite Ascii.eqb_refl in E.
Qed.
Lemma sub0 s : substring 0 (String.length s) s = s.
Proof. induction s; cbn; congruence. Qed.
Lemma last_dot_some s : forall n, last_dot s = Some n -> exists e, s = (substring 0 n s ++ "." ++ e)%string /\ no_dot e.
Proof.
  induction s as [|c s IH]; intros n H; [discriminate|]. cbn in H. destruct (last_dot s) as [m|] eqn:E.
  - injection H as <-. destruct (IH m eq_refl) as (e & Q & N). exists e. split; [|exact N]. cbn [substring append]. f_equal. exact Q.
  - destruct (c =? ".")%char eqn:E2; [|discriminate]. injection H as <-. apply Ascii.eqb_eq in E2. subst c. exists s. split; [|now apply last_dot_none].
    cbn. destruct s; reflexivity.
Qed.
Lemma only_dots_spec s : only_dots s = true <-> dots s.
Proof.
  split.
  - induction s as [|c s IH]; cbn; intros H; [constructor|]. apply andb_true_iff in H as [C D]. apply Ascii.eqb_eq in C. subst c. apply (dots_more (IH D)).
  - induction 1; [reflexivity|exact IHdots].
Qed.
Lemma cut_unique a b : forall c d, no_dot b -> no_dot d -> (a ++ "." ++ b)%string = (c ++ "." ++ d)%string -> a = c /\ b = d.
Proof.
  induction a as [|x a IH]; intros [|y c] d Nb Nd H; cbn in H.
  - injection H as ->. auto.
  - injection H as <- H. exfalso. apply (Nb c d). exact H.
  - injection H as -> H. exfalso. apply (Nd a b). symmetry. exact H.
  - injection H as -> H. destruct (IH c d Nb Nd H) as [-> ->]. auto.
Qed.
Lemma stem_spec name : without_extension name (stem name).
Proof.
  unfold stem. destruct (last_dot name) as [n|] eqn:E.
  - destruct (last_dot_some name n E) as (e & Q & N). cbn zeta. destruct (only_dots _) eqn:D.
    + right. split; [reflexivity|]. intros r ext R Ne. rewrite Q in R. destruct (cut_unique _ _ _ _ N Ne R) as [<- _]. now apply only_dots_spec.
    + left. exists e. split; [exact Q|]. split; [exact N|]. intros H. apply only_dots_spec in H. congruence.
  - right. split; [reflexivity|]. intros r ext R _. exfalso. exact (last_dot_none name E r ext R).
Qed.
Lemma without_fun name a b : without_extension name a -> without_extension name b -> a = b.
Proof.
  intros [(e & Q & N & D)|[-> H]] [(e' & Q' & N' & D')|[-> H']]; try reflexivity.
  - rewrite Q in Q'. now destruct (cut_unique _ _ _ _ N N' Q').
  - exfalso. exact (D (H' _ _ Q N)).
  - exfalso. exact (D' (H _ _ Q' N')).
Qed.
Lemma output_spec here t p : output_of here t p <-> p = outfn here t.
Proof.
  unfold output_of, outfn, base_name. split.
  - intros (r & W & ->). now rewrite (without_fun _ _ _ W (stem_spec _)).
  - intros ->. eexists. split; [apply stem_spec|reflexivity].
Qed.
Lemma zip3_map (js : list (path * path * path)) : zip3 (map (fun j => fst (fst j)) js) (map (fun j => snd (fst j)) js) (map snd js) = js.
Proof. unfold zip3. induction js as [|[[a b] c] js IH]; [reflexivity|]. cbn [map combine fst snd]. now rewrite IH. Qed.
Lemma put_same w p c : file (put w p c) p = Some c.
Proof. cbn. assert (path_eqb p p = true) as -> by (now apply path_eqb_eq). reflexivity. Qed.
Lemma put_other w p c q : q <> p -> file (put w p c) q = file w q.
Proof. intros N. cbn. destruct (path_eqb q p) eqn:Q; [|reflexivity]. apply path_eqb_eq in Q. congruence. Qed.

Section B.
Variable here : path.
Variable make : fs -> path -> path -> path -> res content.
Variable can_write : fs -> path -> bool.
Notation all := (all here make can_write).
Notation one := (one here make can_write).
Notation main := (main here make can_write).
Notation text j := (fst (fst j)).

Lemma main_all w (js : list (path * path * path)) : main w (map (fun j => text j) js) (map (fun j => snd (fst j)) js) (map snd js) = all w js.
Proof. unfold Batch_model.main. rewrite !map_length, Nat.eqb_refl. cbn [negb]. now rewrite zip3_map. Qed.
Lemma all_app js1 : forall w w' js2, all w js1 = (w', Done) -> all w (js1 ++ js2) = all w' js2.
Proof.
  induction js1 as [|j js IH]; intros w w' js2 H; cbn [Batch_model.all app] in *; [now injection H as <-|].
  destruct (one w j) as [w1 [e|]]; [discriminate|]. exact (IH _ _ _ H).
Qed.
Lemma all_stop js : forall w w' e, all w js = (w', Raised e) <->
  exists before j behind, js = before ++ j :: behind /\ all w before = (w', Done) /\ one w' j = (w', Some e).
Proof.
  assert (forall w j w' e, one w j = (w', Some e) -> w' = w) as K.
  { intros w [[t s] g] w' e. unfold Batch_model.one. destruct (make w t s g); [destruct (can_write _ _)|]; congruence. }
  induction js as [|j js IH]; intros w w' e; cbn [Batch_model.all]; split.
  - discriminate.
  - intros ([|? ?] & ? & ? & ? & _); discriminate.
  - destruct (one w j) as [w1 [e1|]] eqn:E.
    + intros [= <- <-]. pose proof (K _ _ _ _ E) as Z. subst w1. exists [], j, js. split; [reflexivity|]. split; [reflexivity|exact E].
    + intros H. apply IH in H as (b & k & r & -> & A & O). exists (j :: b), k, r. cbn [Batch_model.all]. rewrite E. auto.
  - intros ([|j' b] & k & r & Q & A & O).
    + injection Q as -> ->. injection A as <-. now rewrite O.
    + injection Q as -> ->. cbn [Batch_model.all] in A. destruct (one w j') as [w1 [e1|]]; [discriminate|]. apply IH. exists b, k, r. auto.
Qed.
Lemma all_no_exit js : forall w w' m, all w js <> (w', Exit m).
Proof. induction js as [|j js IH]; intros w w' m; cbn; [discriminate|]. destruct (one w j) as [w1 [e|]]; [discriminate|apply IH]. Qed.
Lemma one_keeps w j w' o : one w j = (w', o) -> isdir w' = isdir w /\ forall q, q <> outfn here (text j) -> file w' q = file w q.
Proof.
  destruct j as [[t s] g]. unfold Batch_model.one. cbn [fst snd].
  destruct (make w t s g); [destruct (can_write _ _)|]; intros [= <- <-]; split; auto. intros q N. now apply put_other.
Qed.
Lemma all_keeps js : forall w w' o, all w js = (w', o) -> isdir w' = isdir w /\ forall q, (forall j, In j js -> q <> outfn here (text j)) -> file w' q = file w q.
Proof.
  induction js as [|j js IH]; intros w w' o H; cbn [Batch_model.all] in H; [injection H as <- <-; auto|].
  destruct (one w j) as [w1 [e|]] eqn:E.
  - injection H as <- <-. destruct (one_keeps _ _ _ _ E) as [D K]. split; [exact D|]. intros q N. apply K. apply N. now left.
  - destruct (one_keeps _ _ _ _ E) as [D K]. destruct (IH _ _ _ H) as [D' K']. split; [congruence|]. intros q N. rewrite K' by (intros; apply N; now right). apply K. apply N. now left.
Qed.
Lemma all_snoc js : forall w w' t s g, all w (js ++ [(t, s, g)]) = (w', Done) ->
  exists w1 c, all w js = (w1, Done) /\ make w1 t s g = Ok c /\ w' = put w1 (outfn here t) c.
Proof.
  induction js as [|j js IH]; intros w w' t s g H; cbn [app Batch_model.all] in *.
  - unfold Batch_model.one in H. destruct (make w t s g) as [c|] eqn:M; [|discriminate]. destruct (can_write _ _); [|discriminate]. injection H as <-. exists w, c. auto.
  - destruct (one w j) as [w1 [e|]]; [discriminate|]. exact (IH _ _ _ _ _ H).
Qed.
Lemma all_mid b : forall w w' j r, all w (b ++ j :: r) = (w', Done) -> exists w1, all w b = (w1, Done) /\ all w1 (j :: r) = (w', Done).
Proof.
  induction b as [|x b IH]; intros w w' j r H; [exists w; auto|]. cbn [app] in H. cbn [Batch_model.all] in H |- *.
  destruct (one w x) as [w1 [e|]]; [discriminate|]. exact (IH _ _ _ _ H).
Qed.
Lemma all_value w js w' : all w js = (w', Done) -> forall b t s g r, js = b ++ (t, s, g) :: r -> (forall j, In j r -> outfn here (text j) <> outfn here t) ->
  exists w1 c, all w b = (w1, Done) /\ make w1 t s g = Ok c /\ file w' (outfn here t) = Some c.
Proof.
  intros H b t s g r -> N. destruct (all_mid _ _ _ _ _ H) as (w1 & A & B). cbn [Batch_model.all] in B.
  unfold Batch_model.one in B at 1. destruct (make w1 t s g) as [c|] eqn:M; [|discriminate]. destruct (can_write _ _); [|discriminate].
  exists w1, c. split; [exact A|]. split; [exact M|]. destruct (all_keeps _ _ _ _ B) as [_ K]. rewrite K; [apply put_same|]. intros j J. apply not_eq_sym. now apply N.
Qed.
Lemma all_done js : forall w w0, (forall w' t s g, In (t, s, g) js -> isdir w' = isdir w0 -> (forall q, file w' q <> file w0 q -> exists t', output_of here t' q /\ exists s' g', In (t', s', g') js) ->
    (exists c, make w' t s g = Ok c) /\ can_write w' (outfn here t) = true) ->
  isdir w = isdir w0 -> (forall q, file w q <> file w0 q -> exists t', output_of here t' q /\ exists s' g', In (t', s', g') js) ->
  forall k, incl k js -> exists w', all w k = (w', Done).
Proof.
  intros w w0 H. revert w. intros w D F k. revert w D F. induction k as [|[[t s] g] k IH]; intros w D F I; [exists w; auto|].
  destruct (H w t s g (I _ (or_introl eq_refl)) D F) as [[c M] W]. cbn [Batch_model.all]. unfold Batch_model.one at 1. rewrite M, W.
  apply IH; [exact D| |intros x X; apply I; now right]. intros q N. destruct (path_eqb q (outfn here t)) eqn:Q.
  - apply path_eqb_eq in Q. subst q. exists t. split; [now apply output_spec|]. exists s, g. apply I. now left.
  - apply F. intros Z. apply N. rewrite put_other; [exact Z|]. intros ->. assert (path_eqb (outfn here t) (outfn here t) = true) by (now apply path_eqb_eq). congruence.
Qed.
End B.

(** The options *)
Definition is_t (o : option_given) : bool := match o with T _ => true | _ => false end.
Lemma parse_flags conv more os : forall n n', parse_args conv more n os = Some n' ->
  (with_all n' = true <-> with_all n = true \/ In A os) /\
  (with_empty_nodes n' = true <-> with_empty_nodes n = true \/ In E os) /\
  (with_failed_parses n' = true <-> with_failed_parses n = true \/ In F os) /\
  (legenda n' = true <-> legenda n = true \/ In L os) /\
  (with_punc n' = true <-> with_punc n = true \/ In P os) /\
  (with_unaligned_roots n' = true <-> with_unaligned_roots n = true \/ In R os) /\
  (with_unaligned_graphs n' = true <-> with_unaligned_graphs n = true \/ In U os).
Proof.
  induction os as [|o os IH]; intros n n' H; cbn [parse_args] in H.
  - injection H as <-. cbn [In]. tauto.
  - destruct (take conv more n o) as [n1|] eqn:Q; [|discriminate]. apply IH in H. cbn [In].
    destruct o; cbn [take] in Q; try (destruct more; [|discriminate]); try (destruct (conv value); [|discriminate]); injection Q as <-; cbn [with_all with_empty_nodes with_failed_parses legenda with_punc with_unaligned_roots with_unaligned_graphs] in H;
      intuition (try congruence; try tauto).
Qed.
Lemma parse_none conv more os : forall n, (exists n', parse_args conv more n os = Some n') <->
  (forall v, In (T v) os -> conv v <> None) /\ (more = false -> ~ In R os /\ ~ In U os).
Proof.
  induction os as [|o os IH]; intros n; cbn [parse_args In]; [split; [intros _; split; [tauto|auto]|intros _; now exists n]|].
  assert (forall n1, take conv more n o = Some n1 -> (forall v, o = T v -> conv v <> None) /\ (more = false -> o <> R /\ o <> U)) as K.
  { intros n1 Q. split; [intros v ->; cbn [take] in Q; now destruct (conv v)|]. intros ->. split; intros ->; discriminate Q. }
  destruct (take conv more n o) as [n1|] eqn:Q.
  - specialize (K _ eq_refl) as [K1 K2]. rewrite IH. split.
    + intros [H1 H2]. split; [intros v [->|V]; [now apply K1|now apply H1]|]. intros M. destruct (K2 M), (H2 M). split; intros [Z|Z]; auto.
    + intros [H1 H2]. split; [intros v V; apply H1; now right|]. intros M. destruct (H2 M). split; intros Z; auto.
  - split; [intros [? ?]; discriminate|]. intros [H1 H2]. exfalso. destruct o; cbn [take] in Q; try discriminate.
    + destruct more; [discriminate|]. destruct (H2 eq_refl) as [Z _]. apply Z. now left.
    + destruct more; [discriminate|]. destruct (H2 eq_refl) as [_ Z]. apply Z. now left.
    + destruct (conv value) eqn:V; [discriminate|]. apply (H1 value (or_introl eq_refl) V).
Qed.
Lemma parse_threshold conv more os : forall n n', parse_args conv more n os = Some n' ->
  (Forall (fun o => is_t o = false) os /\ threshold n' = threshold n) \/
  (exists a v b, os = a ++ T v :: b /\ Forall (fun o => is_t o = false) b /\ conv v = Some (threshold n')).
Proof.
  induction os as [|o os IH]; intros n n' H; cbn [parse_args] in H.
  - injection H as <-. left. auto.
  - destruct (take conv more n o) as [n1|] eqn:Q; [|discriminate]. apply IH in H as [[N Z]|(a & v & b & -> & N & Z)].
    2:{ right. exists (o :: a), v, b. auto. }
    destruct (is_t o) eqn:O.
    + destruct o; try discriminate. right. exists [], value, os. split; [reflexivity|]. split; [exact N|]. cbn [take] in Q. destruct (conv value) as [z|]; [|discriminate]. injection Q as <-. now rewrite Z.
    + left. split; [now constructor|]. rewrite Z. destruct o; try discriminate O; cbn [take] in Q; try (destruct more; [|discriminate]); injection Q as <-; reflexivity.
Qed.
