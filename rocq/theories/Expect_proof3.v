(** Nothing is lost; the pieces do not matter; reading. *)
From Coq Require Import Ascii Lia.
From Verif Require Import Py Expect_spec Expect_model Expect_proof Expect_proof2.
Open Scope nat_scope.
Open Scope list_scope.

Lemma search_strings_order : forall ps b fr w i n e, search_strings ps b fr w = Some (i, n, e) -> n <= e.
Proof.
  intros ps b fr w i n e E. unfold search_strings in E.
  rewrite (fold_ext _ _ _ (step (string_find b fr w)) _ _ (string_step_eq b fr w)) in E.
  assert (Bs := fold_best _ (string_find b fr w) (length b) _ (strings_increasing ps 0)).
  destruct (fold_left _ _ _) as [m [[j f]|]]; [|discriminate]. unfold is_best in Bs. cbn [fst snd] in Bs.
  destruct Bs as (_ & (s & _ & F) & _). destruct (m =? length b); [discriminate|]. injection E as <- <- <-.
  unfold string_find in F. destruct (find_from _ _ _); [|discriminate]. cbn in F. injection F as <- <-. lia.
Qed.
Lemma search_regexes_order : forall ps b fr w i n e, (forall r, In (Re r) ps -> sane r) -> search_regexes ps b fr w = Some (i, n, e) -> n <= e.
Proof.
  intros ps b fr w i n e Sn E. unfold search_regexes in E.
  rewrite (fold_ext _ _ _ (step (regex_find b w)) _ _ (regex_step_eq b w)) in E.
  assert (Bs := fold_best _ (regex_find b w) (length b) _ (searches_increasing ps 0)).
  destruct (fold_left _ _ _) as [m [[j f]|]]; [|discriminate]. unfold is_best in Bs. cbn [fst snd] in Bs.
  destruct Bs as (_ & (r & Hr & F) & _). destruct (m =? length b); [discriminate|]. injection E as <- <- <-.
  apply searches_In in Hr as (k & _ & Hk). apply nth_error_In in Hk. unfold regex_find in F. destruct (Sn r Hk _ _ _ _ F). lia.
Qed.
Lemma loop_keeps : forall search ps tm sw st now evs o st' t rest,
  (forall b fr i n e, search ps b fr (match sw with Some x => x | None => window st end) = Some (i, n, e) -> n <= e) ->
  expect_loop search ps tm sw st now evs = (o, st', t, rest) -> o <> Waits -> kept_whole st st' evs rest.
Proof.
  intros search ps tm sw st now evs o st' t rest Ord E NW. destruct (expect_loop_inv _ _ _ _ _ _ _ _ _ _ _ E) as (a & L & F).
  destruct (loop_reads _ _ _ _ _ _ _ _ _ _ L) as (cs & more & Ev & En & R). exists cs, more. split; [exact Ev|].
  apply finish_seen in F. destruct F as (_ & _ & F). change (concat (map fst cs)) with (output cs) in En.
  destruct a as [i n e b|b|b|b|b]; cbn [end_of] in En; subst b.
  - destruct R as (-> & fr & Q). split; [left; reflexivity|]. destruct F as (_ & Hb & Hf & Ha & _). rewrite Ha, Hb, Hf. unfold part.
    apply part_whole. exact (Ord _ _ _ _ _ Q).
  - destruct R as (-> & _). split; [left; reflexivity|]. destruct F as (Hb & Hf & Ha & _). rewrite Ha. auto.
  - split; [destruct R as [->|[u ->]]; [left|right; exists u; left]; reflexivity|]. destruct F as (Hb & Hf & Ha & _). rewrite Ha. auto.
  - destruct R as [u ->]. split; [right; exists u; right; reflexivity|]. destruct F as (_ & Hb & Hf & Ha & _). rewrite Ha. auto.
  - congruence.
Qed.

(** output in pieces *)
Lemma arrives_answers : forall ps dl cs u b t a rest, too_late dl t = false -> (forall c v, In (c, v) cs -> too_late dl v = false) ->
  answers ps dl b t (arrives cs u) a rest ->
  exists c1 c2, cs = c1 ++ c2 /\ rest = arrives c2 u /\ end_of a = b ++ output c1 /\
    match a with Found i n e b' => chosen ps b' i n e | Ended b' => c2 = [] /\ nothing ps b' | _ => False end.
Proof.
  intros ps dl. induction cs as [|[c v] cs IH]; intros u b t a rest L P H; cbn in H.
  - inversion H; subst; try congruence.
    + exists [], []. cbn. rewrite app_nil_r. auto.
    + exists [], []. cbn. rewrite app_nil_r. auto.
  - inversion H; subst; try congruence.
    + exists [], ((c, v) :: cs). cbn. rewrite app_nil_r. auto.
    + match goal with A : answers _ _ _ _ _ _ _ |- _ => destruct (IH u _ _ _ _ (P c v (or_introl eq_refl)) (fun c v I => P c v (or_intror I)) A) as (c1 & c2 & -> & -> & En & R) end.
      exists ((c, v) :: c1), c2. split; [reflexivity|]. split; [reflexivity|]. split; [|exact R].
      rewrite En. unfold output. cbn. rewrite app_assoc. reflexivity.
Qed.
Lemma prompt_deadline : forall tm st now cs u, prompt (limit tm st) now (arrives cs u) ->
  too_late (deadline tm st now) now = false /\ forall c v, In (c, v) cs -> too_late (deadline tm st now) v = false.
Proof.
  intros tm st now cs u P. unfold deadline. destruct (limit tm st) as [d|]; [|split; reflexivity]. cbn in *. destruct P as [P0 P].
  split; [apply Z.ltb_ge; lia|]. intros c v I. apply Z.ltb_ge. refine (proj2 (P c v _)). unfold arrives, pieces. apply in_or_app. left.
  exact (in_map (fun x => Chunk (fst x) (snd x)) cs (c, v) I).
Qed.
Lemma occurs_inside : forall s t b n m, occurs s b n -> occurs t b m -> m <= n -> n + length s <= m + length t -> occurs s t (n - m).
Proof.
  intros s t b n m (u & v & E & L) (u' & v' & E' & L') A B.
  assert (Q : skipn m b = t ++ v') by (rewrite E', <- L', skipn_app, skipn_all, Nat.sub_diag; reflexivity).
  assert (Q2 : skipn m b = skipn m u ++ s ++ v).
  { rewrite E, skipn_app. replace (m - length u) with 0 by lia. reflexivity. }
  assert (O : occurs s (t ++ v') (n - m)). { exists (skipn m u), v. rewrite <- Q, <- Q2. split; [reflexivity|]. rewrite skipn_length. lia. }
  apply (occurs_prefix s t v'); [exact O|lia].
Qed.
Lemma chosen_app : forall ps b x i n e, stringy ps -> apart ps -> chosen ps b i n e -> chosen ps (b ++ x) i n e.
Proof.
  intros ps b x i n e St Ap ((p & Hp & M) & L & C).
  destruct p as [s|r| |]; cbn in M; try contradiction; [|exfalso; apply (St r); exact (nth_error_In _ _ Hp)].
  destruct M as [O ->]. split; [exists (Str s); split; [exact Hp|]; split; [apply occurs_app; exact O|reflexivity]|].
  split; [rewrite app_length; lia|].
  intros j q m f Hq Mq Lm. destruct q as [s'|r| |]; cbn in Mq; try contradiction; [|exfalso; apply (St r); exact (nth_error_In _ _ Hq)].
  destruct Mq as [O' ->]. destruct (Nat.le_gt_cases (m + length s') (length b)) as [Q|Q].
  - assert (O2 := occurs_prefix _ _ _ _ O' Q). destruct (Nat.lt_ge_cases m (length b)) as [Q'|Q'].
    + exact (C j (Str s') m _ Hq (conj O2 eq_refl) Q').
    + left. lia.
  - destruct (Nat.lt_ge_cases n m) as [Q'|Q']; [left; exact Q'|]. exfalso.
    assert (Os := occurs_length _ _ _ O).
    assert (In1 : occurs s s' (n - m)). { apply (occurs_inside s s' (b ++ x)); [apply occurs_app; exact O|exact O'|exact Q'|lia]. }
    assert (s = s') by exact (Ap s s' _ (nth_error_In _ _ Hp) (nth_error_In _ _ Hq) In1). subst s'. lia.
Qed.
Lemma data_arrives : forall cs u, data (arrives cs u) = output cs.
Proof. induction cs as [|[c v] cs IH]; intros u; [reflexivity|]. unfold output, arrives in *. cbn. rewrite IH. reflexivity. Qed.
Lemma output_app : forall c1 c2, output (c1 ++ c2) = output c1 ++ output c2.
Proof. intros. unfold output. rewrite map_app. apply concat_app. Qed.
Lemma skipn_app_le : forall (b x : text) e, e <= length b -> skipn e (b ++ x) = skipn e b ++ x.
Proof. intros b x e L. rewrite skipn_app. replace (e - length b) with 0 by lia. reflexivity. Qed.
Lemma firstn_app_le : forall (b x : text) e, e <= length b -> firstn e (b ++ x) = firstn e b.
Proof. intros b x e L. rewrite firstn_app. replace (e - length b) with 0 by lia. rewrite firstn_O. apply app_nil_r. Qed.
Lemma part_app_le : forall b x n e, n <= e -> e <= length b -> part (b ++ x) n e = part b n e.
Proof.
  intros b x n e A L. unfold part. rewrite skipn_app_le by lia. apply firstn_app_le. rewrite skipn_length. lia.
Qed.

Lemma answers_whole : forall ps tm st now cs u a rest o st',
  stringy ps -> apart ps -> prompt (limit tm st) now (arrives cs u) ->
  answers ps (deadline tm st now) (buffer st) now (arrives cs u) a rest -> seen ps st a o st' ->
  whole_answer ps st (buffer st ++ output cs) o st' rest.
Proof.
  intros ps tm st now cs u a rest o st' St Ap P H Sn. destruct (prompt_deadline _ _ _ _ _ P) as [D1 D2].
  destruct (arrives_answers _ _ _ _ _ _ _ _ D1 D2 H) as (c1 & c2 & -> & -> & En & R). rewrite output_app, app_assoc, <- En.
  destruct a as [i n e b|b|b|b|b]; cbn [end_of] in *; try contradiction.
  - left. exists i, n, e. assert (Ch := chosen_app ps b (output c2) i n e St Ap R).
    assert (Le : n <= e /\ e <= length b).
    { destruct R as ((p & Hp & M) & _). destruct p as [s|r| |]; cbn in M; try contradiction; [|exfalso; apply (St r); exact (nth_error_In _ _ Hp)].
      destruct M as [O ->]. apply occurs_length in O. lia. }
    destruct Sn as (_ & _ & Ho & Hb & Hf & Ha & Hm & Hi).
    split; [exact Ch|]. split; [exact Ho|]. rewrite firstn_app_le, part_app_le, skipn_app_le by lia.
    unfold to_come. rewrite data_arrives, Hb. auto.
  - right. destruct R as [-> N]. cbn [output map concat]. unfold output. cbn [map concat]. rewrite app_nil_r. split; [exact N|]. split; [exact Sn|]. reflexivity.
Qed.
Lemma whole_answer_unique : forall ps st all o1 s1 r1 o2 s2 r2, whole_answer ps st all o1 s1 r1 -> whole_answer ps st all o2 s2 r2 ->
  o1 = o2 /\ before s1 = before s2 /\ after s1 = after s2 /\ matched s1 = matched s2 /\ match_index s1 = match_index s2 /\ to_come s1 r1 = to_come s2 r2.
Proof.
  intros ps st all o1 s1 r1 o2 s2 r2 [(i & n & e & C & H)|(N & H & D)] [(i' & n' & e' & C' & H')|(N' & H' & D')];
    try (exfalso; eauto using chosen_nothing; fail).
  - destruct (chosen_unique _ _ _ _ _ _ _ _ C C') as (<- & <- & <-). intuition congruence.
  - destruct H as (_ & _ & Hb & Hf & Ha & H). destruct H' as (_ & _ & Hb' & Hf' & Ha' & H').
    assert (To : to_come s1 r1 = to_come s2 r2) by (unfold to_come; rewrite Hb, Hb', D, D'; reflexivity).
    destruct H as [(i & L & Ho & Hm & Hi)|(Ni & Ho & Hm & Hi)], H' as [(i' & L' & Ho' & Hm' & Hi')|(Ni' & Ho' & Hm' & Hi')].
    + assert (i = i') by (destruct L as [A B], L' as [A' B']; specialize (B _ A'); specialize (B' _ A); lia). intuition congruence.
    + destruct L as [A _]. apply nth_error_In in A. contradiction.
    + destruct L' as [A _]. apply nth_error_In in A. contradiction.
    + intuition congruence.
Qed.
