(** What expect_exact() and expect() return. *)
From Coq Require Import Ascii Lia.
From Verif Require Import Py Expect_spec Expect_model Expect_proof.
Open Scope nat_scope.
Open Scope list_scope.

Lemma eof_from_spec : forall ps n i,
  match eof_from n i ps with
  | Some k => (i = Some k /\ ~ In AtEof ps) \/ exists j, k = n + j /\ last_of AtEof ps j
  | None => i = None /\ ~ In AtEof ps
  end.
Proof.
  induction ps as [|p ps IH]; intros n i; cbn [eof_from].
  - destruct i; [left|]; split; auto.
  - assert (St : forall i', eof_from (S n) i' ps = eof_from (S n) i' ps) by reflexivity. clear St.
    assert (Shift : forall j, last_of AtEof ps j -> last_of AtEof (p :: ps) (S j)).
    { intros j [A B]. split; [exact A|]. intros [|k] Hk; [lia|]. specialize (B k Hk). lia. }
    destruct p as [s|r| |].
    1,2,4: specialize (IH (S n) i); destruct (eof_from (S n) i ps) as [k|];
      [destruct IH as [[A B]|(j & -> & L)]; [left; split; [exact A|]; intros [H|H]; [discriminate|contradiction]|right; exists (S j); split; [lia|auto]]
      |destruct IH as [A B]; split; [exact A|]; intros [H|H]; [discriminate|contradiction]].
    specialize (IH (S n) (Some n)). destruct (eof_from (S n) (Some n) ps) as [k|]; [|destruct IH; discriminate].
    destruct IH as [[[= <-] B]|(j & -> & L)]; right.
    + exists 0. split; [lia|]. split; [reflexivity|]. intros [|k] Hk; [lia|]. exfalso. cbn in Hk. apply B. exact (nth_error_In _ _ Hk).
    + exists (S j). split; [lia|auto].
Qed.
Lemma timeout_from_spec : forall ps n i,
  match timeout_from n i ps with
  | Some k => (i = Some k /\ ~ In AtTimeout ps) \/ exists j, k = n + j /\ last_of AtTimeout ps j
  | None => i = None /\ ~ In AtTimeout ps
  end.
Proof.
  induction ps as [|p ps IH]; intros n i; cbn [timeout_from].
  - destruct i; [left|]; split; auto.
  - assert (Shift : forall j, last_of AtTimeout ps j -> last_of AtTimeout (p :: ps) (S j)).
    { intros j [A B]. split; [exact A|]. intros [|k] Hk; [lia|]. specialize (B k Hk). lia. }
    destruct p as [s|r| |].
    1,2,3: specialize (IH (S n) i); destruct (timeout_from (S n) i ps) as [k|];
      [destruct IH as [[A B]|(j & -> & L)]; [left; split; [exact A|]; intros [H|H]; [discriminate|contradiction]|right; exists (S j); split; [lia|auto]]
      |destruct IH as [A B]; split; [exact A|]; intros [H|H]; [discriminate|contradiction]].
    specialize (IH (S n) (Some n)). destruct (timeout_from (S n) (Some n) ps) as [k|]; [|destruct IH; discriminate].
    destruct IH as [[[= <-] B]|(j & -> & L)]; right.
    + exists 0. split; [lia|]. split; [reflexivity|]. intros [|k] Hk; [lia|]. exfalso. cbn in Hk. apply B. exact (nth_error_In _ _ Hk).
    + exists (S j). split; [lia|auto].
Qed.
Lemma finish_seen : forall ps st a o st', finish ps st a = (o, st') -> seen ps st a o st'.
Proof.
  intros ps st a o st' E. destruct a as [i n e b|b|b|b|b]; cbn [finish] in E.
  - injection E as <- <-. cbn. repeat split; auto.
  - assert (H := eof_from_spec ps 0 None). destruct (eof_from 0 None ps) as [k|]; injection E as <- <-; cbn.
    + destruct H as [[[=] _]|(j & -> & L)]. do 5 (split; [reflexivity|]). left. exists (0 + j). auto.
    + destruct H as [_ H]. do 5 (split; [reflexivity|]). right. auto.
  - assert (H := timeout_from_spec ps 0 None). destruct (timeout_from 0 None ps) as [k|]; injection E as <- <-; cbn.
    + destruct H as [[[=] _]|(j & -> & L)]. do 5 (split; [reflexivity|]). left. exists (0 + j). auto.
    + destruct H as [_ H]. do 5 (split; [reflexivity|]). right. auto.
  - injection E as <- <-. cbn. repeat split; auto.
  - injection E as <- <-. cbn. repeat split; auto.
Qed.
Lemma limit_eq : forall tm st, match tm with Some z => if (z =? -1)%Z then timeout st else tm | None => None end = limit tm st.
Proof. intros [z|] st; [|reflexivity]. reflexivity. Qed.
Lemma expect_loop_inv : forall search ps tm sw st now evs o st' t rest,
  expect_loop search ps tm sw st now evs = (o, st', t, rest) ->
  exists a, loop (search ps) (match sw with Some x => x | None => window st end) (deadline tm st now) (buffer st) (length (buffer st)) now evs = (a, t, rest) /\
            finish ps st a = (o, st').
Proof.
  intros search ps tm sw st now evs o st' t rest E. unfold expect_loop in E. rewrite limit_eq in E. cbn zeta in E.
  change (option_map (Z.add now) (limit tm st)) with (deadline tm st now) in E.
  destruct (loop (search ps) _ _ _ _ _ _) as [[a t'] rest'] eqn:L. destruct (finish ps st a) as [o' s'] eqn:F. injection E as <- <- <- <-.
  exists a. auto.
Qed.

(** the specification leaves no choice *)
Lemma matches_fun : forall p b n e e', matches p b n e -> matches p b n e' -> e = e'.
Proof. intros [s|r| |] b n e e' M M'; cbn in *; try contradiction; [lia|congruence]. Qed.
Lemma chosen_unique : forall ps b i n e j m f, chosen ps b i n e -> chosen ps b j m f -> i = j /\ n = m /\ e = f.
Proof.
  intros ps b i n e j m f ((p & Hp & M) & L & C) ((q & Hq & M') & L' & C').
  assert (A := C j q m f Hq M' L'). assert (B := C' i p n e Hp M L).
  assert (i = j) by lia. assert (n = m) by lia. subst. rewrite Hp in Hq. injection Hq as <-. split; [reflexivity|]. split; [reflexivity|].
  exact (matches_fun _ _ _ _ _ M M').
Qed.
Lemma chosen_nothing : forall ps b i n e, chosen ps b i n e -> nothing ps b -> False.
Proof. intros ps b i n e ((p & Hp & M) & L & _) N. specialize (N i p n e Hp M). lia. Qed.
Lemma answers_fun : forall ps dl b t evs a rest, answers ps dl b t evs a rest -> forall a' rest', answers ps dl b t evs a' rest' -> a = a' /\ rest = rest'.
Proof.
  induction 1 as [b t evs i n e C|b t evs N L|b t c u evs a rest N L A IH|b t u evs N L|b t u evs N L|b t u evs N L|b t N L]; intros a' rest' H'; inversion H'; subst;
    try (exfalso; eauto using chosen_nothing; congruence); try (split; reflexivity).
  - match goal with C1 : chosen ps b _ _ _, C2 : chosen ps b _ _ _ |- _ => destruct (chosen_unique _ _ _ _ _ _ _ _ C1 C2) as (-> & -> & ->) end.
    split; reflexivity.
  - eauto.
Qed.

Lemma expect_exact_answers_l : forall ps tm sw st now evs o st' t rest,
  stringy ps -> (match sw with Some x => x | None => window st end) = None ->
  expect_exact ps tm sw st now evs = (o, st', t, rest) ->
  exists a, answers ps (deadline tm st now) (buffer st) now evs a rest /\ seen ps st a o st'.
Proof.
  intros ps tm sw st now evs o st' t rest St W E. destruct (expect_loop_inv _ _ _ _ _ _ _ _ _ _ _ E) as (a & L & F). rewrite W in L.
  exists a. split; [|exact (finish_seen _ _ _ _ _ F)].
  refine (loop_answers ps _ None _ _ _ _ _ _ _ _ _ _ L).
  - exact (search_fresh ps [] (buffer st) St (nothing_nil ps)).
  - intros old c u N _. exact (search_fresh ps old c St N).
Qed.
Lemma expect_answers_l : forall ps tm sw st now evs o st' t rest,
  regexy ps -> (match sw with Some x => x | None => window st end) = None ->
  expect ps tm sw st now evs = (o, st', t, rest) ->
  exists a, answers ps (deadline tm st now) (buffer st) now evs a rest /\ seen ps st a o st'.
Proof.
  intros ps tm sw st now evs o st' t rest St W E. destruct (expect_loop_inv _ _ _ _ _ _ _ _ _ _ _ E) as (a & L & F). rewrite W in L.
  exists a. split; [|exact (finish_seen _ _ _ _ _ F)].
  refine (loop_answers ps _ None _ _ _ _ _ _ _ _ _ _ L).
  - apply search_regexes_correct. exact St.
  - intros old c u N _. apply search_regexes_correct. exact St.
Qed.
Lemma window_answers_l : forall ps tm sw st now evs o st' t rest w,
  stringy ps -> (match sw with Some x => x | None => window st end) = Some w -> length (buffer st) <= w ->
  (forall s c u, In (Str s) ps -> In (Chunk c u) evs -> length s + length c <= w) ->
  expect_exact ps tm sw st now evs = (o, st', t, rest) ->
  exists a, answers ps (deadline tm st now) (buffer st) now evs a rest /\ seen ps st a o st'.
Proof.
  intros ps tm sw st now evs o st' t rest w St W Lb Lc E. destruct (expect_loop_inv _ _ _ _ _ _ _ _ _ _ _ E) as (a & L & F). rewrite W in L.
  exists a. split; [|exact (finish_seen _ _ _ _ _ F)].
  refine (loop_answers ps _ (Some w) _ _ _ _ _ _ _ _ _ _ L).
  - apply search_window_first; assumption.
  - intros old c u N I. apply search_window; [exact St|exact N|]. intros s Hs. exact (Lc s c u Hs I).
Qed.

(** nothing is lost *)
Lemma part_whole : forall (b : text) n e, n <= e -> firstn n b ++ firstn (e - n) (skipn n b) ++ skipn e b = b.
Proof.
  intros b n e L. rewrite <- (firstn_skipn n b) at 4. f_equal. rewrite <- (firstn_skipn (e - n) (skipn n b)) at 2. f_equal.
  clear - L. revert e L b. induction n as [|n IH]; intros e L b; [rewrite Nat.sub_0_r; reflexivity|].
  destruct e as [|e]; [lia|]. destruct b as [|c b]; [rewrite !skipn_nil; reflexivity|]. cbn [skipn Nat.sub]. apply IH. lia.
Qed.
Definition end_of (a : answer) : text := match a with Found _ _ _ b | Ended b | TimedOut b | Failed b | Waiting b => b end.
Lemma loop_reads : forall search w dl evs b fresh now a t rest,
  loop search w dl b fresh now evs = (a, t, rest) ->
  exists cs more, evs = pieces cs ++ more /\ end_of a = b ++ concat (map fst cs) /\
    match a with
    | Found i n e _ => rest = more /\ exists fr, search (end_of a) fr w = Some (i, n, e)
    | Ended _ => rest = more /\ exists u l, more = Eof u :: l
    | TimedOut _ => rest = more \/ exists u, more = NoData u :: rest
    | Failed _ => exists u, more = Failure u :: rest
    | Waiting _ => more = [] /\ rest = []
    end.
Proof.
  intros search w dl. induction evs as [|ev evs IH]; intros b fresh now a t rest E; cbn [loop] in E;
    (destruct (search b fresh w) as [[[i n] e]|] eqn:Q;
      [injection E as <- <- <-; exists []; eexists; split; [reflexivity|]; cbn [map concat end_of]; rewrite app_nil_r; split; [reflexivity|]; split; [reflexivity|]; exists fresh; exact Q|]);
    (destruct (match dl with Some d => (d - now <? 0)%Z | None => false end);
      [injection E as <- <- <-; exists []; eexists; split; [reflexivity|]; cbn [map concat end_of]; rewrite app_nil_r; split; [reflexivity|]; left; reflexivity|]).
  - injection E as <- <- <-. exists [], []. cbn. rewrite app_nil_r. auto.
  - destruct ev as [c u|u|u|u].
    + destruct (IH _ _ _ _ _ _ E) as (cs & more & -> & B & R). exists ((c, u) :: cs), more. split; [reflexivity|]. split; [|exact R].
      rewrite B. cbn. rewrite app_assoc. reflexivity.
    + injection E as <- <- <-. exists [], (Eof u :: evs). cbn. rewrite app_nil_r. eauto 10.
    + injection E as <- <- <-. exists [], (NoData u :: evs). cbn. rewrite app_nil_r. eauto 10.
    + injection E as <- <- <-. exists [], (Failure u :: evs). cbn. rewrite app_nil_r. eauto 10.
Qed.
