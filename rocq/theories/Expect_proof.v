(** Finding strings, and the first of several. *)
From Coq Require Import Ascii Lia.
From Verif Require Import Py Expect_spec Expect_model.
Open Scope nat_scope.
Open Scope list_scope.

Lemma starts_spec : forall s b, starts b s = true <-> exists v, b = s ++ v.
Proof.
  induction s as [|c s IH]; intros b; cbn [starts].
  - split; [intros _; exists b; reflexivity|destruct b; reflexivity].
  - destruct b as [|d b]; [split; [discriminate|intros [v E]; discriminate]|].
    destruct (ascii_dec c d) as [->|N]; cbn [andb].
    + rewrite IH. split; intros [v E]; exists v; [rewrite E; reflexivity|injection E; auto].
    + split; [discriminate|]. intros [v E]. injection E. intros. congruence.
Qed.
Lemma occurs_0 : forall s b, occurs s b 0 <-> starts b s = true.
Proof.
  intros s b. rewrite starts_spec. split.
  - intros (u & v & E & L). destruct u; [|discriminate]. exists v. exact E.
  - intros (v & E). exists [], v. auto.
Qed.
Lemma occurs_S : forall s c b n, occurs s (c :: b) (S n) <-> occurs s b n.
Proof.
  intros s c b n. split.
  - intros (u & v & E & L). destruct u as [|d u]; [discriminate|]. injection E. intros E' _. exists u, v. cbn in L. split; [exact E'|lia].
  - intros (u & v & -> & L). exists (c :: u), v. cbn. split; [reflexivity|lia].
Qed.
Lemma occurs_length : forall s b n, occurs s b n -> n + length s <= length b.
Proof. intros s b n (u & v & -> & <-). rewrite !app_length. lia. Qed.
Lemma find_Some : forall b s n, find b s = Some n -> occurs s b n /\ forall m, occurs s b m -> n <= m.
Proof.
  induction b as [|c b IH]; intros s n E; cbn [find] in E.
  - destruct (starts [] s) eqn:Q; [|discriminate]. injection E as <-. split; [apply occurs_0; exact Q|lia].
  - destruct (starts (c :: b) s) eqn:Q; [injection E as <-; split; [apply occurs_0; exact Q|lia]|].
    destruct (find b s) as [k|] eqn:F; cbn in E; [|discriminate]. injection E as <-. destruct (IH s k F) as [A B].
    split; [apply occurs_S; exact A|]. intros [|m] O; [apply occurs_0 in O; congruence|]. rewrite occurs_S in O. specialize (B m O). lia.
Qed.
Lemma find_None : forall b s, find b s = None -> forall n, ~ occurs s b n.
Proof.
  induction b as [|c b IH]; intros s E n O; cbn [find] in E.
  - destruct (starts [] s) eqn:Q; [discriminate|]. destruct n as [|n]; [apply occurs_0 in O; congruence|].
    apply occurs_length in O. cbn in O. lia.
  - destruct (starts (c :: b) s) eqn:Q; [discriminate|]. destruct (find b s) eqn:F; [discriminate|].
    destruct n as [|n]; [apply occurs_0 in O; congruence|]. rewrite occurs_S in O. exact (IH s F n O).
Qed.
Lemma occurs_skipn : forall k b s n, k <= length b -> occurs s (skipn k b) n <-> occurs s b (k + n).
Proof.
  induction k as [|k IH]; intros b s n L; [reflexivity|].
  destruct b as [|c b]; [cbn in L; lia|]. cbn [skipn Nat.add]. rewrite occurs_S. apply IH. cbn in L. lia.
Qed.
Definition beginning (b : text) (offset : Z) : nat :=
  if (offset <? 0)%Z then Z.to_nat (Z.max 0 (Z.of_nat (length b) + offset)) else Z.to_nat offset.
Lemma find_from_Some : forall b s off n, find_from b s off = Some n ->
  beginning b off <= n /\ occurs s b n /\ forall m, beginning b off <= m -> occurs s b m -> n <= m.
Proof.
  intros b s off n E. unfold find_from in E. fold (beginning b off) in E. cbn zeta in E.
  destruct (Nat.leb_spec (beginning b off) (length b)) as [L|L]; [|discriminate].
  destruct (find (skipn (beginning b off) b) s) as [k|] eqn:F; cbn in E; [|discriminate]. injection E as <-.
  destruct (find_Some _ _ _ F) as [A B]. apply occurs_skipn in A; [|exact L]. split; [lia|]. split; [exact A|].
  intros m Lm O. replace m with (beginning b off + (m - beginning b off)) in O by lia. rewrite <- occurs_skipn in O by exact L.
  specialize (B _ O). lia.
Qed.
Lemma find_from_None : forall b s off, find_from b s off = None -> forall m, beginning b off <= m -> ~ occurs s b m.
Proof.
  intros b s off E m Lm O. unfold find_from in E. fold (beginning b off) in E. cbn zeta in E.
  destruct (Nat.leb_spec (beginning b off) (length b)) as [L|L].
  - destruct (find (skipn (beginning b off) b) s) as [k|] eqn:F; cbn in E; [discriminate|].
    replace m with (beginning b off + (m - beginning b off)) in O by lia. rewrite <- occurs_skipn in O by exact L. exact (find_None _ _ F _ O).
  - apply occurs_length in O. lia.
Qed.

(** the first of several *)
Section Best.
  Variable X : Type.
  Variable f : X -> option (nat * nat).
  Definition step (acc : nat * option (nat * nat)) (x : nat * X) : nat * option (nat * nat) :=
    match f (snd x) with Some (n, e) => if n <? fst acc then (n, Some (fst x, e)) else acc | None => acc end.
  Definition is_best (L : nat) (xs : list (nat * X)) (r : nat * option (nat * nat)) : Prop :=
    match snd r with
    | None => fst r = L /\ forall j y m e, In (j, y) xs -> f y = Some (m, e) -> L <= m
    | Some (i, e) => fst r < L /\ (exists x, In (i, x) xs /\ f x = Some (fst r, e)) /\
                     forall j y m e', In (j, y) xs -> f y = Some (m, e') -> fst r < m \/ fst r = m /\ i <= j
    end.
  Definition increasing (xs : list (nat * X)) : Prop := forall u x v, xs = u ++ x :: v -> forall y, In y u -> fst y < fst x.
  Lemma fold_best : forall L xs, increasing xs -> is_best L xs (fold_left step xs (L, None)).
  Proof.
    intros L xs. induction xs as [|[j y] xs IH] using rev_ind; intros I.
    - cbn. split; [reflexivity|]. intros ? ? ? ? [].
    - rewrite fold_left_app. cbn [fold_left].
      assert (I' : increasing xs). { intros u x v E. apply (I u x (v ++ [(j, y)])). rewrite E, <- app_assoc. reflexivity. }
      specialize (IH I'). destruct (fold_left step xs (L, None)) as [n o]. unfold step at 1. cbn [fst snd].
      assert (Low : forall k z, In (k, z) xs -> k < j). { intros k z Hk. exact (I xs (j, y) [] eq_refl (k, z) Hk). }
      destruct (f y) as [[m e]|] eqn:F.
      + destruct (Nat.ltb_spec m n) as [Lt|Ge].
        * unfold is_best in *. cbn [fst snd] in *. destruct o as [[i e0]|].
          -- destruct IH as (A & (x & Hx & Ex) & C). split; [lia|]. split; [exists y; split; [apply in_or_app; right; left; reflexivity|exact F]|].
             intros k z q e' Hk Fk. apply in_app_or in Hk as [Hk|[[= <- <-]|[]]].
             ++ destruct (C k z q e' Hk Fk); lia.
             ++ rewrite F in Fk. injection Fk as -> ->. right. lia.
          -- destruct IH as (-> & C). split; [exact Lt|]. split; [exists y; split; [apply in_or_app; right; left; reflexivity|exact F]|].
             intros k z q e' Hk Fk. apply in_app_or in Hk as [Hk|[[= <- <-]|[]]].
             ++ specialize (C k z q e' Hk Fk). lia.
             ++ rewrite F in Fk. injection Fk as -> ->. right. lia.
        * unfold is_best in *. cbn [fst snd] in *. destruct o as [[i e0]|].
          -- destruct IH as (A & (x & Hx & Ex) & C). split; [exact A|]. split; [exists x; split; [apply in_or_app; left; exact Hx|exact Ex]|].
             intros k z q e' Hk Fk. apply in_app_or in Hk as [Hk|[[= <- <-]|[]]]; [exact (C k z q e' Hk Fk)|].
             rewrite F in Fk. injection Fk as -> ->. specialize (Low i x Hx). lia.
          -- destruct IH as (-> & C). split; [reflexivity|].
             intros k z q e' Hk Fk. apply in_app_or in Hk as [Hk|[[= <- <-]|[]]]; [exact (C k z q e' Hk Fk)|].
             rewrite F in Fk. injection Fk as -> ->. exact Ge.
      + unfold is_best in *. cbn [fst snd] in *. destruct o as [[i e0]|].
        * destruct IH as (A & (x & Hx & Ex) & C). split; [exact A|]. split; [exists x; split; [apply in_or_app; left; exact Hx|exact Ex]|].
          intros k z q e' Hk Fk. apply in_app_or in Hk as [Hk|[[= <- <-]|[]]]; [exact (C k z q e' Hk Fk)|congruence].
        * destruct IH as (-> & C). split; [reflexivity|].
          intros k z q e' Hk Fk. apply in_app_or in Hk as [Hk|[[= <- <-]|[]]]; [exact (C k z q e' Hk Fk)|congruence].
  Qed.
  Lemma increasing_cons : forall i x xs, increasing xs -> (forall j y, In (j, y) xs -> i < j) -> increasing ((i, x) :: xs).
  Proof.
    intros i x xs I Low u z v E y Hy. destruct u as [|a u]; [destruct Hy|]. cbn in E. injection E as <- E.
    destruct Hy as [<-|Hy]; [|exact (I u z v E y Hy)]. destruct z as [j z]. cbn. apply (Low j z). rewrite E. apply in_or_app. right. left. reflexivity.
  Qed.
End Best.
Arguments step {X} f acc x.
Arguments increasing {X} xs.

Lemma strings_In : forall ps k i s, In (i, s) (strings_from k ps) <-> exists i', i = k + i' /\ nth_error ps i' = Some (Str s).
Proof.
  induction ps as [|p ps IH]; intros k i s; cbn [strings_from].
  - split; [intros []|]. intros (i' & _ & E). destruct i'; discriminate.
  - assert (H : In (i, s) (strings_from (S k) ps) <-> exists i', i = k + S i' /\ nth_error ps i' = Some (Str s)).
    { rewrite IH. split; intros (i' & A & B); exists i'; split; auto; lia. }
    destruct p; cbn [In]; rewrite H; split.
    + intros [[= <- <-]|(i' & A & B)]; [exists 0; split; [lia|reflexivity]|exists (S i'); auto].
    + intros ([|i'] & A & B); [left; cbn in B; injection B as <-; f_equal; lia|right; exists i'; auto].
    + intros (i' & A & B). exists (S i'). auto.
    + intros ([|i'] & A & B); [discriminate|exists i'; auto].
    + intros (i' & A & B). exists (S i'). auto.
    + intros ([|i'] & A & B); [discriminate|exists i'; auto].
    + intros (i' & A & B). exists (S i'). auto.
    + intros ([|i'] & A & B); [discriminate|exists i'; auto].
Qed.
Lemma searches_In : forall ps k i r, In (i, r) (searches_from k ps) <-> exists i', i = k + i' /\ nth_error ps i' = Some (Re r).
Proof.
  induction ps as [|p ps IH]; intros k i r; cbn [searches_from].
  - split; [intros []|]. intros (i' & _ & E). destruct i'; discriminate.
  - assert (H : In (i, r) (searches_from (S k) ps) <-> exists i', i = k + S i' /\ nth_error ps i' = Some (Re r)).
    { rewrite IH. split; intros (i' & A & B); exists i'; split; auto; lia. }
    destruct p; cbn [In]; rewrite H; split.
    + intros (i' & A & B). exists (S i'). auto.
    + intros ([|i'] & A & B); [discriminate|exists i'; auto].
    + intros [[= <- <-]|(i' & A & B)]; [exists 0; split; [lia|reflexivity]|exists (S i'); auto].
    + intros ([|i'] & A & B); [left; cbn in B; injection B as <-; f_equal; lia|right; exists i'; auto].
    + intros (i' & A & B). exists (S i'). auto.
    + intros ([|i'] & A & B); [discriminate|exists i'; auto].
    + intros (i' & A & B). exists (S i'). auto.
    + intros ([|i'] & A & B); [discriminate|exists i'; auto].
Qed.
Lemma strings_increasing : forall ps k, increasing (strings_from k ps).
Proof.
  induction ps as [|p ps IH]; intros k.
  - intros u x v E. destruct u; discriminate.
  - destruct p; cbn [strings_from]; try apply IH. apply increasing_cons; [apply IH|]. intros j y Hj. apply strings_In in Hj as (i' & -> & _). lia.
Qed.
Lemma searches_increasing : forall ps k, increasing (searches_from k ps).
Proof.
  induction ps as [|p ps IH]; intros k.
  - intros u x v E. destruct u; discriminate.
  - destruct p; cbn [searches_from]; try apply IH. apply increasing_cons; [apply IH|]. intros j y Hj. apply searches_In in Hj as (i' & -> & _). lia.
Qed.

(** what a search returns *)
Definition correct (ps : list pattern) (r : option (nat * nat * nat)) (b : text) : Prop :=
  match r with Some (i, n, e) => chosen ps b i n e | None => nothing ps b end.
Definition string_find (b : text) (fresh : nat) (w : option nat) (s : text) : option (nat * nat) :=
  option_map (fun n => (n, n + length s))
    (find_from b s (match w with None => (- Z.of_nat (fresh + length s))%Z | Some k => (- Z.of_nat k)%Z end)).
Lemma string_step_eq : forall b fresh w acc x, string_step b fresh w acc x = step (string_find b fresh w) acc x.
Proof. intros b fresh w acc [i s]. unfold string_step, step, string_find. cbn [fst snd]. destruct (find_from _ _ _); reflexivity. Qed.
Definition regex_find (b : text) (w : option nat) (r : regex) : option (nat * nat) := r b (match w with None => 0 | Some k => length b - k end).
Lemma regex_step_eq : forall b w acc x, regex_step b w acc x = step (regex_find b w) acc x.
Proof. intros b w acc [i r]. unfold regex_step, step, regex_find. cbn [fst snd]. destruct (r b _) as [[n e]|]; reflexivity. Qed.
Lemma fold_ext : forall A B (f g : A -> B -> A) l a, (forall a b, f a b = g a b) -> fold_left f l a = fold_left g l a.
Proof. induction l as [|x l IH]; intros a H; [reflexivity|]. cbn. rewrite H. apply IH. exact H. Qed.

Lemma search_strings_correct : forall ps b fresh w, stringy ps ->
  (forall s m, In (Str s) ps -> occurs s b m -> m < length b ->
     exists n, string_find b fresh w s = Some (n, n + length s) /\ n <= m) ->
  correct ps (search_strings ps b fresh w) b.
Proof.
  intros ps b fresh w St H. unfold search_strings.
  rewrite (fold_ext _ _ _ (step (string_find b fresh w)) _ _ (string_step_eq b fresh w)).
  assert (Bs := fold_best _ (string_find b fresh w) (length b) _ (strings_increasing ps 0)).
  destruct (fold_left (step (string_find b fresh w)) (strings_from 0 ps) (length b, None)) as [n [[i e]|]]; unfold is_best in Bs; cbn [fst snd] in Bs.
  - destruct Bs as (L & (s & Hs & Fs) & C). destruct (Nat.eqb_spec n (length b)) as [Q|_]; [lia|]. cbn.
    apply strings_In in Hs as (i' & -> & Hi). cbn [Nat.add] in *.
    unfold string_find in Fs. destruct (find_from b s _) as [k|] eqn:F; cbn in Fs; [|discriminate]. injection Fs as -> <-.
    destruct (find_from_Some _ _ _ _ F) as (_ & O & _).
    split; [exists (Str s); split; [exact Hi|]; split; [exact O|reflexivity]|]. split; [exact L|].
    intros j q m f Hj Mq Lm. destruct q as [s2|r| |]; cbn in Mq; try contradiction.
    + destruct Mq as [Om ->]. destruct (H s2 m (nth_error_In _ _ Hj) Om Lm) as (m' & F' & Lm').
      assert (Hj' : In (j, s2) (strings_from 0 ps)) by (apply strings_In; exists j; auto).
      destruct (C j s2 m' _ Hj' F') as [A|[A B]]; lia.
    + exfalso. apply (St r). exact (nth_error_In _ _ Hj).
  - destruct Bs as (-> & C). cbn. intros j q m f Hj Mq. destruct q as [s2|r| |]; cbn in Mq; try contradiction.
    + destruct Mq as [Om ->]. destruct (Nat.le_gt_cases (length b) m) as [Q|Q]; [exact Q|].
      destruct (H s2 m (nth_error_In _ _ Hj) Om Q) as (m' & F' & Lm').
      assert (Hj' : In (j, s2) (strings_from 0 ps)) by (apply strings_In; exists j; auto). specialize (C j s2 m' _ Hj' F'). lia.
    + exfalso. apply (St r). exact (nth_error_In _ _ Hj).
Qed.
Lemma search_regexes_correct : forall ps b fresh, regexy ps -> correct ps (search_regexes ps b fresh None) b.
Proof.
  intros ps b fresh St. unfold search_regexes.
  rewrite (fold_ext _ _ _ (step (regex_find b None)) _ _ (regex_step_eq b None)).
  assert (Bs := fold_best _ (regex_find b None) (length b) _ (searches_increasing ps 0)).
  destruct (fold_left (step (regex_find b None)) (searches_from 0 ps) (length b, None)) as [n [[i e]|]]; unfold is_best in Bs; cbn [fst snd] in Bs.
  - destruct Bs as (L & (s & Hs & Fs) & C). destruct (Nat.eqb_spec n (length b)) as [Q|_]; [lia|]. cbn.
    apply searches_In in Hs as (i' & -> & Hi). cbn [Nat.add] in *.
    split; [exists (Re s); split; [exact Hi|exact Fs]|]. split; [exact L|].
    intros j q m f Hj Mq Lm. destruct q as [s2|r| |]; cbn in Mq; try contradiction.
    + exfalso. apply (St s2). exact (nth_error_In _ _ Hj).
    + assert (Hj' : In (j, r) (searches_from 0 ps)) by (apply searches_In; exists j; auto). exact (C j r m f Hj' Mq).
  - destruct Bs as (-> & C). cbn. intros j q m f Hj Mq. destruct q as [s2|r| |]; cbn in Mq; try contradiction.
    + exfalso. apply (St s2). exact (nth_error_In _ _ Hj).
    + assert (Hj' : In (j, r) (searches_from 0 ps)) by (apply searches_In; exists j; auto). exact (C j r m f Hj' Mq).
Qed.

(** searching again only what is new *)
Lemma occurs_prefix : forall s b c n, occurs s (b ++ c) n -> n + length s <= length b -> occurs s b n.
Proof.
  intros s b c n (u & v & E & L) H. exists u, (skipn (length (u ++ s)) b). split; [|exact L].
  assert (E' : firstn (length (u ++ s)) b = u ++ s).
  { transitivity (firstn (length (u ++ s)) (b ++ c)).
    - rewrite firstn_app. replace (length (u ++ s) - length b) with 0 by (rewrite app_length; lia). rewrite firstn_O, app_nil_r. reflexivity.
    - rewrite E, app_assoc, firstn_app, Nat.sub_diag, firstn_O, app_nil_r, firstn_all. reflexivity. }
  rewrite app_assoc, <- E'. rewrite E'. rewrite <- E' at 1. symmetry. apply firstn_skipn.
Qed.
Lemma occurs_app : forall s b c n, occurs s b n -> occurs s (b ++ c) n.
Proof. intros s b c n (u & v & -> & L). exists u, (v ++ c). rewrite <- !app_assoc. auto. Qed.
Lemma found_from : forall b s off, (forall m, occurs s b m -> m < length b -> beginning b off <= m) ->
  forall m, occurs s b m -> m < length b -> exists n, option_map (fun n => (n, n + length s)) (find_from b s off) = Some (n, n + length s) /\ n <= m.
Proof.
  intros b s off H m O L. destruct (find_from b s off) as [n|] eqn:F.
  - exists n. split; [reflexivity|]. destruct (find_from_Some _ _ _ _ F) as (_ & _ & C). apply C; auto.
  - exfalso. exact (find_from_None _ _ _ F m (H m O L) O).
Qed.
Lemma search_fresh : forall ps old c, stringy ps -> nothing ps old ->
  correct ps (search_strings ps (old ++ c) (length c) None) (old ++ c).
Proof.
  intros ps old c St N. apply search_strings_correct; [exact St|]. intros s m0 Hs O0 L0. unfold string_find. apply found_from with (m := m0); [|exact O0|exact L0].
  intros m O L. unfold beginning. rewrite app_length in *. destruct (Z.ltb_spec (- Z.of_nat (length c + length s)) 0) as [_|Q]; [|lia].
  destruct (Nat.le_gt_cases (length old - length s) m) as [Q|Q]; [lia|].
  exfalso. apply In_nth_error in Hs as [j Hj]. specialize (N j (Str s) m (m + length s) Hj).
  assert (length old <= m) by (apply N; split; [apply (occurs_prefix s old c); [exact O|lia]|reflexivity]). lia.
Qed.
Lemma search_window : forall ps old c w, stringy ps -> nothing ps old -> (forall s, In (Str s) ps -> length s + length c <= w) ->
  correct ps (search_strings ps (old ++ c) (length c) (Some w)) (old ++ c).
Proof.
  intros ps old c w St N W. apply search_strings_correct; [exact St|]. intros s m0 Hs O0 L0. unfold string_find. apply found_from with (m := m0); [|exact O0|exact L0].
  intros m O L. specialize (W s Hs). unfold beginning. rewrite app_length in *. destruct (Z.ltb_spec (- Z.of_nat w) 0) as [_|Q]; [|lia].
  destruct (Nat.le_gt_cases (length old + length c - w) m) as [Q|Q]; [lia|].
  exfalso. apply In_nth_error in Hs as [j Hj]. specialize (N j (Str s) m (m + length s) Hj).
  assert (length old <= m) by (apply N; split; [apply (occurs_prefix s old c); [exact O|lia]|reflexivity]). lia.
Qed.
Lemma search_window_first : forall ps b w, stringy ps -> length b <= w -> correct ps (search_strings ps b (length b) (Some w)) b.
Proof.
  intros ps b w St W. apply search_strings_correct; [exact St|]. intros s m0 Hs O0 L0. unfold string_find. apply found_from with (m := m0); [|exact O0|exact L0].
  intros m O L. unfold beginning. destruct (Z.ltb_spec (- Z.of_nat w) 0) as [_|Q]; lia.
Qed.
Lemma nothing_nil : forall ps, nothing ps [].
Proof. intros ps j q m f _ _. apply Nat.le_0_l. Qed.

(** the loop *)
Lemma loop_answers : forall ps search w dl evs b fresh now a t rest,
  correct ps (search b fresh w) b ->
  (forall old c u, nothing ps old -> In (Chunk c u) evs -> correct ps (search (old ++ c) (length c) w) (old ++ c)) ->
  loop search w dl b fresh now evs = (a, t, rest) -> answers ps dl b now evs a rest.
Proof.
  intros ps search w dl. induction evs as [|ev evs IH]; intros b fresh now a t rest C H E; cbn [loop] in E;
    (destruct (search b fresh w) as [[[i n] e]|]; cbn in C; [injection E as <- <- <-; apply a_found; exact C|]);
    (assert (TL : match dl with Some d => (d - now <? 0)%Z | None => false end = too_late dl now)
      by (destruct dl as [d|]; [|reflexivity]; cbn; destruct (Z.ltb_spec (d - now) 0), (Z.ltb_spec d now); lia));
    rewrite TL in E; destruct (too_late dl now) eqn:Q; try (injection E as <- <- <-; apply a_late; assumption).
  - injection E as <- <- <-. apply a_wait; assumption.
  - destruct ev as [c u|u|u|u].
    + apply a_more; [exact C|exact Q|]. apply (IH (b ++ c) (length c) u a t rest); [|intros old c' u' N I; apply (H old c' u' N); right; exact I|exact E].
      apply (H b c u C). left. reflexivity.
    + injection E as <- <- <-. apply a_eof; assumption.
    + injection E as <- <- <-. apply a_silent; assumption.
    + injection E as <- <- <-. apply a_error; assumption.
Qed.
Lemma loop_same : forall f g w v dl evs b fresh now,
  (forall b fresh, f b fresh w = g b fresh v) -> loop f w dl b fresh now evs = loop g v dl b fresh now evs.
Proof.
  intros f g w v dl. induction evs as [|ev evs IH]; intros b fresh now H; cbn [loop]; rewrite H; [reflexivity|].
  destruct (g b fresh v) as [[[i n] e]|]; [reflexivity|]. destruct ev; rewrite ?IH by exact H; reflexivity.
Qed.
