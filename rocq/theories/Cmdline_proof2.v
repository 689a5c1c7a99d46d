(** Lemmas for command lines: matching of patterns. *)
From Verif Require Import Py PyLemmas Cmdline_spec Cmdline_model.
Open Scope nat_scope.
Open Scope list_scope.

Inductive lang : list item -> list letter -> Prop :=
| la_nil : lang [] []
| la_one f c l w : f c = true -> lang l w -> lang (L f :: l) (c :: w)
| la_star f l w1 w2 : Forall (fun c => f c = true) w1 -> lang l w2 -> lang (L0 f :: l) (w1 ++ w2).

Lemma star_sound R f k : forall s n (r : R), match_star R f s n k = Some r ->
  exists m, m <= length s /\ Forall (fun c => f c = true) (firstn m s) /\ k (n + m) (skipn m s) = Some r.
Proof.
  induction s as [|c s IH]; intros n r E; cbn [match_star] in E.
  - exists 0. rewrite Nat.add_0_r. cbn. auto.
  - destruct (f c) eqn:F.
    + destruct (match_star R f s (S n) k) as [r'|] eqn:M.
      * injection E as <-. apply IH in M as (m & L & G & K). exists (S m). cbn. replace (n + S m) with (S n + m) by lia. split; [lia|]. auto.
      * exists 0. rewrite Nat.add_0_r. cbn. split; [lia|auto].
    + exists 0. rewrite Nat.add_0_r. cbn. split; [lia|auto].
Qed.
Lemma items_sound R : forall l s n k (r : R), match_items R l s n k = Some r ->
  exists m, m <= length s /\ lang l (firstn m s) /\ k (n + m) (skipn m s) = Some r.
Proof.
  induction l as [|[f|f] l IH]; intros s n k r E; cbn [match_items] in E.
  - exists 0. rewrite Nat.add_0_r. cbn. repeat split; [lia|constructor|auto].
  - destruct s as [|c s]; [discriminate|]. destruct (f c) eqn:F; [|discriminate]. apply IH in E as (m & Lm & G & K).
    exists (S m). cbn. replace (n + S m) with (S n + m) by lia. repeat split; [lia|constructor; auto|auto].
  - apply star_sound in E as (m & Lm & G & K). apply IH in K as (m' & Lm' & G' & K). rewrite skipn_length in Lm'. exists (m + m').
    split; [lia|]. split.
    + replace (firstn (m + m') s) with (firstn m s ++ firstn m' (skipn m s)); [constructor; auto|]. clear. revert m s. induction m as [|m IH]; intros [|c s]; cbn; auto; [now rewrite firstn_nil|now rewrite IH].
    + rewrite Nat.add_assoc. rewrite <- K. f_equal. clear. revert m s. induction m as [|m IH]; intros [|c s]; cbn; auto. now rewrite skipn_nil.
Qed.

Definition is_letter (x y : letter) : bool := match x, y with A, A | D, D | O, O => true | _, _ => false end.
Definition count_A (w : list letter) : nat := length (filter is_A w).
Lemma count_app v w : count_A (v ++ w) = count_A v + count_A w.
Proof. unfold count_A. now rewrite filter_app, app_length. Qed.
Lemma count_D w : Forall (fun c => is_D c = true) w -> count_A w = 0.
Proof. unfold count_A. induction 1 as [|c w H _ IH]; [auto|]. destruct c; cbn in *; auto; discriminate. Qed.
Definition no_O (w : list letter) : Prop := ~ In O w.
Lemma no_O_D w : Forall (fun c => is_D c = true) w -> no_O w.
Proof. intros F I. rewrite Forall_forall in F. now apply F in I. Qed.
Lemma no_O_AD w : Forall (fun c => is_AD c = true) w -> no_O w.
Proof. intros F I. rewrite Forall_forall in F. now apply F in I. Qed.
Lemma no_O_app v w : no_O (v ++ w) <-> no_O v /\ no_O w.
Proof. unfold no_O. rewrite in_app_iff. tauto. Qed.
Lemma lang_joined n : forall l w, lang (joined_A n [L0 is_D] ++ l) w -> exists v u, w = v ++ u /\ no_O v /\ count_A v = n /\ lang l u.
Proof.
  induction n as [|n IH]; intros l w H.
  - exists [], w. cbn in *. repeat split; auto. intros I. exact I.
  - destruct n as [|n].
    + cbn in H. inversion H as [|f c l' w' F G|]; subst. destruct c; try discriminate. exists [A], w'. cbn. repeat split; auto. intros [I|[]]; discriminate.
    + cbn [joined_A] in H. cbn [app] in H. inversion H as [|f c l' w' F G|]; subst. destruct c; try discriminate.
      inversion G as [| |f l' w1 w2 F1 G1]; subst. apply IH in G1 as (v & u & -> & N & C & G1). exists (A :: w1 ++ v), u. split; [cbn; now rewrite app_assoc|].
      split; [|split; auto].
      * intros [I|I]; [discriminate|]. apply in_app_iff in I as [I|I]; [now apply (no_O_D _ F1) in I|auto].
      * change (A :: w1 ++ v) with ([A] ++ w1 ++ v). rewrite !count_app, (count_D _ F1), C. reflexivity.
Qed.
Lemma lang_joined_opt n : forall w, lang (joined_A n []) w -> w = repeat A n.
Proof.
  induction n as [|n IH]; intros w H.
  - inversion H. reflexivity.
  - destruct n as [|n].
    + cbn in H. inversion H as [|f c l' w' F G|]; subst. destruct c; try discriminate. inversion G. reflexivity.
    + cbn [joined_A app] in H. inversion H as [|f c l' w' F G|]; subst. destruct c; try discriminate. apply IH in G as ->. reflexivity.
Qed.
Lemma only_A w : Forall (fun c => is_A c = true) w -> w = repeat A (length w).
Proof. induction 1 as [|c w H _ IH]; [auto|]. destruct c; try discriminate. cbn. now rewrite <- IH. Qed.
Lemma pattern_positional a w : positional a = true -> lang (nargs_pattern a) w -> no_O w /\ can_take (takes a) (count_A w).
Proof.
  unfold nargs_pattern. intros ->. destruct (takes a) as [| | |n]; cbn [can_take]; intros H.
  - inversion H as [| |f l w1 w2 F1 G]; subst. inversion G as [|f c l w' F G'|]; subst. destruct c; try discriminate. inversion G' as [| |f' l w3 w4 F3 G4]; subst. inversion G4; subst.
    rewrite app_nil_r. change (A :: w3) with ([A] ++ w3). rewrite !no_O_app, !count_app, (count_D _ F1), (count_D _ F3). split; [split; [now apply no_O_D|split; [intros [I|[]]; discriminate|now apply no_O_D]]|reflexivity].
  - inversion H as [| |f l w1 w2 F1 G]; subst. inversion G as [| |f l w3 w4 F3 G4]; subst. inversion G4; subst. rewrite app_nil_r, no_O_app. split; auto. split; [now apply no_O_D|now apply no_O_AD].
  - inversion H as [| |f l w1 w2 F1 G]; subst. inversion G as [|f c l w' F G'|]; subst. destruct c; try discriminate. inversion G' as [| |f' l w3 w4 F3 G4]; subst. inversion G4; subst.
    rewrite app_nil_r. change (A :: w3) with ([A] ++ w3). rewrite !no_O_app, !count_app. split; [split; [now apply no_O_D|split; [intros [I|[]]; discriminate|now apply no_O_AD]]|cbn; lia].
  - inversion H as [| |f l w1 w2 F1 G]; subst. apply lang_joined in G as (v & u & -> & N & C & G). inversion G as [| |f l w3 w4 F3 G4]; subst. inversion G4; subst.
    rewrite app_nil_r, !no_O_app, !count_app, (count_D _ F1), (count_D _ F3). split; [|lia]. repeat split; auto; now apply no_O_D.
Qed.
Lemma pattern_option a w : positional a = false -> lang (nargs_pattern a) w -> w = repeat A (length w) /\ can_take (takes a) (length w).
Proof.
  unfold nargs_pattern. intros ->. destruct (takes a) as [| | |n]; cbn [can_take]; intros H.
  - inversion H as [|f c l w' F G|]; subst. destruct c; try discriminate. inversion G; subst. auto.
  - inversion H as [| |f l w1 w2 F1 G]; subst. inversion G; subst. rewrite app_nil_r. split; auto. now apply only_A.
  - inversion H as [|f c l w' F G|]; subst. destruct c; try discriminate. inversion G as [| |f' l w1 w2 F1 G1]; subst. inversion G1; subst. rewrite app_nil_r. cbn. split; [|lia]. f_equal. now apply only_A.
  - apply lang_joined_opt in H as ->. rewrite repeat_length. auto.
Qed.

(** options *)
Lemma match_argument_sound a s n : positional a = false -> match_argument a s = Go n -> n <= length s /\ firstn n s = repeat A n /\ can_take (takes a) n.
Proof.
  intros P. unfold match_argument. cbn [match_groups]. destruct (match_items _ _ _ _ _) as [[|m [|x l]]|] eqn:E; try discriminate. intros H. injection H as ->.
  apply items_sound in E as (m & Lm & G & K). cbn in K. injection K as <-. apply pattern_option in G as [G T]; auto. rewrite firstn_length_le in G, T by auto. auto.
Qed.
Lemma match_argument_stops a s x : match_argument a s = Stop x -> x = SUsage.
Proof. unfold match_argument. destruct (match_groups _ _) as [[|m [|y l]]|]; congruence. Qed.
Definition fixed (m : amount) : Prop := match m with One | Exactly _ => True | _ => False end.
Lemma match_star_A R k t : forall n i (r : R), (forall s, t <> A :: s) -> k (i + n) t = Some r -> match_star R is_A (repeat A n ++ t) i k = Some r.
Proof.
  induction n as [|n IH]; intros i r N K; cbn [repeat app match_star].
  - rewrite Nat.add_0_r in K. destruct t as [|c t]; [auto|]. cbn [match_star]. destruct c; auto. now destruct (N t).
  - cbn [is_A]. rewrite (IH (S i) r); auto. rewrite <- K. f_equal. lia.
Qed.
Lemma match_joined R k : forall n i t, match_items R (joined_A n []) (repeat A n ++ t) i k = k (i + n) t.
Proof.
  induction n as [|n IH]; intros i t.
  - cbn. now rewrite Nat.add_0_r.
  - destruct n as [|n].
    + cbn. f_equal. lia.
    + cbn [joined_A repeat app match_items is_A]. change (A :: repeat A n ++ t) with (repeat A (S n) ++ t). rewrite IH. f_equal. lia.
Qed.
Lemma match_argument_complete a n t : positional a = false -> can_take (takes a) n -> fixed (takes a) \/ (forall s, t <> A :: s) -> match_argument a (repeat A n ++ t) = Go n.
Proof.
  intros P C F. unfold match_argument, nargs_pattern. rewrite P. cbn [match_groups]. destruct (takes a) as [| | |m]; cbn [can_take fixed] in *.
  - subst n. reflexivity.
  - destruct F as [[]|F]. cbn [match_items]. erewrite match_star_A; [|auto|reflexivity]. reflexivity.
  - destruct F as [[]|F]. destruct n as [|n]; [lia|]. cbn [repeat app match_items is_A]. erewrite match_star_A; [|auto|reflexivity]. reflexivity.
  - subst m. rewrite match_joined. reflexivity.
Qed.
(** what is attached *)
Lemma match_one a : positional a = false -> (can_take (takes a) 1 /\ match_argument a [A] = Go 1) \/ (can_take (takes a) 0 /\ ~ can_take (takes a) 1 /\ match_argument a [A] = Go 0) \/
  (~ can_take (takes a) 1 /\ ~ can_take (takes a) 0 /\ match_argument a [A] = Stop SUsage).
Proof.
  intros P. destruct (takes a) as [| | |n] eqn:T.
  1,2,3: left; split; [cbn; auto|]; unfold match_argument, nargs_pattern; rewrite P, T; reflexivity.
  destruct n as [|[|n]].
  - right. left. cbn. split; auto. split; [discriminate|]. unfold match_argument, nargs_pattern. rewrite P, T. reflexivity.
  - left. cbn. split; auto. unfold match_argument, nargs_pattern. rewrite P, T. reflexivity.
  - right. right. cbn. split; [discriminate|]. split; [discriminate|]. unfold match_argument, nargs_pattern. rewrite P, T. destruct n; reflexivity.
Qed.

(** positional arguments: only operands before an option or the end *)
Definition stops_here (t : list letter) : Prop := t = [] \/ exists s, t = O :: s.
Lemma star_D_none R k n i t : stops_here t -> match_star R is_D (repeat A n ++ t) i k = k i (repeat A n ++ t).
Proof. intros H. destruct n as [|n]; cbn; [|auto]. destruct H as [->|(s & ->)]; reflexivity. Qed.
Lemma star_AD R (k : nat -> list letter -> option R) t : stops_here t -> forall n i,
  match match_star R is_AD (repeat A n ++ t) i k with
  | Some r => exists c, c <= n /\ k (i + c) (repeat A (n - c) ++ t) = Some r /\ forall d, c < d <= n -> k (i + d) (repeat A (n - d) ++ t) = None
  | None => forall d, d <= n -> k (i + d) (repeat A (n - d) ++ t) = None
  end.
Proof.
  intros H. induction n as [|n IH]; intros i.
  - cbn [repeat app]. replace (match_star R is_AD t i k) with (k i t) by (destruct H as [->|(s & ->)]; reflexivity). destruct (k i t) as [r|] eqn:K.
    + exists 0. rewrite Nat.add_0_r. repeat split; auto. intros d Hd. lia.
    + intros d Hd. replace d with 0 by lia. now rewrite Nat.add_0_r.
  - cbn [repeat app match_star is_AD]. specialize (IH (S i)). destruct (match_star R is_AD (repeat A n ++ t) (S i) k) as [r|].
    + destruct IH as (c & Lc & K & G). exists (S c). cbn [Nat.sub]. replace (i + S c) with (S i + c) by lia. repeat split; auto; [lia|]. intros [|d] Hd; [lia|]. cbn [Nat.sub]. replace (i + S d) with (S i + d) by lia. apply G. lia.
    + assert (IH' : forall d, 0 < d <= S n -> k (i + d) (repeat A (S n - d) ++ t) = None).
      { intros [|d] Hd; [lia|]. cbn [Nat.sub]. replace (i + S d) with (S i + d) by lia. apply IH. lia. }
      change (A :: repeat A n ++ t) with (repeat A (S n) ++ t). destruct (k i (repeat A (S n) ++ t)) as [r|] eqn:K.
      * exists 0. rewrite Nat.add_0_r, Nat.sub_0_r. repeat split; auto; lia.
      * intros [|d] Hd; [now rewrite Nat.add_0_r, Nat.sub_0_r|]. apply IH'. lia.
Qed.
Lemma joined_AD R k t : stops_here t -> forall m n i, match_items R (joined_A m [L0 is_D] ++ [L0 is_D]) (repeat A n ++ t) i k = if m <=? n then k (i + m) (repeat A (n - m) ++ t) else None.
Proof.
  intros H. induction m as [|m IH]; intros n i.
  - cbn [joined_A app match_items]. rewrite star_D_none by auto. cbn. now rewrite Nat.add_0_r, Nat.sub_0_r.
  - destruct m as [|m].
    + cbn [joined_A app match_items]. destruct n as [|n]; cbn [repeat app].
      * destruct H as [->|(s & ->)]; reflexivity.
      * cbn [is_A]. rewrite star_D_none by auto. cbn. rewrite Nat.sub_0_r. f_equal. lia.
    + cbn [joined_A]. rewrite <- app_comm_cons. cbn [app match_items]. destruct n as [|n]; cbn [repeat app].
      * destruct H as [->|(s & ->)]; reflexivity.
      * cbn [is_A]. rewrite star_D_none by auto. rewrite IH. change (S (S m) <=? S n) with (S m <=? n). cbn [Nat.sub]. destruct (S m <=? n); auto. f_equal. lia.
Qed.
Lemma items_positional R (k : nat -> list letter -> option R) a t n : positional a = true -> stops_here t ->
  match match_items R (nargs_pattern a) (repeat A n ++ t) 0 k with
  | Some r => exists c, can_take (takes a) c /\ c <= n /\ k c (repeat A (n - c) ++ t) = Some r /\ forall d, can_take (takes a) d -> c < d <= n -> k d (repeat A (n - d) ++ t) = None
  | None => forall d, can_take (takes a) d -> d <= n -> k d (repeat A (n - d) ++ t) = None
  end.
Proof.
  intros P H. unfold nargs_pattern. rewrite P. destruct (takes a) as [| | |m]; cbn [can_take].
  - cbn [match_items]. rewrite star_D_none by auto. destruct n as [|n]; cbn [repeat app].
    + replace (match t with [] => None | c :: s' => if is_A c then match_star R is_D s' 1 (fun n s => k n s) else None end) with (@None R) by (destruct H as [->|(s & ->)]; reflexivity). intros d -> Hd. lia.
    + cbn [is_A]. rewrite star_D_none by auto. destruct (k 1 (repeat A n ++ t)) as [r|] eqn:K.
      * exists 1. cbn [Nat.sub]. rewrite Nat.sub_0_r. repeat split; auto; [lia|]. intros d -> Hd. lia.
      * intros d -> _. cbn [Nat.sub]. now rewrite Nat.sub_0_r.
  - cbn [match_items]. rewrite star_D_none by auto. pose proof (star_AD R (fun n s => k n s) t H n 0) as K. destruct (match_star _ _ _ _ _) as [r|].
    + destruct K as (c & Lc & K & G). exists c. cbn [Nat.add] in *. repeat split; auto.
    + intros d _ Hd. now apply K.
  - cbn [match_items]. rewrite star_D_none by auto. destruct n as [|n]; cbn [repeat app].
    + replace (match t with [] => None | c :: s' => if is_A c then match_star R is_AD s' 1 (fun n s => k n s) else None end) with (@None R) by (destruct H as [->|(s & ->)]; reflexivity). intros d D Hd. lia.
    + cbn [is_A]. pose proof (star_AD R (fun n s => k n s) t H n 1) as K. destruct (match_star _ _ _ _ _) as [r|].
      * destruct K as (c & Lc & K & G). exists (S c). cbn [Nat.sub]. cbn [Nat.add] in *. repeat split; auto; [lia|lia|]. intros [|d] _ Hd; [lia|]. cbn [Nat.sub]. apply G. lia.
      * intros [|d] D Hd; [lia|]. cbn [Nat.sub]. apply K. lia.
  - cbn [match_items]. rewrite star_D_none by auto. rewrite joined_AD by auto. cbn [Nat.add]. destruct (m <=? n) eqn:Lm.
    + apply Nat.leb_le in Lm. destruct (k m (repeat A (n - m) ++ t)) as [r|] eqn:K.
      * exists m. repeat split; auto. intros d -> Hd. lia.
      * intros d -> _. auto.
    + apply Nat.leb_gt in Lm. intros d -> Hd. lia.
Qed.
Lemma groups_best t : stops_here t -> forall acts n, Forall (fun a => positional a = true) acts ->
  match match_groups (map nargs_pattern acts) (repeat A n ++ t) with
  | Some cs => best_deal (map takes acts) n cs
  | None => forall cs, ~ deals (map takes acts) n cs
  end.
Proof.
  intros H. induction acts as [|a acts IH]; intros n F.
  - cbn. split; [split; [constructor|cbn; lia]|]. intros ds [G _]. inversion G. constructor.
  - inversion F as [|? ? Pa Fa]; subst. cbn [map match_groups].
    pose proof (items_positional (list nat) (fun c s => option_map (cons c) (match_groups (map nargs_pattern acts) s)) a t n Pa H) as K.
    destruct (match_items _ _ _ _ _) as [r|].
    + destruct K as (c & C & Lc & K & G). specialize (IH (n - c) Fa) as IHc. destruct (match_groups (map nargs_pattern acts) (repeat A (n - c) ++ t)) as [cs|] eqn:M; [|discriminate]. injection K as <-.
      destruct IHc as [[B1 B2] B3]. split.
      * split; [constructor; auto|cbn; lia].
      * intros ds [D1 D2]. inversion D1 as [|x d l' ds' Cd Cds E1 E2]; subst. cbn in D2. destruct (lt_eq_lt_dec d c) as [[Hd| ->]|Hd].
        -- now apply lex_less.
        -- apply lex_same. apply B3. split; auto. lia.
        -- exfalso. assert (X : c < d <= n) by lia. specialize (G d Cd X). specialize (IH (n - d) Fa). destruct (match_groups (map nargs_pattern acts) (repeat A (n - d) ++ t)); [discriminate|]. apply (IH ds'). split; auto. lia.
    + intros cs [D1 D2]. inversion D1 as [|x d l' ds' Cd Cds E1 E2]; subst. cbn in D2. assert (X : d <= n) by lia. specialize (K d Cd X). specialize (IH (n - d) Fa).
      destruct (match_groups (map nargs_pattern acts) (repeat A (n - d) ++ t)); [discriminate|]. apply (IH ds'). split; auto. lia.
Qed.
Lemma lex_antisym : forall a b, lex_le a b -> lex_le b a -> a = b.
Proof. induction 1 as [|x y l m H|x l m H IH]; intros G; inversion G; subst; try lia; auto. f_equal. auto. Qed.
Lemma groups_complete t acts n cs : stops_here t -> Forall (fun a => positional a = true) acts -> best_deal (map takes acts) n cs -> match_groups (map nargs_pattern acts) (repeat A n ++ t) = Some cs.
Proof.
  intros H F [B1 B2]. pose proof (groups_best t H acts n F) as K. destruct (match_groups _ _) as [ds|].
  - destruct K as [K1 K2]. f_equal. apply lex_antisym; auto.
  - destruct (K cs B1).
Qed.
(** two dashes go to the first *)
Lemma items_shift R : forall l s n (k : nat -> list letter -> option R), match_items R l s (S n) k = match_items R l s n (fun m s => k (S m) s).
Proof.
  assert (ST : forall f s n k1 k2, (forall m s, k1 (S m) s = k2 m s) -> match_star R f s (S n) k1 = match_star R f s n k2).
  { intros f. induction s as [|c s IH]; intros n k1 k2 E; cbn [match_star]; [auto|]. destruct (f c); [|auto]. rewrite (IH (S n) k1 k2) by auto. now rewrite E. }
  induction l as [|[f|f] l IH]; intros s n k; cbn [match_items].
  - reflexivity.
  - destruct s as [|c s]; [auto|]. destruct (f c); auto.
  - apply ST. intros m s'. apply IH.
Qed.
Lemma items_ext R : forall l s n (k1 k2 : nat -> list letter -> option R), (forall m s, k1 m s = k2 m s) -> match_items R l s n k1 = match_items R l s n k2.
Proof.
  assert (ST : forall f s n k1 k2, (forall m s, k1 m s = k2 m s) -> match_star R f s n k1 = match_star R f s n k2).
  { intros f. induction s as [|c s IH]; intros n k1 k2 E; cbn [match_star]; [auto|]. destruct (f c); [|auto]. rewrite (IH (S n) k1 k2) by auto. now rewrite E. }
  induction l as [|[f|f] l IH]; intros s n k1 k2 E; cbn [match_items]; auto.
  destruct s as [|c s]; [auto|]. destruct (f c); auto.
Qed.
Lemma items_map R : forall l s n (k : nat -> list letter -> option R) (g : R -> R), match_items R l s n (fun m s => option_map g (k m s)) = option_map g (match_items R l s n k).
Proof.
  assert (ST : forall f s n k1 k2 g, (forall m s, k1 m s = option_map g (k2 m s)) -> match_star R f s n k1 = option_map g (match_star R f s n k2)).
  { intros f. induction s as [|c s IH]; intros n k1 k2 g E; cbn [match_star]; [auto|]. destruct (f c); [|auto]. rewrite (IH (S n) k1 k2 g) by auto. rewrite E. now destruct (match_star R f s (S n) k2). }
  induction l as [|[f|f] l IH]; intros s n k g; cbn [match_items].
  - reflexivity.
  - destruct s as [|c s]; [auto|]. destruct (f c); auto.
  - apply ST. intros m s'. apply IH.
Qed.
Definition bump (cs : list nat) : list nat := match cs with c :: cs' => S c :: cs' | [] => [] end.
Lemma groups_dashes a acts s cs : positional a = true -> match_groups (map nargs_pattern (a :: acts)) s = Some cs -> match_groups (map nargs_pattern (a :: acts)) (D :: s) = Some (bump cs).
Proof.
  intros P E. cbn [map match_groups] in *. assert (X : exists l, nargs_pattern a = L0 is_D :: l) by (unfold nargs_pattern; rewrite P; destruct (takes a); eauto). destruct X as (l & X). rewrite X in *.
  set (k := fun n s' => option_map (cons n) (match_groups (map nargs_pattern acts) s')) in *.
  assert (Y : match_items (list nat) (L0 is_D :: l) s 1 k = Some (bump cs)).
  { rewrite items_shift. rewrite (items_ext _ _ _ _ _ (fun m s => option_map bump (k m s))).
    - rewrite items_map, E. reflexivity.
    - intros m s'. unfold k. now destruct (match_groups _ s'). }
  cbn [match_items match_star is_D] in *. now rewrite Y.
Qed.
Lemma groups_sound : forall acts s cs, match_groups (map nargs_pattern acts) s = Some cs -> length cs = length acts /\ list_sum cs <= length s.
Proof.
  induction acts as [|a acts IH]; intros s cs E; cbn [map match_groups] in E.
  - injection E as <-. cbn. auto with arith.
  - apply items_sound in E as (m & Lm & G & K). cbn in K. destruct (match_groups _ _) as [cs'|] eqn:M; [|discriminate]. injection K as <-. apply IH in M as [L1 L2]. rewrite skipn_length in L2. change (list_sum (m :: cs')) with (m + list_sum cs'). cbn [length]. lia.
Qed.
Fixpoint segments (cs : list nat) (s : list letter) : list (list letter) := match cs with [] => [] | c :: cs' => firstn c s :: segments cs' (skipn c s) end.
Lemma groups_langs : forall acts s cs, match_groups (map nargs_pattern acts) s = Some cs -> Forall2 (fun a w => lang (nargs_pattern a) w) acts (segments cs s).
Proof.
  induction acts as [|a acts IH]; intros s cs E; cbn [map match_groups] in E.
  - injection E as <-. constructor.
  - apply items_sound in E as (m & Lm & G & K). cbn in K. destruct (match_groups _ _) as [cs'|] eqn:M; [|discriminate]. injection K as <-. cbn. constructor; auto.
Qed.
Lemma partial_sound acts s : let cs := match_arguments_partial acts s in
  length cs <= length acts /\ list_sum cs <= length s /\ Forall2 (fun a w => lang (nargs_pattern a) w) (firstn (length cs) acts) (segments cs s).
Proof.
  unfold match_arguments_partial. cbv zeta.
  assert (X : forall n, n <= length acts -> length (match_first n acts s) <= length acts /\ list_sum (match_first n acts s) <= length s /\
    Forall2 (fun a w => lang (nargs_pattern a) w) (firstn (length (match_first n acts s)) acts) (segments (match_first n acts s) s)); [|now apply X].
  induction n as [|n IH]; intros H; cbn [match_first].
  - cbn. repeat split; auto with arith.
  - destruct (match_groups (map nargs_pattern (firstn (S n) acts)) s) as [cs|] eqn:M.
    + pose proof (groups_langs _ _ _ M) as G. apply groups_sound in M as [L1 L2]. rewrite firstn_length_le in L1 by lia. rewrite L1. auto.
    + apply IH. lia.
Qed.
Lemma partial_all acts s cs : match_groups (map nargs_pattern acts) s = Some cs -> acts <> [] -> match_arguments_partial acts s = cs.
Proof. intros E N. unfold match_arguments_partial. destruct acts as [|a acts]; [congruence|]. cbn [length match_first]. change (S (length acts)) with (length (a :: acts)). now rewrite firstn_all, E. Qed.
