(** Proofs about makedirs. *)
From Verif Require Import Py PyLemmas Mkdirs_spec Mkdirs_model.
Set Implicit Arguments.
Section P.
Variable Name : Type.
Variable neqb : Name -> Name -> bool.
Hypothesis neq : forall x y, neqb x y = true <-> x = y.
Notation path := (list Name).
Notation world := (world Name).
Notation mkdir := (@mkdir Name neqb).
Notation os_makedirs := (@os_makedirs Name neqb).
Lemma path_eqb_spec : forall p q : path, path_eqb neqb p q = true <-> p = q.
Proof.
  induction p as [|a p IH]; destruct q as [|b q]; cbn; split; intros H; try easy.
  - apply andb_prop in H as [H1 H2]. apply neq in H1. apply IH in H2. congruence.
  - injection H as -> ->. apply andb_true_intro. split; [now apply neq|now apply IH].
Qed.
Lemma way_refl (p : path) : on_the_way p p. Proof. exists []. reflexivity. Qed.
Lemma way_up (q : path) t h : on_the_way q h -> on_the_way q (t :: h).
Proof. intros [b ->]. exists (t :: b). reflexivity. Qed.
Lemma way_cons (q : path) t h : on_the_way q (t :: h) -> q = t :: h \/ on_the_way q h.
Proof. intros [[|x b] E]; cbn in E; [auto|]. injection E as -> ->. right. exists b. reflexivity. Qed.
Lemma way_nil (q : path) : on_the_way q [] -> q = [].
Proof. intros [b E]. symmetry in E. now apply app_eq_nil in E. Qed.
Lemma way_length (q p : path) : on_the_way q p -> length q <= length p.
Proof. intros [b ->]. rewrite app_length. lia. Qed.
Lemma not_way (t : Name) h : ~ on_the_way (t :: h) h.
Proof. intros H. apply way_length in H. cbn in H. lia. Qed.
Lemma mkdir_keeps w p q : tree w q <> None -> tree (fst (mkdir w p)) q = tree w q.
Proof.
  intros H. unfold Mkdirs_model.mkdir. destruct p as [|t h]; auto. destruct (tree w h) as [[|]|]; auto. destruct (tree w (t :: h)) eqn:E; auto.
  destruct (allows w h); auto. cbn [fst tree]. destruct (path_eqb neqb q (t :: h)) eqn:Q; auto. apply path_eqb_spec in Q as ->. congruence.
Qed.
Lemma mkdir_allows w p : allows (fst (mkdir w p)) = allows w.
Proof. unfold Mkdirs_model.mkdir. destruct p as [|t h]; auto. destruct (tree w h) as [[|]|]; auto. destruct (tree w (t :: h)) eqn:E; auto. destruct (allows w h); auto. Qed.

(** with friendly others *)
Definition fine (w : world) (p : path) : Prop :=
  (forall q, on_the_way q p -> tree w q <> Some Other) /\ (forall q, on_the_way q p -> allows w q = true) /\ tree w [] = Some Directory.
Lemma fine_others o p w n : friendly o p -> fine w p -> fine (o n w) p.
Proof. intros F (H1 & H2 & H3). destruct (F n w) as (F0 & F1 & F2 & F3). split; [|split]; auto. Qed.
Lemma fine_up w t h : fine w (t :: h) -> fine w h.
Proof. intros (H1 & H2 & H3). repeat split; auto; intros q Q; [apply H1|apply H2]; now apply way_up. Qed.
Lemma friendly_up (o : others Name) t h : friendly o (t :: h) -> friendly o h.
Proof. intros F n w. destruct (F n w) as (F0 & F1 & F2 & F3). split; [exact F0|]. split; [exact F1|]. split; intros q Q; [apply F2|apply F3]; now apply way_up. Qed.
Lemma mkdir_fine w p p' : fine w p -> fine (fst (mkdir w p')) p.
Proof.
  intros (H1 & H2 & H3). split; [|split].
  - intros q Q X. destruct (tree w q) as [k|] eqn:E.
    + rewrite mkdir_keeps, E in X by congruence. injection X as ->. exact (H1 q Q E).
    + unfold Mkdirs_model.mkdir in X. destruct p' as [|t h]; cbn in X; try congruence. destruct (tree w h) as [[|]|]; cbn in X; try congruence.
      destruct (tree w (t :: h)) eqn:E2; cbn in X; try congruence. destruct (allows w h); cbn in X; try congruence. destruct (_ : bool) in X; congruence.
  - intros q Q. rewrite mkdir_allows. auto.
  - rewrite mkdir_keeps; congruence.
Qed.
Lemma mkdir_makes w t h : fine w (t :: h) -> tree w h = Some Directory ->
  tree (fst (mkdir w (t :: h))) (t :: h) = Some Directory /\ (snd (mkdir w (t :: h)) = None \/ snd (mkdir w (t :: h)) = Some EEXIST).
Proof.
  intros (H1 & H2 & H3) E. unfold Mkdirs_model.mkdir. rewrite E. destruct (tree w (t :: h)) as [[|]|] eqn:Et.
  - cbn. auto.
  - exfalso. apply (H1 (t :: h)); auto. apply way_refl.
  - rewrite (H2 h) by (apply way_up, way_refl). cbn [fst snd tree]. assert (path_eqb neqb (t :: h) (t :: h) = true) as -> by (now apply path_eqb_spec). auto.
Qed.
Definition made (w : world) (p : path) : Prop := forall q, on_the_way q p -> tree w q = Some Directory.
Lemma made_others o p p' w n : friendly o p' -> made w p -> made (o n w) p.
Proof. intros F H q Q. destruct (F n w) as (_ & F1 & _). auto. Qed.

Lemma sound_up (w : world) : sound w -> forall p, tree w p <> None -> forall q, on_the_way q p -> q = p \/ tree w q = Some Directory.
Proof.
  intros [S0 S]. induction p as [|t h IH]; intros H q Q; [left; now apply way_nil|].
  apply way_cons in Q as [->|Q]; auto. right. pose proof (S t h H) as E. destruct (IH ltac:(congruence) q Q) as [->|X]; auto.
Qed.
Lemma mkdir_sound w p : sound w -> sound (fst (mkdir w p)).
Proof.
  intros Sw. destruct Sw as [S0 S]. split; [rewrite mkdir_keeps; congruence|].
  intros t h H. destruct (tree w (t :: h)) eqn:E.
  - assert (tree w h = Some Directory) as X by (apply (S t); congruence). rewrite mkdir_keeps; congruence.
  - unfold Mkdirs_model.mkdir in *. destruct p as [|t' h']; try easy. destruct (tree w h') as [[|]|] eqn:Eh; try easy.
    destruct (tree w (t' :: h')) eqn:E2; try easy. destruct (allows w h'); try easy. cbn [fst tree] in *.
    destruct (path_eqb neqb (t :: h) (t' :: h')) eqn:Q; [|easy]. apply path_eqb_spec in Q. injection Q as -> ->.
    destruct (path_eqb neqb h' (t' :: h')); auto.
Qed.
Lemma made_cons (w : world) t h : made w h -> tree w (t :: h) = Some Directory -> made w (t :: h).
Proof. intros M E q Q. apply way_cons in Q as [->|Q]; auto. Qed.
Lemma made_mkdir w p p' : made w p -> made (fst (mkdir w p')) p.
Proof. intros M q Q. rewrite mkdir_keeps; rewrite (M q Q); congruence. Qed.
(** the recursive calls work on an ancestor of the path [full] *)
Lemma friendly_makes (o : others Name) full : friendly o full -> forall p n w, on_the_way p full -> fine w full -> p <> [] -> sound w ->
  exists w' n' e, os_makedirs o p n w = (w', n', e) /\ (e = None \/ e = Some EEXIST) /\ made w' p /\ fine w' full /\ sound w'.
Proof.
  intros F. assert (forall n w, sound w -> sound (o n w)) as FS by (intros n w; destruct (F n w); auto).
  assert (forall p, on_the_way p full -> forall t h, p = t :: h -> on_the_way h full) as Up.
  { intros p [b ->] t h ->. exists (b ++ [t]). rewrite <- app_assoc. reflexivity. }
  assert (forall p w, on_the_way p full -> fine w full -> fine w p) as Fn.
  { intros p w [b E] (H1 & H2 & H3). assert (forall q, on_the_way q p -> on_the_way q full) as T.
    { intros q [b' ->]. exists (b ++ b'). rewrite E. apply app_assoc. }
    split; [|split]; auto. }
  assert (forall t h n w, on_the_way (t :: h) full -> fine w full -> sound w -> made w h ->
    exists w' n' e, (let (w', e) := mkdir (o n w) (t :: h) in (w', S n, e)) = (w', n', e) /\ (e = None \/ e = Some EEXIST) /\ made w' (t :: h) /\ fine w' full /\ sound w') as Mk.
  { intros t h n w W Fw Sw Mw. pose proof (fine_others n F Fw) as Fw1. assert (made (o n w) h) as M1 by (eapply made_others; eauto).
    destruct (@mkdir_makes (o n w) t h (Fn _ _ W Fw1) (M1 h (way_refl h))) as [T1 T2].
    pose proof (mkdir_fine (t :: h) Fw1) as F2. pose proof (mkdir_sound (t :: h) (FS n w Sw)) as S2. pose proof (made_mkdir (t :: h) M1) as M2.
    destruct (mkdir (o n w) (t :: h)) as [w' e]. exists w', (S n), e. cbn in *. repeat split; auto; try apply F2; try apply S2. now apply made_cons. }
  induction p as [|t h IH]; intros n w W Fw NE Sw; [easy|].
  destruct h as [|t1 h1].
  - cbn [Mkdirs_model.os_makedirs]. apply Mk; auto. intros q Q. apply way_nil in Q as ->. apply Sw.
  - cbn [Mkdirs_model.os_makedirs]. pose proof (Up _ W t (t1 :: h1) eq_refl) as Wh. pose proof (fine_others n F Fw) as Fw1. pose proof (FS n w Sw) as Sw1.
    destruct (exists_ (o n w) (t1 :: h1)) eqn:E.
    + apply Mk; auto. unfold exists_ in E. intros q Q. destruct (tree (o n w) (t1 :: h1)) as [k|] eqn:Ek; [|discriminate].
      destruct (@sound_up _ Sw1 (t1 :: h1) ltac:(congruence) q Q) as [->|X]; auto. destruct k; auto. exfalso. destruct Fw1 as (H1 & _). exact (H1 _ Wh Ek).
    + destruct (IH (S n) (o n w) Wh Fw1 ltac:(discriminate) Sw1) as (w2 & n2 & e & E2 & Oe & M2 & F2 & S2).
      cbn [Mkdirs_model.os_makedirs] in E2. rewrite E2. destruct Oe as [->| ->]; apply Mk; auto.
Qed.

(** alone *)
Lemma possible_dec_keep w p q : tree w q = Some Directory -> tree (fst (mkdir w p)) q = Some Directory.
Proof. intros H. rewrite mkdir_keeps; congruence. Qed.
Lemma possible_up (w : world) : sound w -> forall p, possible w p -> forall q, on_the_way q p -> possible w q.
Proof.
  intros Sw p H. induction H as [p E|t h E H IH A]; intros q Q.
  - destruct (@sound_up _ Sw p ltac:(congruence) q Q) as [->|X]; apply is_there; auto.
  - apply way_cons in Q as [->|Q]; auto. now apply to_make.
Qed.
Lemma mkdir_off w p q : q <> p -> tree (fst (mkdir w p)) q = tree w q.
Proof.
  intros D. unfold Mkdirs_model.mkdir. destruct p as [|t h]; auto. destruct (tree w h) as [[|]|]; auto. destruct (tree w (t :: h)) eqn:E; auto.
  destruct (allows w h); auto. cbn [fst tree]. destruct (path_eqb neqb q (t :: h)) eqn:Q; auto. apply path_eqb_spec in Q. easy.
Qed.
Lemma mkdir_exact w w1 t h : (tree w1 h = Some Directory <-> possible w h) -> tree w1 (t :: h) = tree w (t :: h) -> allows w1 h = allows w h ->
  (tree (fst (mkdir w1 (t :: h))) (t :: h) = Some Directory <-> possible w (t :: h)) /\
  (tree (fst (mkdir w1 (t :: h))) (t :: h) = tree w (t :: h) \/ tree w (t :: h) = None /\ tree (fst (mkdir w1 (t :: h))) (t :: h) = Some Directory).
Proof.
  intros H Et Ea. unfold Mkdirs_model.mkdir. destruct (tree w1 h) as [[|]|] eqn:Eh.
  - rewrite Et. destruct (tree w (t :: h)) as [k|] eqn:E.
    + cbn [fst]. rewrite Et. split; auto. split; [intros [= ->]; now apply is_there|]. intros X. inversion X; subst; congruence.
    + rewrite Ea. destruct (allows w h) eqn:A; cbn [fst tree].
      * assert (path_eqb neqb (t :: h) (t :: h) = true) as -> by (now apply path_eqb_spec). split; auto. split; auto. intros _. apply to_make; auto. now apply H.
      * rewrite Et. split; auto. split; [discriminate|]. intros X. inversion X; subst; congruence.
  - cbn [fst]. rewrite Et. split; auto. split; [intros; now apply is_there|]. intros X. inversion X as [|t' h' B1 B2 B3]; subst; auto. apply H in B2. discriminate.
  - cbn [fst]. rewrite Et. split; auto. split; [intros; now apply is_there|]. intros X. inversion X as [|t' h' B1 B2 B3]; subst; auto. apply H in B2. discriminate.
Qed.
Definition effect (w : world) (p : path) (w' : world) : Prop :=
  (forall q, on_the_way q p -> (tree w' q = Some Directory <-> possible w q) /\ (tree w' q = tree w q \/ tree w q = None /\ tree w' q = Some Directory)) /\
  (forall q, ~ on_the_way q p -> tree w' q = tree w q) /\ (forall q, allows w' q = allows w q).
Lemma way_dec (q p : path) : on_the_way q p \/ ~ on_the_way q p.
Proof.
  induction p as [|t h IH].
  - destruct q; [left; apply way_refl|right; intros H; apply way_nil in H; discriminate].
  - destruct IH as [H|H]; [left; now apply way_up|]. destruct (path_eqb neqb q (t :: h)) eqn:E.
    + apply path_eqb_spec in E as ->. left. apply way_refl.
    + right. intros X. apply way_cons in X as [X|X]; auto. apply path_eqb_spec in X. congruence.
Qed.
(** from the effect on the way to the parent *)
Lemma mkdir_effect w w1 t h : effect w h w1 -> effect w (t :: h) (fst (mkdir w1 (t :: h))).
Proof.
  intros (E1 & E2 & E3). destruct (E1 h (way_refl h)) as [Ph _].
  split; [|split].
  - intros q Q. apply way_cons in Q as [->|Q].
    + apply mkdir_exact; auto. apply E2, not_way.
    + rewrite mkdir_off; auto. intros ->. exact (not_way Q).
  - intros q Q. rewrite mkdir_off; [|intros ->; apply Q, way_refl]. apply E2. intros X. apply Q. now apply way_up.
  - intros q. rewrite mkdir_allows. auto.
Qed.
Lemma effect_refl w h : sound w -> tree w h <> None -> effect w h w.
Proof.
  intros Sw H. split; auto. intros q Q. split; auto. destruct (@sound_up _ Sw h H q Q) as [->|X].
  - split; [intros; now apply is_there|]. intros X. inversion X; subst; congruence.
  - split; [intros; now apply is_there|auto].
Qed.
Lemma mkdir_error w p e : sound w -> snd (mkdir w p) = Some e -> e <> EEXIST -> tree (fst (mkdir w p)) p <> Some Directory.
Proof.
  intros [S0 S] H D. unfold Mkdirs_model.mkdir in *. destruct p as [|t h]; [cbn in H; congruence|].
  destruct (tree w h) as [[|]|] eqn:Eh.
  - destruct (tree w (t :: h)) eqn:E; [cbn in H; congruence|]. destruct (allows w h); cbn in *; congruence.
  - cbn. intros X. rewrite (S t h) in Eh; congruence.
  - cbn. intros X. rewrite (S t h) in Eh; congruence.
Qed.
Lemma unfold_makedirs o t t1 h1 n w : os_makedirs o (t :: t1 :: h1) n w =
  (if exists_ (o n w) (t1 :: h1) then let (w', e) := mkdir (o (S n) (o n w)) (t :: t1 :: h1) in (w', S (S n), e)
   else match os_makedirs o (t1 :: h1) (S n) (o n w) with
        | (w2, n2, None) | (w2, n2, Some EEXIST) => let (w', e) := mkdir (o n2 w2) (t :: t1 :: h1) in (w', S n2, e)
        | (w2, n2, Some e) => (w2, n2, Some e)
        end).
Proof. reflexivity. Qed.
Lemma alone_makes : forall p n w, p <> [] -> sound w ->
  exists w' n' e, os_makedirs (@nobody Name) p n w = (w', n', e) /\ effect w p w' /\ sound w' /\ (forall x, e = Some x -> x <> EEXIST -> tree w' p <> Some Directory).
Proof.
  assert (forall w w1 t h n, effect w h w1 -> sound w1 -> exists w' n' e, (let (w', e) := mkdir w1 (t :: h) in (w', S n, e)) = (w', n', e) /\
    effect w (t :: h) w' /\ sound w' /\ (forall x, e = Some x -> x <> EEXIST -> tree w' (t :: h) <> Some Directory)) as Mk.
  { intros w w1 t h n E Sw. pose proof (mkdir_effect t E) as E'. pose proof (mkdir_sound (t :: h) Sw) as S'.
    pose proof (fun x => @mkdir_error w1 (t :: h) x Sw) as X. destruct (mkdir w1 (t :: h)) as [w' e]. exists w', (S n), e. cbn [fst snd] in *. auto. }
  induction p as [|t h IH]; intros n w NE Sw; [easy|].
  destruct h as [|t1 h1].
  - cbn [Mkdirs_model.os_makedirs]. apply (Mk w w t [] n); auto. apply effect_refl; auto. destruct Sw as [S0 _]. rewrite S0. discriminate.
  - rewrite unfold_makedirs. change (nobody n w) with w. change (nobody (S n) w) with w. destruct (exists_ w (t1 :: h1)) eqn:E.
    + apply (Mk w w t (t1 :: h1)); auto. apply effect_refl; auto. unfold exists_ in E. destruct (tree w (t1 :: h1)); congruence.
    + destruct (IH (S n) w ltac:(discriminate) Sw) as (w2 & n2 & e & E2 & Ef & S2 & X). rewrite E2. change (nobody n2 w2) with w2.
      destruct e as [e|]; [|apply Mk; auto].
      assert (e = EEXIST \/ e <> EEXIST) as [->|D] by (destruct e; auto; right; discriminate); [apply Mk; auto|].
      assert (effect w (t :: t1 :: h1) w2) as Ef2.
      { destruct Ef as (F1 & F2 & F3). assert (tree w (t :: t1 :: h1) = None) as N0.
        { destruct (tree w (t :: t1 :: h1)) eqn:Q; auto. exfalso. destruct Sw as [_ Sw]. unfold exists_ in E. pose proof (Sw t (t1 :: h1) ltac:(congruence)) as Y. rewrite Y in E. discriminate. }
        split; [|split; auto].
        - intros q Q. apply way_cons in Q as [->|Q]; auto. rewrite (F2 (t :: t1 :: h1)) by apply not_way. split; auto. split; [intros; congruence|].
          intros P. exfalso. inversion P as [|t' h' B1 B2 B3]; subst; [congruence|]. apply (X e eq_refl D). now apply (F1 (t1 :: h1) (way_refl _)).
        - intros q Q. apply F2. intros Y. apply Q. now apply way_up. }
      assert (tree w2 (t :: t1 :: h1) <> Some Directory) as Nd.
      { intros Y. destruct S2 as [_ S2]. exact (X e eq_refl D (S2 t (t1 :: h1) ltac:(congruence))). }
      exists w2, n2, (Some e). destruct e; try easy; auto.
Qed.
End P.
