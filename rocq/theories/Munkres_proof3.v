(** Munkres: steps 5 and 6, termination of the state machine. *)
From Verif Require Import Py PyLemmas Munkres_model Munkres_proof1 Munkres_proof2.
Set Implicit Arguments.

Section Inv.
Variable n : nat.
Variable maxint : Z.
Hypothesis maxint_pos : (0 < maxint)%Z.
Variable c0 : nat -> nat -> Z.
Notation ce := (ent 0%Z).
Notation me := (ent 0).
Notation stars := (stars n).
Notation matching := (matching n).

Inductive altp (m : mat nat) : list nat -> nat -> nat -> list (nat * nat) -> Prop :=
| ap_end L r c : r < n -> c < n -> ~ In r L -> me m r c = 2 -> (forall i, i < n -> me m i c <> 1) ->
    altp m L r c [(r, c)]
| ap_step L L' r c r' c' p : r < n -> c < n -> ~ In r L -> me m r c = 2 ->
    r' < n -> In r' L -> me m r' c = 1 -> incl L' L -> altp m L' r' c' p ->
    altp m L r c ((r, c) :: (r', c) :: p).

Lemma altp_fresh m L r c p : altp m L r c p -> ~ In r L.
Proof. intros H; destruct H; auto. Qed.
Lemma altp_ext m m2 L r c p : altp m L r c p ->
  (forall i j, i = r \/ In i L -> me m i j = 2 -> me m2 i j = 2) ->
  (forall i j, In i L -> me m i j = 1 -> me m2 i j = 1) ->
  (forall i j, i < n -> j < n -> me m2 i j = 1 -> exists i', i' < n /\ me m i' j = 1) ->
  altp m2 L r c p.
Proof.
  intros H. induction H as [L r c Hr Hc NI E NS|L L' r c r' c' p Hr Hc NI E Hr' In' E' Inc AP IH]; intros A2 A1 AN.
  - apply ap_end; auto. intros i Hi X. destruct (AN i c Hi Hc X) as (i' & Hi' & X'). eapply NS; eauto.
  - eapply ap_step; eauto. apply IH; auto. intros i j [->|Hi]; auto.
Qed.

(** one cell of convert_path *)
Definition toggle (m : mat nat) (q : nat * nat) : res (mat nat) :=
  v <- mget m (fst q) (snd q) ;; mset m (fst q) (snd q) (if v =? 1 then 0 else 1).

Definition b2n (b : bool) := if b then 1 else 0.
Lemma filter_change X (f g : X -> bool) x l : NoDup l -> In x l -> (forall y, y <> x -> f y = g y) ->
  length (filter g l) + b2n (f x) = length (filter f l) + b2n (g x).
Proof.
  intros N. induction l as [|y l IH]; cbn; [tauto|]. inversion N; subst. intros [->|H] E.
  - assert (X1 : filter f l = filter g l).
    { apply filter_ext_in. intros z Hz. apply E. intros ->. auto. }
    rewrite X1. destruct (f x), (g x); cbn; lia.
  - match goal with X : NoDup l |- _ => specialize (IH X H E) end. rewrite (E y) by (intros ->; auto). destruct (g y); cbn; lia.
Qed.
Lemma stars_change m m' i j v : i < n -> j < n ->
  (forall i' j', me m' i' j' = if (i' =? i) && (j' =? j) then v else me m i' j') ->
  length (stars m') + b2n (me m i j =? 1) = length (stars m) + b2n (v =? 1).
Proof.
  intros Hi Hj H. unfold Munkres_proof2.stars.
  pose proof (@filter_change _ (fun p => me m (fst p) (snd p) =? 1) (fun p => me m' (fst p) (snd p) =? 1) (i, j) (cells n)
    (nodup_cells n) (proj2 (in_cells n i j) (conj Hi Hj))) as X. cbn [fst snd] in X.
  rewrite (H i j), !Nat.eqb_refl in X. cbn [andb] in X. apply X.
  intros [i' j'] NE. cbn. rewrite H. destruct (Nat.eqb_spec i' i) as [->|]; cbn; auto.
  destruct (Nat.eqb_spec j' j) as [->|]; auto. congruence.
Qed.

Lemma augment L r c p m : altp m L r c p -> sq n m -> matching m ->
  (forall j, j < n -> me m r j <> 1) ->
  exists m', foldM toggle m p = Ok m' /\ sq n m' /\ matching m' /\
    length (stars m') = length (stars m) + 1 /\
    (forall i j, i < n -> j < n -> me m' i j = 1 \/ me m' i j = 2 -> me m i j = 1 \/ me m i j = 2).
Proof.
  intros AP. revert m AP.
  assert (G : forall p L r c m, altp m L r c p -> sq n m -> matching m ->
  (forall j, j < n -> me m r j <> 1) ->
  exists m', foldM toggle m p = Ok m' /\ sq n m' /\ matching m' /\
    length (stars m') = length (stars m) + 1 /\
    (forall i j, i < n -> j < n -> me m' i j = 1 \/ me m' i j = 2 -> me m i j = 1 \/ me m i j = 2)).
  2:{ intros m AP. apply (G _ _ _ _ _ AP). }
  clear L r c p. intros p. remember (length p) as k eqn:Ek. revert p Ek.
  induction k as [k IH] using lt_wf_ind. intros p Ek L r c m AP Sm M NR.
  inversion AP as [L0 r0 c0' Hr Hc NI E NS|L0 L' r0 c0' r' c' p' Hr Hc NI E Hr' In' E' Inc AP']; subst.
  - cbn [foldM]. unfold toggle at 1. cbn [fst snd]. rewrite (mget_ok 0 Sm Hr Hc). cbn [bind]. rewrite E. cbn [Nat.eqb].
    destruct (mset_ok 0 1 Sm Hr Hc) as (m1 & E1 & S1 & H1). rewrite E1; cbn [bind].
    exists m1. split; auto. split; auto. split; [|split].
    + destruct M as [Ma Mb]. split; intros a b b' Ha Hb Hb'; rewrite !H1.
      * destruct (Nat.eqb_spec a r) as [->|]; cbn [andb]; [|eauto].
        destruct (Nat.eqb_spec b c), (Nat.eqb_spec b' c); intros; subst; auto; exfalso;
          match goal with X : me m r ?k = 1 |- _ => exact (NR k ltac:(assumption) X) end.
      * destruct (Nat.eqb_spec b' c) as [->|]; rewrite ?andb_true_r, ?andb_false_r; [|eauto].
        destruct (Nat.eqb_spec a r), (Nat.eqb_spec b r); intros; subst; auto; exfalso;
          match goal with X : me m ?k c = 1 |- _ => exact (NS k ltac:(assumption) X) end.
    + pose proof (stars_change m m1 1 Hr Hc H1) as X. rewrite E in X. cbn in X. lia.
    + intros i j Hi Hj. rewrite H1. destruct (Nat.eqb_spec i r) as [->|], (Nat.eqb_spec j c) as [->|]; cbn [andb]; intros; lia.
  - assert (Nrr : r' <> r) by (intros ->; auto).
    cbn [foldM]. unfold toggle at 1. cbn [fst snd]. rewrite (mget_ok 0 Sm Hr Hc). cbn [bind]. rewrite E. cbn [Nat.eqb].
    destruct (mset_ok 0 1 Sm Hr Hc) as (m1 & E1 & S1 & H1). rewrite E1; cbn [bind].
    unfold toggle at 1. cbn [fst snd]. rewrite (mget_ok 0 S1 Hr' Hc). cbn [bind].
    assert (X1 : me m1 r' c = 1).
    { rewrite H1. destruct (Nat.eqb_spec r' r); [congruence|]. auto. }
    rewrite X1. cbn [Nat.eqb].
    destruct (mset_ok 0 0 S1 Hr' Hc) as (m2 & E2 & S2 & H2). rewrite E2; cbn [bind].
    assert (H12 : forall i j, me m2 i j = if j =? c then (if i =? r' then 0 else if i =? r then 1 else me m i j) else me m i j).
    { intros i j. rewrite H2, H1. destruct (i =? r'), (i =? r), (j =? c); reflexivity. }
    destruct M as [Ma Mb].
    assert (UC : forall i, i < n -> me m i c = 1 -> i = r') by (intros i Hi X; apply (Mb i r' c); auto).
    assert (UR : forall j, j < n -> me m r' j = 1 -> j = c) by (intros j Hj X; apply (Ma r' j c); auto).
    assert (M2 : matching m2).
    { split.
      - intros a b b' Ha Hb Hb'; rewrite !H12.
        destruct (Nat.eqb_spec b c) as [->|Nb], (Nat.eqb_spec b' c) as [->|Nb']; auto.
        + destruct (Nat.eqb_spec a r') as [->|]; [discriminate|]. destruct (Nat.eqb_spec a r) as [->|].
          * intros _ X. exfalso. exact (NR _ Hb' X).
          * intros X Y. apply (Ma a c b'); auto.
        + destruct (Nat.eqb_spec a r') as [->|]; [discriminate|]. destruct (Nat.eqb_spec a r) as [->|].
          * intros X _. exfalso. exact (NR _ Hb X).
          * intros X Y. apply (Ma a b c); auto.
        + intros X Y. apply (Ma a b b'); auto.
      - intros a a' b Ha Ha' Hb. rewrite !H12. destruct (Nat.eqb_spec b c) as [->|]; [|apply Mb; auto].
        destruct (Nat.eqb_spec a r') as [->|Na]; [discriminate|]. destruct (Nat.eqb_spec a' r') as [->|Na']; [discriminate|].
        destruct (Nat.eqb_spec a r) as [->|Nr], (Nat.eqb_spec a' r) as [->|Nr']; auto; intros X Y;
          exfalso; eauto. }
    destruct (IH (length p') ltac:(cbn; lia) p' eq_refl L' r' c' m2) as (m' & E'' & S' & M' & C' & Z'); auto.
    { apply (altp_ext m2 AP').
      - intros i j Hi X. rewrite H12. destruct (Nat.eqb_spec j c) as [->|]; auto.
        destruct (Nat.eqb_spec i r') as [->|]; [congruence|]. destruct (Nat.eqb_spec i r) as [->|]; auto.
        destruct Hi as [Hi|Hi]; [congruence|]. exfalso; auto.
      - intros i j Hi X. rewrite H12. destruct (Nat.eqb_spec j c) as [->|]; auto.
        destruct (Nat.eqb_spec i r') as [->|]; [|destruct (i =? r); auto].
        exfalso. apply (altp_fresh AP'); auto.
      - intros i j Hi Hj. rewrite H12. destruct (Nat.eqb_spec j c) as [->|]; [|eauto].
        intros _. eauto. }
    { intros j Hj. rewrite H12. destruct (Nat.eqb_spec j c) as [->|N].
      - rewrite Nat.eqb_refl. discriminate.
      - intros X. apply N. auto. }
    exists m'. split; auto. split; auto. split; auto. split.
    + rewrite C'. f_equal. pose proof (stars_change m m1 1 Hr Hc H1) as Y1. pose proof (stars_change m1 m2 0 Hr' Hc H2) as Y2.
      rewrite E in Y1. rewrite X1 in Y2. cbn in Y1, Y2. lia.
    + intros i j Hi Hj X. pose proof (Z' i j Hi Hj X) as Y. rewrite H12 in Y.
      destruct (Nat.eqb_spec j c) as [Ejc|]; [|exact Y]. destruct (Nat.eqb_spec i r') as [Er|]; [lia|].
      destruct (Nat.eqb_spec i r) as [Er|]; [|exact Y]. subst i j. auto.
Qed.

(** building the path *)
Lemma build_ok m L : sq n m -> matching m -> (forall i, i < n -> one_prime n m i) ->
  forall r c, r < n -> c < n -> me m r c = 2 -> NoDup L -> (forall i, In i L -> i < n) -> ~ In r L ->
  chain n m L -> (forall i, i < n -> me m i c = 1 -> In i L) ->
  exists ap, altp m L r c ap /\ 0 < length ap <= 2 * length L + 1 /\
    forall fuel p count, length L < fuel -> length p = n * 2 -> nth count p (0, 0) = (r, c) ->
      count + 2 * length L < n * 2 ->
    exists p', build_path n m fuel p count = Ok (p', count + (length ap - 1)) /\ length p' = n * 2 /\
      (forall k, k < count -> nth k p' (0,0) = nth k p (0,0)) /\
      (forall k, k < length ap -> nth (count + k) p' (0, 0) = nth k ap (0, 0)).
Proof.
  intros Sm M ONE. induction L as [|a L IH]; intros r c Hr Hc E ND HL NI CH NX.
  - assert (NS : forall i, i < n -> me m i c <> 1) by (intros i Hi X; apply (NX i Hi X)).
    exists [(r, c)]. split; [apply ap_end; auto|]. split; [cbn; lia|].
    intros [|fuel] p count F Lp Ep Fit; [cbn in F; lia|]. cbn [build_path].
    rewrite (get_ok p (0,0) (i:=count)) by lia. cbn [bind]. rewrite Ep. cbn [snd].
    unfold find_star_in_col. destruct (@first_in_col_ok n c0 m 1 c Sm Hc) as (o & Eo & Ho). rewrite Eo; cbn [bind].
    destruct o as [i|]; [exfalso; apply (NS i); tauto|].
    exists p. cbn [length]. split; [f_equal; f_equal; lia|]. split; auto. split; auto.
    intros k Hk. destruct k; [|lia]. rewrite Nat.add_0_r. auto.
  - destruct CH as [(ca & Hca & Eca & Hnx) CH]. inversion ND as [|? ? NIa NDL]; subst.
    assert (Ha : a < n) by (apply HL; cbn; auto).
    destruct (Nat.eq_dec (me m a c) 1) as [Ea|Na].
    + destruct (IH a ca Hca ltac:(auto) Eca NDL ltac:(intros; apply HL; cbn; auto) NIa CH Hnx) as (ap & AP & NE & BP) || idtac.
      destruct (IH a ca Ha Hca Eca NDL ltac:(intros; apply HL; cbn; auto) NIa CH Hnx) as (ap & AP & NE & BP).
      exists ((r, c) :: (a, c) :: ap). split; [|split; [cbn [length]; lia|]].
      { apply (@ap_step m (a :: L) L r c a ca ap); auto; try (cbn; auto; fail); intros x Hx; cbn; auto. }
      intros [|fuel] p count F Lp Ep Fit; [cbn in F; lia|]. cbn [build_path]. cbn [length] in F, Fit.
      rewrite (get_ok p (0,0) (i:=count)) by lia. cbn [bind]. rewrite Ep. cbn [snd].
      unfold find_star_in_col. destruct (@first_in_col_ok n c0 m 1 c Sm Hc) as (o & Eo & Ho). rewrite Eo; cbn [bind].
      destruct o as [i|]; [|exfalso; apply (Ho a); auto]. destruct Ho as [Hi Ei].
      assert (i = a) as -> by (apply (proj2 M i a c); auto).
      destruct (@set_ok _ p (count + 1) (a, c) (0,0)) as (p1 & E1 & L1 & H1); [lia|]. rewrite E1; cbn [bind].
      unfold find_prime_in_row. destruct (@first_in_row_ok n c0 m 2 a Sm Ha) as (o & Eo' & Ho'). rewrite Eo'; cbn [bind].
      destruct o as [j|]; [|exfalso; apply (Ho' ca); auto]. destruct Ho' as [Hj Ej].
      assert (j = ca) as -> by (apply (ONE a Ha); auto).
      destruct (@set_ok _ p1 (count + 2) (a, ca) (0,0)) as (p2 & E2 & L2 & H2); [lia|]. rewrite E2; cbn [bind].
      destruct (BP fuel p2 (count + 2)) as (p' & EB & LB & K1 & K2); try lia.
      { rewrite H2, Nat.eqb_refl. auto. }
      exists p'. split; [rewrite EB; f_equal; f_equal; cbn [length]; lia|].
      split; auto. split.
      * intros k Hk. rewrite K1 by lia. rewrite H2, H1.
        destruct (Nat.eqb_spec k (count + 2)); [lia|]. destruct (Nat.eqb_spec k (count + 1)); [lia|]. auto.
      * intros k Hk. destruct k as [|[|k]].
        -- rewrite Nat.add_0_r. rewrite K1 by lia. rewrite H2, H1.
           destruct (Nat.eqb_spec count (count + 2)); [lia|]. destruct (Nat.eqb_spec count (count + 1)); [lia|]. auto.
        -- rewrite K1 by lia. rewrite H2, H1.
           destruct (Nat.eqb_spec (count + 1) (count + 2)); [lia|]. rewrite Nat.eqb_refl. auto.
        -- replace (count + S (S k)) with (count + 2 + k) by lia. rewrite K2 by (cbn [length] in Hk; lia). auto.
    + destruct (IH r c Hr Hc E NDL ltac:(intros; apply HL; cbn; auto)) as (ap & AP & NE & BP); auto.
      { intros X; apply NI; cbn; auto. }
      { intros i Hi X. destruct (NX i Hi X) as [->|]; auto. congruence. }
      exists ap. split; [|split; [cbn [length]; lia|]].
      * inversion AP; subst; [apply ap_end; auto|].
        eapply ap_step; eauto; try (cbn; auto; fail); intros x Hx; cbn; auto.
      * intros fuel p count F Lp Ep Fit. apply BP; auto; cbn [length] in *; lia.
Qed.

Lemma convert_eq m p ap count : length ap = count + 1 -> count < length p ->
  (forall k, k < length ap -> nth k p (0,0) = nth k ap (0,0)) ->
  convert_path m p count = foldM toggle m ap.
Proof.
  intros La Lp H. unfold convert_path. rewrite <- La.
  assert (G : forall l a m, (forall k, k < length l -> get p (a + k) = Ok (nth k l (0,0))) ->
    foldM (convert_cell p) m (seq a (length l)) = foldM toggle m l).
  { clear. induction l as [|q l IH]; intros a m H; cbn [length seq foldM]; auto.
    assert (X := H 0 ltac:(cbn; lia)). rewrite Nat.add_0_r in X. cbn [nth] in X.
    unfold convert_cell at 1. rewrite X. cbn [bind]. unfold toggle at 1.
    destruct (mget m (fst q) (snd q)) as [v|]; cbn [bind]; auto.
    destruct (mset m (fst q) (snd q) _) as [m'|]; cbn [bind]; auto. apply IH.
    intros k Hk. specialize (H (S k) ltac:(cbn; lia)). replace (S a + k) with (a + S k) by lia. exact H. }
  apply G. intros k Hk. rewrite <- H by auto. apply get_ok. lia.
Qed.

Lemma step5_ok L s : inv5 n c0 L s -> exists s', step5 n (n + 1) s = Ok s' /\ inv3 n c0 s' /\
  length (stars (marked s')) = length (stars (marked s)) + 1.
Proof.
  intros [B ND HL Zr Zc Ez NI NR NX ONE CH]. destruct B as [Sh D M Zs]. unfold step5.
  assert (LL : length L < n).
  { assert (X : length (fst (z0 s) :: L) <= n); [|cbn in X; lia]. apply L_len; [constructor; auto|].
    intros i [<-|Hi]; auto. }
  destruct (@set_ok _ (path s) 0 (z0 s) (0,0)) as (p0 & E0 & L0 & H0); [rewrite (sh_p Sh); lia|]. rewrite E0; cbn [bind].
  destruct (@build_ok (marked s) L (sh_m Sh) M ONE (fst (z0 s)) (snd (z0 s)) Zr Zc Ez ND HL NI CH NX) as (ap & AP & NE & BP).
  destruct (BP (n + 1) p0 0) as (p' & EB & LB & _ & K); try lia.
  { rewrite L0. apply Sh. }
  { rewrite H0. cbn. now destruct (z0 s). }
  rewrite EB; cbn [bind fst snd]. cbn [Nat.add] in *.
  rewrite (@convert_eq (marked s) p' ap (length ap - 1)) by (auto; lia).
  destruct (augment AP (sh_m Sh) M NR) as (m1 & E1 & S1 & M1 & C1 & Z1). rewrite E1; cbn [bind].
  destruct (@clear_ok n (with_path (with_marked s m1) p')) as (s1 & E2 & Sh1 & Ec & Em & RC & CC).
  { destruct Sh. constructor; cbn; auto. }
  rewrite E2; cbn [bind]. unfold erase_primes. rewrite Em. cbn [with_path with_marked marked].
  destruct (@for_cells_ok _ 0 n m1 (fun _ _ v => Ok (if v =? 2 then 0 else v)) (fun _ _ v => if v =? 2 then 0 else v) S1)
    as (m2 & E3 & S2 & H2); [auto|]. rewrite E3; cbn [bind]. eexists; split; [reflexivity|].
  assert (ST : forall i j, i < n -> j < n -> me m2 i j = 1 <-> me m1 i j = 1).
  { intros i j Hi Hj. rewrite H2 by auto. destruct (Nat.eqb_spec (me m1 i j) 2) as [->|]; [|tauto]. split; discriminate. }
  assert (NP : forall i j, i < n -> j < n -> me m2 i j <> 2).
  { intros i j Hi Hj. rewrite H2 by auto. destruct (Nat.eqb_spec (me m1 i j) 2) as [|]; auto. }
  split.
  - split; [|split; [|split]].
    + constructor; cbn.
      * destruct Sh1. constructor; cbn; auto.
      * rewrite Ec. exact D.
      * eapply matching_ext; eauto.
      * intros i j Hi Hj. cbn. rewrite Ec. cbn. intros X. apply Zs; auto. apply Z1; auto.
        rewrite H2 in X by auto. destruct (Nat.eqb_spec (me m1 i j) 2); lia.
    + intros i. apply RC.
    + intros j. apply CC.
    + cbn. auto.
  - cbn. rewrite (stars_ext m2 m1 ST) || rewrite (stars_ext _ _ ST). lia.
Qed.
End Inv.
