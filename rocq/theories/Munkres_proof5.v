(** Munkres: padding, results, optimality. *)
From Coq Require Import Permutation Sorted.
From Verif Require Import Py PyLemmas Munkres_model Munkres_spec Munkres_proof1 Munkres_proof2 Munkres_proof3 Munkres_proof4.
Set Implicit Arguments.
Notation ce := (ent 0%Z).
Notation me := (ent 0).

(** sums *)
Definition zsum (l : list Z) := fold_right Z.add 0%Z l.
Lemma zsum_app a b : zsum (a ++ b) = (zsum a + zsum b)%Z.
Proof. induction a as [|x a IH]; cbn; [auto|]. unfold zsum in *. lia. Qed.
Lemma zsum_perm a b : Permutation a b -> zsum a = zsum b.
Proof. intros H. induction H; cbn; unfold zsum in *; lia. Qed.
Lemma zsum_map_add {X} (f g : X -> Z) l : zsum (map (fun x => f x + g x)%Z l) = (zsum (map f l) + zsum (map g l))%Z.
Proof. induction l as [|x l IH]; cbn; auto. unfold zsum in *. lia. Qed.
Lemma zsum_le {X} (f g : X -> Z) l : (forall x, In x l -> f x <= g x)%Z -> (zsum (map f l) <= zsum (map g l))%Z.
Proof.
  induction l as [|x l IH]; intros H; cbn; [lia|]. specialize (IH ltac:(intros; apply H; cbn; auto)).
  specialize (H x ltac:(cbn; auto)). unfold zsum in *. lia.
Qed.
Lemma zsum_eq {X} (f g : X -> Z) l : (forall x, In x l -> f x = g x) -> zsum (map f l) = zsum (map g l).
Proof. intros H. f_equal. now apply map_ext_in. Qed.
Lemma zsum_filter {X} (f : X -> Z) (b : X -> bool) l : (forall x, In x l -> b x = false -> f x = 0%Z) ->
  zsum (map f (filter b l)) = zsum (map f l).
Proof.
  induction l as [|x l IH]; intros H; cbn; auto. specialize (IH ltac:(intros; apply H; cbn; auto)).
  specialize (H x ltac:(cbn; auto)). destruct (b x); cbn; unfold zsum in *; [lia|]. rewrite (H eq_refl). lia.
Qed.

(** padding *)
Lemma max_columns_rect cm r c : rectangular r c cm -> 0 < r -> max_columns cm = c.
Proof.
  intros [H1 H2] Hr. unfold max_columns.
  assert (G : forall l acc, (forall row, In row l -> length row = c) ->
    fold_left (fun acc (row : list Z) => Nat.max acc (length row)) l acc = if length l =? 0 then acc else Nat.max acc c).
  { induction l as [|row l IH]; intros acc H; cbn [fold_left length Nat.eqb]; auto.
    rewrite IH by (intros; apply H; cbn; auto). rewrite (H row) by (cbn; auto).
    destruct (length l =? 0); lia. }
  rewrite G by auto. destruct (Nat.eqb_spec (length cm) 0); lia.
Qed.
Lemma pad_rect cm r c : rectangular r c cm -> 0 < r ->
  sq (Nat.max r c) (pad_matrix cm) /\ length (pad_matrix cm) = Nat.max r c /\
  forall i j, i < Nat.max r c -> j < Nat.max r c ->
   ce (pad_matrix cm) i j = if (i <? r) && (j <? c) then entry cm (i, j) else 0%Z.
Proof.
  intros H Hr. unfold pad_matrix. rewrite (max_columns_rect H Hr). destruct H as [H1 H2].
  rewrite H1. rewrite (Nat.max_comm c r). set (N := Nat.max r c).
  assert (LEN : length (map (fun row => row ++ repeat 0%Z (N - length row)) cm ++ repeat (repeat 0%Z N) (N - r)) = N).
  { rewrite app_length, map_length, repeat_length, H1. unfold N; lia. }
  assert (ROW : forall i, i < N ->
    nth i (map (fun row => row ++ repeat 0%Z (N - length row)) cm ++ repeat (repeat 0%Z N) (N - r)) [] =
    if i <? r then nth i cm [] ++ repeat 0%Z (N - c) else repeat 0%Z N).
  { intros i Hi. destruct (Nat.ltb_spec i r) as [Lt|Ge].
    - rewrite app_nth1 by (rewrite map_length; lia).
      pose (f := fun row => row ++ repeat 0%Z (N - length row)). change (fun row => row ++ repeat 0%Z (N - length row)) with f.
      rewrite (nth_indep (map f cm) [] (f [])) by (rewrite map_length; lia).
      rewrite (map_nth f cm [] i). unfold f. rewrite (H2 (nth i cm [])); auto. apply nth_In. lia.
    - rewrite app_nth2 by (rewrite map_length; lia). rewrite map_length, H1.
      rewrite (nth_indep _ [] (repeat 0%Z N)) by (rewrite repeat_length; lia). apply nth_repeat. }
  split; [|split; auto].
  - split; auto. intros i Hi. rewrite ROW by auto. destruct (Nat.ltb_spec i r) as [Lt|Ge].
    + rewrite app_length, repeat_length, (H2 (nth i cm [])); [unfold N; lia|]. apply nth_In. lia.
    + apply repeat_length.
  - intros i j Hi Hj. unfold ent, entry. rewrite ROW by auto. cbn [fst snd].
    destruct (Nat.ltb_spec i r) as [Lt|Ge]; cbn [andb].
    + assert (L : length (nth i cm []) = c) by (apply H2, nth_In; lia).
      destruct (Nat.ltb_spec j c).
      * now rewrite app_nth1 by lia.
      * rewrite app_nth2 by lia. apply nth_repeat.
    + apply nth_repeat.
Qed.

(** results *)
Lemma results_ok n m r c : sq n m -> r <= n -> c <= n ->
  results m r c = Ok (filter (fun p => me m (fst p) (snd p) =? 1) (list_prod (seq 0 r) (seq 0 c))).
Proof.
  intros Sm Hr Hc. unfold results. rewrite (foldM_prod (fun acc i j => result_cell m i acc j)).
  destruct (@foldM_prefix _ (nat*nat) (fun acc p => result_cell m (fst p) acc (snd p))
    (fun done acc => acc = filter (fun p => me m (fst p) (snd p) =? 1) done)
    (list_prod (seq 0 r) (seq 0 c)) []) as (x & E & H); [reflexivity| |rewrite E; now subst].
  intros done [i j] rest acc E H. cbn [fst snd].
  assert (Hij : i < r /\ j < c).
  { assert (X : In (i, j) (list_prod (seq 0 r) (seq 0 c))) by (rewrite E; apply in_or_app; cbn; auto).
    apply in_prod_iff in X. rewrite !in_seq in X. lia. }
  unfold result_cell. rewrite (mget_ok 0 Sm) by lia. cbn [bind]. eexists; split; [reflexivity|].
  rewrite filter_snoc. cbn [fst snd]. subst acc. destruct (me m i j =? 1); auto. now rewrite app_nil_r.
Qed.

Section Final.
Variables r c : nat.
Variable cm : list (list Z).
Hypothesis rect : rectangular r c cm.
Hypothesis r_pos : 0 < r.
Notation n := (Nat.max r c).
Definition c0 i j := ce (pad_matrix cm) i j.
Variable s : mstate.
Hypothesis B : base n c0 s.
Hypothesis FULL : n <= length (stars n (marked s)).
Notation F := (stars n (marked s)).
Definition block := filter (fun p => me (marked s) (fst p) (snd p) =? 1) (list_prod (seq 0 r) (seq 0 c)).

Lemma in_block i j : In (i, j) block <-> i < r /\ j < c /\ me (marked s) i j = 1.
Proof. unfold block. rewrite filter_In, in_prod_iff, !in_seq. cbn. rewrite Nat.eqb_eq. intuition lia. Qed.
Lemma nodup_map_fst (l : list (nat * nat)) : NoDup l ->
  (forall i j j', In (i, j) l -> In (i, j') l -> j = j') -> NoDup (map fst l).
Proof.
  induction l as [|[i j] l IH]; intros N H; cbn; [constructor|]. inversion N; subst. constructor.
  - intros X. apply in_map_iff in X as ([i' j'] & E & X). cbn in E. subst i'.
    assert (j = j') by (apply (H i); cbn; auto). subst. auto.
  - apply IH; auto. intros i' j1 j2 X Y. apply (H i'); cbn; auto.
Qed.
Lemma nodup_map_snd (l : list (nat * nat)) : NoDup l ->
  (forall i i' j, In (i, j) l -> In (i', j) l -> i = i') -> NoDup (map snd l).
Proof.
  induction l as [|[i j] l IH]; intros N H; cbn; [constructor|]. inversion N; subst. constructor.
  - intros X. apply in_map_iff in X as ([i' j'] & E & X). cbn in E. subst j'.
    assert (i = i') by (apply (H i i' j); cbn; auto). subst. auto.
  - apply IH; auto. intros i1 i2 j' X Y. apply (H i1 i2 j'); cbn; auto.
Qed.
Lemma M1 i j j' : i < n -> j < n -> j' < n -> me (marked s) i j = 1 -> me (marked s) i j' = 1 -> j = j'.
Proof. apply (proj1 (b_match B)). Qed.
Lemma M2 i i' j : i < n -> i' < n -> j < n -> me (marked s) i j = 1 -> me (marked s) i' j = 1 -> i = i'.
Proof. apply (proj2 (b_match B)). Qed.
Lemma F_fst : NoDup (map fst F).
Proof.
  apply nodup_map_fst; [apply NoDup_filter, nodup_cells|].
  intros i j j' X Y. apply in_stars in X as (? & ? & ?). apply in_stars in Y as (? & ? & ?). apply (@M1 i); auto.
Qed.
Lemma F_snd : NoDup (map snd F).
Proof.
  apply nodup_map_snd; [apply NoDup_filter, nodup_cells|].
  intros i i' j X Y. apply in_stars in X as (? & ? & ?). apply in_stars in Y as (? & ? & ?). apply (@M2 i i' j); auto.
Qed.
Lemma F_perm_fst : Permutation (map fst F) (seq 0 n).
Proof.
  apply NoDup_Permutation_bis; [apply F_fst|rewrite seq_length, map_length; exact FULL|].
  intros i X. apply in_map_iff in X as ([i' j'] & <- & X). apply in_stars in X. apply in_seq. cbn. lia.
Qed.
Lemma F_perm_snd : Permutation (map snd F) (seq 0 n).
Proof.
  apply NoDup_Permutation_bis; [apply F_snd|rewrite seq_length, map_length; exact FULL|].
  intros i X. apply in_map_iff in X as ([i' j'] & <- & X). apply in_stars in X. apply in_seq. cbn. lia.
Qed.
Lemma block_nodup : NoDup block.
Proof. apply NoDup_filter, nodup_prod; apply seq_NoDup. Qed.
Lemma block_complete : complete r c block.
Proof.
  assert (BF : NoDup (map fst block)).
  { apply nodup_map_fst; [apply block_nodup|].
    intros i j j' X Y. apply in_block in X as (? & ? & ?). apply in_block in Y as (? & ? & ?). apply (@M1 i); auto; lia. }
  assert (BS : NoDup (map snd block)).
  { apply nodup_map_snd; [apply block_nodup|].
    intros i i' j X Y. apply in_block in X as (? & ? & ?). apply in_block in Y as (? & ? & ?). apply (@M2 i i' j); auto; lia. }
  split; [split; [|split; auto]|].
  - intros i j X. apply in_block in X. tauto.
  - destruct (Nat.le_ge_cases r c) as [Le|Ge].
    + rewrite Nat.min_l by auto. apply Nat.le_antisymm.
      * rewrite <- (map_length fst), <- (seq_length r 0). apply NoDup_incl_length; auto.
        intros i X. apply in_map_iff in X as ([i' j'] & <- & X). apply in_block in X. apply in_seq. cbn. lia.
      * rewrite <- (map_length fst), <- (seq_length r 0) at 1. apply NoDup_incl_length; [apply seq_NoDup|].
        intros i X. apply in_seq in X.
        assert (Y : In i (map fst F)).
        { eapply Permutation_in; [apply Permutation_sym, F_perm_fst|]. apply in_seq. lia. }
        apply in_map_iff in Y as ([i' j] & E & Y). cbn in E; subst i'. apply in_stars in Y.
        apply in_map_iff. exists (i, j). split; auto. apply in_block. split; [lia|]. split; [lia|tauto].
    + rewrite Nat.min_r by auto. apply Nat.le_antisymm.
      * rewrite <- (map_length snd), <- (seq_length c 0). apply NoDup_incl_length; auto.
        intros i X. apply in_map_iff in X as ([i' j'] & <- & X). apply in_block in X. apply in_seq. cbn. lia.
      * rewrite <- (map_length snd), <- (seq_length c 0) at 1. apply NoDup_incl_length; [apply seq_NoDup|].
        intros j X. apply in_seq in X.
        assert (Y : In j (map snd F)).
        { eapply Permutation_in; [apply Permutation_sym, F_perm_snd|]. apply in_seq. lia. }
        apply in_map_iff in Y as ([i j'] & E & Y). cbn in E; subst j'. apply in_stars in Y.
        apply in_map_iff. exists (i, j). split; auto. apply in_block. split; [lia|]. split; [lia|tauto].
Qed.

Lemma sorted_le_nodup l : StronglySorted le l -> NoDup l -> StronglySorted lt l.
Proof.
  induction 1 as [|x l S IH F0]; intros N; constructor; inversion N; subst; auto.
  rewrite Forall_forall in *. intros y Hy. specialize (F0 y Hy).
  destruct (Nat.eq_dec x y); [subst; contradiction|lia].
Qed.
Lemma sorted_app_le (a b : list nat) : StronglySorted le a -> StronglySorted le b ->
  (forall x y, In x a -> In y b -> x <= y) -> StronglySorted le (a ++ b).
Proof.
  intros Sa Sb H. induction Sa as [|x a Sa IH Fa]; cbn; auto. constructor.
  - apply IH. intros u v U V. apply H; cbn; auto.
  - apply Forall_app. split; auto. apply Forall_forall. intros y Hy. apply H; cbn; auto.
Qed.
Lemma prod_sorted (f : nat * nat -> bool) l2 : forall k i, StronglySorted le (map fst (filter f (list_prod (seq i k) l2))).
Proof.
  induction k as [|k IH]; intros i; cbn [seq list_prod]; [constructor|].
  rewrite filter_app, map_app. apply sorted_app_le; auto.
  - assert (G : forall l, StronglySorted le (map fst (filter f (map (fun y => (i, y)) l)))
        /\ forall x, In x (map fst (filter f (map (fun y => (i, y)) l))) -> x = i).
    { induction l as [|y l [IH1 IH2]]; cbn [map filter]; [split; [constructor|contradiction]|].
      destruct (f (i, y)); cbn [map fst]; auto. split.
      - constructor; auto. apply Forall_forall. intros x X. rewrite (IH2 x X). lia.
      - intros x [X|X]; auto. }
    apply G.
  - intros x y X Y. apply in_map_iff in X as ([a b] & <- & X). apply filter_In in X as [X _].
    apply in_map_iff in X as (z & E & _). injection E as <- <-.
    apply in_map_iff in Y as ([a' b'] & <- & Y). apply filter_In in Y as [Y _].
    apply in_prod_iff in Y. rewrite in_seq in Y. cbn. lia.
Qed.
Lemma block_sorted : StronglySorted lt (map fst block).
Proof. apply sorted_le_nodup; [apply prod_sorted|]. apply block_complete. Qed.

Lemma c0_eq i j : i < n -> j < n -> c0 i j = if (i <? r) && (j <? c) then entry cm (i, j) else 0%Z.
Proof. intros. unfold c0. apply pad_rect; auto. Qed.

Definition W (p : nat * nat) := c0 (fst p) (snd p).
Lemma block_total : total cm block = zsum (map W F).
Proof.
  rewrite <- (@zsum_filter _ W (fun p => (fst p <? r) && (snd p <? c)) F).
  2:{ intros [i j] X Hb. apply in_stars in X as (? & ? & _). unfold W. cbn [fst snd] in *. rewrite c0_eq by auto. now rewrite Hb. }
  - assert (P : Permutation block (filter (fun p => (fst p <? r) && (snd p <? c)) F)).
    { apply NoDup_Permutation; [apply block_nodup|apply NoDup_filter, NoDup_filter, nodup_cells|].
      intros [i j]. rewrite in_block, filter_In. rewrite in_stars. cbn [fst snd].
      rewrite andb_true_iff, !Nat.ltb_lt. intuition lia. }
    unfold total. fold (zsum (map (entry cm) block)).
    rewrite <- (zsum_perm (Permutation_map W P)). apply zsum_eq. intros [i j] X. apply in_block in X as (? & ? & _).
    unfold W. cbn [fst snd]. rewrite c0_eq by lia.
    rewrite (proj2 (Nat.ltb_lt i r)), (proj2 (Nat.ltb_lt j c)) by auto. reflexivity.
Qed.

Lemma unused_perm (l : list nat) : NoDup l -> (forall x, In x l -> x < n) ->
  Permutation (seq 0 n) (l ++ filter (fun x => negb (mem Nat.eqb x l)) (seq 0 n)).
Proof.
  intros N H. apply NoDup_Permutation.
  - apply seq_NoDup.
  - apply nodup_app; auto; [apply NoDup_filter, seq_NoDup|].
    intros x Hx Y. apply filter_In in Y as [_ Y]. rewrite (proj2 (mem_spec Nat.eqb Nat.eqb_eq x l) Hx) in Y. discriminate.
  - intros x. rewrite in_app_iff, filter_In. destruct (mem Nat.eqb x l) eqn:E.
    + apply (mem_spec Nat.eqb Nat.eqb_eq) in E. cbn. rewrite in_seq. specialize (H x E). intuition lia.
    + cbn. split; auto. intros [X|X]; [|tauto]. apply (mem_spec Nat.eqb Nat.eqb_eq) in X. congruence.
Qed.

Lemma zsum_pair (u v : nat -> Z) : forall a b : list nat, length a = length b ->
  (forall i j, In i a -> In j b -> (u i + v j <= 0)%Z) -> (zsum (map u a) + zsum (map v b) <= 0)%Z.
Proof.
  induction a as [|x a IH]; intros [|y b] L H; cbn [length] in L; [cbn; lia|lia|lia|].
  specialize (IH b ltac:(cbn in L; lia) ltac:(intros; apply H; cbn; auto)).
  specialize (H x y ltac:(cbn; auto) ltac:(cbn; auto)). cbn. unfold zsum in *. lia.
Qed.

Lemma optimal a : complete r c a -> (total cm block <= total cm a)%Z.
Proof.
  intros [[HA [NF NS]] LA]. rewrite block_total.
  destruct (b_dual B) as (u & v & D).
  assert (S1 : zsum (map W F) = (zsum (map u (seq 0 n)) + zsum (map v (seq 0 n)))%Z).
  { rewrite <- (zsum_perm (Permutation_map u F_perm_fst)), <- (zsum_perm (Permutation_map v F_perm_snd)).
    rewrite !map_map, <- zsum_map_add. apply zsum_eq. intros [i j] X. apply in_stars in X as (Hi & Hj & E).
    unfold W. cbn [fst snd]. destruct (D i j Hi Hj) as [D1 _]. rewrite (b_zero B Hi Hj) in D1 by auto. lia. }
  assert (A1 : forall x, In x (map fst a) -> x < r).
  { intros x X. apply in_map_iff in X as ([i j] & <- & X). apply HA in X. cbn; lia. }
  assert (A2 : forall x, In x (map snd a) -> x < c).
  { intros x X. apply in_map_iff in X as ([i j] & <- & X). apply HA in X. cbn; lia. }
  pose proof (@unused_perm (map fst a) NF ltac:(intros x X; specialize (A1 x X); lia)) as P1.
  pose proof (@unused_perm (map snd a) NS ltac:(intros x X; specialize (A2 x X); lia)) as P2.
  set (UR := filter (fun x => negb (mem Nat.eqb x (map fst a))) (seq 0 n)) in *.
  set (UC := filter (fun x => negb (mem Nat.eqb x (map snd a))) (seq 0 n)) in *.
  assert (LU : length UR = length UC).
  { apply Permutation_length in P1. apply Permutation_length in P2. rewrite app_length, map_length in P1, P2. lia. }
  rewrite (zsum_perm (Permutation_map u P1)), (zsum_perm (Permutation_map v P2)) in S1.
  rewrite !map_app, !zsum_app in S1.
  assert (U0 : (zsum (map u UR) + zsum (map v UC) <= 0)%Z).
  { apply zsum_pair; auto. intros i j Hi Hj. apply filter_In in Hi as [Hi Ni]. apply filter_In in Hj as [Hj Nj].
    apply in_seq in Hi. apply in_seq in Hj.
    destruct (D i j ltac:(lia) ltac:(lia)) as [D1 D2]. rewrite c0_eq in D1 by lia.
    assert (Z : (i <? r) && (j <? c) = false).
    { apply andb_false_iff. rewrite !Nat.ltb_ge. destruct (Nat.le_ge_cases r c) as [Le|Ge]; [left|right].
      - destruct (Nat.le_gt_cases r i); auto. exfalso.
        assert (X : In i (map fst a)).
        { apply (@NoDup_length_incl _ (map fst a) (seq 0 r)); auto.
          - rewrite seq_length, map_length. lia.
          - intros x X. apply in_seq. specialize (A1 x X). lia.
          - apply in_seq. lia. }
        apply (mem_spec Nat.eqb Nat.eqb_eq) in X. rewrite X in Ni. discriminate.
      - destruct (Nat.le_gt_cases c j); auto. exfalso.
        assert (X : In j (map snd a)).
        { apply (@NoDup_length_incl _ (map snd a) (seq 0 c)); auto.
          - rewrite seq_length, map_length. lia.
          - intros x X. apply in_seq. specialize (A2 x X). lia.
          - apply in_seq. lia. }
        apply (mem_spec Nat.eqb Nat.eqb_eq) in X. rewrite X in Nj. discriminate. }
    rewrite Z in D1. lia. }
  assert (TA : (zsum (map u (map fst a)) + zsum (map v (map snd a)) <= total cm a)%Z).
  { rewrite !map_map, <- zsum_map_add. unfold total. fold (zsum (map (entry cm) a)). apply zsum_le.
    intros [i j] X. destruct (HA i j X) as [Hi Hj]. cbn [fst snd].
    destruct (D i j ltac:(lia) ltac:(lia)) as [D1 D2]. rewrite c0_eq in D1 by lia.
    rewrite (proj2 (Nat.ltb_lt i r)), (proj2 (Nat.ltb_lt j c)) in D1 by auto. cbn [andb] in D1. lia. }
  lia.
Qed.
End Final.

Lemma compute_correct maxint cm r c : (0 < maxint)%Z -> rectangular r c cm -> 0 < r ->
  exists fuel result, (forall fuel', fuel <= fuel' -> compute maxint fuel' cm = Ok result) /\
    complete r c result /\ StronglySorted lt (map fst result) /\ forall a, complete r c a -> (total cm result <= total cm a)%Z.
Proof.
  intros MP RE Hr. destruct (pad_rect RE Hr) as (Sq & Len & _).
  assert (SH : shape (Nat.max r c) (initial (pad_matrix cm))).
  { unfold initial. rewrite Len. constructor; cbn; auto; try apply repeat_length. apply sq_repeat. }
  destruct (@fin1 (Nat.max r c) maxint MP (c0 cm) (initial (pad_matrix cm))) as (fuel & s & E & B & FULL); auto.
  { lia. }
  { intros i j. unfold initial; cbn. apply ent_repeat. }
  exists fuel, (block r c s). split; [|split; [|split]].
  - intros fuel' Le. unfold compute.
    assert (R0 : get cm 0 = Ok (nth 0 cm [])) by (apply get_ok; destruct RE; lia).
    rewrite R0; cbn [bind]. rewrite Len. rewrite (@run_mono _ _ _ _ _ _ _ E Le). cbn [bind].
    destruct RE as [H1 H2]. rewrite H1, (H2 (nth 0 cm [])) by (apply nth_In; lia).
    apply results_ok with (n := Nat.max r c); [apply (b_shape B)|lia|lia].
  - eapply block_complete; eauto.
  - eapply block_sorted; eauto.
  - intros a. eapply optimal; eauto.
Qed.
Lemma compute_empty maxint fuel : compute maxint fuel [] = Err IndexError.
Proof. reflexivity. Qed.

(** maximal profit *)
Lemma make_cost_rect {A} (f : A -> Z) (cm : list (list A)) r c :
  length cm = r -> (forall row, In row cm -> length row = c) -> rectangular r c (make_cost_matrix cm f).
Proof.
  intros H1 H2. unfold make_cost_matrix. split; [now rewrite map_length|].
  intros row X. apply in_map_iff in X as (row' & <- & X). rewrite map_length. auto.
Qed.
Lemma entry_invert K (pm : list (list Z)) r c i j : rectangular r c pm -> i < r -> j < c ->
  entry (make_cost_matrix pm (fun x => K - x)%Z) (i, j) = (K - entry pm (i, j))%Z.
Proof.
  intros [H1 H2] Hi Hj. unfold entry, make_cost_matrix. cbn [fst snd].
  set (f := fun x => (K - x)%Z). change (@nil Z) with (map f []) at 1. rewrite map_nth.
  assert (L : length (nth i pm []) = c) by (apply H2, nth_In; lia).
  rewrite (nth_indep _ 0%Z (f 0%Z)) by (rewrite map_length; lia). rewrite map_nth. reflexivity.
Qed.
Lemma total_invert K pm r c a : rectangular r c pm -> (forall i j, In (i, j) a -> i < r /\ j < c) ->
  total (make_cost_matrix pm (fun x => K - x)%Z) a = (K * Z.of_nat (length a) - total pm a)%Z.
Proof.
  intros R. unfold total. induction a as [|[i j] a IH]; intros H; cbn [map fold_right length]; [lia|].
  rewrite IH by (intros; apply H; cbn; auto). destruct (H i j ltac:(cbn; auto)) as [Hi Hj].
  rewrite (entry_invert K R Hi Hj). lia.
Qed.
Lemma compute_profit maxint K pm r c : (0 < maxint)%Z -> rectangular r c pm -> 0 < r ->
  exists fuel result, (forall fuel', fuel <= fuel' -> compute maxint fuel' (make_cost_matrix pm (fun x => K - x)%Z) = Ok result) /\
    complete r c result /\ forall a, complete r c a -> (total pm a <= total pm result)%Z.
Proof.
  intros MP R Hr. destruct R as [R1 R2]. pose proof (make_cost_rect (fun x => K - x)%Z pm R1 R2) as R'.
  destruct (compute_correct MP R' Hr) as (fuel & result & E & C & _ & O).
  exists fuel, result. split; auto. split; auto. intros a Ca. specialize (O a Ca).
  rewrite (@total_invert K pm r c) in O; [|split; auto|apply C].
  rewrite (@total_invert K pm r c) in O; [|split; auto|apply Ca].
  destruct C as [_ C]. destruct Ca as [_ Ca]. rewrite C, Ca in O. lia.
Qed.

Lemma compute_unique maxint cm f1 f2 x y : compute maxint f1 cm = Ok x -> f1 <= f2 -> compute maxint f2 cm = Ok y -> x = y.
Proof.
  unfold compute. intros E Le. destruct (get cm 0) as [row|]; cbn [bind] in *; [|discriminate].
  destruct (run _ _ f1 _ _) as [s|] eqn:R; cbn [bind] in *; [|discriminate].
  rewrite (@run_mono _ _ _ _ _ _ _ R Le). cbn [bind]. congruence.
Qed.
Lemma compute_same maxint cm fuel result f0 r0 : compute maxint fuel cm = Ok result ->
  (forall f, f0 <= f -> compute maxint f cm = Ok r0) -> result = r0.
Proof.
  intros E H. apply (@compute_unique maxint cm fuel (Nat.max fuel f0)); auto; [lia|apply H; lia].
Qed.
Lemma compute_complete maxint cm r c fuel result : (0 < maxint)%Z -> rectangular r c cm -> 0 < r ->
  compute maxint fuel cm = Ok result -> complete r c result /\ StronglySorted lt (map fst result).
Proof.
  intros MP R Hr E. destruct (compute_correct MP R Hr) as (f0 & r0 & H & C & S & O).
  rewrite (@compute_same _ _ _ _ _ _ E H). auto.
Qed.
Lemma compute_minimum maxint cm r c fuel result : (0 < maxint)%Z -> rectangular r c cm -> 0 < r ->
  compute maxint fuel cm = Ok result -> forall a, complete r c a -> (total cm result <= total cm a)%Z.
Proof.
  intros MP R Hr E. destruct (compute_correct MP R Hr) as (f0 & r0 & H & C & S & O).
  rewrite (@compute_same _ _ _ _ _ _ E H). auto.
Qed.
Lemma compute_maximum maxint K pm r c fuel result : (0 < maxint)%Z -> rectangular r c pm -> 0 < r ->
  compute maxint fuel (make_cost_matrix pm (fun x => K - x)%Z) = Ok result ->
  complete r c result /\ forall a, complete r c a -> (total pm a <= total pm result)%Z.
Proof.
  intros MP R Hr E. destruct (compute_profit K MP R Hr) as (f0 & r0 & H & C & O).
  rewrite (@compute_same _ _ _ _ _ _ E H). auto.
Qed.
Lemma compute_terminates maxint cm r c : (0 < maxint)%Z -> rectangular r c cm -> 0 < r ->
  exists fuel result, forall fuel', fuel <= fuel' -> compute maxint fuel' cm = Ok result.
Proof. intros H1 H2 H3. destruct (compute_correct H1 H2 H3) as (f & r0 & H & _). eauto. Qed.
