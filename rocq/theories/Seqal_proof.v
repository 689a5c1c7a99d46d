From Verif Require Import Py PyLemmas Seqal_spec Seqal_model.
Open Scope nat_scope.
Set Implicit Arguments.
(** ** scores *)
Section Scores.
Variable A : Type.
Variables (sim : A -> A -> Z) (gap : A -> Z).
Variables (s1 s2 : list A).
Definition gat (s : list A) (k : nat) : Z := match nth_error s k with Some a => gap a | None => 0%Z end.
Lemma total_app l1 l2 : total (l1 ++ l2) = (total l1 + total l2)%Z.
Proof. unfold total. induction l1 as [|x l IH]; cbn [fold_right app]; lia. Qed.
Lemma used_spec k used : existsb (Nat.eqb k) used = true <-> In k used.
Proof.
  rewrite existsb_exists. split; [intros (x & H & E); apply Nat.eqb_eq in E; now subst|]. intros H. exists k. split; auto. apply Nat.eqb_refl.
Qed.
Lemma gaps_snoc s used k0 k : k0 <= k -> gaps gap s used k0 (S k) = (gaps gap s used k0 k + if existsb (Nat.eqb k) used then 0 else gat s k)%Z.
Proof.
  intros H. unfold gaps. replace (S k - k0) with (S (k - k0)) by lia. rewrite seq_S, map_app, total_app. cbn [map]. f_equal.
  replace (k0 + (k - k0)) with k by lia. unfold total. cbn [fold_right]. fold (gat s k). lia.
Qed.
Lemma gaps_ext s used used' k0 k1 : (forall k, k0 <= k < k1 -> In k used <-> In k used') -> gaps gap s used k0 k1 = gaps gap s used' k0 k1.
Proof.
  intros H. unfold gaps. f_equal. apply map_ext_in. intros k Hk. apply in_seq in Hk.
  assert (existsb (Nat.eqb k) used = existsb (Nat.eqb k) used') as ->; auto.
  apply eq_true_iff_eq. rewrite !used_spec. apply H. lia.
Qed.
Lemma gaps_empty s used k0 k1 : k1 <= k0 -> gaps gap s used k0 k1 = 0%Z.
Proof. intros H. unfold gaps. replace (k1 - k0) with 0 by lia. reflexivity. Qed.
Lemma inc_le al : forall i0 i1 j0 j1, increasing_in i0 i1 j0 j1 al -> i0 <= i1 /\ j0 <= j1.
Proof. induction al as [|[i j] al IH]; cbn; intros i0 i1 j0 j1 H; [lia|]. destruct H as [H1 H2]. apply IH in H2. lia. Qed.
Lemma inc_range al : forall i0 i1 j0 j1, increasing_in i0 i1 j0 j1 al -> forall p, In p al -> i0 <= fst p < i1 /\ j0 <= snd p < j1.
Proof.
  induction al as [|[i j] al IH]; cbn; intros i0 i1 j0 j1 H p; [easy|]. destruct H as [H1 H2]. intros [<-|Hp]; [cbn; lia|].
  specialize (IH _ _ _ _ H2 p Hp). lia.
Qed.
Lemma inc_snoc al : forall i0 i1 j0 j1, increasing_in i0 i1 j0 j1 al -> increasing_in i0 (S i1) j0 (S j1) (al ++ [(i1, j1)]).
Proof.
  induction al as [|[i j] al IH]; cbn; intros i0 i1 j0 j1 H; [lia|]. destruct H as [H1 H2]. split; [lia|]. now apply IH.
Qed.
Lemma inc_wider al : forall i0 i1 j0 j1 i1' j1', increasing_in i0 i1 j0 j1 al -> i1 <= i1' -> j1 <= j1' -> increasing_in i0 i1' j0 j1' al.
Proof.
  induction al as [|[i j] al IH]; cbn; intros i0 i1 j0 j1 i1' j1' H Hi Hj; [lia|]. destruct H as [H1 H2]. split; [lia|]. eapply IH; eauto.
Qed.
Lemma inc_narrow al : forall i0 i1 j0 j1 i1' j1', increasing_in i0 i1 j0 j1 al -> i0 <= i1' -> j0 <= j1' ->
  (forall p, In p al -> fst p < i1' /\ snd p < j1') -> increasing_in i0 i1' j0 j1' al.
Proof.
  induction al as [|[i j] al IH]; cbn; intros i0 i1 j0 j1 i1' j1' H Hi Hj Hp; [lia|]. destruct H as [H1 H2].
  pose proof (Hp (i, j) (or_introl eq_refl)) as K. cbn in K. split; [lia|]. eapply IH; [exact H2|lia|lia|]. intros p Q. apply Hp. auto.
Qed.
Lemma inc_last al i0 i1 j0 j1 i j : increasing_in i0 i1 j0 j1 (al ++ [(i, j)]) -> increasing_in i0 i j0 j al /\ i < i1 /\ j < j1.
Proof.
  revert i0 j0. induction al as [|[i' j'] al IH]; cbn; intros i0 j0 H; [lia|]. destruct H as [H1 H2].
  apply IH in H2 as [H2 H3]. pose proof (inc_le _ _ _ _ _ H2). repeat split; auto; lia.
Qed.
Lemma inc_cases al i0 i j0 j : increasing_in i0 (S i) j0 (S j) al -> i0 <= i -> j0 <= j ->
  (exists al', al = al' ++ [(i, j)] /\ increasing_in i0 i j0 j al') \/
  (~ In i (map fst al) /\ increasing_in i0 i j0 (S j) al) \/
  (~ In j (map snd al) /\ increasing_in i0 (S i) j0 j al).
Proof.
  intros H Hi Hj. destruct al as [|q al'] using rev_ind; [right; left; cbn in *; split; [easy|lia]|]. clear IHal'. destruct q as [a b].
  pose proof (inc_last _ _ _ _ _ _ _ H) as (H2 & Ha & Hb). pose proof (inc_range _ _ _ _ _ H2) as R.
  destruct (Nat.eq_dec a i) as [->|Na]; [destruct (Nat.eq_dec b j) as [->|Nb]|].
  - left. eauto.
  - right. right. rewrite map_app, in_app_iff. cbn. split.
    + intros [I|[I|[]]]; [|congruence]. apply in_map_iff in I as (p & <- & Hp). specialize (R p Hp). lia.
    + eapply inc_narrow; eauto. intros p Hp. apply in_app_iff in Hp as [Hp|[<-|[]]]; [specialize (R p Hp)|cbn]; lia.
  - right. left. rewrite map_app, in_app_iff. cbn. split.
    + intros [I|[I|[]]]; [|congruence]. apply in_map_iff in I as (p & <- & Hp). specialize (R p Hp). lia.
    + eapply inc_narrow; eauto. intros p Hp. apply in_app_iff in Hp as [Hp|[<-|[]]]; [specialize (R p Hp)|cbn]; lia.
Qed.
Notation score := (score sim gap s1 s2).
Lemma score_row al i0 i j0 j1 : i0 <= i -> ~ In i (map fst al) -> score i0 (S i) j0 j1 al = (score i0 i j0 j1 al + gat s1 i)%Z.
Proof.
  intros H N. unfold Seqal_spec.score. rewrite gaps_snoc by auto. destruct (existsb (Nat.eqb i) (map fst al)) eqn:E; [apply used_spec in E; easy|]. lia.
Qed.
Lemma score_col al i0 i1 j0 j : j0 <= j -> ~ In j (map snd al) -> score i0 i1 j0 (S j) al = (score i0 i1 j0 j al + gat s2 j)%Z.
Proof.
  intros H N. unfold Seqal_spec.score. rewrite (gaps_snoc s2) by auto. destruct (existsb (Nat.eqb j) (map snd al)) eqn:E; [apply used_spec in E; easy|]. lia.
Qed.
Lemma score_diag al i0 i j0 j : increasing_in i0 i j0 j al -> score i0 (S i) j0 (S j) (al ++ [(i, j)]) = (score i0 i j0 j al + sim_at sim s1 s2 (i, j))%Z.
Proof.
  intros H. pose proof (inc_le _ _ _ _ _ H) as [Li Lj]. unfold Seqal_spec.score. rewrite !gaps_snoc by auto. rewrite !map_app, total_app. cbn [map fst snd].
  assert (forall l k, existsb (Nat.eqb k) (l ++ [k]) = true) as E. { intros l k. apply used_spec, in_app_iff. right. now left. }
  rewrite !E.
  rewrite (gaps_ext s1 (map fst al ++ [i]) (map fst al)). 2:{ intros k Hk. rewrite in_app_iff. cbn. split; [intros [|[|[]]]; auto; lia|auto]. }
  rewrite (gaps_ext s2 (map snd al ++ [j]) (map snd al)). 2:{ intros k Hk. rewrite in_app_iff. cbn. split; [intros [|[|[]]]; auto; lia|auto]. }
  unfold total at 2. cbn [fold_right]. lia.
Qed.
Lemma score_nil i0 i1 j0 j1 : score i0 i1 j0 j1 [] = (gaps gap s1 [] i0 i1 + gaps gap s2 [] j0 j1)%Z.
Proof. reflexivity. Qed.
Lemma inc_no_row al i0 i j0 j1 : increasing_in i0 i j0 j1 al -> ~ In i (map fst al).
Proof. intros H I. apply in_map_iff in I as (p & E & Hp). pose proof (inc_range _ _ _ _ _ H p Hp). lia. Qed.
Lemma inc_no_col al i0 i1 j0 j : increasing_in i0 i1 j0 j al -> ~ In j (map snd al).
Proof. intros H I. apply in_map_iff in I as (p & E & Hp). pose proof (inc_range _ _ _ _ _ H p Hp). lia. Qed.
Lemma inc_flat_row al i0 j0 j1 : increasing_in i0 i0 j0 j1 al -> al = [].
Proof. destruct al as [|[i j] al]; auto. cbn. lia. Qed.
Lemma inc_flat_col al i0 i1 j0 : increasing_in i0 i1 j0 j0 al -> al = [].
Proof. destruct al as [|[i j] al]; auto. cbn. lia. Qed.
Lemma gaps_const s g k : (forall a, In a s -> gap a = g) -> k <= length s -> gaps gap s [] 0 k = (g * Z.of_nat k)%Z.
Proof.
  intros H. induction k as [|k IH]; intros Hk; [rewrite gaps_empty by lia; lia|]. rewrite gaps_snoc, IH by lia. cbn [existsb]. unfold gat.
  destruct (nth_error s k) eqn:E; [|apply nth_error_None in E; lia]. rewrite (H a) by (eapply nth_error_In; eauto). lia.
Qed.
Lemma gaps_neg s used k0 k1 : (forall a, In a s -> (gap a <= 0)%Z) -> (gaps gap s used k0 k1 <= 0)%Z.
Proof.
  intros H. unfold gaps. generalize (seq k0 (k1 - k0)). intros l. unfold total. induction l as [|k l IH]; cbn [map fold_right]; [lia|].
  destruct (existsb (Nat.eqb k) used); [lia|]. destruct (nth_error s k) eqn:E; [|lia]. apply nth_error_In, H in E. lia.
Qed.
End Scores.
(** ** tables *)
Lemma pos_eq (p q : pos) : pos_eqb p q = true <-> p = q.
Proof.
  unfold pos_eqb. rewrite andb_true_iff, !Nat.eqb_eq. destruct p, q; cbn. split; [intros [-> ->]; auto|intros [= -> ->]; auto].
Qed.
Lemma pos_dec (p q : pos) : {p = q} + {p <> q}.
Proof. decide equality; apply Nat.eq_dec. Qed.
Lemma cread_same t i j c : cread (cset t i j c) i j = Ok c.
Proof. unfold cread, cset, dread. now rewrite (dget_dset_same pos_eqb pos_eq). Qed.
Lemma cread_other t i j c i' j' : (i, j) <> (i', j') -> cread (cset t i j c) i' j' = cread t i' j'.
Proof. intros H. unfold cread, cset, dread. now rewrite (dget_dset_other pos_eqb pos_eq). Qed.
Section Tables.
Variable A : Type.
Variables (sim_score : A -> A -> Z) (gap_cost : A -> Z).
Variables (seq1 seq2 : list A).
Notation len1 := (length seq1).
Notation len2 := (length seq2).
Notation reach := (reach sim_score gap_cost seq1 seq2).
Definition nw_post (x : cell * cell * cell) : cell := match x with (u, d, l) => max2 (max2 u d) l end.
Definition sw_post (x : cell * cell * cell) : cell := match x with (u, d, l) => max2 (max2 (max2 u d) l) (0%Z, StT) end.
Definition pcell (post : cell * cell * cell -> cell) (t : table) (i j : nat) : res cell := x <- reach t i j ;; Ok (post x).
Lemma nw_pcell t i j : nw_cell sim_score gap_cost seq1 seq2 t i j = pcell nw_post t i j.
Proof. unfold nw_cell, pcell. destruct (reach t i j) as [[[u d] l]|]; reflexivity. Qed.
Lemma sw_pcell t i j : sw_cell sim_score gap_cost seq1 seq2 t i j = pcell sw_post t i j.
Proof. unfold sw_cell, pcell. destruct (reach t i j) as [[[u d] l]|]; reflexivity. Qed.
(** keys in range, once *)
Definition keys_ok (t : table) : Prop := NoDup (dkeys t) /\ forall p, In p (dkeys t) -> fst p <= len1 /\ snd p <= len2.
Lemma keys_cset t i j c : keys_ok t -> i <= len1 -> j <= len2 -> keys_ok (cset t i j c).
Proof.
  intros [N R] Hi Hj. split; [now apply (nodup_dset pos_eqb pos_eq)|]. intros p Hp. unfold cset in Hp.
  destruct (in_dec pos_dec (i, j) (dkeys t)) as [I|I].
  - rewrite (dkeys_dset_in pos_eqb pos_eq) in Hp by auto. auto.
  - rewrite (dkeys_dset_new pos_eqb pos_eq) in Hp by auto. unfold dkeys in Hp. rewrite map_app in Hp. apply in_app_iff in Hp as [Hp|[<-|[]]]; auto.
Qed.
(** what the table says at (i, j) *)
Lemma reach_ok t i j u d l : 1 <= i <= len1 -> 1 <= j <= len2 -> cread t (i - 1) j = Ok u -> cread t (i - 1) (j - 1) = Ok d -> cread t i (j - 1) = Ok l ->
  exists a b, nth_error seq1 (i - 1) = Some a /\ nth_error seq2 (j - 1) = Some b /\
    reach t i j = Ok (((fst u + gap_cost a)%Z, StU), ((fst d + sim_score a b)%Z, StD), ((fst l + gap_cost b)%Z, StL)).
Proof.
  intros Hi Hj Eu Ed El. destruct (nth_error seq1 (i - 1)) as [a|] eqn:Ea; [|apply nth_error_None in Ea; lia].
  destruct (nth_error seq2 (j - 1)) as [b|] eqn:Eb; [|apply nth_error_None in Eb; lia]. exists a, b. split; auto. split; auto.
  unfold Seqal_model.reach, get. rewrite Eu. cbn [bind]. rewrite Ea. cbn [bind]. rewrite Ed. cbn [bind]. rewrite Eb. cbn [bind]. rewrite El. reflexivity.
Qed.
Lemma reach_ext t t' i j : cread t (i - 1) j = cread t' (i - 1) j -> cread t (i - 1) (j - 1) = cread t' (i - 1) (j - 1) -> cread t i (j - 1) = cread t' i (j - 1) ->
  reach t i j = reach t' i j.
Proof. intros E1 E2 E3. unfold Seqal_model.reach. now rewrite E1, E2, E3. Qed.
(** ** filling *)
Section Fill.
Variable post : cell * cell * cell -> cell.
Variables (left top : nat -> cell).
Definition border_ok (t : table) : Prop :=
  keys_ok t /\ (forall i, i <= len1 -> cread t i 0 = Ok (left i)) /\ (forall j, j <= len2 -> cread t 0 j = Ok (top j)).
Definition before (i j i' j' : nat) : Prop := i' < i \/ (i' = i /\ j' < j).
Definition done (t : table) (i j : nat) : Prop :=
  forall i' j', 1 <= i' <= len1 -> 1 <= j' <= len2 -> before i j i' j' -> exists c, cread t i' j' = Ok c /\ pcell post t i' j' = Ok c.
Definition filled (t : table) : Prop := border_ok t /\ done t (S len1) 1.
Lemma done_step t i j : border_ok t -> done t i j -> 1 <= i <= len1 -> 1 <= j <= len2 ->
  exists c, pcell post t i j = Ok c /\ border_ok (cset t i j c) /\ done (cset t i j c) i (S j).
Proof.
  intros (K & BL & BT) D Hi Hj.
  assert (forall i' j', i' <= len1 -> j' <= len2 -> before i j i' j' -> exists c, cread t i' j' = Ok c) as R.
  { intros i' j' Hi' Hj' B. destruct i' as [|i']; [eauto|]. destruct j' as [|j']; [eauto|]. destruct (D (S i') (S j')) as (c & E & _); auto; try lia. eauto. }
  destruct (R (i - 1) j) as (u & Eu); [lia|lia|unfold before; lia|].
  destruct (R (i - 1) (j - 1)) as (d & Ed); [lia|lia|unfold before; lia|].
  destruct (R i (j - 1)) as (l & El); [lia|lia|unfold before; lia|].
  destruct (@reach_ok t i j u d l Hi Hj Eu Ed El) as (a & b & _ & _ & ER).
  exists (post (((fst u + gap_cost a)%Z, StU), ((fst d + sim_score a b)%Z, StD), ((fst l + gap_cost b)%Z, StL))).
  split; [unfold pcell; now rewrite ER|]. set (c := post _). split; [split; [|split]|].
  - apply keys_cset; auto; lia.
  - intros i' Hi'. rewrite cread_other; auto. intros [= -> ->]. lia.
  - intros j' Hj'. rewrite cread_other; auto. intros [= -> ->]. lia.
  - intros i' j' Hi' Hj' B.
    assert (forall x y, before i j x y -> cread (cset t i j c) x y = cread t x y) as SM.
    { intros x y Q. apply cread_other. intros [= -> ->]. unfold before in Q. lia. }
    assert (pcell post (cset t i j c) i' j' = pcell post t i' j') as EP.
    { unfold pcell. rewrite (@reach_ext (cset t i j c) t); auto; apply SM; unfold before in *; lia. }
    rewrite EP. destruct (Nat.eq_dec i' i) as [->|Ni]; [destruct (Nat.eq_dec j' j) as [->|Nj]|].
    + exists c. rewrite cread_same. split; auto. unfold pcell. now rewrite ER.
    + rewrite SM by (unfold before in *; lia). apply D; auto. unfold before in *; lia.
    + rewrite SM by (unfold before in *; lia). apply D; auto. unfold before in *; lia.
Qed.
Variable cellf : table -> nat -> nat -> res cell.
Hypothesis cellf_ok : forall t i j, cellf t i j = pcell post t i j.
Lemma fill_row i : 1 <= i <= len1 -> forall n j t, border_ok t -> done t i j -> 1 <= j -> j + n = S len2 ->
  exists t', foldM (fun t j => c <- cellf t i j ;; Ok (cset t i j c)) t (seq j n) = Ok t' /\ border_ok t' /\ done t' i (S len2).
Proof.
  intros Hi. induction n as [|n IH]; intros j t B D Hj E; cbn [seq foldM].
  - exists t. split; auto. split; auto. replace (S len2) with j by lia. exact D.
  - destruct (@done_step t i j B D Hi) as (c & Ec & B' & D'); [lia|]. rewrite cellf_ok, Ec. cbn [bind]. apply IH; auto; lia.
Qed.
Lemma fill_ok t : border_ok t -> exists t', fill seq1 seq2 cellf t = Ok t' /\ filled t'.
Proof.
  intros B. unfold fill.
  assert (forall n i t, border_ok t -> done t i 1 -> 1 <= i -> i + n = S len1 ->
    exists t', foldM (fun t i => foldM (fun t j => c <- cellf t i j ;; Ok (cset t i j c)) t (seq 1 len2)) t (seq i n) = Ok t' /\ filled t') as K.
  { clear t B. induction n as [|n IH]; intros i t B D Hi E; cbn [seq foldM].
    - exists t. split; auto. split; auto. replace (S len1) with i by lia. exact D.
    - destruct (@fill_row i ltac:(lia) len2 1 t B D) as (t1 & -> & B1 & D1); [lia|lia|]. cbn [bind]. apply IH; auto; try lia.
      intros i' j' Hi' Hj' Bf. apply D1; auto. unfold before in *. lia. }
  apply K; auto. intros i' j' Hi' Hj' Bf. unfold before in Bf. lia.
Qed.
(** reading a filled table *)
Lemma filled_border t : filled t -> (forall i, i <= len1 -> cread t i 0 = Ok (left i)) /\ (forall j, j <= len2 -> cread t 0 j = Ok (top j)).
Proof. intros ((_ & B1 & B2) & _). auto. Qed.
Lemma filled_any t i j : filled t -> i <= len1 -> j <= len2 -> exists c, cread t i j = Ok c.
Proof.
  intros F Hi Hj. destruct (filled_border F) as [B1 B2]. destruct i as [|i]; [eauto|]. destruct j as [|j]; [eauto|].
  destruct F as [_ D]. destruct (D (S i) (S j)) as (c & E & _); [lia|lia|unfold before; lia|]. eauto.
Qed.
Lemma filled_inner t i j : filled t -> i < len1 -> j < len2 -> exists u d l a b,
  cread t i (S j) = Ok u /\ cread t i j = Ok d /\ cread t (S i) j = Ok l /\ nth_error seq1 i = Some a /\ nth_error seq2 j = Some b /\
  cread t (S i) (S j) = Ok (post (((fst u + gap_cost a)%Z, StU), ((fst d + sim_score a b)%Z, StD), ((fst l + gap_cost b)%Z, StL))).
Proof.
  intros F Hi Hj. destruct (@filled_any t i (S j) F) as (u & Eu); [lia|lia|]. destruct (@filled_any t i j F) as (d & Ed); [lia|lia|].
  destruct (@filled_any t (S i) j F) as (l & El); [lia|lia|].
  destruct (@reach_ok t (S i) (S j) u d l) as (a & b & Ea & Eb & ER); try lia; try (replace (S i - 1) with i by lia); try (replace (S j - 1) with j by lia); auto.
  replace (S i - 1) with i in Ea by lia. replace (S j - 1) with j in Eb by lia. exists u, d, l, a, b. do 5 (split; auto).
  destruct F as [_ D]. destruct (D (S i) (S j)) as (c & E & EP); [lia|lia|unfold before; lia|]. rewrite E. unfold pcell in EP. rewrite ER in EP. symmetry. exact EP.
Qed.
End Fill.
(** ** borders *)
Definition start : table := [((0, 0), (0%Z, StT))].
Lemma keys_start : keys_ok start.
Proof. split; [repeat constructor; intros []|]. intros p [<-|[]]. cbn. lia. Qed.
Definition sleft (i : nat) : cell := match i with O => (0%Z, StT) | _ => (0%Z, StU) end.
Definition stop (j : nat) : cell := match j with O => (0%Z, StT) | _ => (0%Z, StL) end.
Lemma borders_gen (l tp : nat -> cell) (t : table) :
  l 0 = (0%Z, StT) -> tp 0 = (0%Z, StT) ->
  t = fold_left (fun t j => cset t 0 j (tp j)) (seq 1 len2) (fold_left (fun t i => cset t i 0 (l i)) (seq 1 len1) start) -> border_ok l tp t.
Proof.
  intros L0 T0 ->.
  assert (forall n i t, 1 <= i -> i + n <= S len1 -> keys_ok t -> (forall i', i' < i -> cread t i' 0 = Ok (l i')) ->
    let t' := fold_left (fun t i => cset t i 0 (l i)) (seq i n) t in keys_ok t' /\ forall i', i' < i + n -> cread t' i' 0 = Ok (l i')) as K1.
  { induction n as [|n IH]; intros i t Hi Hn Kt R; cbn [seq fold_left]; cbv zeta; [split; auto; intros; apply R; lia|].
    destruct (IH (S i) (cset t i 0 (l i))) as [A1 A2]; [lia|lia|apply keys_cset; auto; lia| |split; auto; intros; apply A2; lia].
    intros i' H'. destruct (Nat.eq_dec i i') as [->|]; [apply cread_same|]. rewrite cread_other by congruence. apply R. lia. }
  assert (forall n j t, 1 <= j -> j + n <= S len2 -> keys_ok t -> (forall j', j' < j -> cread t 0 j' = Ok (tp j')) -> (forall i', i' <= len1 -> cread t i' 0 = Ok (l i')) ->
    let t' := fold_left (fun t j => cset t 0 j (tp j)) (seq j n) t in keys_ok t' /\ (forall j', j' < j + n -> cread t' 0 j' = Ok (tp j')) /\ forall i', i' <= len1 -> cread t' i' 0 = Ok (l i')) as K2.
  { induction n as [|n IH]; intros j t Hj Hn Kt R RL; cbn [seq fold_left]; cbv zeta; [split; auto; split; auto; intros; apply R; lia|].
    destruct (IH (S j) (cset t 0 j (tp j))) as (A1 & A2 & A3); [lia|lia|apply keys_cset; auto; lia| | |split; auto; split; auto; intros; apply A2; lia].
    - intros j' H'. destruct (Nat.eq_dec j j') as [->|]; [apply cread_same|]. rewrite cread_other by congruence. apply R. lia.
    - intros i' H'. rewrite cread_other; auto. intros [= E1 E2]. lia. }
  destruct (K1 len1 1 start) as [A1 A2]; [lia|lia|apply keys_start| |].
  { intros i' H'. replace i' with 0 by lia. rewrite L0. reflexivity. }
  cbv zeta in *. set (t1 := fold_left (fun t i => cset t i 0 (l i)) (seq 1 len1) start) in *.
  destruct (K2 len2 1 t1) as (B1 & B2 & B3); [lia|lia|auto| | |].
  - intros j' H'. replace j' with 0 by lia. rewrite T0, <- L0. apply A2. lia.
  - intros i' H'. apply A2. lia.
  - cbv zeta in *. split; auto. split; auto. intros j Hj. apply B2. lia.
Qed.
Lemma sw_border_ok : border_ok sleft stop (sw_borders seq1 seq2).
Proof.
  apply borders_gen; auto. unfold sw_borders.
  assert (forall n i t, 1 <= i -> fold_left (fun t i => cset t i 0 (0%Z, StU)) (seq i n) t = fold_left (fun t i => cset t i 0 (sleft i)) (seq i n) t) as E1.
  { induction n as [|n IH]; intros i t Hi; cbn [seq fold_left]; auto. rewrite IH by lia. destruct i; [lia|reflexivity]. }
  assert (forall n i t, 1 <= i -> fold_left (fun t i => cset t 0 i (0%Z, StL)) (seq i n) t = fold_left (fun t i => cset t 0 i (stop i)) (seq i n) t) as E2.
  { induction n as [|n IH]; intros i t Hi; cbn [seq fold_left]; auto. rewrite IH by lia. destruct i; [lia|reflexivity]. }
  rewrite E1, E2 by lia. reflexivity.
Qed.
Definition nleft (i : nat) : cell := match i with O => (0%Z, StT) | S k => match nth_error seq1 k with Some a => ((gap_cost a * Z.of_nat i)%Z, StU) | None => (0%Z, StU) end end.
Definition ntop (j : nat) : cell := match j with O => (0%Z, StT) | S k => match nth_error seq2 k with Some a => ((gap_cost a * Z.of_nat j)%Z, StL) | None => (0%Z, StL) end end.
Lemma nw_border_ok : exists t, nw_borders gap_cost seq1 seq2 = Ok t /\ border_ok nleft ntop t.
Proof.
  unfold nw_borders.
  assert (forall n i t, 1 <= i -> i + n = S len1 -> foldM (fun t i => a <- get seq1 (i - 1) ;; Ok (cset t i 0 ((gap_cost a * Z.of_nat i)%Z, StU))) t (seq i n) =
    Ok (fold_left (fun t i => cset t i 0 (nleft i)) (seq i n) t)) as E1.
  { induction n as [|n IH]; intros i t Hi Hn; cbn [seq foldM fold_left]; auto. destruct i as [|i]; [lia|]. unfold get at 1. replace (S i - 1) with i by lia.
    unfold nleft at 2. destruct (nth_error seq1 i) as [a|] eqn:E; [|apply nth_error_None in E; lia]. cbn [bind]. rewrite IH by lia. reflexivity. }
  assert (forall n i t, 1 <= i -> i + n = S len2 -> foldM (fun t i => a <- get seq2 (i - 1) ;; Ok (cset t 0 i ((gap_cost a * Z.of_nat i)%Z, StL))) t (seq i n) =
    Ok (fold_left (fun t i => cset t 0 i (ntop i)) (seq i n) t)) as E2.
  { induction n as [|n IH]; intros i t Hi Hn; cbn [seq foldM fold_left]; auto. destruct i as [|i]; [lia|]. unfold get at 1. replace (S i - 1) with i by lia.
    unfold ntop at 2. destruct (nth_error seq2 i) as [a|] eqn:E; [|apply nth_error_None in E; lia]. cbn [bind]. rewrite IH by lia. reflexivity. }
  rewrite E1 by lia. cbn [bind]. rewrite E2 by lia. eexists. split; [reflexivity|]. now apply borders_gen.
Qed.
End Tables.
Lemma ok_inj X (a b : X) : Ok a = Ok b -> a = b. Proof. congruence. Qed.
(** ** values *)
Lemma max2_cases a b : (max2 a b = a \/ max2 a b = b) /\ (fst a <= fst (max2 a b))%Z /\ (fst b <= fst (max2 a b))%Z.
Proof.
  unfold max2, cell_ltb. destruct (fst a <? fst b)%Z eqn:E1; cbn [orb].
  - apply Z.ltb_lt in E1. split; auto. lia.
  - apply Z.ltb_ge in E1. destruct (fst a =? fst b)%Z eqn:E2; cbn [andb].
    + apply Z.eqb_eq in E2. destruct (Nat.ltb _ _); split; auto; lia.
    + split; auto. lia.
Qed.
Lemma nw_post_cases u d l : let c := nw_post (u, d, l) in
  (c = u \/ c = d \/ c = l) /\ (fst u <= fst c /\ fst d <= fst c /\ fst l <= fst c)%Z.
Proof.
  cbn. destruct (max2_cases u d) as (A1 & A2 & A3), (max2_cases (max2 u d) l) as (B1 & B2 & B3). split; [|lia].
  destruct B1 as [-> | ->]; [|tauto]. destruct A1 as [-> | ->]; tauto.
Qed.
Lemma sw_post_cases u d l : let c := sw_post (u, d, l) in
  (c = u \/ c = d \/ c = l \/ c = (0%Z, StT)) /\ (fst u <= fst c /\ fst d <= fst c /\ fst l <= fst c /\ 0 <= fst c)%Z.
Proof.
  cbn. destruct (nw_post_cases u d l) as (A1 & A2 & A3 & A4), (max2_cases (nw_post (u, d, l)) (0%Z, StT)) as (B1 & B2 & B3). cbn [nw_post] in *.
  cbn [fst] in B3. split; [|lia]. destruct B1 as [-> | ->]; [|tauto]. destruct A1 as [-> | [-> | ->]]; tauto.
Qed.
Section Values.
Variable A : Type.
Variables (sim : A -> A -> Z) (gap : A -> Z).
Variables (s1 s2 : list A).
Notation len1 := (length s1).
Notation len2 := (length s2).
Notation score := (score sim gap s1 s2).
Lemma gat_some s k a : nth_error s k = Some a -> gat gap s k = gap a.
Proof. unfold gat. now intros ->. Qed.
Lemma sim_some i j a b : nth_error s1 i = Some a -> nth_error s2 j = Some b -> sim_at sim s1 s2 (i, j) = sim a b.
Proof. unfold sim_at. cbn. now intros -> ->. Qed.
(** *** Needleman-Wunsch *)
Section NW.
Variable t : table.
Variables g1 g2 : Z.
Hypothesis G1 : forall a, In a s1 -> gap a = g1.
Hypothesis G2 : forall a, In a s2 -> gap a = g2.
Hypothesis F : filled sim gap s1 s2 nw_post (nleft gap s1) (ntop gap s2) t.
Lemma nleft_score i : i <= len1 -> fst (nleft gap s1 i) = score 0 i 0 0 [].
Proof.
  intros H. rewrite score_nil, (gaps_empty gap s2) by lia. rewrite (@gaps_const _ gap s1 g1) by auto. destruct i as [|i]; cbn [nleft fst]; [lia|].
  destruct (nth_error s1 i) as [a|] eqn:E; [|apply nth_error_None in E; lia]. cbn [fst]. rewrite (G1 a) by (eapply nth_error_In; eauto). lia.
Qed.
Lemma ntop_score j : j <= len2 -> fst (ntop gap s2 j) = score 0 0 0 j [].
Proof.
  intros H. rewrite score_nil, (gaps_empty gap s1) by lia. rewrite (@gaps_const _ gap s2 g2) by auto. destruct j as [|j]; cbn [ntop fst]; [lia|].
  destruct (nth_error s2 j) as [a|] eqn:E; [|apply nth_error_None in E; lia]. cbn [fst]. rewrite (G2 a) by (eapply nth_error_In; eauto). lia.
Qed.
Lemma nw_upper n : forall i j c al, i + j <= n -> i <= len1 -> j <= len2 -> cread t i j = Ok c -> increasing_in 0 i 0 j al -> (score 0 i 0 j al <= fst c)%Z.
Proof.
  destruct (filled_border F) as [BL BT].
  induction n as [|n IH]; intros i j c al Hn Hi Hj Ec I.
  - replace i with 0 in * by lia. replace j with 0 in * by lia. rewrite (inc_flat_row _ _ _ _ I). rewrite BL in Ec by lia. apply ok_inj in Ec; subst c. rewrite nleft_score by lia. lia.
  - destruct i as [|i]. { rewrite (inc_flat_row _ _ _ _ I). rewrite BT in Ec by lia. apply ok_inj in Ec; subst c. rewrite ntop_score by lia. lia. }
    destruct j as [|j]. { rewrite (inc_flat_col _ _ _ _ I). rewrite BL in Ec by lia. apply ok_inj in Ec; subst c. rewrite nleft_score by lia. lia. }
    destruct (filled_inner F (i := i) (j := j)) as (u & d & l & a & b & Eu & Ed & El & Ea & Eb & E); [lia|lia|]. rewrite E in Ec. apply ok_inj in Ec; subst c.
    destruct (nw_post_cases ((fst u + gap a)%Z, StU) ((fst d + sim a b)%Z, StD) ((fst l + gap b)%Z, StL)) as (_ & P1 & P2 & P3). set (c := nw_post _) in *. cbn [fst] in P1, P2, P3.
    destruct (@inc_cases _ _ _ _ _ I) as [(al' & -> & I')|[(N & I')|(N & I')]]; try lia.
    + rewrite score_diag by auto. rewrite (sim_some _ _ Ea Eb). pose proof (IH i j d al' ltac:(lia) ltac:(lia) ltac:(lia) Ed I'). lia.
    + rewrite score_row by (auto; lia). rewrite (gat_some _ _ Ea). pose proof (IH i (S j) u al ltac:(lia) ltac:(lia) ltac:(lia) Eu I'). lia.
    + rewrite score_col by (auto; lia). rewrite (gat_some _ _ Eb). pose proof (IH (S i) j l al ltac:(lia) ltac:(lia) ltac:(lia) El I'). lia.
Qed.
Lemma nw_trace_ok fuel : forall i j c acc, i + j <= fuel -> i <= len1 -> j <= len2 -> cread t i j = Ok c ->
  exists al, nw_trace fuel t i j acc = Ok (al ++ acc) /\ increasing_in 0 i 0 j al /\ score 0 i 0 j al = fst c.
Proof.
  destruct (filled_border F) as [BL BT].
  induction fuel as [|fuel IH]; intros i j c acc Hn Hi Hj Ec.
  - replace i with 0 in * by lia. replace j with 0 in * by lia. exists []. cbn [nw_trace]. rewrite BL in Ec by lia. apply ok_inj in Ec; subst c. rewrite nleft_score by lia. cbn; auto.
  - cbn [nw_trace]. destruct (Nat.ltb 0 (i + j)) eqn:E0.
    2:{ apply Nat.ltb_ge in E0. replace i with 0 in * by lia. replace j with 0 in * by lia. exists []. rewrite BL in Ec by lia. apply ok_inj in Ec; subst c. rewrite nleft_score by lia. cbn; auto. }
    apply Nat.ltb_lt in E0. rewrite Ec. cbn [bind].
    destruct i as [|i].
    { destruct j as [|j]; [lia|]. rewrite BT in Ec by lia. apply ok_inj in Ec; subst c. destruct (IH 0 j (ntop gap s2 j) acc) as (al & E & I & Sc); [lia|lia|lia|apply BT; lia|].
      assert (snd (ntop gap s2 (S j)) = StL) as -> by (cbn; destruct (nth_error s2 j); reflexivity). replace (S j - 1) with j by lia.
      exists al. split; auto. rewrite (inc_flat_row _ _ _ _ I) in *. split; [cbn; lia|]. now rewrite ntop_score. }
    destruct j as [|j].
    { rewrite BL in Ec by lia. apply ok_inj in Ec; subst c. destruct (IH i 0 (nleft gap s1 i) acc) as (al & E & I & Sc); [lia|lia|lia|apply BL; lia|].
      assert (snd (nleft gap s1 (S i)) = StU) as -> by (cbn; destruct (nth_error s1 i); reflexivity). replace (S i - 1) with i by lia.
      exists al. split; auto. rewrite (inc_flat_col _ _ _ _ I) in *. split; [cbn; lia|]. now rewrite nleft_score. }
    destruct (filled_inner F (i := i) (j := j)) as (u & d & l & a & b & Eu & Ed & El & Ea & Eb & E); [lia|lia|]. rewrite E in Ec. apply ok_inj in Ec; subst c.
    destruct (nw_post_cases ((fst u + gap a)%Z, StU) ((fst d + sim a b)%Z, StD) ((fst l + gap b)%Z, StL)) as (P & _). set (c := nw_post _) in *. clearbody c.
    replace (S i - 1) with i by lia. replace (S j - 1) with j by lia.
    destruct P as [->|[->| ->]]; cbn [snd fst].
    + destruct (IH i (S j) u acc) as (al & Ex & I & Sc); [lia|lia|lia|auto|]. exists al. split; auto. split; [eapply inc_wider; eauto|].
      rewrite score_row by (try lia; eapply inc_no_row; eauto). now rewrite (gat_some _ _ Ea), Sc.
    + destruct (IH i j d ((i, j) :: acc)) as (al & Ex & I & Sc); [lia|lia|lia|auto|]. exists (al ++ [(i, j)]). rewrite <- app_assoc. split; auto.
      split; [now apply inc_snoc|]. rewrite score_diag by auto. now rewrite (sim_some _ _ Ea Eb), Sc.
    + destruct (IH (S i) j l acc) as (al & Ex & I & Sc); [lia|lia|lia|auto|]. exists al. split; auto. split; [eapply inc_wider; eauto|].
      rewrite score_col by (try lia; eapply inc_no_col; eauto). now rewrite (gat_some _ _ Eb), Sc.
Qed.
End NW.
(** *** Smith-Waterman *)
Section SW.
Variable t : table.
Hypothesis F : filled sim gap s1 s2 sw_post sleft stop t.
Lemma sw_nonneg i j c : i <= len1 -> j <= len2 -> cread t i j = Ok c -> (0 <= fst c)%Z.
Proof.
  destruct (filled_border F) as [BL BT]. intros Hi Hj Ec. destruct i as [|i]; [rewrite BT in Ec by lia; apply ok_inj in Ec; subst c; destruct j; cbn; lia|].
  destruct j as [|j]; [rewrite BL in Ec by lia; apply ok_inj in Ec; subst c; cbn; lia|].
  destruct (filled_inner F (i := i) (j := j)) as (u & d & l & a & b & Eu & Ed & El & Ea & Eb & E); [lia|lia|]. rewrite E in Ec. apply ok_inj in Ec; subst c.
  eapply (proj2 (sw_post_cases _ _ _)).
Qed.
Hypothesis G1 : forall a, In a s1 -> (gap a <= 0)%Z.
Hypothesis G2 : forall a, In a s2 -> (gap a <= 0)%Z.
Lemma sw_upper n : forall i j c i0 j0 al, i + j <= n -> i <= len1 -> j <= len2 -> cread t i j = Ok c -> increasing_in i0 i j0 j al -> (score i0 i j0 j al <= fst c)%Z.
Proof.
  assert (forall i0 i j0 j, (score i0 i j0 j [] <= 0)%Z) as Z0.
  { intros. rewrite score_nil. pose proof (@gaps_neg _ gap s1 [] i0 i G1). pose proof (@gaps_neg _ gap s2 [] j0 j G2). lia. }
  induction n as [|n IH]; intros i j c i0 j0 al Hn Hi Hj Ec I; pose proof (sw_nonneg Hi Hj Ec) as NN; pose proof (inc_le _ _ _ _ _ I) as [Li Lj].
  - replace i with 0 in * by lia. replace i0 with 0 in * by lia. rewrite (inc_flat_row _ _ _ _ I). pose proof (Z0 0 0 j0 j). lia.
  - destruct (Nat.eq_dec i0 i) as [->|Ni]. { rewrite (inc_flat_row _ _ _ _ I). pose proof (Z0 i i j0 j). lia. }
    destruct (Nat.eq_dec j0 j) as [->|Nj]. { rewrite (inc_flat_col _ _ _ _ I). pose proof (Z0 i0 i j j). lia. }
    destruct i as [|i]; [lia|]. destruct j as [|j]; [lia|].
    destruct (filled_inner F (i := i) (j := j)) as (u & d & l & a & b & Eu & Ed & El & Ea & Eb & E); [lia|lia|]. rewrite E in Ec. apply ok_inj in Ec; subst c.
    destruct (sw_post_cases ((fst u + gap a)%Z, StU) ((fst d + sim a b)%Z, StD) ((fst l + gap b)%Z, StL)) as (_ & P1 & P2 & P3 & P4). set (c := sw_post _) in *. cbn [fst] in P1, P2, P3.
    destruct (@inc_cases _ _ _ _ _ I) as [(al' & -> & I')|[(N & I')|(N & I')]]; try lia.
    + rewrite score_diag by auto. rewrite (sim_some _ _ Ea Eb). pose proof (IH i j d i0 j0 al' ltac:(lia) ltac:(lia) ltac:(lia) Ed I'). lia.
    + rewrite score_row by (auto; lia). rewrite (gat_some _ _ Ea). pose proof (IH i (S j) u i0 j0 al ltac:(lia) ltac:(lia) ltac:(lia) Eu I'). lia.
    + rewrite score_col by (auto; lia). rewrite (gat_some _ _ Eb). pose proof (IH (S i) j l i0 j0 al ltac:(lia) ltac:(lia) ltac:(lia) El I'). lia.
Qed.
End SW.
Section SWtrace.
Variable t : table.
Hypothesis F : filled sim gap s1 s2 sw_post sleft stop t.
Lemma sw_trace_ok fuel : forall i j c acc, i + j <= fuel -> i <= len1 -> j <= len2 -> cread t i j = Ok c ->
  exists al i0 j0, sw_trace fuel t i j acc = Ok (al ++ acc) /\ increasing_in i0 i j0 j al /\ score i0 i j0 j al = fst c.
Proof.
  destruct (filled_border F) as [BL BT].
  assert (forall i j c fuel acc, i <= len1 -> j <= len2 -> cread t i j = Ok c -> (fst c <= 0)%Z ->
    exists al i0 j0, sw_trace fuel t i j acc = Ok (al ++ acc) /\ increasing_in i0 i j0 j al /\ score i0 i j0 j al = fst c) as Z0.
  { intros i j c fu acc Hi Hj Ec Hc. pose proof (sw_nonneg F Hi Hj Ec) as NN. exists [], i, j. split.
    - destruct fu; cbn [sw_trace]; rewrite Ec; cbn [bind]; destruct (0 <? fst c)%Z eqn:E; auto; apply Z.ltb_lt in E; lia.
    - split; [cbn; lia|]. rewrite score_nil, !gaps_empty by lia. lia. }
  induction fuel as [|fuel IH]; intros i j c acc Hn Hi Hj Ec.
  - apply Z0; auto. replace i with 0 in * by lia. replace j with 0 in * by lia. rewrite BL in Ec by lia. apply ok_inj in Ec; subst c. cbn. lia.
  - destruct (Z.le_gt_cases (fst c) 0) as [Hc|Hc]; [now apply Z0|].
    cbn [sw_trace]. rewrite Ec. cbn [bind]. destruct (0 <? fst c)%Z eqn:E0; [clear E0|apply Z.ltb_ge in E0; lia].
    destruct i as [|i]; [rewrite BT in Ec by lia; apply ok_inj in Ec; subst c; destruct j; cbn in Hc; lia|].
    destruct j as [|j]; [rewrite BL in Ec by lia; apply ok_inj in Ec; subst c; cbn in Hc; lia|].
    destruct (filled_inner F (i := i) (j := j)) as (u & d & l & a & b & Eu & Ed & El & Ea & Eb & E); [lia|lia|]. rewrite E in Ec. apply ok_inj in Ec; subst c.
    destruct (sw_post_cases ((fst u + gap a)%Z, StU) ((fst d + sim a b)%Z, StD) ((fst l + gap b)%Z, StL)) as (P & _). set (c := sw_post _) in *. clearbody c.
    replace (S i - 1) with i by lia. replace (S j - 1) with j by lia.
    destruct P as [->|[->|[->| ->]]]; cbn [snd fst] in *; [| | |lia].
    + destruct (IH i (S j) u acc) as (al & i0 & j0 & Ex & I & Sc); [lia|lia|lia|auto|]. exists al, i0, j0. split; auto. pose proof (inc_le _ _ _ _ _ I). split; [eapply inc_wider; eauto|].
      rewrite score_row by (try lia; eapply inc_no_row; eauto). now rewrite (gat_some _ _ Ea), Sc.
    + destruct (IH i j d ((i, j) :: acc)) as (al & i0 & j0 & Ex & I & Sc); [lia|lia|lia|auto|]. exists (al ++ [(i, j)]), i0, j0. rewrite <- app_assoc. split; auto.
      split; [now apply inc_snoc|]. rewrite score_diag by auto. now rewrite (sim_some _ _ Ea Eb), Sc.
    + destruct (IH (S i) j l acc) as (al & i0 & j0 & Ex & I & Sc); [lia|lia|lia|auto|]. exists al, i0, j0. split; auto. pose proof (inc_le _ _ _ _ _ I). split; [eapply inc_wider; eauto|].
      rewrite score_col by (try lia; eapply inc_no_col; eauto). now rewrite (gat_some _ _ Eb), Sc.
Qed.
End SWtrace.
End Values.
(** ** the aligners *)
Section Top.
Variable A : Type.
Variables (sim : A -> A -> Z) (gap : A -> Z).
Variables (s1 s2 : list A).
Notation len1 := (length s1).
Notation len2 := (length s2).
Notation score := (score sim gap s1 s2).
Lemma nw_total g1 g2 : (forall a, In a s1 -> gap a = g1) -> (forall a, In a s2 -> gap a = g2) ->
  exists t al, needleman_wunsch sim gap s1 s2 = Ok (t, al) /\
  (forall i j, i <= len1 -> j <= len2 -> exists c, dget pos_eqb t (i, j) = Some c /\ best_global sim gap s1 s2 i j (fst c)) /\
  increasing_in 0 len1 0 len2 al /\ best_global sim gap s1 s2 len1 len2 (score 0 len1 0 len2 al).
Proof.
  intros G1 G2. unfold needleman_wunsch. destruct (nw_border_ok gap s1 s2) as (b & -> & B). cbn [bind].
  destruct (@fill_ok _ sim gap s1 s2 _ _ _ _ (nw_pcell sim gap s1 s2) _ B) as (t & -> & F). cbn [bind].
  assert (forall i j, i <= len1 -> j <= len2 -> exists c, dget pos_eqb t (i, j) = Some c /\ best_global sim gap s1 s2 i j (fst c)) as K.
  { intros i j Hi Hj. destruct (filled_any F Hi Hj) as (c & Ec). exists c. split.
    - unfold cread, dread in Ec. destruct (dget pos_eqb t (i, j)); congruence.
    - destruct (@nw_trace_ok _ sim gap s1 s2 t g1 g2 G1 G2 F (i + j) i j c []) as (al & _ & I & Sc); auto. split; [eauto|].
      intros al' I'. eapply (nw_upper G1 G2 F); eauto. }
  destruct (@filled_any _ _ _ _ _ _ _ _ t len1 len2 F) as (c & Ec); auto.
  destruct (@nw_trace_ok _ sim gap s1 s2 t g1 g2 G1 G2 F (len1 + len2) len1 len2 c []) as (al & -> & I & Sc); auto. cbn [bind]. rewrite app_nil_r.
  exists t, al. split; auto. split; auto. split; auto. destruct (K len1 len2) as (c' & Ec' & BG); auto.
  assert (c' = c) as ->. { unfold cread, dread in Ec. rewrite Ec' in Ec. congruence. } now rewrite Sc.
Qed.
Lemma matrix_ok : exists t, make_matrix sim gap s1 s2 = Ok t /\ filled sim gap s1 s2 sw_post sleft stop t.
Proof. unfold make_matrix. apply (@fill_ok _ sim gap s1 s2 _ _ _ _ (sw_pcell sim gap s1 s2)), sw_border_ok. Qed.
Lemma item_cell t p c : keys_ok s1 s2 t -> In (p, c) t -> fst p <= len1 /\ snd p <= len2 /\ cread t (fst p) (snd p) = Ok c.
Proof.
  intros [N R] I. destruct (R p) as [R1 R2]. { unfold dkeys. apply in_map_iff. exists (p, c). auto. }
  split; auto. split; auto. unfold cread, dread. destruct p as [i j]. cbn [fst snd]. now rewrite (in_dget pos_eqb pos_eq _ _ _ N I).
Qed.
Lemma cell_item t i j c : cread t i j = Ok c -> In ((i, j), c) t.
Proof. unfold cread, dread. destruct (dget pos_eqb t (i, j)) eqn:E; [|discriminate]. intros [= <-]. now apply (dget_in pos_eqb pos_eq). Qed.
Lemma last_sorted_ok l : match last_sorted l with None => l = [] | Some x => In x l /\ forall y, In y l -> (fst (fst y) <= fst (fst x))%Z end.
Proof.
  unfold last_sorted.
  assert (forall m seen, (match m with None => seen = [] | Some x => In x seen /\ forall y, In y seen -> (fst (fst y) <= fst (fst x))%Z end) ->
    match fold_left (fun m x => match m with None => Some x | Some y => if entry_ltb x y then m else Some x end) l m with
    | None => seen ++ l = [] | Some x => In x (seen ++ l) /\ forall y, In y (seen ++ l) -> (fst (fst y) <= fst (fst x))%Z end) as K.
  { induction l as [|x l IH]; intros m seen H; cbn [fold_left]; [now rewrite app_nil_r|].
    replace (seen ++ x :: l) with ((seen ++ [x]) ++ l) by (rewrite <- app_assoc; reflexivity). apply IH. destruct m as [y|].
    - destruct H as [H1 H2]. assert (entry_ltb x y = true -> (fst (fst x) <= fst (fst y))%Z) as E1.
      { unfold entry_ltb, cell_ltb, cell_eqb. unfold cell, pos in *. intros E. apply orb_prop in E as [E|E].
        - apply orb_prop in E as [E|E]; [apply Z.ltb_lt in E; lia|]. apply andb_prop in E as [E _]. apply Z.eqb_eq in E. lia.
        - apply andb_prop in E as [E _]. apply andb_prop in E as [E _]. apply Z.eqb_eq in E. lia. }
      assert (entry_ltb x y = false -> (fst (fst y) <= fst (fst x))%Z) as E2.
      { unfold entry_ltb, cell_ltb. unfold cell, pos in *. intros E. apply orb_false_iff in E as [E _]. apply orb_false_iff in E as [E _]. apply Z.ltb_ge in E. lia. }
      unfold cell, pos in *. destruct (entry_ltb x y); (split; [apply in_app_iff; cbn; auto|]); intros z Hz; apply in_app_iff in Hz as [Hz|[<-|[]]]; auto; try lia.
      specialize (H2 z Hz). specialize (E2 eq_refl). lia.
    - subst seen. cbn. split; auto. intros z [<-|[]]. lia. }
  specialize (K None [] eq_refl). exact K.
Qed.
Lemma sw_total : (forall a, In a s1 \/ In a s2 -> (gap a <= 0)%Z) ->
  match smith_waterman sim gap s1 s2 with
  | Ok (_, al) => exists x, local_score sim gap s1 s2 al x /\ (0 < x)%Z /\ forall al' x', local_score sim gap s1 s2 al' x' -> (x' <= x)%Z
  | Err e => e = IndexError /\ forall al' x', local_score sim gap s1 s2 al' x' -> (x' <= 0)%Z
  end.
Proof.
  intros G. unfold smith_waterman. destruct matrix_ok as (t & -> & F). cbn [bind]. set (ps := map _ _). pose proof (last_sorted_ok ps) as LS.
  assert (forall i j c, cread t i j = Ok c -> (0 < fst c)%Z -> In (c, (i, j)) ps) as P1.
  { intros i j c Ec Hc. unfold ps. apply in_map_iff. exists ((i, j), c). split; auto. apply filter_In. split; [now apply cell_item|]. now apply Z.ltb_lt. }
  assert (forall al' x', local_score sim gap s1 s2 al' x' -> exists i j c, i <= len1 /\ j <= len2 /\ cread t i j = Ok c /\ (x' <= fst c)%Z) as UP.
  { intros al' x' (i0 & i1 & j0 & j1 & [H1 H2] & I & Sc). destruct (filled_any F H1 H2) as (c & Ec). exists i1, j1, c. do 3 (split; auto). rewrite <- Sc.
    assert (forall a, In a s1 -> (gap a <= 0)%Z) as G1 by auto. assert (forall a, In a s2 -> (gap a <= 0)%Z) as G2 by auto.
    eapply (sw_upper F G1 G2); eauto. }
  destruct (last_sorted ps) as [[c [i j]]|].
  - destruct LS as [I M]. unfold ps in I. apply in_map_iff in I as ([p c'] & E & I). cbn in E. injection E as -> ->. apply filter_In in I as [I Pc]. cbn in Pc. apply Z.ltb_lt in Pc.
    destruct (@item_cell t (i, j) c (proj1 (proj1 F)) I) as (Hi & Hj & Ec). cbn [fst snd] in *.
    destruct (@sw_trace_ok _ sim gap s1 s2 t F (i + j) i j c []) as (al & i0 & j0 & -> & I' & Sc); auto. cbn [bind]. rewrite app_nil_r.
    exists (fst c). split; [exists i0, i, j0, j; auto|]. split; auto. intros al' x' LSc. destruct (UP _ _ LSc) as (i' & j' & c'' & Hi' & Hj' & Ec' & Hx).
    destruct (Z.le_gt_cases (fst c'') 0) as [|Hp]; [lia|]. specialize (M _ (P1 _ _ _ Ec' Hp)). cbn in M. lia.
  - split; auto. intros al' x' LSc. destruct (UP _ _ LSc) as (i' & j' & c'' & Hi' & Hj' & Ec' & Hx).
    destruct (Z.le_gt_cases (fst c'') 0) as [|Hp]; [lia|]. pose proof (P1 _ _ _ Ec' Hp) as Q. rewrite LS in Q. easy.
Qed.
(** *** Waterman-Eggert *)
Definition wf (t : table) : Prop :=
  keys_ok s1 s2 t /\ (forall i j, i <= len1 -> j <= len2 -> exists c, cread t i j = Ok c) /\
  (forall i j c, i = 0 \/ j = 0 -> cread t i j = Ok c -> fst c = 0%Z) /\ (forall i j c, cread t i j = Ok c -> (0 < fst c)%Z -> snd c <> StT).
Lemma filled_wf t : filled sim gap s1 s2 sw_post sleft stop t -> wf t.
Proof.
  intros F. pose proof (filled_border F) as [BL BT]. assert (forall i j c, cread t i j = Ok c -> i <= len1 /\ j <= len2) as R.
  { intros i j c Ec. apply cell_item in Ec. destruct (proj2 (proj1 (proj1 F)) (i, j)); auto. unfold dkeys. apply in_map_iff. exists ((i, j), c). auto. }
  split; [apply F|]. split; [intros; eapply filled_any; eauto|]. split.
  - intros i j c H Ec. destruct (R _ _ _ Ec) as [Hi Hj]. destruct H as [-> | ->]; [rewrite BT in Ec by auto|rewrite BL in Ec by auto]; apply ok_inj in Ec; subst c; [destruct j|destruct i]; reflexivity.
  - intros i j c Ec Hc. destruct (R _ _ _ Ec) as [Hi Hj]. destruct i as [|i]; [rewrite BT in Ec by auto; apply ok_inj in Ec; subst c; destruct j; cbn in *; lia|].
    destruct j as [|j]; [rewrite BL in Ec by auto; apply ok_inj in Ec; subst c; cbn in *; lia|].
    destruct (filled_inner F (i := i) (j := j)) as (u & d & l & a & b & Eu & Ed & El & Ea & Eb & E); [lia|lia|]. rewrite E in Ec. apply ok_inj in Ec.
    destruct (sw_post_cases ((fst u + gap a)%Z, StU) ((fst d + sim a b)%Z, StD) ((fst l + gap b)%Z, StL)) as (P & _). set (c' := sw_post _) in *. clearbody c'. subst c'.
    destruct P as [->|[->|[->| ->]]]; cbn in *; try discriminate.
Qed.
Lemma wf_cset t i j c : wf t -> 1 <= i <= len1 -> 1 <= j <= len2 -> ((0 < fst c)%Z -> snd c <> StT) -> wf (cset t i j c).
Proof.
  intros (K & R & B & P) Hi Hj Hc. split; [apply keys_cset; auto; lia|].
  assert (forall i' j', (i', j') = (i, j) \/ cread (cset t i j c) i' j' = cread t i' j') as D.
  { intros i' j'. destruct (pos_dec (i', j') (i, j)) as [E|N]; auto. right. apply cread_other. congruence. }
  repeat split.
  - intros i' j' Hi' Hj'. destruct (D i' j') as [[= -> ->]|E]; [rewrite cread_same; eauto|]. rewrite E. auto.
  - intros i' j' c' H E'. destruct (D i' j') as [[= -> ->]|E]; [lia|]. rewrite E in E'. eauto.
  - intros i' j' c' E' Hp. destruct (D i' j') as [[= -> ->]|E]; [rewrite cread_same in E'; apply ok_inj in E'; subst; auto|]. rewrite E in E'. eauto.
Qed.
Lemma wf_cell t i j : wf t -> 1 <= i <= len1 -> 1 <= j <= len2 -> exists c, sw_cell sim gap s1 s2 t i j = Ok c /\ ((0 < fst c)%Z -> snd c <> StT).
Proof.
  intros (K & R & B & P) Hi Hj. destruct (R (i - 1) j) as (u & Eu); [lia|lia|]. destruct (R (i - 1) (j - 1)) as (d & Ed); [lia|lia|]. destruct (R i (j - 1)) as (l & El); [lia|lia|].
  destruct (@reach_ok _ sim gap s1 s2 t i j u d l Hi Hj Eu Ed El) as (a & b & _ & _ & ER). rewrite sw_pcell. unfold pcell. rewrite ER. cbn [bind]. eexists. split; [reflexivity|].
  destruct (sw_post_cases ((fst u + gap a)%Z, StU) ((fst d + sim a b)%Z, StD) ((fst l + gap b)%Z, StL)) as (Q & _). set (c := sw_post _) in *. clearbody c.
  destruct Q as [->|[->|[->| ->]]]; cbn; try discriminate.
Qed.
Lemma wf_line at_ ks : (forall k, In k ks -> 1 <= fst (at_ k) <= len1 /\ 1 <= snd (at_ k) <= len2) -> forall t, wf t ->
  exists t', recalc_line sim gap s1 s2 at_ ks t = Ok t' /\ wf t'.
Proof.
  induction ks as [|k ks IH]; intros H t W; cbn [recalc_line]; [eauto|]. pose proof (H k (or_introl eq_refl)) as Hk. destruct (at_ k) as [i j]. cbn [fst snd] in Hk.
  destruct Hk as [Hi Hj]. destruct (wf_cell W Hi Hj) as (c & -> & Hc). cbn [bind]. destruct (proj1 (proj2 W) i j) as (c0 & ->); [lia|lia|]. cbn [bind].
  destruct (cell_eqb c c0); [eauto|]. apply IH; [intros; apply H; now right|]. now apply wf_cset.
Qed.
Lemma wf_recalc al : (forall p, In p al -> fst p < len1 /\ snd p < len2) -> forall t, wf t -> exists t', recalculate_matrix sim gap s1 s2 t al = Ok t' /\ wf t'.
Proof.
  unfold recalculate_matrix. induction al as [|p al IH]; intros H t W; cbn [foldM]; [eauto|]. pose proof (H p (or_introl eq_refl)) as [Hi Hj].
  assert (wf (cset t (S (fst p)) (S (snd p)) (0%Z, StT))) as W0 by (apply wf_cset; auto; cbn; lia).
  edestruct (@wf_line (fun k => (k, S (snd p))) (seq (S (fst p) + 1) (len1 - S (fst p)))) as (t1 & E1 & W1); [|exact W0|].
  { intros k Hk. apply in_seq in Hk. cbn [fst snd]. lia. }
  rewrite E1. cbn [bind].
  edestruct (@wf_line (fun k => (S (fst p), k)) (seq (S (snd p) + 1) (len2 - S (snd p)))) as (t2 & E2 & W2); [|exact W1|].
  { intros k Hk. apply in_seq in Hk. cbn [fst snd]. lia. }
  rewrite E2. cbn [bind]. apply IH; auto. intros; apply H; now right.
Qed.
Lemma wf_trace t : wf t -> forall fuel i j acc, i + j <= fuel -> i <= len1 -> j <= len2 ->
  exists al i0 j0, sw_trace fuel t i j acc = Ok (al ++ acc) /\ increasing_in i0 i j0 j al.
Proof.
  intros (K & R & B & P). induction fuel as [|fuel IH]; intros i j acc Hf Hi Hj; destruct (R i j Hi Hj) as (c & Ec).
  - cbn [sw_trace]. rewrite Ec. cbn [bind]. replace i with 0 in * by lia. replace j with 0 in * by lia. rewrite (B 0 0 c) by auto. cbn. exists [], 0, 0. cbn. auto.
  - cbn [sw_trace]. rewrite Ec. cbn [bind]. destruct (0 <? fst c)%Z eqn:E0; [apply Z.ltb_lt in E0|exists [], i, j; cbn; auto].
    assert (i <> 0) as Ni by (intros ->; rewrite (B 0 j c) in E0 by auto; lia). assert (j <> 0) as Nj by (intros ->; rewrite (B i 0 c) in E0 by auto; lia).
    pose proof (P _ _ _ Ec E0) as NT. destruct (snd c).
    + easy.
    + destruct (IH (i - 1) (j - 1) ((i - 1, j - 1) :: acc)) as (al & i0 & j0 & -> & I); [lia|lia|lia|]. exists (al ++ [(i - 1, j - 1)]), i0, j0. rewrite <- app_assoc. split; auto.
      apply inc_snoc in I. replace (S (i - 1)) with i in I by lia. replace (S (j - 1)) with j in I by lia. exact I.
    + destruct (IH (i - 1) j acc) as (al & i0 & j0 & -> & I); [lia|lia|lia|]. exists al, i0, j0. split; auto. eapply inc_wider; eauto; lia.
    + destruct (IH i (j - 1) acc) as (al & i0 & j0 & -> & I); [lia|lia|lia|]. exists al, i0, j0. split; auto. eapply inc_wider; eauto; lia.
Qed.
Lemma best_ok t : let b := find_best_score s1 s2 t in
  (0 <= fst b)%Z /\ (forall p c, In (p, c) t -> (fst c <= fst b)%Z) /\ (fst b = 0%Z \/ exists c, In (snd b, c) t /\ fst c = fst b).
Proof.
  unfold find_best_score.
  assert (forall seen b, (0 <= fst b)%Z -> (forall p c, In (p, c) seen -> (fst c <= fst b)%Z) -> (fst b = 0%Z \/ exists c, In (snd b, c) seen /\ fst c = fst b) ->
    let b' := fold_left better t b in (0 <= fst b')%Z /\ (forall p c, In (p, c) (seen ++ t) -> (fst c <= fst b')%Z) /\ (fst b' = 0%Z \/ exists c, In (snd b', c) (seen ++ t) /\ fst c = fst b')) as K.
  { induction t as [|[p c] t IH]; intros seen b H1 H2 H3; cbn [fold_left]; [rewrite app_nil_r; auto|].
    replace (seen ++ (p, c) :: t) with ((seen ++ [(p, c)]) ++ t) by (rewrite <- app_assoc; reflexivity).
    assert ((fst c <= fst b /\ better b (p, c) = b)%Z \/ (fst b <= fst c /\ better b (p, c) = (fst c, p))%Z) as D.
    { unfold better. cbn [fst snd]. destruct (fst c <? fst b)%Z eqn:E1; [apply Z.ltb_lt in E1; left; split; auto; lia|]. apply Z.ltb_ge in E1.
      destruct (fst c =? fst b)%Z eqn:E2; [apply Z.eqb_eq in E2|right; auto]. destruct (Nat.ltb _ _); [left; split; auto; lia|]. destruct (andb _ _); [left|right]; split; auto; lia. }
    apply IH.
    - destruct D as [[D ->]|[D ->]]; cbn; lia.
    - intros q c' Hq. apply in_app_iff in Hq as [Hq|[[= <- <-]|[]]].
      + specialize (H2 _ _ Hq). destruct D as [[D ->]|[D ->]]; cbn; lia.
      + destruct D as [[D ->]|[D ->]]; cbn; lia.
    - destruct D as [[D ->]|[D ->]].
      + destruct H3 as [H3|(c' & H3 & E)]; auto. right. exists c'. split; auto. apply in_app_iff. auto.
      + right. exists c. cbn. split; auto. apply in_app_iff. cbn. auto. }
  specialize (K [] (0%Z, (len1 + 2, len2 + 2))). cbn [app] in K. apply K; cbn; auto; [lia|easy].
Qed.
Definition al_ok (al : list pos) : Prop := exists i0 i1 j0 j1, i1 <= len1 /\ j1 <= len2 /\ increasing_in i0 i1 j0 j1 al.
(** one round *)
Lemma round t : wf t -> fst (find_best_score s1 s2 t) <> 0%Z ->
  exists al t', sw_trace (fst (snd (find_best_score s1 s2 t)) + snd (snd (find_best_score s1 s2 t))) t (fst (snd (find_best_score s1 s2 t))) (snd (snd (find_best_score s1 s2 t))) [] = Ok al /\
    recalculate_matrix sim gap s1 s2 t al = Ok t' /\ wf t' /\ al_ok al.
Proof.
  intros W N. destruct (best_ok t) as (_ & _ & [H|(c & I & E)]); [easy|]. destruct (find_best_score s1 s2 t) as [b [i j]]. cbn [fst snd] in *.
  destruct (@item_cell t (i, j) c (proj1 W) I) as (Hi & Hj & Ec). cbn [fst snd] in *. destruct (@wf_trace t W (i + j) i j []) as (al & i0 & j0 & E1 & I1); auto.
  rewrite app_nil_r in E1. destruct (@wf_recalc al) with (t := t) as (t' & E2 & W'); auto.
  { intros p Hp. pose proof (inc_range _ _ _ _ _ I1 p Hp). lia. }
  exists al, t'. do 3 (split; auto). exists i0, i, j0, j. auto.
Qed.
Lemma loop_inv fuel : forall limit t ss als ss' als', wf t -> we_loop sim gap s1 s2 fuel limit t ss als = Ok (ss', als') ->
  exists s a, ss' = ss ++ s /\ als' = als ++ a /\ length s = length a /\ Forall al_ok a /\ (limit <> 0 -> length als <= limit -> length als' <= limit).
Proof.
  induction fuel as [|fuel IH]; intros limit t ss als ss' als' W; cbn [we_loop].
  - destruct (orb _ _); [discriminate|]. intros [= <- <-]. exists [], []. rewrite !app_nil_r. auto.
  - destruct (orb _ _) eqn:EO. 2:{ intros [= <- <-]. exists [], []. rewrite !app_nil_r. auto. }
    pose proof (round W) as RD. destruct (find_best_score s1 s2 t) as [b [i j]]. cbn [fst snd] in RD |- *. destruct (b =? 0)%Z eqn:E0; [intros [= <- <-]; exists [], []; rewrite !app_nil_r; auto|].
    apply Z.eqb_neq in E0. destruct (RD E0) as (al & t' & -> & E2 & W' & OK). cbn [bind]. rewrite E2. cbn [bind]. intros H.
    destruct (IH _ _ _ _ _ _ W' H) as (s & a & -> & -> & EL & FA & LM). exists (t :: s), (al :: a). rewrite <- !app_assoc. cbn [app length]. repeat split; auto.
    intros L0 L1. rewrite <- app_assoc in LM. apply LM; auto. rewrite app_length. cbn. apply orb_prop in EO as [EO|EO]; [apply Nat.eqb_eq in EO; easy|apply Nat.ltb_lt in EO; lia].
Qed.
Lemma loop_total fuel : forall limit t ss als, wf t -> limit <> 0 -> limit <= length als + fuel -> exists r, we_loop sim gap s1 s2 fuel limit t ss als = Ok r.
Proof.
  induction fuel as [|fuel IH]; intros limit t ss als W L0 L; cbn [we_loop].
  - assert (orb (Nat.eqb limit 0) (Nat.ltb (length als) limit) = false) as ->; [|eauto]. apply orb_false_iff. split; [now apply Nat.eqb_neq|apply Nat.ltb_ge; lia].
  - destruct (orb _ _); [|eauto]. pose proof (round W) as RD. destruct (find_best_score s1 s2 t) as [b [i j]]. cbn [fst snd] in RD |- *. destruct (b =? 0)%Z eqn:E0; [eauto|].
    apply Z.eqb_neq in E0. destruct (RD E0) as (al & t' & -> & E2 & W' & OK). cbn [bind]. rewrite E2. cbn [bind]. apply IH; auto. rewrite app_length. cbn. lia.
Qed.
Lemma we_total fuel limit : 1 <= limit -> limit <= fuel -> exists r, waterman_eggert sim gap s1 s2 fuel limit = Ok r.
Proof.
  intros H1 H2. unfold waterman_eggert. destruct matrix_ok as (t & -> & F). cbn [bind]. apply loop_total; [now apply filled_wf|lia|cbn; lia].
Qed.
Lemma we_inv fuel limit ss als : waterman_eggert sim gap s1 s2 fuel limit = Ok (ss, als) ->
  length ss = length als /\ Forall al_ok als /\ (1 <= limit -> length als <= limit).
Proof.
  unfold waterman_eggert. destruct matrix_ok as (t & -> & F). cbn [bind]. intros H. destruct (loop_inv _ _ _ _ (filled_wf F) H) as (s & a & -> & -> & EL & FA & LM).
  cbn in *. repeat split; auto. intros; apply LM; lia.
Qed.
Lemma we_first fuel limit ss als : (forall a, In a s1 \/ In a s2 -> (gap a <= 0)%Z) -> waterman_eggert sim gap s1 s2 fuel limit = Ok (ss, als) ->
  match als with
  | [] => forall al' x', local_score sim gap s1 s2 al' x' -> (x' <= 0)%Z
  | al :: _ => exists x, local_score sim gap s1 s2 al x /\ (0 < x)%Z /\ forall al' x', local_score sim gap s1 s2 al' x' -> (x' <= x)%Z
  end.
Proof.
  intros G. unfold waterman_eggert. destruct matrix_ok as (t & -> & F). cbn [bind]. intros H. pose proof (filled_wf F) as W.
  assert (forall al' x', local_score sim gap s1 s2 al' x' -> exists i j c, i <= len1 /\ j <= len2 /\ cread t i j = Ok c /\ (x' <= fst c)%Z) as UP.
  { intros al' x' (i0 & i1 & j0 & j1 & [H1 H2] & I & Sc). destruct (filled_any F H1 H2) as (c & Ec). exists i1, j1, c. do 3 (split; auto). rewrite <- Sc.
    assert (forall a, In a s1 -> (gap a <= 0)%Z) as G1 by auto. assert (forall a, In a s2 -> (gap a <= 0)%Z) as G2 by auto.
    eapply (sw_upper F G1 G2); eauto. }
  pose proof (best_ok t) as BO. assert (orb (Nat.eqb limit 0) (Nat.ltb (@length (list pos) []) limit) = true) as OR.
  { cbn. destruct limit; reflexivity. }
  destruct fuel as [|fuel]; cbn [we_loop] in H; rewrite OR in H; [discriminate|]. pose proof (round W) as RD.
  destruct (find_best_score s1 s2 t) as [b [i j]]. cbn [fst snd] in *. destruct BO as (B0 & B1 & B2). destruct (b =? 0)%Z eqn:E0.
  - injection H as <- <-. apply Z.eqb_eq in E0. subst b. intros al' x' L. destruct (UP _ _ L) as (i' & j' & c & _ & _ & Ec & Hx). apply cell_item, B1 in Ec. lia.
  - apply Z.eqb_neq in E0. destruct (RD E0) as (al & t' & E1 & E2 & W' & OK). rewrite E1 in H. cbn [bind] in H. rewrite E2 in H. cbn [bind] in H.
    destruct (loop_inv _ _ _ _ W' H) as (s & a & -> & -> & _). cbn [app].
    destruct B2 as [B2|(c & I & E)]; [easy|]. destruct (@item_cell t (i, j) c (proj1 W) I) as (Hi & Hj & Ec). cbn [fst snd] in *.
    destruct (@sw_trace_ok _ sim gap s1 s2 t F (i + j) i j c []) as (al1 & i0 & j0 & Et & I' & Sc); auto. rewrite app_nil_r, E1 in Et. apply ok_inj in Et. subst al1.
    exists b. split; [exists i0, i, j0, j; rewrite <- E; auto|]. split; [lia|]. intros al' x' L. destruct (UP _ _ L) as (i' & j' & c' & _ & _ & Ec' & Hx). apply cell_item, B1 in Ec'. lia.
Qed.
End Top.

(** ** a search that does not end *)
Definition stuck_sim (a b : nat) : Z := if Nat.eqb a b then 3%Z else (-3)%Z.
Definition stuck_gap (_ : nat) : Z := (-1)%Z.
Definition stuck0 : table := match make_matrix stuck_sim stuck_gap [0; 1] [0; 2] with Ok t => t | Err _ => [] end.
Definition stuck1 : table := match recalculate_matrix stuck_sim stuck_gap [0; 1] [0; 2] stuck0 [(0, 0)] with Ok t => t | Err _ => [] end.
Lemma stuck_loop fuel : forall ss als, we_loop stuck_sim stuck_gap [0; 1] [0; 2] fuel 0 stuck1 ss als = Err OutOfFuel.
Proof.
  induction fuel as [|f IH]; intros ss als; [reflexivity|]. cbn [we_loop orb Nat.eqb].
  replace (find_best_score [0; 1] [0; 2] stuck1) with (1%Z, (2, 2)) by (vm_compute; reflexivity). change (1 =? 0)%Z with false. cbv iota. cbn [fst snd Nat.add].
  replace (sw_trace 4 stuck1 2 2 []) with (@Ok (list pos) []) by (vm_compute; reflexivity). cbn [bind].
  change (recalculate_matrix stuck_sim stuck_gap [0; 1] [0; 2] stuck1 []) with (@Ok table stuck1). cbn [bind]. apply IH.
Qed.
Lemma stuck fuel : waterman_eggert stuck_sim stuck_gap [0; 1] [0; 2] fuel 0 = Err OutOfFuel.
Proof.
  unfold waterman_eggert. replace (make_matrix stuck_sim stuck_gap [0; 1] [0; 2]) with (Ok stuck0) by (vm_compute; reflexivity). cbn [bind].
  destruct fuel as [|f]; [reflexivity|]. cbn [we_loop orb Nat.eqb].
  replace (find_best_score [0; 1] [0; 2] stuck0) with (3%Z, (1, 1)) by (vm_compute; reflexivity). change (3 =? 0)%Z with false. cbv iota. cbn [fst snd Nat.add].
  replace (sw_trace 2 stuck0 1 1 []) with (@Ok (list pos) [(0, 0)]) by (vm_compute; reflexivity). cbn [bind].
  replace (recalculate_matrix stuck_sim stuck_gap [0; 1] [0; 2] stuck0 [(0, 0)]) with (Ok stuck1) by (vm_compute; reflexivity). cbn [bind]. apply stuck_loop.
Qed.
