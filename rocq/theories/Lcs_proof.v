From Coq Require Import Reals Lra.
From Verif Require Import Py PyLemmas Lcs_model Lcs_spec.
Open Scope nat_scope.
Set Implicit Arguments.

Section P.
Variable A : Type.
Variable eqb : A -> A -> bool.
Hypothesis eqb_spec : forall x y, eqb x y = true <-> x = y.
Implicit Types s u v : list A.

Lemma subseq_nil s : subseq [] s.
Proof. induction s; constructor; auto. Qed.
Lemma subseq_refl s : subseq s s.
Proof. induction s; [constructor|apply ss_take; auto]. Qed.
Lemma subseq_nil_r u : subseq u [] -> u = [].
Proof. now inversion 1. Qed.
Lemma subseq_length u s : subseq u s -> length u <= length s.
Proof. induction 1; cbn; lia. Qed.
Lemma subseq_app_l u s t : subseq u s -> subseq u (s ++ t).
Proof. induction 1; cbn; [apply subseq_nil|apply ss_skip|apply ss_take]; auto. Qed.
Lemma subseq_snoc u s x : subseq u s -> subseq (u ++ [x]) (s ++ [x]).
Proof. induction 1; cbn; [apply ss_take; constructor|apply ss_skip|apply ss_take]; auto. Qed.
Lemma subseq_snoc_inv u s x : subseq u (s ++ [x]) ->
  subseq u s \/ exists u', u = u' ++ [x] /\ subseq u' s.
Proof.
  revert u; induction s as [|y s IH]; intros u H; cbn in H.
  - inversion H as [|? ? ? H'|? ? ? H']; subst.
    + left; auto.
    + right. exists []. apply subseq_nil_r in H' as ->. split; auto; constructor.
  - inversion H as [|? ? ? H'|? ? ? H']; subst.
    + destruct (IH _ H') as [K|(u' & -> & K)]; [left; now constructor|].
      right. exists u'. split; auto. now constructor.
    + destruct (IH _ H') as [K|(u' & -> & K)]; [left; now constructor|].
      right. exists (y :: u'). split; auto. now constructor.
Qed.
Lemma subseq_init u x s : subseq (u ++ [x]) s -> subseq u s.
Proof.
  intros H. remember (u ++ [x]) as w eqn:E. revert u x E.
  induction H as [|y w s H IH|y w s H IH]; intros u x E.
  - symmetry in E; apply app_eq_nil in E as [_ E]; discriminate.
  - constructor. eauto.
  - destruct u as [|z u]; cbn in E; injection E as -> E.
    + apply ss_skip. apply subseq_nil.
    + apply ss_take. eauto.
Qed.
Lemma subseq_init2 u z s x : subseq (u ++ [z]) (s ++ [x]) -> subseq u s.
Proof.
  intros H. apply subseq_snoc_inv in H as [H|(u' & E & H)].
  - eapply subseq_init; eauto.
  - apply app_inj_tail in E as [-> _]. auto.
Qed.

(** k is the length of a longest common subsequence *)
Definition maxlen (k : nat) s t :=
  (exists u, common u s t /\ length u = k) /\ forall v, common v s t -> length v <= k.

Lemma maxlen_fun k l s t : maxlen k s t -> maxlen l s t -> k = l.
Proof.
  intros [(u & Hu & <-) H1] [(v & Hv & <-) H2]. apply H1 in Hv. apply H2 in Hu. lia.
Qed.
Lemma maxlen_nil_l t : maxlen 0 [] t.
Proof.
  split.
  - exists []. repeat split; auto using subseq_nil.
  - intros v [H _]. apply subseq_nil_r in H as ->. auto.
Qed.
Lemma maxlen_nil_r t : maxlen 0 t [].
Proof.
  split.
  - exists []. repeat split; auto using subseq_nil.
  - intros v [_ H]. apply subseq_nil_r in H as ->. auto.
Qed.
Lemma maxlen_mat k s t x : maxlen k s t -> maxlen (k + 1) (s ++ [x]) (t ++ [x]).
Proof.
  intros [(u & [U1 U2] & L) H]. split.
  - exists (u ++ [x]). repeat split; auto using subseq_snoc. rewrite app_length; cbn; lia.
  - intros v [V1 V2]. destruct v as [|z v _] using rev_ind; [cbn; lia|].
    rewrite app_length; cbn. enough (length v <= k) by lia. apply H.
    split; eapply subseq_init2; eauto.
Qed.
Lemma maxlen_mis k l s t x y : x <> y -> maxlen k s (t ++ [y]) -> maxlen l (s ++ [x]) t ->
  maxlen (Nat.max k l) (s ++ [x]) (t ++ [y]).
Proof.
  intros Hxy [(u & [U1 U2] & Lu) Hu] [(w & [W1 W2] & Lw) Hw]. split.
  - destruct (Nat.max_spec k l) as [[_ ->]|[_ ->]].
    + exists w. repeat split; auto using subseq_app_l.
    + exists u. repeat split; auto using subseq_app_l.
  - intros v [V1 V2].
    destruct (subseq_snoc_inv _ _ V1) as [K|(v' & -> & K)].
    + enough (length v <= k) by lia. apply Hu. split; auto.
    + enough (length (v' ++ [x]) <= l) by lia. apply Hw. split; auto.
      destruct (subseq_snoc_inv _ _ V2) as [K'|(v2 & E & K')]; auto.
      apply app_inj_tail in E as [_ E]. congruence.
Qed.
Lemma maxlen_sym k s t : maxlen k s t -> maxlen k t s.
Proof. intros [(u & [U1 U2] & L) H]. split.
  - exists u. repeat split; auto.
  - intros v [V1 V2]. apply H. split; auto.
Qed.
Lemma maxlen_mono k l s t x : maxlen k s t -> maxlen l (s ++ [x]) t -> k <= l <= k + 1.
Proof.
  intros [(u & [U1 U2] & L) H] [(v & [V1 V2] & L') H']. split.
  - rewrite <- L. apply H'. split; auto using subseq_app_l.
  - rewrite <- L'. destruct v as [|z v _] using rev_ind; [cbn; lia|].
    rewrite app_length; cbn. enough (length v <= k) by lia. apply H. split.
    + eapply subseq_init2; eauto.
    + eapply subseq_init; eauto.
Qed.

Notation peqb := (pair_eqb Nat.eqb Nat.eqb).
Lemma peqb_spec : forall p q : nat * nat, peqb p q = true <-> p = q.
Proof. apply pair_eqb_spec; apply Nat.eqb_eq. Qed.

Lemma tread_same (t : table) i j (v : nat) : tread (tset t i j v) i j = Ok v.
Proof. unfold tread, tset, dread. now rewrite dget_dset_same by apply peqb_spec. Qed.
Lemma tread_other (t : table) i j i' j' (v : nat) : (i, j) <> (i', j') -> tread (tset t i j v) i' j' = tread t i' j'.
Proof. unfold tread, tset, dread. intros H. now rewrite dget_dset_other by (auto using peqb_spec). Qed.

Section Tab.
Variables s1 s2 : list A.
Definition cell_ok (t : table) (i j : nat) :=
  exists k, tread t i j = Ok k /\ maxlen k (firstn i s1) (firstn j s2).
(* all cells before (i,j) in row-major order *)
Definition upto (i j : nat) (t : table) :=
  forall i' j', j' <= length s2 -> (i' < i \/ (i' = i /\ j' < j)) -> cell_ok t i' j'.

Lemma cell_step i j (t : table) : i <= length s1 -> j <= length s2 -> upto i j t ->
  exists t', lcs_cell eqb s1 s2 i t j = Ok t' /\ upto i (S j) t'.
Proof.
  intros Hi Hj HU. unfold lcs_cell.
  assert (EXT : forall k, maxlen k (firstn i s1) (firstn j s2) -> upto i (S j) (tset t i j k)).
  { intros k Hk i' j' Hj' Hlt. unfold cell_ok.
    destruct (Nat.eq_dec i' i) as [->|Ni]; [destruct (Nat.eq_dec j' j) as [->|Nj]|].
    - exists k. rewrite tread_same. auto.
    - destruct (HU i j') as (k' & E & H); auto; [right; lia|].
      exists k'. rewrite tread_other by congruence. auto.
    - destruct (HU i' j') as (k' & E & H); auto; [left; lia|].
      exists k'. rewrite tread_other by congruence. auto. }
  destruct (Nat.eqb_spec i 0) as [->|Ni]; cbn [orb].
  { eexists; split; [reflexivity|]. apply EXT. cbn. apply maxlen_nil_l. }
  destruct (Nat.eqb_spec j 0) as [->|Nj]; cbn [orb].
  { eexists; split; [reflexivity|]. apply EXT. cbn. apply maxlen_nil_r. }
  destruct (nth_error s1 (i - 1)) as [x|] eqn:Ex; [|apply nth_error_None in Ex; lia].
  destruct (nth_error s2 (j - 1)) as [y|] eqn:Ey; [|apply nth_error_None in Ey; lia].
  assert (F1 : firstn i s1 = firstn (i - 1) s1 ++ [x]).
  { replace i with (S (i - 1)) at 1 by lia. rewrite (@firstn_snoc _ s1 (i-1) x) by lia.
    now rewrite (nth_error_nth _ _ _ Ex). }
  assert (F2 : firstn j s2 = firstn (j - 1) s2 ++ [y]).
  { replace j with (S (j - 1)) at 1 by lia. rewrite (@firstn_snoc _ s2 (j-1) y) by lia.
    now rewrite (nth_error_nth _ _ _ Ey). }
  unfold get. rewrite Ex, Ey. cbn [bind].
  destruct (eqb x y) eqn:E.
  - apply eqb_spec in E as ->.
    destruct (HU (i-1) (j-1)) as (k & Ek & Hk); [lia|left; lia|].
    rewrite Ek; cbn [bind]. eexists; split; [reflexivity|]. apply EXT.
    rewrite F1, F2. now apply maxlen_mat.
  - assert (x <> y) by (intros ->; rewrite (proj2 (eqb_spec y y) eq_refl) in E; discriminate).
    destruct (HU (i-1) j) as (k & Ek & Hk); [lia|left; lia|].
    destruct (HU i (j-1)) as (l & El & Hl); [lia|right; lia|].
    rewrite Ek; cbn [bind]. rewrite El; cbn [bind]. eexists; split; [reflexivity|]. apply EXT.
    rewrite F1, F2. apply maxlen_mis; auto.
    + now rewrite <- F2.
    + now rewrite <- F1.
Qed.

Lemma table_ok : exists t, lcs_table eqb s1 s2 = Ok t /\
  forall i j, i <= length s1 -> j <= length s2 -> cell_ok t i j.
Proof.
  unfold lcs_table.
  destruct (@foldM_seq_inv table (lcs_row eqb s1 s2) (fun i t => upto i 0 t) 0 (length s1 + 1) [])
    as (t & E & H).
  - intros i' j' _ H. lia.
  - intros i t Hi HU. unfold lcs_row.
    destruct (@foldM_seq_inv table (lcs_cell eqb s1 s2 i) (fun j t => upto i j t) 0 (length s2 + 1) t)
      as (t' & E & H); auto.
    { intros j t0 Hj HU'. apply cell_step; auto; lia. }
    exists t'; split; auto. intros i' j' Hj' Hlt. apply H; auto. lia.
  - exists t; split; auto. intros i j Hi Hj. apply H; auto. left; lia.
Qed.

Variable t : table.
Hypothesis Ht : forall i j, i <= length s1 -> j <= length s2 -> cell_ok t i j.

Lemma cell_val i j k : i <= length s1 -> j <= length s2 -> tread t i j = Ok k ->
  maxlen k (firstn i s1) (firstn j s2).
Proof. intros Hi Hj E. destruct (Ht Hi Hj) as (k' & E' & H). rewrite E in E'. now injection E' as ->. Qed.

Lemma firstn_S_snoc s i : i < length s -> exists x, nth_error s i = Some x /\ firstn (S i) s = firstn i s ++ [x].
Proof.
  intros H. destruct (nth_error s i) as [x|] eqn:E; [|apply nth_error_None in E; lia].
  exists x; split; auto. rewrite (@firstn_snoc _ s i x H). now rewrite (nth_error_nth _ _ _ E).
Qed.

Lemma move_i_ok i j k : i <= length s1 -> j <= length s2 -> tread t i j = Ok (S k) ->
  exists i1 k0, move_i t i j = Ok (S i1) /\ S i1 <= i /\ tread t (S i1) j = Ok (S k) /\
    tread t i1 j = Ok k0 /\ k0 < S k.
Proof.
  revert k; induction i as [|i IH]; intros k Hi Hj E.
  - apply cell_val in E; auto. cbn in E. apply (maxlen_fun (maxlen_nil_l _)) in E. discriminate.
  - cbn [move_i]. rewrite E; cbn [bind].
    destruct (@Ht i j) as (w & Ew & Hw); [lia|lia|]. rewrite Ew; cbn [bind].
    destruct (Nat.eqb_spec (S k) w) as [<-|N].
    + destruct (IH k) as (i1 & k0 & R1 & R2 & R3 & R4 & R5); auto; try lia.
      exists i1, k0; repeat split; auto.
    + exists i, w; repeat split; auto.
      apply cell_val in E; auto. destruct (@firstn_S_snoc s1 i) as (x & _ & Fx); [lia|].
      rewrite Fx in E. pose proof (maxlen_mono _ Hw E). lia.
Qed.

Lemma move_j_ok i j k : S i <= length s1 -> j <= length s2 -> tread t (S i) j = Ok (S k) ->
  (exists k0, tread t i j = Ok k0 /\ k0 < S k) ->
  exists j1 k0 k1, move_j t (S i) j = Ok (S j1) /\ S j1 <= j /\ tread t (S i) (S j1) = Ok (S k) /\
    tread t (S i) j1 = Ok k0 /\ k0 < S k /\ tread t i (S j1) = Ok k1 /\ k1 < S k.
Proof.
  revert k; induction j as [|j IH]; intros k Hi Hj E (k1 & E1 & L1).
  - apply cell_val in E; auto. cbn [firstn] in E. apply (maxlen_fun (maxlen_nil_r _)) in E. discriminate.
  - cbn [move_j]. rewrite E; cbn [bind].
    destruct (@Ht (S i) j) as (w & Ew & Hw); [lia|lia|]. rewrite Ew; cbn [bind].
    destruct (@firstn_S_snoc s2 j) as (y & _ & Fy); [lia|].
    destruct (Nat.eqb_spec (S k) w) as [<-|N].
    + destruct (@Ht i j) as (w' & Ew' & Hw'); [lia|lia|].
      assert (w' <= k1).
      { apply cell_val in E1; auto; try lia. rewrite Fy in E1.
        apply maxlen_sym in Hw', E1. pose proof (maxlen_mono _ Hw' E1). lia. }
      destruct (IH k) as (j1 & k0 & k1' & R1 & R2 & R3 & R4 & R5); auto; try lia.
      { exists w'; split; auto. lia. }
      exists j1, k0, k1'; repeat split; auto; try lia; tauto.
    + exists j, w, k1; repeat split; auto.
      apply cell_val in E; auto. rewrite Fy in E. apply maxlen_sym in E, Hw.
      pose proof (maxlen_mono _ Hw E). lia.
Qed.

Lemma backtrack_ok fuel i j acc : i <= fuel -> i <= length s1 -> j <= length s2 ->
  exists w, backtrack s1 t fuel i j acc = Ok (acc ++ w) /\
    longest_common (rev w) (firstn i s1) (firstn j s2).
Proof.
  revert i j acc; induction fuel as [|fuel IH]; intros i j acc Hf Hi Hj;
    destruct (Ht Hi Hj) as (k & Ek & Hk); cbn [backtrack]; rewrite Ek; cbn [bind];
    destruct k as [|k]; cbn [Nat.eqb];
    try (exists []; rewrite app_nil_r; split; auto;
      split; [split; apply subseq_nil | intros v Hv; apply Hk in Hv; cbn; lia]).
  - replace i with 0 in Hk by lia. cbn in Hk. apply (maxlen_fun (maxlen_nil_l _)) in Hk. discriminate.
  - destruct (move_i_ok Hi Hj Ek) as (i1 & k0 & M1 & L1 & T1 & T1' & K1).
    rewrite M1; cbn [bind].
    destruct (@move_j_ok i1 j k) as (j1 & k2 & k3 & M2 & L2 & T2 & T2' & K2 & T3 & K3); auto; try lia.
    { exists k0; auto. }
    rewrite M2; cbn [bind]. replace (S i1 - 1) with i1 by lia. replace (S j1 - 1) with j1 by lia.
    destruct (@firstn_S_snoc s1 i1) as (x & Ex & Fx); [lia|].
    destruct (@firstn_S_snoc s2 j1) as (y & Ey & Fy); [lia|].
    unfold get; rewrite Ex; cbn [bind].
    destruct (IH i1 j1 (acc ++ [x])) as (w & Ew & [[W1 W2] Wm]); try lia.
    exists (x :: w). rewrite Ew, <- app_assoc. split; auto.
    assert (V := cell_val (i := S i1) (j := S j1) ltac:(lia) ltac:(lia) T2).
    assert (V1 := cell_val (i := S i1) (j := j1) ltac:(lia) ltac:(lia) T2').
    assert (V2 := cell_val (i := i1) (j := S j1) ltac:(lia) ltac:(lia) T3).
    assert (x = y).
    { destruct (eqb x y) eqn:Exy; [now apply eqb_spec|].
      assert (x <> y) by (intros ->; rewrite (proj2 (eqb_spec y y) eq_refl) in Exy; discriminate).
      rewrite Fx in V, V1. rewrite Fy in V, V2.
      pose proof (maxlen_fun (maxlen_mis H V2 V1) V). lia. }
    subst y.
    destruct (@Ht i1 j1) as (kk & Ekk & Hkk); [lia|lia|].
    assert (S k = kk + 1).
    { rewrite Fx, Fy in V. apply (maxlen_fun V). now apply maxlen_mat. }
    assert (Lw : length w = kk).
    { rewrite <- rev_length. eapply maxlen_fun; [|exact Hkk]. split; auto.
      exists (rev w); repeat split; auto. }
    cbn [rev]. split.
    + split.
      * assert (S1 := subseq_snoc x W1). rewrite <- Fx in S1.
        replace i with (S i1 + (i - S i1)) by lia. rewrite <- (firstn_skipn (S i1) (firstn _ s1)).
        rewrite firstn_firstn. replace (Nat.min (S i1) _) with (S i1) by lia. now apply subseq_app_l.
      * assert (S1 := subseq_snoc x W2). rewrite <- Fy in S1.
        replace j with (S j1 + (j - S j1)) by lia. rewrite <- (firstn_skipn (S j1) (firstn _ s2)).
        rewrite firstn_firstn. replace (Nat.min (S j1) _) with (S j1) by lia. now apply subseq_app_l.
    + intros v Hv. apply Hk in Hv. rewrite app_length, rev_length; cbn. lia.
Qed.
End Tab.

Lemma lcs_ok s1 s2 : exists r, lcs eqb s1 s2 = Ok r /\ longest_common r s1 s2.
Proof.
  unfold lcs. destruct (table_ok s1 s2) as (t & E & H). rewrite E; cbn [bind].
  destruct (backtrack_ok H (fuel := length s1) [] (i := length s1) (j := length s2))
    as (w & Ew & Hw); auto.
  rewrite Ew; cbn [bind app]. exists (rev w); split; auto.
  now rewrite !firstn_all in Hw.
Qed.

Lemma longest_len u s t : longest_common u s t -> maxlen (length u) s t.
Proof. intros [H1 H2]. split; auto. exists u; auto. Qed.

Lemma nlcs_ok s1 s2 : exists q, normalized_lcs eqb s1 s2 = Ok q /\
  normalized_lcs eqb s2 s1 = Ok q /\
  (0 <= rq_val q /\ rq_val q <= 1)%R /\
  (s1 = [] \/ s2 = [] -> rq_val q = 0%R) /\
  (s1 = s2 -> s1 <> [] -> rq_val q = 1%R) /\
  (s1 <> [] -> s2 <> [] -> exists r, longest_common r s1 s2 /\
     rq_val q = (INR (length r) / sqrt (INR (length s1 * length s2)))%R).
Proof.
  destruct (lcs_ok s1 s2) as (r & E & H). destruct (lcs_ok s2 s1) as (r' & E' & H').
  assert (L : length r = length r').
  { eapply maxlen_fun; [apply longest_len; exact H|apply maxlen_sym, longest_len; exact H']. }
  unfold normalized_lcs. rewrite E, E'; cbn [bind]. rewrite (Nat.mul_comm (length s2)).
  destruct (Nat.eqb_spec (length s1 * length s2) 0) as [Z|NZ].
  - eexists; split; [reflexivity|]. split; [reflexivity|].
    unfold rq_val; cbn [rq_num rq_rad INR]. rewrite sqrt_1.
    repeat split; try lra.
    + intros -> N. destruct s2; [congruence|cbn in Z; lia].
    + intros N1 N2. destruct s1, s2; cbn in Z; try congruence; lia.
  - eexists; split; [reflexivity|]. split; [now rewrite L|].
    unfold rq_val; cbn [rq_num rq_rad].
    assert (P : (0 < INR (length s1 * length s2))%R) by (apply lt_0_INR; lia).
    assert (PS := sqrt_lt_R0 _ P).
    repeat split.
    + apply Rmult_le_pos; [apply pos_INR|]. left. now apply Rinv_0_lt_compat.
    + apply Rmult_le_reg_r with (sqrt (INR (length s1 * length s2))); auto.
      unfold Rdiv. rewrite Rmult_assoc, Rinv_l, Rmult_1_r, Rmult_1_l by lra.
      rewrite <- (sqrt_square (INR (length r))) by apply pos_INR.
      apply sqrt_le_1_alt. rewrite <- mult_INR. apply le_INR.
      destruct H as [[H1 H2] _]. apply subseq_length in H1, H2. nia.
    + intros [-> | ->]; cbn in NZ; lia.
    + intros -> _. assert (length r = length s2).
      { destruct H as [[H1 H2] H3]. apply subseq_length in H1.
        assert (length s2 <= length r) by (apply H3; split; apply subseq_refl). lia. }
      rewrite H0, mult_INR, sqrt_square by apply pos_INR.
      apply Rinv_r. apply not_0_INR. lia.
    + intros _ _. exists r; split; auto.
Qed.
End P.
