(** Munkres: step 6, termination, optimality. *)
From Coq Require Import Permutation.
From Verif Require Import Py PyLemmas Munkres_model Munkres_spec Munkres_proof1 Munkres_proof2 Munkres_proof3.
Set Implicit Arguments.

Section Inv.
Variable n : nat.
Variable maxint : Z.
Hypothesis maxint_pos : (0 < maxint)%Z.
Variable c0 : nat -> nat -> Z.
Notation ce := (ent 0%Z).
Notation me := (ent 0).
Notation stars := (stars n).
Notation base := (base n c0).
Notation inv3 := (inv3 n c0).
Notation inv4 := (inv4 n c0).

Lemma find_smallest_ok s : shape n s -> exists v, find_smallest n maxint s = Ok v /\
  (forall i j, i < n -> j < n -> rcv s i = false -> ccv s j = false -> (v <= ce (cost s) i j)%Z) /\
  ((forall i j, i < n -> j < n -> rcv s i = false -> ccv s j = false -> (0 < ce (cost s) i j)%Z) -> (0 < v)%Z).
Proof.
  intros Sh. unfold find_smallest.
  rewrite (foldM_prod (fun acc i j => smallest_cell s i acc j)). fold (cells n).
  destruct (@foldM_prefix Z (nat*nat) (fun acc p => smallest_cell s (fst p) acc (snd p))
    (fun done v => (forall i j, In (i, j) done -> rcv s i = false -> ccv s j = false -> (v <= ce (cost s) i j)%Z) /\
       ((forall i j, i < n -> j < n -> rcv s i = false -> ccv s j = false -> (0 < ce (cost s) i j)%Z) -> (0 < v)%Z))
    (cells n) maxint) as (v & E & H1 & H2).
  - split; [cbn; tauto|auto].
  - intros done [i j] rest v E [H1 H2]. cbn [fst snd].
    assert (Hij : i < n /\ j < n) by (apply in_cells; rewrite E; apply in_or_app; cbn; auto).
    destruct Hij as [Hi Hj]. unfold smallest_cell.
    assert (KEEP : (rcv s i = false -> ccv s j = false -> (v <= ce (cost s) i j)%Z) ->
      forall i' j', In (i', j') (done ++ [(i, j)]) -> rcv s i' = false -> ccv s j' = false -> (v <= ce (cost s) i' j')%Z).
    { intros K i' j' X. apply in_app_or in X as [X|[[= <- <-]|[]]]; auto. }
    rewrite (cov_get Sh Hi). cbn [bind]. destruct (rcv s i) eqn:Ri; cbn [negb].
    { exists v; split; auto. split; auto. apply KEEP. discriminate. }
    rewrite (ccov_get Sh Hj). cbn [bind]. destruct (ccv s j) eqn:Cj; cbn [negb].
    { exists v; split; auto. split; auto. apply KEEP. discriminate. }
    rewrite (mget_ok 0%Z (sh_c Sh) Hi Hj). cbn [bind].
    destruct (Z.ltb_spec (ce (cost s) i j) v) as [Lt|Ge].
    + exists (ce (cost s) i j). split; auto. split.
      * intros i' j' X R C. apply in_app_or in X as [X|[[= <- <-]|[]]]; [|lia]. specialize (H1 i' j' X R C). lia.
      * intros P. apply P; auto.
    + exists v; split; auto.
  - exists v. split; auto. split; auto. intros i j Hi Hj. apply H1. now apply in_cells.
Qed.

Lemma step6_ok L s : inv4 L s -> no_zero n s ->
  exists s', step6 n maxint s = Ok s' /\ inv4 L s' /\
    (forall i, rcv s' i = rcv s i) /\ (forall j, ccv s' j = ccv s j) /\ marked s' = marked s /\
    forall i j, i < n -> j < n -> rcv s i = false -> ccv s j = false ->
      (0 <= ce (cost s') i j < ce (cost s) i j)%Z.
Proof.
  intros [B Few ND HL HStar HCol HRow HPrime HOne HChain] NZ. destruct B as [Sh D M Zs].
  assert (D' := D). destruct D as (u & v & Duv).
  destruct (find_smallest_ok Sh) as (mv & Em & M1 & M2). unfold step6. rewrite Em; cbn [bind].
  assert (MP : (0 < mv)%Z).
  { apply M2. intros i j Hi Hj R C. specialize (NZ i j Hi Hj R C). specialize (Duv i j Hi Hj). lia. }
  destruct (@for_cells_ok _ 0%Z n (cost s) (fun i j v =>
         ri <- get (row_covered s) i ;;
         let v1 := if ri then (v + mv)%Z else v in
         cj <- get (col_covered s) j ;;
         Ok (if negb cj then (v1 - mv)%Z else v1))
      (fun i j v => let v1 := if rcv s i then (v + mv)%Z else v in if negb (ccv s j) then (v1 - mv)%Z else v1)
      (sh_c Sh)) as (c & Ec & Sc & Hc).
  { intros i j x Hi Hj. rewrite (cov_get Sh Hi). cbn [bind]. rewrite (ccov_get Sh Hj). reflexivity. }
  cbn [bind] in Ec. rewrite Ec; cbn [bind]. eexists; split; [reflexivity|]. cbv zeta in Hc.
  assert (POS : forall i j, i < n -> j < n -> (0 <= ce c i j)%Z).
  { intros i j Hi Hj. rewrite Hc by auto. specialize (Duv i j Hi Hj).
    specialize (M1 i j Hi Hj).
    destruct (rcv s i) eqn:R, (ccv s j) eqn:C; cbn [negb]; lia. }
  split.
  - constructor; auto. constructor; cbn; auto.
    + destruct Sh. constructor; cbn; auto.
    + exists (fun i => if rcv s i then u i - mv else u i)%Z, (fun j => if ccv s j then v j else v j + mv)%Z.
      intros i j Hi Hj. split; [|auto]. rewrite Hc by auto. specialize (Duv i j Hi Hj).
      destruct (rcv s i) eqn:R, (ccv s j) eqn:C; cbn [negb]; lia.
    + intros i j Hi Hj X. cbn in *. rewrite Hc by auto. specialize (Zs i j Hi Hj X).
      assert (rcv s i = negb (ccv s j)).
      { destruct X as [X|X]; auto. destruct (HPrime i j Hi Hj X) as [-> ->]. reflexivity. }
      rewrite Zs. destruct (rcv s i) eqn:R, (ccv s j) eqn:C; cbn [negb] in *; try discriminate; lia.
  - split; auto. split; auto. split; auto. intros i j Hi Hj R C. cbn. split; auto. rewrite Hc by auto. rewrite R, C. cbn [negb].
    lia.
Qed.

(** an uncovered cell exists *)
Lemma uncovered L s : inv4 L s -> exists i j, i < n /\ j < n /\ rcv s i = false /\ ccv s j = false.
Proof.
  intros I.
  assert (R : exists i, i < n /\ rcv s i = false).
  { destruct (existsb (fun i => negb (rcv s i)) (seq 0 n)) eqn:E.
    - apply existsb_exists in E as (i & Hi & E). apply in_seq in Hi. exists i. split; [lia|].
      now destruct (rcv s i).
    - exfalso. assert (X : length (seq 0 n) <= length (map fst (stars (marked s)))).
      { apply NoDup_incl_length; [apply seq_NoDup|]. intros i Hi.
        assert (Ri : rcv s i = true).
        { destruct (rcv s i) eqn:Ri; auto. exfalso. rewrite <- not_true_iff_false in E. apply E.
          apply existsb_exists. exists i. rewrite Ri. auto. }
        apply in_seq in Hi. destruct (@i4_row _ _ _ _ I i ltac:(lia) Ri) as (j & Hj & Ej).
        apply in_map_iff. exists (i, j). split; auto. apply in_stars. split; [lia|]. split; [lia|]. auto. }
      rewrite seq_length, map_length in X. pose proof (i4_few I). lia. }
  assert (C : exists j, j < n /\ ccv s j = false).
  { destruct (existsb (fun i => negb (ccv s i)) (seq 0 n)) eqn:E.
    - apply existsb_exists in E as (i & Hi & E). apply in_seq in Hi. exists i. split; [lia|].
      now destruct (ccv s i).
    - exfalso. assert (X : length (seq 0 n) <= length (map snd (stars (marked s)))).
      { apply NoDup_incl_length; [apply seq_NoDup|]. intros j Hj.
        assert (Ci : ccv s j = true).
        { destruct (ccv s j) eqn:Ci; auto. exfalso. rewrite <- not_true_iff_false in E. apply E.
          apply existsb_exists. exists j. rewrite Ci. auto. }
        apply in_seq in Hj. destruct (@i4_col _ _ _ _ I j ltac:(lia) Ci) as (i & Hi & Ei).
        apply in_map_iff. exists (i, j). split; auto. apply in_stars. split; [lia|]. split; [lia|]. auto. }
      rewrite seq_length, map_length in X. pose proof (i4_few I). lia. }
  destruct R as (i & ? & ?), C as (j & ? & ?). eauto 8.
Qed.

Definition finishes step s := exists fuel s', run n maxint fuel step s = Ok s' /\ base s' /\ n <= length (stars (marked s')).

Lemma fin_mid k2 : forall k1,
  (forall s, inv3 s -> n - length (stars (marked s)) <= k1 -> finishes 3 s) ->
  forall k3 L s, inv4 L s -> n - length (stars (marked s)) <= S k1 -> n - length L <= k2 ->
  (exists i j, i < n /\ j < n /\ rcv s i = false /\ ccv s j = false /\ Z.to_nat (ce (cost s) i j) <= k3) ->
  finishes 4 s.
Proof.
  induction k2 as [k2 IH2] using lt_wf_ind. intros k1 IH1. induction k3 as [k3 IH3] using lt_wf_ind.
  intros L s I K1 K2 (i & j & Hi & Hj & R & C & K3).
  destruct (step4_ok (n + 1) I ltac:(lia)) as [(s' & L' & E & I' & ES)|(s' & L' & E & I' & NZ & EC & ES & PR)].
  - destruct (step5_ok I') as (s'' & E5 & I3 & ES5).
    destruct (IH1 s'' I3) as (fuel & s3 & ER & F).
    { rewrite ES5, ES. pose proof (i4_few I). lia. }
    exists (S (S fuel)), s3. split; auto. cbn [run]. rewrite E; cbn [bind fst snd run]. rewrite E5; cbn [bind]. exact ER.
  - destruct (step6_ok I' NZ) as (s'' & E6 & I4 & RR & CC & EM & DEC).
    assert (F4 : finishes 4 s'').
    { destruct PR as [Lt|[-> ->]].
      - assert (LL : length L' <= n) by (apply L_len; [apply I'|]; intros x Hx; apply I' in Hx; tauto).
        destruct (uncovered I4) as (a & b & Ha & Hb & Ra & Cb).
        refine (IH2 (n - length L') _ k1 IH1 (Z.to_nat (ce (cost s'') a b)) L' s'' I4 _ (le_n _) _); [lia| |].
        + rewrite EM, ES. auto.
        + exists a, b. auto 6.
      - specialize (DEC i j Hi Hj R C).
        refine (IH3 (Z.to_nat (ce (cost s'') i j)) _ L s'' I4 _ K2 _); [lia| |].
        + rewrite EM. auto.
        + exists i, j. rewrite RR, CC. auto 6. }
    destruct F4 as (fuel & s3 & ER & F). exists (S (S fuel)), s3. split; auto.
    cbn [run]. rewrite E; cbn [bind fst snd run]. rewrite E6; cbn [bind]. exact ER.
Qed.

Lemma fin3 k1 : forall s, inv3 s -> n - length (stars (marked s)) <= k1 -> finishes 3 s.
Proof.
  induction k1 as [|k1 IH1]; intros s I K;
    destruct (step3_ok I) as (s' & E & EM & B & I4);
    destruct (Nat.leb_spec n (length (stars (marked s)))) as [Le|Lt].
  - exists 2, s'. cbn [run]. rewrite E; cbn [bind fst snd]. split; auto. split; auto. now rewrite EM.
  - lia.
  - exists 2, s'. cbn [run]. rewrite E; cbn [bind fst snd]. split; auto. split; auto. now rewrite EM.
  - specialize (I4 Lt). destruct (uncovered I4) as (i & j & Hi & Hj & R & C).
    destruct (fin_mid (k2 := n) IH1 (k3 := Z.to_nat (ce (cost s') i j)) I4) as (fuel & s3 & ER & F).
    + rewrite EM. auto.
    + cbn. lia.
    + exists i, j; auto 6.
    + exists (S fuel), s3. split; auto. cbn [run]. rewrite E; cbn [bind fst snd]. exact ER.
Qed.

Lemma fin1 s : 0 < n -> shape n s -> (forall i j, i < n -> j < n -> ce (cost s) i j = c0 i j) ->
  (forall i j, me (marked s) i j = 0) -> finishes 1 s.
Proof.
  intros Hn Sh HC HM. destruct (step1_ok c0 Sh Hn HC) as (s1 & E1 & Sh1 & D1 & EM & _).
  assert (B1 : base s1).
  { constructor; auto; rewrite ?EM.
    - split; intros ? ? ? ? ? ?; rewrite HM; discriminate.
    - intros i j Hi Hj. rewrite EM, HM. intuition discriminate. }
  destruct (step2_ok B1) as (s2 & E2 & I3).
  { intros. rewrite EM. auto. }
  destruct (fin3 I3 (le_n _)) as (fuel & s3 & ER & F).
  exists (S (S fuel)), s3. split; auto. cbn [run]. rewrite E1; cbn [bind run]. rewrite E2; cbn [bind]. exact ER.
Qed.

Lemma run_mono fuel : forall fuel' step s x, run n maxint fuel step s = Ok x -> fuel <= fuel' ->
  run n maxint fuel' step s = Ok x.
Proof.
  induction fuel as [|fuel IH]; intros [|fuel'] step s x E Le; try discriminate; try lia.
  cbn [run] in *. destruct step as [|[|[|[|[|[|[|step]]]]]]]; auto.
  - destruct (step1 n s); cbn [bind] in *; [|discriminate]. apply IH; auto; lia.
  - destruct (step2 n s); cbn [bind] in *; [|discriminate]. apply IH; auto; lia.
  - destruct (step3 n s); cbn [bind] in *; [|discriminate]. apply IH; auto; lia.
  - destruct (step4 n (n + 1) s); cbn [bind] in *; [|discriminate]. apply IH; auto; lia.
  - destruct (step5 n (n + 1) s); cbn [bind] in *; [|discriminate]. apply IH; auto; lia.
  - destruct (step6 n maxint s); cbn [bind] in *; [|discriminate]. apply IH; auto; lia.
Qed.
End Inv.
