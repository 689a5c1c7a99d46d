(** C41: splitting a corpus into files and joining them (bin/pgc_split.py, bin/pgc_join.py). *)
From Coq Require Import Permutation Sorted.
From Verif Require Import Py Split_spec Split_model Split_proof.
Open Scope nat_scope.

(** The default size of a part. *)
Theorem split_default_size : forall n parts size, 0 < parts -> size = None \/ size = Some 0%Z ->
  split_size n (Z.of_nat parts) size = Ok (Z.of_nat (n / parts + 1)).
Proof.
  intros n parts size P H. unfold split_size. replace (Z.of_nat parts =? 0)%Z with false by (symmetry; apply Z.eqb_neq; lia).
  rewrite <- Nat2Z.inj_div. replace (0 <=? Z.of_nat (n / parts))%Z with true by (symmetry; apply Z.leb_le; lia).
  destruct H as [->| ->]; cbn [Z.eqb]; f_equal; lia.
Qed.
(** The files are the consecutive pieces of the corpus: nothing is lost, repeated or reordered; the
    files have different names, and none overwrites the input. *)
Theorem split_partitions : forall (A : Type) (c : list A) root ext parts size s ps,
  split_size (length c) parts size = Ok s -> (0 < s)%Z -> split c root ext parts size = Ok ps ->
  partition root ext (Z.to_nat s) 0 c ps /\ concat (map snd ps) = c /\ Forall (fun p => 0 < length (snd p) <= Z.to_nat s) ps /\
  NoDup (map fst ps) /\ ~ In (root ++ ext) (map fst ps).
Proof.
  intros A c root ext parts size s ps E H S. destruct (split_ok root ext c parts size E H) as [qs [Q P]]. rewrite S in Q. injection Q as <-.
  split; [trivial|]. split; [eapply partition_concat; eauto|]. split; [eapply partition_sizes; eauto; lia|].
  split; [eapply partition_nodup; eauto; lia|]. intros I. apply in_map_iff in I. destruct I as [p [Q I]].
  destruct (partition_names p P I) as [a [b [N _]]]. apply part_name_longer in N. rewrite Q in N. lia.
Qed.
(** Without a size there are at most as many files as requested. *)
Theorem split_at_most : forall (A : Type) (c : list A) root ext parts ps, 0 < parts ->
  split c root ext (Z.of_nat parts) None = Ok ps -> length ps <= parts /\ (c <> [] -> ps <> []).
Proof.
  intros A c root ext parts ps P S. pose proof (split_default_size (length c) parts None P (or_introl eq_refl)) as E.
  destruct (split_partitions A c root ext _ _ _ ps E ltac:(lia) S) as [Q [C _]]. split.
  - destruct (partition_count Q) as [C1 C2]; [lia|]. rewrite Nat2Z.id in *. destruct ps as [|p ps]; [cbn; lia|]. specialize (C2 ltac:(discriminate)).
    assert (length c < parts * (length c / parts + 1)) by (pose proof (Nat.mul_succ_div_gt (length c) parts ltac:(lia)); lia).
    cbn [length] in *. nia.
  - intros N ->. cbn in C. congruence.
Qed.
(** The only failure: no size and zero parts.  A negative size or number of parts writes nothing. *)
Theorem split_fails_iff : forall (A : Type) (c : list A) root ext parts size x, split c root ext parts size = Err x <->
  x = ZeroDivisionError /\ parts = 0%Z /\ (size = None \/ size = Some 0%Z).
Proof.
  intros A c root ext parts size x. unfold split.
  assert (R : forall s, (s <> 0)%Z -> exists is, py_range (length c) s = Ok is).
  { intros s N. unfold py_range. replace (s =? 0)%Z with false by (symmetry; now apply Z.eqb_neq). destruct (s <? 0)%Z; eauto. }
  assert (K : forall k, ((if 0 <=? k then k + 1 else k) <> 0)%Z) by (intros k; destruct (0 <=? k)%Z eqn:L; [apply Z.leb_le in L|apply Z.leb_gt in L]; lia).
  assert (X : forall s, (s <> 0)%Z -> (is <- py_range (length c) s ;;
    Ok (map (fun i => let j := Nat.min (i + Z.to_nat s) (length c) in (root ++ [95] ++ dec4 (i + 1) ++ [45] ++ dec4 j ++ ext, slice c i j)) is)) <> Err x).
  { intros s N. destruct (R s N) as [is ->]. discriminate. }
  unfold split_size. assert (Y : size = None \/ size = Some 0%Z \/ exists s, size = Some s /\ (s <> 0)%Z).
  { destruct size as [s|]; [|auto]. destruct (Z.eq_dec s 0) as [->|N]; eauto. }
  destruct Y as [->|[->|[s [-> N]]]]; cbn [Z.eqb].
  1, 2: destruct (Z.eqb_spec parts 0) as [->|NP]; cbn [bind];
    [split; [intros E; injection E as <-; auto|intros [-> _]; reflexivity]|split; [intros E; exfalso; exact (X _ (K _) E)|intros [_ [Q _]]; congruence]].
  replace (s =? 0)%Z with false by (symmetry; now apply Z.eqb_neq). cbn [bind]. split; [intros E; exfalso; exact (X s N E)|].
  intros [_ [_ [Q|Q]]]; congruence.
Qed.
Theorem split_negative_writes_nothing : forall (A : Type) (c : list A) root ext parts size,
  (exists s, size = Some s /\ (s < 0)%Z) \/ (size = None /\ (parts < 0)%Z) -> split c root ext parts size = Ok [].
Proof.
  intros A c root ext parts size H.
  assert (R : forall s, (s < 0)%Z -> py_range (length c) s = Ok []).
  { intros s N. unfold py_range. replace (s =? 0)%Z with false by (symmetry; apply Z.eqb_neq; lia). now replace (s <? 0)%Z with true by (symmetry; now apply Z.ltb_lt). }
  unfold split, split_size. destruct H as [[s [-> H]]|[-> H]].
  - replace (s =? 0)%Z with false by (symmetry; apply Z.eqb_neq; lia). cbn [bind]. now rewrite R.
  - replace (parts =? 0)%Z with false by (symmetry; apply Z.eqb_neq; lia). cbn [bind]. destruct (0 <=? Z.of_nat (length c) / parts)%Z eqn:L.
    + assert (length c = 0).
      { apply Z.leb_le in L. destruct (length c) as [|n]; [reflexivity|]. exfalso.
        pose proof (Z.div_mod (Z.of_nat (S n)) parts ltac:(lia)) as D. pose proof (Z.mod_neg_bound (Z.of_nat (S n)) parts H). nia. }
      unfold py_range. rewrite H0. change (Z.of_nat 0) with 0%Z. rewrite Z.div_0_l by lia. reflexivity.
    + apply Z.leb_gt in L. now rewrite R.
Qed.

Section JoinProps.
Variables (A R : Type) (reqb : R -> R -> bool).

(** Joining the files of a split, found in any order, gives the corpus back if it has fewer than
    10000 graph pairs. *)
Theorem join_split_restores : (forall x y, reqb x y = true <-> x = y) ->
  forall (c : list A) root ext parts size s ps rels matched,
  split_size (length c) parts size = Ok s -> (0 < s)%Z -> split c root ext parts size = Ok ps ->
  c <> [] -> length c < 10 ^ 4 -> Permutation matched (map (fun p => (fst p, (rels, snd p))) ps) ->
  join reqb matched = Ok (rels, c).
Proof.
  intros req c root ext parts size s ps rels matched E H S N L P.
  destruct (split_partitions A c root ext parts size s ps E H S) as [Q [C _]].
  assert (SS : StronglySorted (fun p q => before (fst p) (fst q)) ps) by (eapply partition_sorted; [exact Q|lia|lia]).
  set (files := map (fun p : name * list A => (fst p, (rels, snd p))) ps) in *.
  assert (SF : StronglySorted (fun f g : name * (list R * list A) => before (fst f) (fst g)) files).
  { unfold files. clear -SS. induction SS as [|a l S IH F]; constructor; [trivial|]. apply Forall_forall. intros x I. apply in_map_iff in I.
    destruct I as [b [<- I]]. rewrite Forall_forall in F. exact (F b I). }
  assert (M : multiglob matched = files).
  { apply sorted_unique; [trivial|apply multiglob_sorted|]. rewrite multiglob_perm. trivial. }
  unfold join. rewrite M. unfold files. destruct ps as [|p ps]; [cbn in C; congruence|]. cbn [map].
  rewrite (proj1 (join_fold reqb req rels _ (snd p))).
  - cbn [bind]. rewrite map_map. cbn [snd]. cbn [map concat] in C. now rewrite <- C.
  - apply Forall_forall. intros f I. apply in_map_iff in I. destruct I as [q [<- _]]. reflexivity.
Qed.
(** Joining files takes their graph pairs in the order of the file names; it fails exactly if there are
    no files, or not all have the same relations. *)
Theorem join_result : (forall x y, reqb x y = true <-> x = y) -> forall matched : list (name * (list R * list A)),
  exists ordered, Permutation ordered matched /\ StronglySorted (fun f g => fst f = fst g \/ before (fst f) (fst g)) ordered /\
    (matched = [] -> join reqb matched = Err IndexError) /\
    (forall rels, matched <> [] -> Forall (fun f => fst (snd f) = rels) matched ->
       join reqb matched = Ok (rels, concat (map (fun f => snd (snd f)) ordered))) /\
    (forall f g, In f matched -> In g matched -> fst (snd f) <> fst (snd g) -> join reqb matched = Err ValueError).
Proof.
  intros req matched. exists (multiglob matched). pose proof (multiglob_perm matched) as P. split; [trivial|]. split.
  - pose proof (multiglob_sorted matched) as S. clear P. induction S as [|a l S IH F]; constructor; auto.
    eapply Forall_impl; [|exact F]. intros b B. now apply leb_cases.
  - split; [intros ->; reflexivity|]. unfold join. destruct (multiglob matched) as [|[n [r l]] rest] eqn:M.
    + apply Permutation_nil in P. subst. split; [congruence|intros f g []].
    + split.
      * intros rels _ F. assert (F' : Forall (fun f => fst (snd f) = rels) ((n, (r, l)) :: rest)) by (eapply Permutation_Forall; [apply Permutation_sym; exact P|trivial]).
        inversion F' as [|? ? F1 F2]; subst. cbn [fst snd] in *. rewrite (proj1 (join_fold reqb req _ rest l)) by trivial. reflexivity.
      * intros f g If Ig D. rewrite (proj2 (join_fold reqb req _ rest l)); [reflexivity|]. intros F.
        assert (F' : Forall (fun f => fst (snd f) = r) matched) by (eapply Permutation_Forall; [exact P|now constructor]).
        rewrite Forall_forall in F'. apply D. rewrite (F' f If), (F' g Ig). reflexivity.
Qed.
End JoinProps.

(** Seven graph pairs in three parts: 3, 3 and 1. *)
Example split_seven : split [1; 2; 3; 4; 5; 6; 7] [97] [46; 120] 3 None =
  Ok [([97; 95; 48; 48; 48; 49; 45; 48; 48; 48; 51; 46; 120], [1; 2; 3]); ([97; 95; 48; 48; 48; 52; 45; 48; 48; 48; 54; 46; 120], [4; 5; 6]);
      ([97; 95; 48; 48; 48; 55; 45; 48; 48; 48; 55; 46; 120], [7])].
Proof. vm_compute. reflexivity. Qed.
Example join_seven : match split [1; 2; 3; 4; 5; 6; 7] [97] [46; 120] 3 None with
  | Ok ps => join Nat.eqb (map (fun p => (fst p, ([0], snd p))) (rev ps)) | Err x => Err x end = Ok ([0], [1; 2; 3; 4; 5; 6; 7]).
Proof. vm_compute. reflexivity. Qed.
Example join_conflict : join Nat.eqb [([97], ([1], [1])); ([98], ([2], [2]))] = Err ValueError.
Proof. reflexivity. Qed.
(** "The corpus is split into the requested number of parts" is false: four pairs in four parts give
    two files. *)
Theorem split_exact_number_refuted :
  ~ (forall (A : Type) (c : list A) root ext parts ps, 0 < parts <= length c -> split c root ext (Z.of_nat parts) None = Ok ps -> length ps = parts).
Proof.
  intros H. specialize (H nat [1; 2; 3; 4] [97] [] 4 _ ltac:(cbn; lia) eq_refl). vm_compute in H. discriminate H.
Qed.
(** "Joining the files of a split gives the corpus back" is false for more than 9999 graph pairs: the
    file starting at pair 10001 sorts before the one starting at pair 5001. *)
Definition big : list bool := repeat false (Z.to_nat 10000) ++ [true].
Theorem join_split_refuted :
  ~ (forall (A : Type) (c : list A) root ext parts size ps (rels : list nat), c <> [] -> split c root ext parts size = Ok ps ->
      join Nat.eqb (map (fun p => (fst p, (rels, snd p))) ps) = Ok (rels, c)).
Proof.
  intros H.
  specialize (H bool big [97] [] 2%Z (Some 5000%Z) (match split big [97] [] 2%Z (Some 5000%Z) with Ok ps => ps | Err _ => [] end) []).
  assert (N : big <> []) by (intros E; apply (f_equal (@length bool)) in E; unfold big in E; rewrite app_length in E; cbn [length] in E; lia).
  assert (S : split big [97] [] 2%Z (Some 5000%Z) = Ok (match split big [97] [] 2%Z (Some 5000%Z) with Ok ps => ps | Err _ => [] end)).
  { destruct (split big [97] [] 2%Z (Some 5000%Z)) as [ps|x] eqn:E; [reflexivity|]. apply split_fails_iff in E. destruct E as [_ [E _]]. discriminate E. }
  specialize (H N S). apply (f_equal (fun r => match r with Ok (_, l) => nth (Z.to_nat 5000) l false | Err _ => false end)) in H.
  vm_compute in H. discriminate H.
Qed.

Print Assumptions split_default_size.
Print Assumptions split_partitions.
Print Assumptions split_at_most.
Print Assumptions split_fails_iff.
Print Assumptions split_negative_writes_nothing.
Print Assumptions join_split_restores.
Print Assumptions join_result.
Print Assumptions split_exact_number_refuted.
Print Assumptions join_split_refuted.
