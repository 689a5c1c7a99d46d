From Coq Require Import List ZArith Sorted Permutation.
From Verif Require Import Py PyLemmas Counter_spec Counter_model.
Set Implicit Arguments.
Section P.
Variable K : Type.
Variable keqb : K -> K -> bool.
Hypothesis keq : forall x y, keqb x y = true <-> x = y.
Notation counter := (counter K).
Notation cget := (cget keqb).
Notation occ := (occurrences keqb).

Lemma k_dec (x y : K) : {x = y} + {x <> y}.
Proof. destruct (keqb x y) eqn:E; [left; now apply keq|right; intros H; apply keq in H; congruence]. Qed.

Lemma missing_ok (c : counter) k : is_dict c -> multiplicity c k (cget c k) .
Proof.
  intros N. unfold cget, multiplicity. destruct (dget keqb c k) eqn:E.
  - left. now apply (dget_in keqb keq) in E.
  - right. split; auto. intros m X. apply (dget_none keqb keq) in E. apply E. unfold dkeys. apply in_map_iff. now exists (k, m).
Qed.
Lemma multiplicity_fun (c : counter) k n : is_dict c -> multiplicity c k n -> n = cget c k.
Proof.
  intros N [H|[H ->]]; unfold cget.
  - now rewrite (in_dget keqb keq _ _ _ N H).
  - destruct (dget keqb c k) eqn:E; auto. apply (dget_in keqb keq) in E. now apply H in E.
Qed.
Lemma cget_dset (c : counter) k v k' : cget (dset keqb c k v) k' = if keqb k k' then v else cget c k'.
Proof.
  unfold cget. destruct (keqb k k') eqn:E.
  - apply keq in E. subst. now rewrite (dget_dset_same keqb keq).
  - rewrite (dget_dset_other keqb keq); auto. intros ->. rewrite (proj2 (keq k' k') eq_refl) in E. discriminate.
Qed.
Lemma keqb_sym x y : keqb x y = keqb y x.
Proof. destruct (k_dec x y) as [->|N]; auto. rewrite !(keqb_neq keqb keq); auto. Qed.

Lemma update_elems_ok (l : list K) : forall c : counter, is_dict c -> is_dict (update_elems keqb c l) /\
  forall k, cget (update_elems keqb c l) k = (cget c k + Z.of_nat (occ k l))%Z.
Proof.
  induction l as [|e l IH]; intros c N; cbn [update_elems fold_left].
  - split; auto. intros k. cbn. lia.
  - destruct (IH (dset keqb c e (cget c e + 1)%Z)) as [N' H]; [now apply (nodup_dset keqb keq)|].
    split; auto. intros k. unfold update_elems in H. rewrite H, cget_dset. unfold occurrences. cbn [filter].
    rewrite (keqb_sym k e). destruct (keqb e k) eqn:E; cbn [length]; [|lia]. apply keq in E; subst. lia.
Qed.
Lemma fast_ok (m : list (K * Z)) : forall c : counter, is_dict c -> is_dict m -> (forall k, In k (dkeys m) -> ~ In k (dkeys c)) ->
  is_dict (fold_left (fun c p => dset keqb c (fst p) (snd p)) m c) /\
  forall k, cget (fold_left (fun c p => dset keqb c (fst p) (snd p)) m c) k = (cget c k + cget m k)%Z.
Proof.
  induction m as [|[e n] m IH]; intros c N Nm D; cbn [fold_left fst snd].
  - split; auto. intros k. unfold cget at 3. cbn. lia.
  - inversion Nm; subst. destruct (IH (dset keqb c e n)) as [N' H]; [now apply (nodup_dset keqb keq)|auto| |].
    + intros k Hk X. rewrite (dkeys_dset_new keqb keq) in X by (apply D; now left). unfold dkeys in X. rewrite map_app in X.
      apply in_app_or in X as [X|[X|[]]]; [apply (D k); auto; now right|]. cbn in X. subst. contradiction.
    + split; auto. intros k. rewrite H, cget_dset. unfold cget at 4. cbn [dget].
      assert (C : cget c e = 0%Z). { unfold cget. now rewrite (proj2 (dget_none keqb keq c e)) by (apply D; now left). }
      assert (M : cget m e = 0%Z). { unfold cget. now rewrite (proj2 (dget_none keqb keq m e)) by auto. }
      rewrite (keqb_sym k e). destruct (keqb e k) eqn:E; [|reflexivity]. apply keq in E. subst. lia.
Qed.
Lemma slow_ok (m : list (K * Z)) : forall c : counter, is_dict c -> is_dict m ->
  is_dict (fold_left (fun c p => dset keqb c (fst p) (cget c (fst p) + snd p)%Z) m c) /\
  forall k, cget (fold_left (fun c p => dset keqb c (fst p) (cget c (fst p) + snd p)%Z) m c) k = (cget c k + cget m k)%Z.
Proof.
  induction m as [|[e n] m IH]; intros c N Nm; cbn [fold_left fst snd].
  - split; auto. intros k. unfold cget at 3. cbn. lia.
  - inversion Nm; subst. destruct (IH (dset keqb c e (cget c e + n)%Z)) as [N' H]; [now apply (nodup_dset keqb keq)|auto|].
    split; auto. intros k. rewrite H, cget_dset. unfold cget at 5. cbn [dget].
    assert (M : cget m e = 0%Z). { unfold cget. now rewrite (proj2 (dget_none keqb keq m e)) by auto. }
    rewrite (keqb_sym k e). destruct (keqb e k) eqn:E; [|reflexivity]. apply keq in E. subst. lia.
Qed.
Lemma update_mapping_ok (c m : counter) : is_dict c -> is_dict m -> is_dict (update_mapping keqb c m) /\
  forall k, cget (update_mapping keqb c m) k = (cget c k + cget m k)%Z.
Proof.
  intros N Nm. unfold update_mapping. destruct (Nat.eqb_spec (length c) 0).
  - apply fast_ok; auto. intros k _. destruct c; [auto|discriminate].
  - now apply slow_ok.
Qed.
Lemma del_ok (c : counter) k : is_dict c -> is_dict (cdel keqb c k) /\
  forall k', cget (cdel keqb c k) k' = if keqb k k' then 0%Z else cget c k'.
Proof.
  intros N. split; [now apply nodup_ddel|]. intros k'. unfold cget, cdel. destruct (keqb k k') eqn:E.
  - apply keq in E. subst. now rewrite (dget_ddel_same keqb keq).
  - rewrite (dget_ddel_other keqb keq); auto. intros ->. rewrite (proj2 (keq k' k') eq_refl) in E. discriminate.
Qed.
Lemma occ_app k l l' : occ k (l ++ l') = occ k l + occ k l'.
Proof. unfold occurrences. now rewrite filter_app, app_length. Qed.
Lemma occ_repeat k e n : occ k (repeat e n) = if keqb k e then n else 0.
Proof. unfold occurrences. induction n as [|n IH]; cbn; [now destruct (keqb k e)|]. destruct (keqb k e); cbn; auto. Qed.
Lemma elements_ok (c : counter) k : is_dict c -> occ k (elements c) = Z.to_nat (cget c k).
Proof.
  induction c as [|[e n] c IH]; intros N; [reflexivity|]. inversion N; subst. unfold elements in *. cbn [flat_map fst snd].
  rewrite occ_app, occ_repeat, IH by auto. unfold cget. cbn [dget]. destruct (keqb k e) eqn:E; auto.
  apply keq in E; subst. rewrite (proj2 (dget_none keqb keq c e)) by auto. lia.
Qed.
Definition ge2 (p q : K * Z) := (snd q <= snd p)%Z.
Lemma insert_perm (p : K * Z) l : Permutation (insert_by_count p l) (p :: l).
Proof.
  induction l as [|q l IH]; cbn [insert_by_count]; auto. destruct (snd q <=? snd p)%Z; auto.
  rewrite IH. apply perm_swap.
Qed.
Lemma insert_sorted (p : K * Z) l : StronglySorted ge2 l -> StronglySorted ge2 (insert_by_count p l).
Proof.
  induction 1 as [|q l S IH F]; cbn [insert_by_count]; [constructor; constructor|].
  destruct (Z.leb_spec (snd q) (snd p)).
  - constructor; [now constructor|]. constructor; [exact H|]. rewrite Forall_forall in *. intros x X. specialize (F x X). unfold ge2 in *. lia.
  - constructor; auto. rewrite (Forall_forall). intros x X. apply (Permutation_in _ (insert_perm p l)) in X as [<-|X].
    + unfold ge2. lia.
    + rewrite Forall_forall in F. auto.
Qed.
Lemma sort_ok (l : list (K * Z)) : Permutation (sort_by_count l) l /\ StronglySorted ge2 (sort_by_count l).
Proof.
  induction l as [|p l [P S]]; cbn [sort_by_count fold_right]; [split; constructor|]. split.
  - etransitivity; [apply insert_perm|]. now constructor.
  - now apply insert_sorted.
Qed.
Lemma sorted_firstn A (R : A -> A -> Prop) n l : StronglySorted R l -> StronglySorted R (firstn n l).
Proof.
  intros S. revert n. induction S as [|x l S IH F]; intros [|n]; cbn; try constructor; auto.
  rewrite Forall_forall in *. intros y Y. apply F. rewrite <- (firstn_skipn n l). apply in_or_app. auto.
Qed.
Lemma most_common_ok (c : counter) n : exists rest,
  Permutation (most_common c n ++ rest) c /\ StronglySorted ge2 (most_common c n) /\
  (forall p q, In p (most_common c n) -> In q rest -> ge2 p q) /\
  length (most_common c n) = match n with None => length c | Some n => Nat.min n (length c) end.
Proof.
  destruct (sort_ok c) as [P S]. destruct n as [n|]; cbn [most_common].
  - exists (skipn n (sort_by_count c)). rewrite firstn_skipn. split; auto. split; [now apply sorted_firstn|]. split.
    + clear P. revert n. induction S as [|x l S IH F]; intros n p q; destruct n; cbn; try tauto.
      intros [<-|X] Y; [|eauto]. rewrite Forall_forall in F. apply F. rewrite <- (firstn_skipn n l). apply in_or_app. auto.
    + rewrite firstn_length. now rewrite (Permutation_length P).
  - exists []. rewrite app_nil_r. repeat split; auto. { intros p q _ []. } now apply Permutation_length.
Qed.

Lemma pointwise_ok f elems (a b : counter) : NoDup elems ->
  is_dict (pointwise keqb f elems a b) /\
  forall k n, In (k, n) (pointwise keqb f elems a b) <-> (In k elems /\ n = f (cget a k) (cget b k) /\ 0 < n)%Z.
Proof.
  unfold pointwise. intros N.
  assert (G : forall elems r, NoDup (dkeys r ++ elems) ->
    let r' := fold_left (fun r e => let n := f (cget a e) (cget b e) in if (0 <? n)%Z then dset keqb r e n else r) elems r in
    is_dict r' /\ forall k n, In (k, n) r' <-> In (k, n) r \/ (In k elems /\ n = f (cget a k) (cget b k) /\ 0 < n)%Z).
  { clear N elems. induction elems as [|e elems IH]; intros r Nr; cbn [fold_left].
    - rewrite app_nil_r in Nr. split; auto. intros. cbn. tauto.
    - assert (Ne : ~ In e (dkeys r)). { apply NoDup_remove_2 in Nr. intros X. apply Nr, in_or_app. auto. }
      destruct (Z.ltb_spec 0 (f (cget a e) (cget b e))) as [P|P].
      + destruct (IH (dset keqb r e (f (cget a e) (cget b e)))) as [I1 I2].
        { rewrite (dkeys_dset_new keqb keq) by auto. unfold dkeys in *. rewrite map_app, <- app_assoc. exact Nr. }
        cbv zeta. split; [exact I1|]. intros k n. rewrite I2, (dkeys_dset_new keqb keq) by auto. rewrite in_app_iff. cbn [In].
        split.
        * intros [[X|[X|[]]]|X]; auto; [|tauto]. injection X as <- <-. right; auto.
        * intros [X|[[<-|X] Y]]; auto. destruct Y as [-> _]. auto.
      + destruct (IH r) as [I1 I2]. { apply NoDup_remove_1 in Nr. auto. }
        cbv zeta. split; [exact I1|]. intros k n. rewrite I2. cbn [In]. split; [tauto|].
        intros [X|[[<-|X] Y]]; auto. exfalso; lia. }
  destruct (G elems []) as [I1 I2]; auto. split; auto. intros k n. rewrite I2. cbn. tauto.
Qed.
Lemma cget_absent (a : counter) k : ~ In k (dkeys a) -> cget a k = 0%Z.
Proof. intros H. unfold cget. now rewrite (proj2 (dget_none keqb keq a k)). Qed.
Lemma op_ok f elems (a b : counter) : f 0%Z 0%Z = 0%Z -> all_keys elems a b ->
  is_dict (pointwise keqb f elems a b) /\
  (forall k, cget (pointwise keqb f elems a b) k = Z.max 0 (f (cget a k) (cget b k))) /\
  (forall k n, In (k, n) (pointwise keqb f elems a b) -> 0 < n)%Z.
Proof.
  intros F0 [N A]. destruct (pointwise_ok f a b N) as [D I]. split; auto. split; [|intros k n X; now apply I in X].
  intros k. destruct (Z.lt_ge_cases 0 (f (cget a k) (cget b k))) as [P|P].
  - rewrite Z.max_r by lia. assert (X : In (k, f (cget a k) (cget b k)) (pointwise keqb f elems a b)).
    { apply I. split; auto. apply A. destruct (In_dec k_dec k (dkeys a)) as [|Na]; auto.
      destruct (In_dec k_dec k (dkeys b)) as [|Nb]; auto. rewrite !cget_absent, F0 in P by auto. lia. }
    symmetry. apply multiplicity_fun; auto. now left.
  - rewrite Z.max_l by lia. symmetry. apply multiplicity_fun; auto. right. split; auto. intros m X. apply I in X. lia.
Qed.
Lemma and_eq (a b : counter) : c_and keqb a b =
  if length a <? length b then pointwise keqb Z.min (filter (dhas keqb b) (dkeys a)) b a
  else pointwise keqb Z.min (filter (dhas keqb a) (dkeys b)) a b.
Proof.
  unfold c_and. assert (G : forall s o l r,
    fold_left (fun r e => if dhas keqb s e then let n := Z.min (cget s e) (cget o e) in if (0 <? n)%Z then dset keqb r e n else r else r) l r =
    fold_left (fun r e => let n := Z.min (cget s e) (cget o e) in if (0 <? n)%Z then dset keqb r e n else r) (filter (dhas keqb s) l) r).
  { induction l as [|e l IH]; intros r; cbn [fold_left filter]; auto. destruct (dhas keqb s e); cbn [fold_left]; auto. }
  destruct (length a <? length b); apply G.
Qed.
Lemma dhas_in (d : counter) k : dhas keqb d k = true <-> In k (dkeys d).
Proof.
  unfold dhas. destruct (dget keqb d k) eqn:E.
  - split; auto. intros _. apply (dget_in keqb keq) in E. unfold dkeys. apply in_map_iff. now exists (k, z).
  - apply (dget_none keqb keq) in E. split; [discriminate|contradiction].
Qed.
Lemma and_one (s o : counter) : is_dict s -> is_dict o ->
  let r := pointwise keqb Z.min (filter (dhas keqb s) (dkeys o)) s o in
  is_dict r /\ (forall k, cget r k = Z.max 0 (Z.min (cget s k) (cget o k))) /\ (forall k n, In (k, n) r -> 0 < n)%Z.
Proof.
  intros Ns No. cbv zeta. destruct (@pointwise_ok Z.min (filter (dhas keqb s) (dkeys o)) s o) as [D I]; [now apply NoDup_filter|].
  split; auto. split; [|intros k n X; now apply I in X]. intros k.
  destruct (Z.lt_ge_cases 0 (Z.min (cget s k) (cget o k))) as [P|P].
  - rewrite Z.max_r by lia. symmetry. apply multiplicity_fun; auto. left. apply I. split; auto.
    apply filter_In. rewrite dhas_in. split.
    + destruct (In_dec k_dec k (dkeys o)) as [|Nk]; auto. rewrite (cget_absent o) in P by auto. lia.
    + destruct (In_dec k_dec k (dkeys s)) as [|Nk]; auto. rewrite (cget_absent s) in P by auto. lia.
  - rewrite Z.max_l by lia. symmetry. apply multiplicity_fun; auto. right. split; auto. intros m X. apply I in X. lia.
Qed.
Lemma and_ok (a b : counter) : is_dict a -> is_dict b ->
  is_dict (c_and keqb a b) /\ (forall k, cget (c_and keqb a b) k = Z.max 0 (Z.min (cget a k) (cget b k))) /\
  (forall k n, In (k, n) (c_and keqb a b) -> 0 < n)%Z.
Proof.
  intros Na Nb. rewrite and_eq. destruct (length a <? length b); [|now apply and_one].
  destruct (@and_one b a) as (D & C & P); auto. split; auto. split; auto. intros k. rewrite C, Z.min_comm. reflexivity.
Qed.
Lemma counter_algebra_ok elems (a b : counter) : is_dict a -> is_dict b -> all_keys elems a b ->
  ((is_dict (c_add keqb elems a b) /\ (forall k, cget (c_add keqb elems a b) k = Z.max 0 (cget a k + cget b k)) /\
    (forall k n, In (k, n) (c_add keqb elems a b) -> 0 < n)) /\
   (is_dict (c_sub keqb elems a b) /\ (forall k, cget (c_sub keqb elems a b) k = Z.max 0 (cget a k - cget b k)) /\
    (forall k n, In (k, n) (c_sub keqb elems a b) -> 0 < n)) /\
   (is_dict (c_or keqb elems a b) /\ (forall k, cget (c_or keqb elems a b) k = Z.max 0 (Z.max (cget a k) (cget b k))) /\
    (forall k n, In (k, n) (c_or keqb elems a b) -> 0 < n)) /\
   (is_dict (c_and keqb a b) /\ (forall k, cget (c_and keqb a b) k = Z.max 0 (Z.min (cget a k) (cget b k))) /\
    (forall k n, In (k, n) (c_and keqb a b) -> 0 < n)))%Z.
Proof.
  intros Na Nb A. split; [now apply op_ok|]. split; [now apply op_ok|]. split; [now apply op_ok|]. now apply and_ok.
Qed.
Lemma counter_of_ok l : is_dict (counter_of keqb l) /\ forall k, cget (counter_of keqb l) k = Z.of_nat (occ k l).
Proof. destruct (@update_elems_ok l []) as [D H]; [constructor|]. split; auto. Qed.
End P.
