(** Lemmas about the vocabulary in Py.v. *)
From Verif Require Import Py.
Set Implicit Arguments.

Lemma get_ok A (l : list A) i d : i < length l -> get l i = Ok (nth i l d).
Proof.
  unfold get; intros H. rewrite (nth_error_nth' l d H). reflexivity.
Qed.

Lemma get_err A (l : list A) i : length l <= i -> get l i = Err IndexError.
Proof. unfold get; intros H. apply nth_error_None in H. now rewrite H. Qed.

Lemma set_nth_length A (l : list A) i v : length (set_nth l i v) = length l.
Proof. revert i; induction l as [|x l IH]; intros [|i]; cbn; auto. Qed.

Lemma set_nth_same A (l : list A) i v d : i < length l -> nth i (set_nth l i v) d = v.
Proof. revert i; induction l as [|x l IH]; intros [|i]; cbn; intros; try lia; auto. apply IH; lia. Qed.

Lemma set_nth_other A (l : list A) i j v d : i <> j -> nth j (set_nth l i v) d = nth j l d.
Proof. revert i j; induction l as [|x l IH]; intros [|i] [|j]; cbn; intros; try lia; auto. Qed.

Lemma nth_error_set_nth_same A (l : list A) i v : i < length l -> nth_error (set_nth l i v) i = Some v.
Proof. revert i; induction l as [|x l IH]; intros [|i]; cbn; intros; try lia; auto. apply IH; lia. Qed.

Lemma nth_error_set_nth_other A (l : list A) i j v : i <> j -> nth_error (set_nth l i v) j = nth_error l j.
Proof. revert i j; induction l as [|x l IH]; intros [|i] [|j]; cbn; intros; try lia; auto. Qed.

Lemma foldM_app S X (f : S -> X -> res S) s l1 l2 :
  foldM f s (l1 ++ l2) = (s' <- foldM f s l1 ;; foldM f s' l2).
Proof.
  revert s; induction l1 as [|x l1 IH]; intros s; cbn; auto.
  destruct (f s x) as [s'|e]; cbn; auto.
Qed.

(** Invariant rule for a [for i in range(a, a+n)] loop that never raises. *)
Lemma foldM_seq_inv S (f : S -> nat -> res S) (P : nat -> S -> Prop) a n s :
  P a s ->
  (forall i s, a <= i < a + n -> P i s -> exists s', f s i = Ok s' /\ P (Datatypes.S i) s') ->
  exists s', foldM f s (seq a n) = Ok s' /\ P (a + n) s'.
Proof.
  revert a s; induction n as [|n IH]; intros a s H0 HS; cbn.
  - exists s; split; auto. now rewrite Nat.add_0_r.
  - destruct (HS a s) as (s1 & E1 & H1); [lia|auto|]. rewrite E1; cbn.
    destruct (IH (Datatypes.S a) s1) as (s2 & E2 & H2); auto.
    { intros i s' Hi HP. apply HS; auto; lia. }
    exists s2; split; auto. replace (a + Datatypes.S n) with (Datatypes.S a + n) by lia. auto.
Qed.

Lemma mem_spec A (eqb : A -> A -> bool) (H : forall x y, eqb x y = true <-> x = y) x l :
  mem eqb x l = true <-> In x l.
Proof.
  induction l as [|y l IH]; cbn; [split; [discriminate|tauto]|].
  rewrite orb_true_iff, H, IH. intuition congruence.
Qed.

Lemma firstn_snoc A (l : list A) j d : j < length l -> firstn (S j) l = firstn j l ++ [nth j l d].
Proof.
  revert j; induction l as [|x l IH]; intros [|j] H; cbn in H; try lia; auto.
  change (firstn (S (S j)) (x :: l)) with (x :: firstn (S j) l).
  rewrite IH by lia. reflexivity.
Qed.

Lemma nth_map_seq (f : nat -> nat) n i d : i < n -> nth i (map f (seq 0 n)) d = f i.
Proof.
  intros H. rewrite (nth_indep _ d (f 0)) by (rewrite map_length, seq_length; auto).
  rewrite map_nth, seq_nth; auto.
Qed.

Section DictLemmas.
Variables K V : Type.
Variable keqb : K -> K -> bool.
Hypothesis keqb_spec : forall x y, keqb x y = true <-> x = y.

Lemma keqb_refl k : keqb k k = true.
Proof. now apply keqb_spec. Qed.
Lemma keqb_neq k k' : k <> k' -> keqb k k' = false.
Proof. intros H. destruct (keqb k k') eqn:E; auto. apply keqb_spec in E. congruence. Qed.

Lemma dget_dset_same (d : list (K * V)) k v : dget keqb (dset keqb d k v) k = Some v.
Proof.
  induction d as [|[k' v'] d IH]; cbn.
  - now rewrite keqb_refl.
  - destruct (keqb k k') eqn:E; cbn; rewrite E; auto.
Qed.
Lemma dget_dset_other (d : list (K * V)) k k' v : k <> k' -> dget keqb (dset keqb d k v) k' = dget keqb d k'.
Proof.
  intros H. induction d as [|[k1 v1] d IH]; cbn.
  - rewrite keqb_neq; auto.
  - destruct (keqb k k1) eqn:E; cbn.
    + apply keqb_spec in E as <-. rewrite keqb_neq by auto. reflexivity.
    + now rewrite IH.
Qed.

Lemma dget_in (d : list (K * V)) k v : dget keqb d k = Some v -> In (k, v) d.
Proof.
  induction d as [|[k1 v1] d IH]; cbn; [discriminate|].
  destruct (keqb k k1) eqn:E; auto. intros [= ->]. apply keqb_spec in E as ->. auto.
Qed.

Lemma dget_none (d : list (K * V)) k : dget keqb d k = None <-> ~ In k (dkeys d).
Proof.
  induction d as [|[k1 v1] d IH]; cbn; [tauto|].
  destruct (keqb k k1) eqn:E.
  - apply keqb_spec in E as ->. split; [discriminate|tauto].
  - rewrite IH. assert (k <> k1) by (intros ->; rewrite keqb_refl in E; discriminate).
    intuition congruence.
Qed.

Lemma in_dget (d : list (K * V)) k v : NoDup (dkeys d) -> In (k, v) d -> dget keqb d k = Some v.
Proof.
  induction d as [|[k1 v1] d IH]; cbn; [tauto|]. intros N [H|H]; inversion N; subst.
  - injection H as -> ->. now rewrite keqb_refl.
  - rewrite keqb_neq; auto. intros ->. apply (in_map fst) in H. auto.
Qed.

Lemma dkeys_dset_in (d : list (K * V)) k v : In k (dkeys d) -> dkeys (dset keqb d k v) = dkeys d.
Proof.
  induction d as [|[k1 v1] d IH]; cbn; [tauto|]. intros H.
  destruct (keqb k k1) eqn:E; cbn; auto. f_equal. apply IH. destruct H; auto.
  subst. rewrite keqb_refl in E; discriminate.
Qed.
Lemma dkeys_dset_new (d : list (K * V)) k v : ~ In k (dkeys d) -> dset keqb d k v = d ++ [(k, v)].
Proof.
  induction d as [|[k1 v1] d IH]; cbn; auto. intros H.
  rewrite keqb_neq by intuition. rewrite IH; auto.
Qed.

Lemma dget_ddel_same (d : list (K * V)) k : NoDup (dkeys d) -> dget keqb (ddel keqb d k) k = None.
Proof.
  induction d as [|[k1 v1] d IH]; cbn; auto. intros N; inversion N; subst.
  destruct (keqb k k1) eqn:E.
  - apply keqb_spec in E as ->. now apply dget_none.
  - cbn. rewrite E. auto.
Qed.
Lemma dget_ddel_other (d : list (K * V)) k k' : k <> k' -> dget keqb (ddel keqb d k) k' = dget keqb d k'.
Proof.
  intros H. induction d as [|[k1 v1] d IH]; cbn; auto.
  destruct (keqb k k1) eqn:E; cbn.
  - apply keqb_spec in E as <-. now rewrite keqb_neq by auto.
  - now rewrite IH.
Qed.
Lemma in_ddel (d : list (K * V)) k p : In p (ddel keqb d k) -> In p d.
Proof.
  induction d as [|[k1 v1] d IH]; cbn; auto. destruct (keqb k k1); cbn; intuition.
Qed.
Lemma nodup_ddel (d : list (K * V)) k : NoDup (dkeys d) -> NoDup (dkeys (ddel keqb d k)).
Proof.
  induction d as [|[k1 v1] d IH]; cbn; auto. intros N; inversion N; subst.
  destruct (keqb k k1); cbn; auto. constructor; auto.
  intros H. apply in_map_iff in H as ([k2 v2] & <- & H). apply in_ddel in H.
  apply (in_map fst) in H. auto.
Qed.
Lemma nodup_snoc (l : list K) k : NoDup l -> ~ In k l -> NoDup (l ++ [k]).
Proof.
  intros N H.
  induction l as [|x l IH]; cbn; [constructor; auto; constructor|].
  inversion N; subst. constructor.
  - rewrite in_app_iff. cbn in *. intuition.
  - apply IH; auto. cbn in H; intuition.
Qed.
Lemma nodup_dset (d : list (K * V)) k v : NoDup (dkeys d) -> NoDup (dkeys (dset keqb d k v)).
Proof.
  intros N. destruct (dget keqb d k) eqn:E.
  - rewrite dkeys_dset_in; auto. apply dget_in in E. now apply (in_map fst) in E.
  - apply dget_none in E. rewrite dkeys_dset_new by auto. unfold dkeys. rewrite map_app. cbn.
    now apply nodup_snoc.
Qed.
End DictLemmas.

Lemma pair_eqb_spec A B (ea : A -> A -> bool) (eb : B -> B -> bool) :
  (forall x y, ea x y = true <-> x = y) -> (forall x y, eb x y = true <-> x = y) ->
  forall p q, pair_eqb ea eb p q = true <-> p = q.
Proof.
  intros Ha Hb [a b] [a' b']. unfold pair_eqb; cbn. rewrite andb_true_iff, Ha, Hb.
  intuition congruence.
Qed.
