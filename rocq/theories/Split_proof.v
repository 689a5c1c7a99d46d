From Coq Require Import Permutation Sorted.
From Verif Require Import Py PyLemmas Split_spec Split_model.
Open Scope nat_scope.
Set Implicit Arguments.

(** ** Decimal notation *)
Lemma dec_decimal f n : n < f -> decimal n (dec f n).
Proof.
  revert n. induction f as [|f IH]; intros n H; [lia|]. cbn [dec]. destruct (n <? 10) eqn:E.
  - apply Nat.ltb_lt in E. now constructor.
  - apply Nat.ltb_ge in E. rewrite (Nat.div_mod n 10) at 1 by lia. apply DecS.
    + apply Nat.div_str_pos. lia.
    + apply Nat.mod_upper_bound. lia.
    + apply IH. assert (n / 10 < n) by (apply Nat.div_lt; lia). lia.
Qed.
Lemma dec4_decimal n : decimal4 n (dec4 n).
Proof.
  unfold dec4. set (s := dec (S n) n). exists (4 - length s), s. split; [apply dec_decimal; lia|]. split; [reflexivity|].
  rewrite app_length, repeat_length. lia.
Qed.
Definition value (s : name) : nat := fold_left (fun acc c => 10 * acc + (c - 48)) s 0.
Lemma value_snoc s c : value (s ++ [c]) = 10 * value s + (c - 48).
Proof. unfold value. now rewrite fold_left_app. Qed.
Lemma value_acc s : forall a, fold_left (fun acc c => 10 * acc + (c - 48)) s a = a * 10 ^ length s + value s.
Proof.
  induction s as [|c s IH]; intros a; [cbn; lia|]. cbn [fold_left length Nat.pow]. rewrite IH. unfold value at 2. cbn [fold_left]. rewrite IH. ring.
Qed.
Lemma value_cons c s : value (c :: s) = (c - 48) * 10 ^ length s + value s.
Proof. unfold value at 1. cbn [fold_left]. rewrite value_acc. lia. Qed.
Lemma value_zeros z s : value (repeat 48 z ++ s) = value s.
Proof. induction z as [|z IH]; [reflexivity|]. cbn [repeat app]. rewrite value_cons, IH. lia. Qed.
Definition digits (s : name) := Forall (fun c => 48 <= c < 58) s.
Lemma decimal_value n s : decimal n s -> value s = n.
Proof.
  induction 1 as [d H|n d s P H _ IH]; [unfold value; cbn; lia|]. rewrite value_snoc, IH. lia.
Qed.
Lemma decimal_digits n s : decimal n s -> digits s.
Proof.
  induction 1 as [d H|n d s P H _ IH]; [constructor; [lia|constructor]|]. apply Forall_app. split; [trivial|]. constructor; [lia|constructor].
Qed.
Lemma decimal_length n s : decimal n s -> length s <= 1 \/ 10 ^ (length s - 1) <= n.
Proof.
  induction 1 as [d H|n d s P H X IH]; [left; reflexivity|]. right. rewrite app_length. cbn [length]. replace (length s + 1 - 1) with (length s) by lia.
  destruct (length s) as [|[|k]] eqn:L.
  - destruct X; cbn in L; [discriminate|rewrite app_length in L; cbn in L; lia].
  - cbn. lia.
  - destruct IH as [IH|IH]; [lia|]. replace (S (S k) - 1) with (S k) in IH by lia. cbn [Nat.pow] in *. lia.
Qed.
Lemma decimal4_value n s : decimal4 n s -> value s = n /\ digits s.
Proof.
  intros [z [t [D [-> _]]]]. rewrite value_zeros. split; [now apply decimal_value|]. apply Forall_app. split; [|now apply decimal_digits with n].
  apply Forall_forall. intros c I. apply repeat_spec in I. lia.
Qed.
Lemma decimal4_length n s : decimal4 n s -> n < 10 ^ 4 -> length s = 4.
Proof.
  intros [z [t [D [-> [[->|L] M]]]]] H; [|trivial]. cbn [repeat app] in *.
  destruct (decimal_length D) as [Q|Q]; [lia|]. destruct (Nat.le_gt_cases (length t) 4) as [G|G]; [lia|].
  assert (10 ^ 4 <= 10 ^ (length t - 1)) by (apply Nat.pow_le_mono_r; lia). lia.
Qed.
Lemma value_bound s : digits s -> value s < 10 ^ length s.
Proof.
  induction 1 as [|c s H _ IH]; [cbn; lia|]. rewrite value_cons. cbn [length Nat.pow]. nia.
Qed.
Lemma digits_before s t x y : digits s -> digits t -> length s = length t -> value s < value t -> before (s ++ x) (t ++ y).
Proof.
  intros D. revert t. induction D as [|c s H D IH]; intros [|d t] E L V; try discriminate L; [cbn in V; lia|].
  inversion E as [|? ? E1 E2]; subst. injection L as L. rewrite !value_cons, L in V. cbn [app].
  pose proof (value_bound E2). pose proof (value_bound D). rewrite L in *.
  destruct (Nat.lt_trichotomy c d) as [Q|[Q|Q]]; [now constructor|subst d; apply BEq, IH; trivial; lia|]. nia.
Qed.
Lemma no_dash_split (a b x y : name) : digits a -> digits b -> a ++ 45 :: x = b ++ 45 :: y -> a = b /\ x = y.
Proof.
  intros Da. revert b. induction Da as [|c a H _ IH]; intros [|d b] Db E; cbn in E.
  - injection E as E. auto.
  - inversion Db; subst. injection E as E _. lia.
  - injection E as E _. lia.
  - inversion Db; subst. injection E as -> E. destruct (IH b H3 E). split; congruence.
Qed.
Lemma part_name_inj root ext a b a' b' s : part_name root ext a b s -> part_name root ext a' b' s -> a = a'.
Proof.
  intros [x [y [X [Y ->]]]] [x' [y' [X' [Y' E]]]]. apply app_inv_head in E. injection E as E.
  apply decimal4_value in X, X'. destruct X as [X1 X2], X' as [X1' X2']. apply no_dash_split in E; trivial. destruct E as [-> _]. congruence.
Qed.
Lemma part_name_before root ext a b a' b' s t : part_name root ext a b s -> part_name root ext a' b' t -> a < a' -> a' < 10 ^ 4 -> before s t.
Proof.
  intros [x [y [X [Y ->]]]] [x' [y' [X' [Y' ->]]]] L M.
  assert (LX : length x = 4) by (eapply decimal4_length; eauto; lia). assert (LX' : length x' = 4) by (eapply decimal4_length; eauto; lia).
  apply decimal4_value in X, X'. destruct X as [X1 X2], X' as [X1' X2'].
  assert (P : forall p u v, before u v -> before (p ++ u) (p ++ v)) by (induction p; cbn; [trivial|intros; apply BEq; auto]).
  apply P, P. apply digits_before; trivial; lia.
Qed.
Lemma part_name_longer root ext a b s : part_name root ext a b s -> length (root ++ ext) < length s.
Proof. intros [x [y [_ [_ ->]]]]. rewrite !app_length. cbn. lia. Qed.
Lemma dec_part_name root ext a b : part_name root ext a b (root ++ [95] ++ dec4 a ++ [45] ++ dec4 b ++ ext).
Proof. exists (dec4 a), (dec4 b). repeat split; apply dec4_decimal. Qed.

Lemma skipn_skipn' (A : Type) x y (l : list A) : skipn x (skipn y l) = skipn (x + y) l.
Proof.
  revert l. induction y as [|y IH]; intros l; [now rewrite Nat.add_0_r|]. rewrite Nat.add_succ_r. destruct l; [now rewrite !skipn_nil|]. apply IH.
Qed.
(** ** Splitting *)
Section Split.
Variable A : Type.
Variables root ext : name.
Definition piece (c : list A) (s i : nat) : name * list A :=
  let j := Nat.min (i + s) (length c) in (root ++ [95] ++ dec4 (i + 1) ++ [45] ++ dec4 j ++ ext, slice c i j).
Lemma piece_partition (c : list A) s cnt : 0 < s -> forall q,
  (cnt = 0 -> length c <= q * s) -> (0 < cnt -> q * s + (cnt - 1) * s < length c <= q * s + cnt * s) ->
  partition root ext s (q * s) (skipn (q * s) c) (map (fun k => piece c s (k * s)) (seq q cnt)).
Proof.
  intros S0. induction cnt as [|cnt IH]; intros q Z P; cbn [seq map].
  - rewrite skipn_all2 by auto. constructor.
  - specialize (P (Nat.lt_0_succ _)). cbn [Nat.sub] in P. rewrite Nat.sub_0_r in P. destruct cnt as [|cnt].
    + assert (M : Nat.min (q * s + s) (length c) = length c) by lia.
      assert (SL : slice c (q * s) (length c) = skipn (q * s) c).
      { unfold slice. apply firstn_all2. rewrite skipn_length. lia. }
      cbn [seq map]. unfold piece. rewrite M, SL.
      assert (L : length (skipn (q * s) c) = length c - q * s) by apply skipn_length. apply PLast.
      * intros E. rewrite E in L. cbn in L. lia.
      * lia.
      * replace (q * s + length (skipn (q * s) c)) with (length c) by lia. apply dec_part_name.
    + assert (M : Nat.min (q * s + s) (length c) = q * s + s) by nia.
      assert (X : skipn (q * s) c = slice c (q * s) (q * s + s) ++ skipn (q * s + s) c).
      { unfold slice. replace (q * s + s - q * s) with s by lia. rewrite <- (firstn_skipn s (skipn (q * s) c)) at 1. f_equal.
        rewrite skipn_skipn'. f_equal. lia. }
      assert (L : length (slice c (q * s) (q * s + s)) = s).
      { unfold slice. rewrite firstn_length, skipn_length. lia. }
      rewrite X. unfold piece at 1. rewrite M. apply PCons.
      * exact L.
      * intros E. apply (f_equal (@length A)) in E. rewrite skipn_length in E. cbn in E. nia.
      * rewrite L. apply dec_part_name.
      * replace (q * s + s) with (S q * s) by lia. apply IH; [discriminate|]. intros _. cbn [Nat.sub]. rewrite Nat.sub_0_r. cbn [Nat.mul] in *. lia.
Qed.
Lemma range_count n (s : Z) : (0 < s)%Z -> let c := Z.to_nat ((Z.of_nat n + s - 1) / s) in
  (c = 0 -> n <= 0) /\ (0 < c -> (c - 1) * Z.to_nat s < n <= c * Z.to_nat s).
Proof.
  intros H c. pose proof (Z.mul_div_le (Z.of_nat n + s - 1) s H) as A1. pose proof (Z.mul_succ_div_gt (Z.of_nat n + s - 1) s H) as A2.
  unfold c. set (q := ((Z.of_nat n + s - 1) / s)%Z) in *. assert (Q : (0 <= q)%Z) by (apply Z.div_pos; lia). split.
  - intros E. assert (q = 0%Z) by lia. nia.
  - intros P. assert (1 <= q)%Z by lia. split; apply Nat2Z.inj_lt || apply Nat2Z.inj_le; rewrite Nat2Z.inj_mul, ?Nat2Z.inj_sub, !Z2Nat.id by lia; lia.
Qed.
Lemma split_ok (c : list A) parts size s : split_size (length c) parts size = Ok s -> (0 < s)%Z ->
  exists ps, split c root ext parts size = Ok ps /\ partition root ext (Z.to_nat s) 0 c ps.
Proof.
  intros E H. unfold split. rewrite E. cbn [bind]. unfold py_range. replace (s =? 0)%Z with false by (symmetry; apply Z.eqb_neq; lia).
  replace (s <? 0)%Z with false by (symmetry; apply Z.ltb_ge; lia). cbn [bind]. eexists. split; [reflexivity|]. rewrite map_map.
  destruct (range_count (length c) H) as [C1 C2]. apply (piece_partition c (s := Z.to_nat s)) with (q := 0); [lia|exact C1|]. intros P. cbn [Nat.mul Nat.add]. auto.
Qed.
Lemma partition_concat s k (l : list A) ps : partition root ext s k l ps -> concat (map snd ps) = l.
Proof. induction 1; cbn [map snd concat]; [reflexivity|apply app_nil_r|congruence]. Qed.
Lemma partition_sizes s k (l : list A) ps : partition root ext s k l ps -> 0 < s -> Forall (fun p => 0 < length (snd p) <= s) ps.
Proof.
  induction 1 as [k|k n l N L _|k n l rest ps L N _ _ IH]; intros S0; constructor; cbn [snd]; auto; [|lia].
  destruct l; [congruence|]. cbn [length] in *. lia.
Qed.
Lemma partition_count s k (l : list A) ps : partition root ext s k l ps -> 0 < s -> length l <= length ps * s /\ (ps <> [] -> (length ps - 1) * s < length l).
Proof.
  induction 1 as [k|k n l N L _|k n l rest ps L N _ P IH]; intros S0; cbn [length].
  - split; [lia|congruence].
  - destruct l; [congruence|]. cbn [length] in *. split; lia.
  - destruct (IH S0) as [I1 I2]. rewrite app_length, L. assert (ps <> []) by (intros ->; inversion P; subst; congruence). specialize (I2 H).
    destruct ps; [congruence|]. cbn [length] in *. split; [lia|]. intros _. nia.
Qed.
Lemma partition_names s k (l : list A) ps p : partition root ext s k l ps -> In p ps ->
  exists a b, part_name root ext a b (fst p) /\ k < a /\ a <= k + length l /\ b <= k + length l.
Proof.
  intros P. induction P as [k|k n l N L P|k n l rest ps L N PN P IH]; intros I; [destruct I|destruct I as [<-|[]]|destruct I as [<-|I]]; cbn [fst].
  - exists (k + 1), (k + length l). split; [trivial|]. destruct l; [congruence|cbn; lia].
  - exists (k + 1), (k + length l). split; [trivial|]. rewrite app_length. destruct rest; [congruence|cbn; lia].
  - destruct (IH I) as [a [b [Q1 [Q2 [Q3 Q4]]]]]. exists a, b. rewrite app_length. split; [trivial|]. lia.
Qed.
Lemma partition_sorted s k (l : list A) ps : partition root ext s k l ps -> 0 < s -> k + length l < 10 ^ 4 ->
  StronglySorted (fun p q => before (fst p) (fst q)) ps.
Proof.
  intros P. induction P as [k|k n l N L P|k n l rest ps L N PN P IH]; intros S0 H; [constructor|repeat constructor|].
  rewrite app_length in H. constructor; [apply IH; lia|]. apply Forall_forall. intros q I.
  destruct (partition_names q P I) as [a [b [Q1 [Q2 [Q3 Q4]]]]]. cbn [fst]. eapply part_name_before; [exact PN|exact Q1| |]; lia.
Qed.
Lemma partition_nodup s k (l : list A) ps : partition root ext s k l ps -> 0 < s -> NoDup (map fst ps).
Proof.
  intros P. induction P as [k|k n l N L P|k n l rest ps L N PN P IH]; intros S0; cbn [map fst]; [constructor|repeat constructor; intros []|].
  constructor; [|auto]. intros I. apply in_map_iff in I. destruct I as [q [E I]]. destruct (partition_names q P I) as [a [b [Q1 [Q2 _]]]].
  rewrite E in Q1. pose proof (part_name_inj PN Q1). lia.
Qed.
End Split.

(** ** Joining *)
Section Join.
Variables (A R : Type) (reqb : R -> R -> bool).
Hypothesis req : forall x y, reqb x y = true <-> x = y.
Notation file := (name * (list R * list A))%type.
Lemma leb_cases s t : name_leb s t = true <-> s = t \/ before s t.
Proof.
  revert t. induction s as [|c s IH]; intros [|d t]; cbn [name_leb].
  - tauto.
  - split; [intros _; right; constructor|trivial].
  - split; [discriminate|intros [E|E]; [discriminate|inversion E]].
  - destruct (c <? d) eqn:E1; [apply Nat.ltb_lt in E1; split; [right; now constructor|trivial]|]. apply Nat.ltb_ge in E1.
    destruct (d <? c) eqn:E2; [apply Nat.ltb_lt in E2; split; [discriminate|]; intros [E|E]; [injection E as -> ->; lia|inversion E; subst; lia]|].
    apply Nat.ltb_ge in E2. assert (c = d) by lia. subst d. rewrite IH. split.
    + intros [->|B]; [auto|right; now constructor].
    + intros [E|E]; [injection E as ->; auto|]. inversion E; subst; [lia|auto].
Qed.
Lemma before_irrefl s : ~ before s s.
Proof. induction s as [|c s IH]; intros B; inversion B; subst; [lia|auto]. Qed.
Lemma before_trans s t u : before s t -> before t u -> before s u.
Proof.
  intros B. revert u. induction B as [c s|c d s t L|c s t B IH]; intros u C.
  - inversion C; constructor.
  - inversion C; subst; constructor; lia.
  - inversion C; subst; [now constructor|]. apply BEq. auto.
Qed.
Lemma leb_total s t : name_leb s t = true \/ name_leb t s = true.
Proof.
  revert t. induction s as [|c s IH]; intros [|d t]; cbn [name_leb]; auto.
  destruct (c <? d) eqn:E1, (d <? c) eqn:E2; auto.
Qed.
Lemma insert_perm f (l : list file) : Permutation (insert f l) (f :: l).
Proof.
  induction l as [|g l IH]; cbn [insert]; [reflexivity|]. destruct (name_leb _ _); [reflexivity|].
  rewrite IH. apply perm_swap.
Qed.
Lemma multiglob_perm (l : list file) : Permutation (multiglob l) l.
Proof. induction l as [|f l IH]; cbn; [constructor|]. rewrite insert_perm. now constructor. Qed.
Notation le := (fun f g : file => name_leb (fst f) (fst g) = true).
Lemma le_trans (f g h : file) : le f g -> le g h -> le f h.
Proof.
  cbn beta. rewrite !leb_cases. intros [->|B] [E|C]; auto; [rewrite <- E; auto|]. right. eapply before_trans; eauto.
Qed.
Lemma insert_sorted f (l : list file) : StronglySorted le l -> StronglySorted le (insert f l).
Proof.
  induction 1 as [|g l S IH F]; cbn [insert]; [repeat constructor|]. destruct (name_leb (fst f) (fst g)) eqn:E.
  - constructor; [now constructor|]. constructor; [trivial|]. eapply Forall_impl; [|exact F]. intros h H. exact (@le_trans f g h E H).
  - constructor; [trivial|]. apply Forall_forall. intros h H. apply (Permutation_in _ (insert_perm f l)) in H.
    destruct H as [<-|H]; [|rewrite Forall_forall in F; auto]. destruct (leb_total (fst f) (fst g)); congruence.
Qed.
Lemma multiglob_sorted (l : list file) : StronglySorted le (multiglob l).
Proof. induction l as [|f l IH]; cbn; [constructor|now apply insert_sorted]. Qed.
Lemma sorted_unique (l m : list file) : StronglySorted (fun f g => before (fst f) (fst g)) l -> StronglySorted le m -> Permutation m l -> m = l.
Proof.
  intros S. revert m. induction S as [|a l S IH F]; intros m M P.
  - apply Permutation_sym, Permutation_nil in P. now subst.
  - destruct m as [|b m]; [apply Permutation_nil in P; discriminate|]. inversion M as [|? ? M1 M2]; subst.
    assert (a = b).
    { assert (Ia : In a (b :: m)) by (eapply Permutation_in; [apply Permutation_sym; exact P|now left]).
      assert (Ib : In b (a :: l)) by (eapply Permutation_in; [exact P|now left]).
      destruct Ia as [->|Ia]; [trivial|]. destruct Ib as [->|Ib]; [trivial|]. rewrite Forall_forall in M2, F.
      specialize (M2 a Ia). specialize (F b Ib). apply leb_cases in M2. destruct M2 as [E|B].
      - rewrite E in F. exfalso. exact (before_irrefl F).
      - exfalso. exact (before_irrefl (before_trans F B)). }
    subst b. f_equal. apply IH; [trivial|]. now apply Permutation_cons_inv in P.
Qed.
Lemma rels_eqb_spec l1 l2 : rels_eqb reqb l1 l2 = true <-> l1 = l2.
Proof.
  revert l2. induction l1 as [|x l1 IH]; intros [|y l2]; cbn [rels_eqb]; try (split; discriminate || reflexivity).
  rewrite andb_true_iff, req, IH. split; [intros [-> ->]; reflexivity|intros E; injection E; auto].
Qed.
Lemma join_fold r0 (fs : list file) acc : 
  (Forall (fun f => fst (snd f) = r0) fs -> foldM (fun acc f => if rels_eqb reqb r0 (fst (snd f)) then Ok (acc ++ snd (snd f)) else Err ValueError) acc fs
     = Ok (acc ++ concat (map (fun f => snd (snd f)) fs))) /\
  (~ Forall (fun f => fst (snd f) = r0) fs -> foldM (fun acc f => if rels_eqb reqb r0 (fst (snd f)) then Ok (acc ++ snd (snd f)) else Err ValueError) acc fs
     = Err ValueError).
Proof.
  revert acc. induction fs as [|f fs IH]; intros acc; cbn [foldM map concat].
  - split; [now rewrite app_nil_r|]. intros N. exfalso. apply N. constructor.
  - destruct (rels_eqb reqb r0 (fst (snd f))) eqn:E.
    + apply rels_eqb_spec in E. cbn [bind]. destruct (IH (acc ++ snd (snd f))) as [I1 I2]. split.
      * intros F. inversion F; subst. rewrite I1 by trivial. now rewrite app_assoc.
      * intros N. apply I2. intros F. apply N. constructor; auto.
    + cbn [bind]. split; [|reflexivity]. intros F. inversion F; subst. rewrite (proj2 (rels_eqb_spec _ _) eq_refl) in E. discriminate.
Qed.
End Join.
