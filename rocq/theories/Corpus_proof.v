(** Proofs: the corpus operations act like list operations. *)
From Coq Require Import Permutation Sorted.
From Verif Require Import Py PyLemmas Corpus_spec Corpus_model.
Set Implicit Arguments.
Section Lists.
Variable P : Type.
Definition from (s : nat) (f : nat -> bool) (l : list P) : list P :=
  map snd (filter (fun x => f (fst x)) (combine (seq s (length l)) l)).
Lemma from_cons s f x l : from s f (x :: l) = (if f s then [x] else []) ++ from (S s) f l.
Proof. unfold from. cbn [length seq combine filter fst]. destruct (f s); reflexivity. Qed.
Lemma from_ext s f g l : (forall p, s <= p < s + length l -> f p = g p) -> from s f l = from s g l.
Proof.
  revert s; induction l as [|x l IH]; intros s H; auto. rewrite !from_cons. rewrite (H s) by (cbn; lia).
  f_equal. apply IH. intros p Hp. apply H. cbn; lia.
Qed.
Lemma from_true s l : from s (fun _ => true) l = l.
Proof. revert s; induction l as [|x l IH]; intros s; auto. rewrite from_cons, IH. reflexivity. Qed.
Lemma from_false s l : from s (fun _ => false) l = [].
Proof. revert s; induction l as [|x l IH]; intros s; auto. rewrite from_cons, IH. reflexivity. Qed.
Lemma from_lt s a l : from s (fun p => p <? a) l = firstn (a - s) l.
Proof.
  revert s; induction l as [|x l IH]; intros s; [now rewrite firstn_nil|]. rewrite from_cons.
  destruct (s <? a) eqn:E.
  - apply Nat.ltb_lt in E. replace (a - s) with (S (a - S s)) by lia. cbn. now rewrite IH.
  - apply Nat.ltb_ge in E. replace (a - s) with 0 by lia. rewrite IH. now replace (a - S s) with 0 by lia.
Qed.
Lemma from_ge s a l : from s (fun p => a <=? p) l = skipn (a - s) l.
Proof.
  revert s; induction l as [|x l IH]; intros s; [now rewrite skipn_nil|]. rewrite from_cons.
  destruct (a <=? s) eqn:E.
  - apply Nat.leb_le in E. replace (a - s) with 0 by lia. rewrite IH. replace (a - S s) with 0 by lia. reflexivity.
  - apply Nat.leb_gt in E. replace (a - s) with (S (a - S s)) by lia. cbn. now rewrite IH.
Qed.
Lemma from_between s a b l : from s (between a b) l = firstn (b - Nat.max s a) (skipn (a - s) l).
Proof.
  revert s; induction l as [|x l IH]; intros s; [now rewrite skipn_nil, firstn_nil|]. rewrite from_cons. unfold between at 1.
  destruct (a <=? s) eqn:E1.
  - apply Nat.leb_le in E1. replace (a - s) with 0 by lia. cbn [skipn andb]. rewrite IH. replace (a - S s) with 0 by lia. cbn [skipn].
    destruct (s <? b) eqn:E2.
    + apply Nat.ltb_lt in E2. replace (b - Nat.max s a) with (S (b - Nat.max (S s) a)) by lia. reflexivity.
    + apply Nat.ltb_ge in E2. replace (b - Nat.max s a) with 0 by lia. now replace (b - Nat.max (S s) a) with 0 by lia.
  - apply Nat.leb_gt in E1. replace (a - s) with (S (a - S s)) by lia. cbn [andb app skipn]. rewrite IH. do 2 f_equal. lia.
Qed.
Lemma from_drop s p l : s <= p < s + length l -> from s (fun q => negb (q =? p)) l = firstn (p - s) l ++ skipn (S p - s) l.
Proof.
  revert s; induction l as [|x l IH]; intros s H; cbn [length] in H; [lia|]. rewrite from_cons.
  destruct (s =? p) eqn:E.
  - apply Nat.eqb_eq in E as ->. rewrite Nat.sub_diag. replace (S p - p) with 1 by lia. cbn [negb app firstn skipn].
    rewrite (from_ext _ (fun _ => true)), from_true; auto.
    intros q Hq. apply negb_true_iff, Nat.eqb_neq. lia.
  - apply Nat.eqb_neq in E. replace (p - s) with (S (p - S s)) by lia. replace (S p - s) with (S (S p - S s)) by lia.
    cbn [negb app firstn skipn]. rewrite IH by lia. reflexivity.
Qed.
Lemma put_set s p v (l : list P) : s <= p < s + length l ->
  map (fun x => if fst x =? p then v else snd x) (combine (seq s (length l)) l) = set_nth l (p - s) v.
Proof.
  revert s; induction l as [|x l IH]; intros s H; cbn [length] in H; [lia|]. cbn [length seq combine map fst snd].
  destruct (s =? p) eqn:E.
  - apply Nat.eqb_eq in E as ->. rewrite Nat.sub_diag. cbn [set_nth]. f_equal.
    assert (forall s (l : list P), p < s -> map (fun x => if fst x =? p then v else snd x) (combine (seq s (length l)) l) = l) as K; [|apply K; lia].
    clear. intros s l; revert s. induction l as [|x l IH]; intros s H; auto. cbn. rewrite IH by lia.
    destruct (s =? p) eqn:E; auto. apply Nat.eqb_eq in E; lia.
  - apply Nat.eqb_neq in E. replace (p - s) with (S (p - S s)) by lia. cbn [set_nth]. f_equal. apply IH. lia.
Qed.
(** bounds *)
Lemma bound_lo l a : bound (length l) a 0 = Nat.min (@lo P l a) (length l).
Proof.
  unfold bound, lo, lower. destruct a as [i|]; [|reflexivity].
  destruct (i <? 0)%Z eqn:E; [apply Z.ltb_lt in E|apply Z.ltb_ge in E]; lia.
Qed.
Lemma bound_hi l b : bound (length l) b (length l) = Nat.min (@hi P l b) (length l).
Proof.
  unfold bound, hi, upper. destruct b as [i|]; [|lia].
  destruct (i <? 0)%Z eqn:E; [apply Z.ltb_lt in E|apply Z.ltb_ge in E]; lia.
Qed.
Lemma cut_slice l a b : list_getslice l (@lo P l a) (hi l b) = cut l a b.
Proof.
  unfold cut. change (at_positions ?f l) with (from 0 f l). rewrite from_between, bound_lo, bound_hi.
  unfold list_getslice. rewrite !Nat.sub_0_r. f_equal.
Qed.
Lemma paste_slice l a b m : list_setslice l (@lo P l a) (hi l b) m = paste l a b m.
Proof.
  unfold paste. cbv zeta. change (at_positions ?f l) with (from 0 f l). rewrite from_lt, from_ge, bound_lo, bound_hi.
  unfold list_setslice. cbv zeta. rewrite !Nat.sub_0_r. do 3 f_equal.
  destruct (Nat.min (hi l b) (length l) <? Nat.min (lo l a) (length l)) eqn:E; [apply Nat.ltb_lt in E|apply Nat.ltb_ge in E]; lia.
Qed.
Lemma index_position l k : list_index l k = match @position P l k with Some p => Ok p | None => Err IndexError end.
Proof.
  unfold list_index, position. cbv zeta.
  set (k' := if (k <? 0)%Z then (k + Z.of_nat (length l))%Z else k).
  destruct ((k' <? 0) || (Z.of_nat (length l) <=? k'))%Z%bool eqn:E1, ((0 <=? k') && (k' <? Z.of_nat (length l)))%Z%bool eqn:E2; auto.
  - apply orb_true_iff in E1. apply andb_prop in E2 as [E2 E3]. exfalso. destruct E1; lia.
  - apply orb_false_iff in E1 as [E1 E3]. exfalso. apply andb_false_iff in E2. destruct E2; lia.
Qed.
Lemma position_lt l k p : @position P l k = Some p -> p < length l.
Proof.
  unfold position. cbv zeta. set (k' := if (k <? 0)%Z then (k + Z.of_nat (length l))%Z else k).
  destruct ((0 <=? k') && (k' <? Z.of_nat (length l)))%Z%bool eqn:E; [|discriminate]. intros [= <-].
  apply andb_prop in E as [E1 E2]. lia.
Qed.
Lemma mul_copies n l : list_mul l n = @copies P n l.
Proof.
  unfold list_mul, copies. destruct (n <=? 0)%Z eqn:E.
  - apply Z.leb_le in E. replace (Z.to_nat n) with 0 by lia. reflexivity.
  - generalize (Z.to_nat n). intros k; induction k as [|k IH]; cbn; [reflexivity|]. f_equal. exact IH.
Qed.
Lemma remove_first peqb v (l : list P) : list_remove peqb l v = match drop_first peqb v l with Some r => Ok r | None => Err ValueError end.
Proof.
  induction l as [|x l IH]; cbn; auto. destruct (peqb x v); auto. rewrite IH. destruct (drop_first peqb v l); auto.
Qed.
Lemma clear_nil (l : list P) : list_setslice l 0 (length l) [] = [].
Proof. unfold list_setslice. cbn. rewrite Nat.min_id. destruct (length l <? 0); cbn; apply skipn_all. Qed.
Lemma eq_pairs peqb (l1 l2 : list P) : list_eq peqb l1 l2 = pairs_eqb peqb l1 l2.
Proof. reflexivity. Qed.
End Lists.

Section Sort.
Variable R : Type.
Variable rleb : R -> R -> bool.
Hypothesis total : forall x y, rleb x y = true \/ rleb y x = true.
Definition adj (l : list R) : Prop := Sorted (fun x y => rleb x y = true) l.
Lemma ins_perm x l : Permutation (x :: l) (ins rleb x l).
Proof. induction l as [|y l IH]; cbn; auto. destruct (rleb x y); auto. rewrite perm_swap. auto. Qed.
Lemma isort_perm l : Permutation l (isort rleb l).
Proof. induction l as [|x l IH]; cbn; auto. rewrite <- ins_perm. auto. Qed.
Lemma ins_adj x l : adj l -> adj (ins rleb x l).
Proof.
  induction l as [|y l IH]; cbn; intros H; [repeat constructor|].
  destruct (rleb x y) eqn:E; [constructor; auto|].
  inversion H as [|? ? H2 H3]; subst. specialize (IH H2). constructor; auto.
  destruct l as [|z l]; cbn.
  - constructor. destruct (total x y); congruence.
  - destruct (rleb x z); constructor; [destruct (total x y); congruence|]. now inversion H3.
Qed.
Lemma isort_adj l : adj (isort rleb l).
Proof. induction l as [|x l IH]; [constructor|]. now apply ins_adj. Qed.
Lemma isort_id l : adj l -> isort rleb l = l.
Proof.
  induction l as [|x l IH]; intros H; auto. inversion H; subst. cbn. rewrite IH by auto.
  destruct l as [|y l]; auto. cbn. inversion H3; subst. now rewrite H1.
Qed.
Lemma sort_isort l : list_sort rleb l = isort rleb l.
Proof.
  induction l as [|x l IH]; auto. cbn. fold (list_sort rleb l). rewrite IH. generalize (isort rleb l). clear.
  induction l as [|y l IH]; cbn; auto. destruct (rleb x y); auto. now rewrite IH.
Qed.
End Sort.

Section Run.
Variables P R : Type.
Variable peqb : P -> P -> bool.
Variable rleb : R -> R -> bool.
Hypothesis total : forall x y, rleb x y = true \/ rleb y x = true.
Variable reqb : R -> R -> bool.
Variable mequal : nat -> nat -> bool.
Notation heap := (heap P R).
Notation step := (step peqb rleb reqb mequal).
Notation does := (does peqb rleb reqb mequal).
Lemma rel_eqb l1 l2 : rel_list_eqb reqb l1 l2 = list_eqb reqb l1 l2.
Proof. reflexivity. Qed.

Definition ref_ok (h : heap) (r : rref) : Prop :=
  match r with FromCaller k => k < length (caller_lists h) | Fresh k => k < length (fresh_lists h) end.
Definition good (h : heap) : Prop :=
  forall i c, nth_error (corpora h) i = Some c -> ref_ok h (rels c) /\ adj rleb (rel_get h (rels c)).
Definition see (h : heap) (c : corpus P) : book P R :=
  {| items := pairs c; relations := rel_get h (rels c); meta := mdata c |}.
Lemma view_nth h i : nth_error (books (view h)) i = option_map (see h) (nth_error (corpora h) i).
Proof. cbn. apply nth_error_map. Qed.
Lemma map_set_nth A B (f : A -> B) l i x : map f (set_nth l i x) = set_nth (map f l) i (f x).
Proof. revert i; induction l as [|y l IH]; intros [|i]; cbn; auto. now rewrite IH. Qed.
Lemma nth_error_set_nth A (l : list A) i j x y : nth_error (set_nth l i x) j = Some y -> y = x \/ nth_error l j = Some y.
Proof.
  intros H. destruct (Nat.eq_dec i j) as [->|Hne].
  - destruct (Nat.lt_ge_cases j (length l)).
    + rewrite nth_error_set_nth_same in H by auto. left; congruence.
    + rewrite (proj2 (nth_error_None _ _)) in H; [discriminate|]. now rewrite set_nth_length.
  - rewrite nth_error_set_nth_other in H by auto. auto.
Qed.
Lemma set_nth_id A (l : list A) i d : i < length l -> set_nth l i (nth i l d) = l.
Proof. revert i; induction l as [|y l IH]; intros [|i]; cbn; intros; try lia; auto. f_equal. apply IH. lia. Qed.

(** set_relations with a usable reference *)
Lemma set_relations_caller h k : good h -> k < length (caller_lists h) ->
  let (h1, x) := set_relations rleb h (Some (FromCaller k)) in
  let l := isort rleb (nth k (caller_lists h) []) in
  ref_ok h1 x /\ rel_get h1 x = l /\ caller_lists h1 = set_nth (caller_lists h) k l /\ corpora h1 = corpora h /\
  good h1 /\ (forall i c, nth_error (corpora h) i = Some c -> rel_get h1 (rels c) = rel_get h (rels c)).
Proof.
  intros G Hk. unfold set_relations. cbv zeta. cbn [rel_get]. destruct (nth k (caller_lists h) []) as [|r0 rs] eqn:E.
  - (* empty list: a fresh one *)
    cbn [list_sort fold_right isort].
    split; [cbn; rewrite app_length; cbn; lia|].
    split; [cbn; rewrite app_nth2, Nat.sub_diag by lia; reflexivity|].
    split; [cbn; rewrite <- E; symmetry; now apply set_nth_id|]. split; [reflexivity|].
    assert (forall i c, nth_error (corpora h) i = Some c -> rel_get {| caller_lists := caller_lists h; fresh_lists := fresh_lists h ++ [[]]; corpora := corpora h |} (rels c) = rel_get h (rels c)) as K.
    { intros i c Hc. destruct (G i c Hc) as [Hr _]. destruct (rels c) as [q|q]; cbn in *; auto. now apply app_nth1. }
    split; [|exact K]. intros i c Hc. rewrite (K i c Hc). destruct (G i c Hc) as [Hr Ha]. split; auto.
    destruct (rels c); cbn in *; auto. rewrite app_length. lia.
  - cbn [rel_get]. rewrite E, sort_isort. rewrite <- E.
    set (l := isort rleb (nth k (caller_lists h) [])).
    assert (forall i c, nth_error (corpora h) i = Some c -> rel_get (rel_put h (FromCaller k) l) (rels c) = rel_get h (rels c)) as K.
    { intros i c Hc. destruct (G i c Hc) as [Hr Ha]. destruct (rels c) as [q|q]; cbn in *; auto.
      destruct (Nat.eq_dec k q) as [->|Hne]; [|now apply set_nth_other].
      rewrite set_nth_same by auto. unfold l. now rewrite isort_id. }
    split; [cbn; now rewrite set_nth_length|]. split; [cbn; rewrite set_nth_same by auto; reflexivity|].
    split; [reflexivity|]. split; [reflexivity|]. split; [|exact K].
    intros i c Hc. rewrite (K i c Hc). destruct (G i c Hc) as [Hr Ha]. split; auto.
    destruct (rels c); cbn in *; auto. now rewrite set_nth_length.
Qed.
Lemma set_relations_none h : good h ->
  let (h1, x) := set_relations rleb h None in
  ref_ok h1 x /\ rel_get h1 x = [] /\ caller_lists h1 = caller_lists h /\ corpora h1 = corpora h /\
  good h1 /\ (forall i c, nth_error (corpora h) i = Some c -> rel_get h1 (rels c) = rel_get h (rels c)).
Proof.
  intros G. unfold set_relations. cbv zeta.
  cbn [list_sort fold_right].
  split; [cbn; rewrite app_length; cbn; lia|].
  split; [cbn; rewrite app_nth2, Nat.sub_diag by lia; reflexivity|].
  split; [reflexivity|]. split; [reflexivity|].
  assert (forall i c, nth_error (corpora h) i = Some c -> rel_get {| caller_lists := caller_lists h; fresh_lists := fresh_lists h ++ [[]]; corpora := corpora h |} (rels c) = rel_get h (rels c)) as K.
  { intros i c Hc. destruct (G i c Hc) as [Hr _]. destruct (rels c) as [q|q]; cbn in *; auto. now apply app_nth1. }
  split; [|exact K]. intros i c Hc. rewrite (K i c Hc). destruct (G i c Hc) as [Hr Ha]. split; auto.
  destruct (rels c); cbn in *; auto. rewrite app_length. lia.
Qed.
Lemma set_relations_same h i c : good h -> nth_error (corpora h) i = Some c ->
  let (h1, x) := set_relations rleb h (Some (rels c)) in
  ref_ok h1 x /\ rel_get h1 x = rel_get h (rels c) /\ caller_lists h1 = caller_lists h /\ corpora h1 = corpora h /\
  good h1 /\ (forall i c, nth_error (corpora h) i = Some c -> rel_get h1 (rels c) = rel_get h (rels c)).
Proof.
  intros G Hc. destruct (G i c Hc) as [Hr Ha].
  destruct (rel_get h (rels c)) as [|r0 rs] eqn:E.
  - assert (set_relations rleb h (Some (rels c)) = set_relations rleb h None) as ->.
    { unfold set_relations. cbv zeta. rewrite E. reflexivity. }
    pose proof (set_relations_none G) as K. destruct (set_relations rleb h None). exact K.
  - assert (set_relations rleb h (Some (rels c)) = (h, rels c)) as ->.
    { unfold set_relations. cbv zeta. rewrite E. rewrite sort_isort, E, (isort_id Ha).
      f_equal. rewrite <- E. destruct h as [cl fl co]. destruct (rels c) as [k|k]; cbn in *; f_equal; now apply set_nth_id. }
    split; [exact Hr|]. split; [exact E|]. split; [reflexivity|]. split; [reflexivity|]. split; auto.
Qed.
Definition grown (h h1 : heap) (x : rref) (l : list R) : Prop :=
  ref_ok h1 x /\ rel_get h1 x = l /\ corpora h1 = corpora h /\ good h1 /\
  (forall i c, nth_error (corpora h) i = Some c -> rel_get h1 (rels c) = rel_get h (rels c)).
Lemma see_map h h1 : corpora h1 = corpora h -> (forall i c, nth_error (corpora h) i = Some c -> rel_get h1 (rels c) = rel_get h (rels c)) ->
  map (see h1) (corpora h1) = map (see h) (corpora h).
Proof.
  intros -> K. apply map_ext_in. intros c Hc. apply In_nth_error in Hc as (i & Hi). unfold see. now rewrite (K i c Hi).
Qed.
Lemma add_corpus h h1 x l ps m : grown h h1 x l -> adj rleb l ->
  let h2 := {| caller_lists := caller_lists h1; fresh_lists := fresh_lists h1; corpora := corpora h1 ++ [{| pairs := ps; rels := x; mdata := m |}] |} in
  good h2 /\ view h2 = {| given := caller_lists h1; books := books (view h) ++ [{| items := ps; relations := l; meta := m |}] |}.
Proof.
  intros (H1 & H2 & H3 & H4 & H5) Hl h2. split.
  - intros i c Hc. unfold h2 in Hc. cbn [corpora] in Hc.
    destruct (Nat.lt_ge_cases i (length (corpora h1))) as [Hi|Hi].
    + rewrite nth_error_app1 in Hc by auto. exact (H4 i c Hc).
    + rewrite nth_error_app2 in Hc by auto. destruct (i - length (corpora h1)) as [|q]; cbn in Hc; [|destruct q; discriminate].
      injection Hc as <-. cbn [rels]. split; [exact H1|]. assert (rel_get h2 x = l) as ->; [rewrite <- H2; destruct x; reflexivity|auto].
  - unfold view. f_equal. change (map (see h2) (corpora h1 ++ [{| pairs := ps; rels := x; mdata := m |}]) = map (see h) (corpora h) ++ [{| items := ps; relations := l; meta := m |}]).
    rewrite map_app. f_equal.
    + etransitivity; [|exact (see_map h h1 H3 H5)]. apply map_ext. intros c. unfold see. destruct (rels c); reflexivity.
    + cbn [map]. unfold see. cbn [rels pairs mdata]. rewrite <- H2. destruct x; reflexivity.
Qed.
Lemma put_corpus h h1 x l i ps m c0 : grown h h1 x l -> adj rleb l -> nth_error (corpora h) i = Some c0 ->
  let h2 := {| caller_lists := caller_lists h1; fresh_lists := fresh_lists h1; corpora := set_nth (corpora h1) i {| pairs := ps; rels := x; mdata := m |} |} in
  good h2 /\ view h2 = {| given := caller_lists h1; books := set_nth (books (view h)) i {| items := ps; relations := l; meta := m |} |}.
Proof.
  intros (H1 & H2 & H3 & H4 & H5) Hl Hc0 h2. split.
  - intros j c Hc. unfold h2 in Hc. cbn [corpora] in Hc. apply nth_error_set_nth in Hc as [->|Hc].
    + cbn [rels]. split; [exact H1|]. assert (rel_get h2 x = l) as ->; [rewrite <- H2; destruct x; reflexivity|auto].
    + exact (H4 j c Hc).
  - unfold view. f_equal. change (map (see h2) (set_nth (corpora h1) i {| pairs := ps; rels := x; mdata := m |}) = set_nth (map (see h) (corpora h)) i {| items := ps; relations := l; meta := m |}).
    rewrite map_set_nth. f_equal.
    + etransitivity; [|exact (see_map h h1 H3 H5)]. apply map_ext. intros c. unfold see. destruct (rels c); reflexivity.
    + unfold see. cbn [rels pairs mdata]. rewrite <- H2. destruct x; reflexivity.
Qed.
Lemma self_grown h i c : good h -> nth_error (corpora h) i = Some c -> grown h h (rels c) (rel_get h (rels c)).
Proof. intros G H. destruct (G i c H). split; [auto|]. split; [auto|]. split; [auto|]. split; auto. Qed.

Definition sim (ha : heap * answer P) (wa : world P R * answer P) : Prop :=
  good (fst ha) /\ view (fst ha) = fst wa /\ snd ha = snd wa.
Lemma sim_fail h e : good h -> sim (fail h e) (raise (view h) e).
Proof. split; auto. Qed.
Lemma sim_with h i f g : good h ->
  (forall c, nth_error (corpora h) i = Some c -> sim (f c) (g (see h c))) ->
  sim (with_corpus h i f) (on_book (view h) i g).
Proof.
  intros G H. unfold with_corpus, on_book. rewrite view_nth. destruct (nth_error (corpora h) i) eqn:E; cbn [option_map]; auto.
  now apply sim_fail.
Qed.
Lemma sim_put h i c l : good h -> nth_error (corpora h) i = Some c ->
  sim (put_pairs h i c l) (change (view h) i (see h c) l).
Proof.
  intros G Hc. unfold put_pairs, change.
  destruct (@put_corpus h h (rels c) (rel_get h (rels c)) i l (mdata c) c) as [A B]; auto.
  - now apply self_grown with i.
  - now apply (G i c).
  - split; [exact A|]. split; [exact B|reflexivity].
Qed.
Lemma sim_new_like h i c l : good h -> nth_error (corpora h) i = Some c ->
  sim (new rleb h l (Some (rels c)) (mdata c)) (new_book (view h) (like (see h c) l)).
Proof.
  intros G Hc. unfold new, new_book. pose proof (@set_relations_same h i c G Hc) as K.
  destruct (set_relations rleb h (Some (rels c))) as [h1 x]. destruct K as (K1 & K2 & K3 & K4 & K5 & K6).
  destruct (@add_corpus h h1 x (rel_get h (rels c)) l (mdata c)) as [A B].
  - split; [auto|]. split; [auto|]. split; [auto|]. split; auto.
  - now apply (G i c).
  - split; [exact A|]. split.
    + cbn [fst]. rewrite B. unfold like, see. cbn [relations meta]. now rewrite K3.
    + cbn [snd]. rewrite K4. cbn. now rewrite map_length.
Qed.
Lemma sim_same h a : good h -> sim (h, a) (view h, a).
Proof. split; auto. Qed.
Lemma compat h c d : check_compatibility reqb h c d = if compatible reqb (see h c) (see h d) then Ok tt else Err ValueError.
Proof. unfold check_compatibility, compatible. cbn. rewrite rel_eqb. destruct (list_eqb _ _ _); auto. Qed.

Lemma step_sim h o : good h -> sim (step h o) (does (view h) o).
Proof.
  intros G. destruct o; cbn [Corpus_model.step Corpus_spec.does].
  - (* CRels *) split; [|split; [|reflexivity]].
    + intros i c Hc. destruct (G i c Hc) as [Hr Ha]. cbn [rel_get]. destruct (rels c) as [q|q] eqn:E; cbn in *; auto.
      rewrite app_length, app_nth1 by auto. split; [lia|auto].
    + cbn. unfold view. f_equal. cbn [corpora]. apply map_ext_in. intros c Hc. f_equal.
      apply In_nth_error in Hc as (i & Hi). destruct (G i c Hi) as [Hr _]. destruct (rels c); cbn in *; auto. now apply app_nth1.
  - (* CNew *) unfold caller_ref, choose_relations. destruct r as [k|].
    + destruct (k <? length (caller_lists h)) eqn:E.
      * apply Nat.ltb_lt in E. cbn [or_fail]. cbn [view given]. rewrite (nth_error_nth' _ [] E).
        unfold new. pose proof (@set_relations_caller h k G E) as K. destruct (set_relations rleb h (Some (FromCaller k))) as [h1 x]. destruct K as (K1 & K2 & K3 & K4 & K5 & K6).
        destruct (@add_corpus h h1 x (isort rleb (nth k (caller_lists h) [])) l m) as [A B].
        -- split; [exact K1|]. split; [exact K2|]. auto.
        -- apply isort_adj, total.
        -- split; [exact A|]. split.
           ++ cbn [fst]. rewrite B. cbn. now rewrite K3.
           ++ cbn. rewrite K4. now rewrite map_length.
      * apply Nat.ltb_ge in E. cbn [or_fail]. cbn [view given]. rewrite (proj2 (nth_error_None _ _) E). now apply sim_fail.
    + cbn [or_fail]. unfold new. pose proof (set_relations_none G) as K. destruct (set_relations rleb h None) as [h1 x].
      destruct K as (K1 & K2 & K3 & K4 & K5 & K6).
      destruct (@add_corpus h h1 x [] l m) as [A B].
      * split; [exact K1|]. split; [exact K2|]. auto.
      * constructor.
      * split; [exact A|]. split.
        -- cbn [fst]. rewrite B. cbn. now rewrite K3.
        -- cbn. rewrite K4. now rewrite map_length.
  - (* CSetRelations *) apply sim_with; auto. intros c Hc. unfold caller_ref, choose_relations. destruct r as [k|].
    + destruct (k <? length (caller_lists h)) eqn:E.
      * apply Nat.ltb_lt in E. cbn [or_fail]. cbn [view given]. rewrite (nth_error_nth' _ [] E).
        pose proof (@set_relations_caller h k G E) as K. destruct (set_relations rleb h (Some (FromCaller k))) as [h1 x]. destruct K as (K1 & K2 & K3 & K4 & K5 & K6).
        destruct (@put_corpus h h1 x (isort rleb (nth k (caller_lists h) [])) i (pairs c) (mdata c) c) as [A B]; auto.
        -- split; [exact K1|]. split; [exact K2|]. auto.
        -- apply isort_adj, total.
        -- split; [exact A|]. split; [|reflexivity]. cbn [fst]. rewrite B. cbn. now rewrite K3.
      * apply Nat.ltb_ge in E. cbn [or_fail]. cbn [view given]. rewrite (proj2 (nth_error_None _ _) E). now apply sim_fail.
    + cbn [or_fail]. pose proof (set_relations_none G) as K. destruct (set_relations rleb h None) as [h1 x].
      destruct K as (K1 & K2 & K3 & K4 & K5 & K6).
      destruct (@put_corpus h h1 x [] i (pairs c) (mdata c) c) as [A B]; auto.
      * split; [exact K1|]. split; [exact K2|]. auto.
      * constructor.
      * split; [exact A|]. split; [|reflexivity]. cbn [fst]. rewrite B. cbn. now rewrite K3.
  - (* CAdd *) apply sim_with; auto; intros c Hc; apply sim_with; auto; intros d Hd. rewrite compat.
    destruct (compatible _ _ _); cbn [or_fail]; [now apply sim_new_like with i|now apply sim_fail].
  - apply sim_with; auto; intros c Hc. now apply sim_fail.
  - (* CIAdd *) apply sim_with; auto; intros c Hc; apply sim_with; auto; intros d Hd. rewrite compat.
    destruct (compatible _ _ _); cbn [or_fail]; [now apply sim_put|now apply sim_fail].
  - apply sim_with; auto; intros c Hc. now apply sim_put.
  - apply sim_with; auto; intros c Hc. rewrite mul_copies. now apply sim_new_like with i.
  - apply sim_with; auto; intros c Hc. now apply sim_fail.
  - apply sim_with; auto; intros c Hc. rewrite mul_copies. now apply sim_put.
  - apply sim_with; auto; intros c Hc. rewrite cut_slice. now apply sim_new_like with i.
  - apply sim_with; auto; intros c Hc. rewrite paste_slice. now apply sim_put.
  - apply sim_with; auto; intros c Hc; apply sim_with; auto; intros d Hd. rewrite compat.
    destruct (compatible _ _ _); cbn [or_fail]; [|now apply sim_fail]. rewrite paste_slice. now apply sim_put.
  - (* CItem *) apply sim_with; auto; intros c Hc. rewrite index_position. cbn [see items].
    destruct (position (pairs c) k) as [p|] eqn:E; cbn [bind or_fail]; [|now apply sim_fail].
    unfold get. destruct (nth_error (pairs c) p); cbn [or_fail]; [now apply sim_same|now apply sim_fail].
  - (* CDelItem *) apply sim_with; auto; intros c Hc. rewrite index_position. cbn [see items].
    destruct (position (pairs c) k) as [p|] eqn:E; cbn [or_fail]; [|now apply sim_fail].
    apply position_lt in E. unfold drop_at. change (at_positions ?f ?l) with (from 0 f l). rewrite from_drop by lia. rewrite !Nat.sub_0_r.
    now apply sim_put.
  - (* CSetItem *) apply sim_with; auto; intros c Hc. rewrite index_position. cbn [see items].
    destruct (position (pairs c) k) as [p|] eqn:E; cbn [or_fail]; [|now apply sim_fail].
    apply position_lt in E. unfold put_at. rewrite put_set by lia. rewrite Nat.sub_0_r. now apply sim_put.
  - apply sim_with; auto; intros c Hc. now apply sim_put.
  - (* CPop *) destruct k as [k|]; [|apply sim_with; auto; intros c Hc; now apply sim_fail].
    apply sim_with; auto; intros c Hc. rewrite index_position. cbn [see items].
    destruct (position (pairs c) k) as [p|] eqn:E; cbn [or_fail]; [|now apply sim_fail].
    apply position_lt in E. unfold drop_at. change (at_positions ?f ?l) with (from 0 f l). rewrite from_drop by lia. rewrite !Nat.sub_0_r.
    now apply sim_put.
  - apply sim_with; auto; intros c Hc; now apply sim_fail.
  - (* CRemove *) apply sim_with; auto; intros c Hc. rewrite remove_first. cbn [see items].
    destruct (drop_first peqb v (pairs c)); cbn [or_fail]; [now apply sim_put|now apply sim_fail].
  - apply sim_with; auto; intros c Hc. now apply sim_put.
  - apply sim_with; auto; intros c Hc. rewrite clear_nil. now apply sim_put.
  - (* CEqual *) apply sim_with; auto; intros c Hc; apply sim_with; auto; intros d Hd.
    destruct (i =? j); [now apply sim_same|]. unfold compatible. cbn [see relations]. rewrite rel_eqb.
    destruct (list_eqb reqb _ _); cbn [negb]; [|now apply sim_same].
    unfold meta_data_equal, meta_equal. rewrite eq_pairs. cbn [see meta items].
    destruct (mdata c) as [x|], (mdata d) as [y|]; cbn [or_fail andb].
    + destruct (x =? y); cbn [or_fail orb andb]; [now apply sim_same|]. destruct (mequal x y); now apply sim_same.
    + now apply sim_fail.
    + now apply sim_fail.
    + now apply sim_same.
  - apply sim_with; auto; intros c Hc; apply sim_with; auto; intros d Hd. now apply sim_fail.
Qed.
Lemma steps_sim os : forall h, good h ->
  let (h', l) := steps peqb rleb reqb mequal h os in
  good h' /\ history peqb rleb reqb mequal (view h) os = (view h', l).
Proof.
  induction os as [|o os IH]; intros h G; cbn [steps history]; auto.
  pose proof (step_sim o G) as (S1 & S2 & S3).
  destruct (step h o) as [h1 a], (does (view h) o) as [w1 b]. cbn [fst snd] in *. subst.
  specialize (IH h1 S1). destruct (steps peqb rleb reqb mequal h1 os) as [h2 l]. destruct IH as [G2 E]. rewrite E. auto.
Qed.
Lemma corpus_run os : let (h, l) := steps peqb rleb reqb mequal (no_heap P R) os in
  history peqb rleb reqb mequal no_world os = (view h, l).
Proof.
  assert (good (no_heap P R)) as G by (intros [|i] c; discriminate).
  pose proof (@steps_sim os _ G) as H. destruct (steps _ _ _ _ _ os). apply H.
Qed.
Lemma corpus_sorted os : Forall (fun b => Sorted (fun x y => rleb x y = true) (relations b)) (books (view (fst (steps peqb rleb reqb mequal (no_heap P R) os)))).
Proof.
  assert (good (no_heap P R)) as G by (intros [|i] c; discriminate).
  pose proof (@steps_sim os _ G) as H. destruct (steps _ _ _ _ _ os) as [h l]. destruct H as [H _]. cbn [fst].
  apply Forall_forall. intros b Hb. cbn in Hb. apply in_map_iff in Hb as (c & <- & Hc). apply In_nth_error in Hc as (i & Hi).
  cbn. now apply (H i c).
Qed.
Lemma does_raise w o e : snd (does w o) = ARaise e -> fst (does w o) = w.
Proof.
  destruct o; cbn [Corpus_spec.does]; unfold on_book, raise, change, new_book, choose_relations;
  repeat match goal with
  | |- context [match ?x with _ => _ end] => destruct x; cbn
  end; try discriminate; auto.
Qed.
End Run.
