From Coq Require Import String Permutation.
From Verif Require Import Py PyLemmas Ielem_spec Ielem_model Ielem_proof Hdoc_spec Hdoc_model.
Set Implicit Arguments.

Section P.
Variable char : Type.
Notation elem := (elem char).
Notation index := (index char).
Implicit Types (e : elem) (pairs : list (elem * elem)) (x : index).

Definition append2 (t : index * index) (p : elem * elem) : index * index :=
  (append_alignment (fst t) (fst p) (snd p), append_alignment (snd t) (snd p) (fst p)).
Definition apply_pairs := fold_left append2.

Lemma append_aligns x e o u : a_aligns (st (append_alignment x e o) u) =
  a_aligns (st x u) ++ (if uid e =? u then [o] else []).
Proof.
  unfold append_alignment. cbn [st]. unfold upd. rewrite (Nat.eqb_sym u). destruct (uid e =? u) eqn:E.
  - apply Nat.eqb_eq in E. subst u. reflexivity.
  - now rewrite app_nil_r.
Qed.
Lemma append_n x e o u : a_n (st (append_alignment x e o) u) = a_n (st x u).
Proof.
  unfold append_alignment. cbn [st]. unfold upd. destruct (u =? uid e) eqn:E; [|reflexivity].
  apply Nat.eqb_eq in E. now subst u.
Qed.

Lemma apply_aligns pairs t u :
  a_aligns (st (fst (apply_pairs pairs t)) u) = a_aligns (st (fst t) u) ++ map snd (filter (fun p => uid (fst p) =? u) pairs) /\
  a_aligns (st (snd (apply_pairs pairs t)) u) = a_aligns (st (snd t) u) ++ map fst (filter (fun p => uid (snd p) =? u) pairs) /\
  a_n (st (fst (apply_pairs pairs t)) u) = a_n (st (fst t) u) /\
  a_n (st (snd (apply_pairs pairs t)) u) = a_n (st (snd t) u).
Proof.
  revert t. induction pairs as [|p pairs IH]; intros t; cbn [apply_pairs fold_left filter map].
  - now rewrite !app_nil_r.
  - destruct (IH (append2 t p)) as [A [B [C D]]]. fold apply_pairs. rewrite A, B, C, D.
    unfold append2. cbn [fst snd]. rewrite !append_aligns, !append_n, <- !app_assoc.
    split; [f_equal; now destruct (uid (fst p) =? u)|]. split; [f_equal; now destruct (uid (snd p) =? u)|]. auto.
Qed.

(** Grouping. *)
Lemma split_perm (A : Type) (f : A -> bool) l : Permutation (filter f l ++ filter (fun a => negb (f a)) l) l.
Proof.
  induction l as [|a l IH]; cbn [filter]; [constructor|]. destruct (f a); cbn [negb app].
  - now constructor.
  - apply Permutation_sym. apply Permutation_cons_app. now apply Permutation_sym.
Qed.
Lemma filter_filter (A : Type) (f g : A -> bool) l : (forall a, f a = true -> g a = true) ->
  filter f (filter g l) = filter f l.
Proof.
  intros H. induction l as [|a l IH]; [reflexivity|]. cbn [filter]. destruct (g a) eqn:G; cbn [filter].
  - now rewrite IH.
  - destruct (f a) eqn:F; [|exact IH]. rewrite (H _ F) in G. discriminate.
Qed.
Definition groups (E : list elem) pairs := flat_map (fun e => filter (fun p => uid (fst p) =? uid e) pairs) E.

Lemma groups_other E e pairs : ~ In (uid e) (map (@uid char) E) ->
  groups E (filter (fun p => negb (uid (fst p) =? uid e)) pairs) = groups E pairs.
Proof.
  intros H. unfold groups. induction E as [|d E IH]; [reflexivity|]. cbn [flat_map map] in *.
  rewrite IH by (intros Q; apply H; now right). f_equal. apply filter_filter. intros p Hp.
  apply Nat.eqb_eq in Hp. rewrite Hp. apply negb_true_iff, Nat.eqb_neq. intros Q. apply H. now left.
Qed.

Lemma groups_perm E pairs : NoDup (map (@uid char) E) -> (forall p, In p pairs -> In (fst p) E) ->
  Permutation (groups E pairs) pairs.
Proof.
  revert pairs. induction E as [|e E IH]; intros pairs N H.
  - destruct pairs as [|p ps]; [constructor|]. destruct (H p); now left.
  - inversion N; subst. cbn [groups flat_map]. fold (groups E pairs). rewrite <- (@groups_other E e pairs H2).
    eapply Permutation_trans; [|apply (split_perm (fun p : elem * elem => uid (fst p) =? uid e))].
    apply Permutation_app_head. apply IH; [trivial|]. intros p Hp. apply filter_In in Hp. destruct Hp as [Hp Q].
    destruct (H p Hp) as [Hq|Hq]; [|trivial]. rewrite Hq, Nat.eqb_refl in Q. discriminate.
Qed.

Definition ordered_in (E : list elem) pairs := forall a p b q c, pairs = a ++ p :: b ++ q :: c ->
    exists b1 b2, E = b1 ++ fst p :: b2 /\ In (fst q) (fst p :: b2).

Lemma split_eq (A : Type) (f : A -> bool) l :
  (forall a p b q c, l = a ++ p :: b ++ q :: c -> f q = true -> f p = true) ->
  filter f l ++ filter (fun a => negb (f a)) l = l.
Proof.
  induction l as [|z l IH]; intros H; [reflexivity|]. cbn [filter]. destruct (f z) eqn:F; cbn [negb app].
  - f_equal. apply IH. intros a p b q c Q. apply (H (z :: a) p b q c). now rewrite Q.
  - assert (filter f l = []).
    { clear IH. destruct (filter f l) as [|q r] eqn:G; [reflexivity|]. exfalso.
      assert (I : In q (filter f l)) by (rewrite G; now left). apply filter_In in I. destruct I as [I Fq].
      apply in_split in I. destruct I as [b [c Q]]. rewrite (H [] z b q c) in F; [discriminate| |trivial]. cbn [app]. now rewrite Q. }
    rewrite H0. cbn [app]. f_equal. clear IH H F. revert H0. induction l as [|y l IHl]; [reflexivity|]. cbn [filter].
    destruct (f y); [discriminate|]. cbn [negb]. intros Q. f_equal. auto.
Qed.

Lemma groups_sorted E pairs : NoDup (map (@uid char) E) -> (forall p, In p pairs -> In (fst p) E) ->
  ordered_in E pairs -> groups E pairs = pairs.
Proof.
  revert pairs. induction E as [|e E IH]; intros pairs N H O.
  - destruct pairs as [|p ps]; [reflexivity|]. destruct (H p); now left.
  - inversion N; subst. cbn [groups flat_map]. fold (groups E pairs). rewrite <- (@groups_other E e pairs H2).
    assert (S : filter (fun p => uid (fst p) =? uid e) pairs ++ filter (fun p => negb (uid (fst p) =? uid e)) pairs = pairs).
    { apply split_eq with (f := fun p : elem * elem => uid (fst p) =? uid e). intros a p b q c Q Fq.
      apply Nat.eqb_eq in Fq. destruct (O _ _ _ _ _ Q) as [x [y [EE I]]]. destruct x as [|e0 x].
      - injection EE as -> _. apply Nat.eqb_refl.
      - injection EE as -> EE. exfalso. apply H2. rewrite <- Fq. apply in_map. rewrite EE. apply in_app_iff. now right. }
    rewrite IH; [exact S|trivial| |].
    + intros p Hp. apply filter_In in Hp. destruct Hp as [Hp Q].
      destruct (H p Hp) as [Hq|Hq]; [|trivial]. rewrite Hq, Nat.eqb_refl in Q. discriminate.
    + intros a p b q c Q. rewrite Q in S. symmetry in S. rewrite app_assoc in S.
      destruct (O _ _ _ _ _ S) as [x [y [EE I]]]. 
      assert (NE : uid (fst p) <> uid e).
      { assert (Ip : In p (filter (fun p => negb (uid (fst p) =? uid e)) pairs)) by (rewrite Q; apply in_app_iff; right; now left).
        apply filter_In in Ip. destruct Ip as [_ Ip]. apply negb_true_iff, Nat.eqb_neq in Ip. exact Ip. }
      destruct x as [|e0 x]; injection EE as E1 E2; [congruence|]. exists x, y. auto.
Qed.
End P.

(** Both kinds of keys. *)
Section Generic.
Variable char : Type.
Notation elem := (elem char).
Notation index := (index char).
Variable key : Type.
Variable named : elem -> string -> key -> elem -> Prop.
Variable step : index * index -> link key -> res (index * index).
Variables from_root to_root : elem.
(** Resolution needs the tables only. *)
Variable tables : index -> elem -> Prop.
Hypothesis tables_append : forall x r e o, tables x r -> tables (append_alignment x e o) r.
Hypothesis step_ok : forall t l p, tables (fst t) from_root -> tables (snd t) to_root ->
  connects named from_root to_root l p -> step t l = Ok (append2 t p).

Lemma inject_run links pairs : Forall2 (connects named from_root to_root) links pairs ->
  forall t, tables (fst t) from_root -> tables (snd t) to_root -> foldM step t links = Ok (apply_pairs pairs t).
Proof.
  induction 1 as [|l p ls ps H _ IH]; intros t A B; cbn [foldM apply_pairs fold_left]; [reflexivity|].
  rewrite (step_ok t A B H). cbn [bind]. apply IH; now apply tables_append.
Qed.
End Generic.

Section Props.
Variable char : Type.
Variable space : char -> bool.
Variable nl : char.
Notation elem := (elem char).
Notation index := (index char).
Notation updated := (updated space nl).

Definition ntab (x : index) (root : elem) : Prop := forall t,
  match dget String.eqb (counts x) t with Some l => l | None => [] end = tagged root t.
Definition itab (x : index) (root : elem) : Prop := forall t i, id_get x t i = last_with t i (doc_order root).

Lemma updated_tabs root x : distinct root -> updated root x ->
  ntab x root /\ itab x root /\
  (forall t n e, nth_error (tagged root t) n = Some e -> a_n (st x (uid e)) = Some (S n)) /\
  (forall e, In e (doc_order root) -> a_aligns (st x (uid e)) = [] ).
Proof.
  intros D [r [old [doc E]]]. split; [|split; [|split]].
  - intros t. eapply counts_ok; eauto.
  - destruct (update_ok space nl r old D E) as [[_ II _] _]. exact II.
  - intros t n e H. 
    assert (T : tag e = t).
    { apply nth_error_In in H. apply filter_In in H. now apply String.eqb_eq. }
    subst t.
    assert (exists before after, doc_order root = before ++ e :: after /\ n = length (with_tag (tag e) before)).
    { unfold tagged in H. clear D E. revert n H. induction (doc_order root) as [|y l IH]; intros n H; [destruct n; discriminate|].
      cbn [filter] in H. destruct (String.eqb (tag y) (tag e)) eqn:F.
      - destruct n; [injection H as ->; exists [], l; now split|]. cbn [nth_error] in H.
        destruct (IH _ H) as [b [a [-> ->]]]. exists (y :: b), a. split; [reflexivity|]. unfold with_tag. cbn [filter]. now rewrite F.
      - destruct (IH _ H) as [b [a [-> ->]]]. exists (y :: b), a. split; [reflexivity|]. unfold with_tag. cbn [filter]. now rewrite F. }
    destruct H0 as [b [a [Q ->]]].
    eapply n_ok; eauto. exists b, a. split; [exact Q|reflexivity].
  - intros e H. apply in_split in H. destruct H as [b [a Q]].
    assert (is_nth root e (S (length (with_tag (tag e) b)))) as I by (exists b, a; split; [exact Q|reflexivity]).
    destruct (n_ok space nl r old D E I) as [_ [A _]]. exact A.
Qed.

Lemma zget_nat (A : Type) (l : list A) n a : nth_error l n = Some a -> zget l (Z.of_nat (S n) - 1) = Ok a.
Proof.
  intros H. unfold zget. replace (Z.of_nat (S n) - 1)%Z with (Z.of_nat n) by lia.
  replace (0 <=? Z.of_nat n)%Z with true by (symmetry; apply Z.leb_le; lia).
  rewrite Nat2Z.id. unfold get. now rewrite H.
Qed.

Lemma read_n x root t k e : ntab x root -> named_n root t k e ->
  exists n l, int_of k = Ok n /\ dread String.eqb (counts x) t = Ok l /\ zget l (n - 1) = Ok e.
Proof.
  intros T [n [-> H]]. exists (Z.of_nat (S n)), (tagged root t). split; [reflexivity|].
  unfold dread. specialize (T t). destruct (dget String.eqb (counts x) t).
  - rewrite T. split; [reflexivity|now apply zget_nat].
  - rewrite <- T in H. destruct n; discriminate.
Qed.

Lemma inject_n_ok fr tr links pairs fx tx : ntab fx fr -> ntab tx tr ->
  Forall2 (connects (@named_n char) fr tr) links pairs ->
  inject_n links fx tx = Ok (apply_pairs pairs (fx, tx)).
Proof.
  intros A B H. unfold inject_n. apply inject_run with (named := @named_n char) (from_root := fr) (to_root := tr) (tables := ntab); auto.
  intros t l [f g] TA TB [N1 N2]. cbn [fst snd] in N1, N2. unfold inject_n_step.
  destruct (read_n TA N1) as [n [l1 [-> [-> E1]]]]. cbn [bind]. rewrite E1. cbn [bind].
  destruct (read_n TB N2) as [m [l2 [-> [-> E2]]]]. cbn [bind]. rewrite E2. reflexivity.
Qed.

Lemma read_id x root t k e : itab x root -> named_id root t k e ->
  exists d, dread String.eqb (ids x) t = Ok d /\ dread id_eqb d k = Ok e.
Proof.
  intros T [I [Ht [Hi U]]]. specialize (T t k). unfold id_get in T.
  assert (L : last_with t k (doc_order root) = Some e).
  { destruct (last_with t k (doc_order root)) as [d|] eqn:L.
    - destruct (last_with_spec _ _ _ L) as [b [a [Q [T2 [I2 _]]]]]. f_equal. apply U; [|trivial|trivial].
      rewrite Q. apply in_app_iff. right. now left.
    - exfalso. exact (@last_with_found _ _ _ _ e I Ht Hi L). }
  rewrite L in T. unfold dread. destruct (dget String.eqb (ids x) t) as [d|]; [|discriminate].
  exists d. split; [reflexivity|]. now rewrite T.
Qed.
Lemma inject_id_ok fr tr links pairs fx tx : itab fx fr -> itab tx tr ->
  Forall2 (connects (@named_id char) fr tr) links pairs ->
  inject_id links fx tx = Ok (apply_pairs pairs (fx, tx)).
Proof.
  intros A B H. unfold inject_id. apply inject_run with (named := @named_id char) (from_root := fr) (to_root := tr) (tables := itab); auto.
  intros t l [f g] TA TB [N1 N2]. cbn [fst snd] in N1, N2. unfold inject_id_step.
  destruct (read_id TA N1) as [d [-> E1]]. cbn [bind]. rewrite E1. cbn [bind].
  destruct (read_id TB N2) as [d2 [-> E2]]. cbn [bind]. rewrite E2. reflexivity.
Qed.

(** Resolution of any link, with its errors. *)
Lemma inject_gen (key : Type) (pick : elem -> string -> key -> res elem) step fr tr (tables : index -> elem -> Prop) :
  (forall x r e o, tables x r -> tables (append_alignment x e o) r) ->
  (forall t l, tables (fst t) fr -> tables (snd t) tr ->
     step t l = (p <- link_pick pick fr tr l ;; Ok (append2 t p))) ->
  forall links t, tables (fst t) fr -> tables (snd t) tr ->
  foldM step t links = (ps <- mapM (link_pick pick fr tr) links ;; Ok (apply_pairs ps t)).
Proof.
  intros TA ST. induction links as [|l links IH]; intros t A B; [reflexivity|]. cbn [foldM mapM].
  rewrite (ST t l A B). destruct (link_pick pick fr tr l) as [p|x]; [|reflexivity]. cbn [bind].
  rewrite IH by (now apply TA). destruct (mapM (link_pick pick fr tr) links); reflexivity.
Qed.
Definition ntab2 (x : index) (root : elem) : Prop := forall t,
  dget String.eqb (counts x) t = match tagged root t with [] => None | l => Some l end.
Lemma updated_ntab2 root x : distinct root -> updated root x -> ntab2 x root.
Proof. intros D [r [old [doc E]]] t. destruct (update_ok space nl r old D E) as [[IC _ _] _]. apply IC. Qed.
Lemma pick_n_ok x root t k (T : ntab2 x root) : (n <- int_of k ;; l <- dread String.eqb (counts x) t ;; zget l (n - 1)) = pick_n root t k.
Proof.
  unfold pick_n. destruct k as [k|]; [|reflexivity]. cbn [int_of bind]. unfold dread. rewrite (T t).
  destruct (tagged root t) as [|y ys] eqn:Q; [reflexivity|]. cbn [bind]. rewrite <- Q. clear.
  cbv zeta. unfold zget. destruct (0 <=? k - 1)%Z eqn:E.
  - apply Z.leb_le in E. replace (k <=? 0)%Z with false by (symmetry; apply Z.leb_gt; lia).
    replace (1 <=? k)%Z with true by (symmetry; apply Z.leb_le; lia).
    unfold get. replace (Z.to_nat (k - 1)) with (Z.to_nat k - 1) by lia. destruct (nth_error _ _); reflexivity.
  - apply Z.leb_gt in E. replace (k <=? 0)%Z with true by (symmetry; apply Z.leb_le; lia).
    destruct (- Z.of_nat (length (tagged root t)) <=? k - 1)%Z eqn:F.
    + apply Z.leb_le in F. replace (1 <=? Z.of_nat (length (tagged root t)) + k)%Z with true by (symmetry; apply Z.leb_le; lia).
      unfold get. replace (Z.to_nat (Z.of_nat (length (tagged root t)) + (k - 1))) with (Z.to_nat (Z.of_nat (length (tagged root t)) + k) - 1) by lia.
      destruct (nth_error _ _); reflexivity.
    + apply Z.leb_gt in F. replace (1 <=? Z.of_nat (length (tagged root t)) + k)%Z with false by (symmetry; apply Z.leb_gt; lia).
      destruct (nth_error _ _); reflexivity.
Qed.
Lemma inject_n_all fr tr links fx tx : ntab2 fx fr -> ntab2 tx tr ->
  inject_n links fx tx = (ps <- mapM (link_pick (@pick_n char) fr tr) links ;; Ok (apply_pairs ps (fx, tx))).
Proof.
  intros A B. unfold inject_n. apply inject_gen with (tables := ntab2); auto.
  intros t l TA TB. unfold inject_n_step, link_pick.
  rewrite <- (@pick_n_ok (fst t) fr _ _ TA), <- (@pick_n_ok (snd t) tr _ _ TB).
  destruct (int_of (l_from l)); [|reflexivity]. cbn [bind].
  destruct (dread _ _ (l_from_tag l)); [|reflexivity]. cbn [bind].
  destruct (zget _ _); [|reflexivity]. cbn [bind].
  destruct (int_of (l_to l)); [|reflexivity]. cbn [bind].
  destruct (dread _ _ (l_to_tag l)); [|reflexivity]. cbn [bind].
  destruct (zget _ _); reflexivity.
Qed.
Lemma filter_rev' (A : Type) (f : A -> bool) l : filter f (rev l) = rev (filter f l).
Proof.
  induction l as [|a l IH]; [reflexivity|]. cbn [rev filter]. rewrite filter_app, IH. cbn [filter].
  destruct (f a); [reflexivity|apply app_nil_r].
Qed.
Lemma last_with_pick (root : elem) t k : match last_with t k (doc_order root) with Some e => Ok e | None => Err KeyError end = pick_id root t k.
Proof.
  unfold pick_id, tagged, last_with. rewrite <- fold_left_rev_right.
  assert (G : forall l : list elem, fold_right (fun d acc => if String.eqb (tag d) t && id_eqb (id_of d) k then Some d else acc) None l =
    match filter (fun e => if option_string_dec (id_of e) k then true else false) (filter (fun d => String.eqb (tag d) t) l) with e :: _ => Some e | [] => None end).
  { induction l as [|d l IH]; [reflexivity|]. cbn [fold_right filter]. destruct (String.eqb (tag d) t); cbn [andb filter]; [|exact IH].
    destruct (option_string_dec (id_of d) k) as [e|e].
    - now rewrite (proj2 (id_eqb_spec _ _) e).
    - destruct (id_eqb (id_of d) k) eqn:F; [apply id_eqb_spec in F; contradiction|exact IH]. }
  rewrite G. rewrite !filter_rev'. destruct (rev _); reflexivity.
Qed.
Lemma inject_id_all fr tr links fx tx : itab fx fr -> itab tx tr ->
  inject_id links fx tx = (ps <- mapM (link_pick (@pick_id char) fr tr) links ;; Ok (apply_pairs ps (fx, tx))).
Proof.
  intros A B. unfold inject_id. apply inject_gen with (tables := itab); auto.
  assert (P : forall x root t k, itab x root -> (d <- dread String.eqb (ids x) t ;; dread id_eqb d k) = pick_id root t k).
  { intros x root t k T. rewrite <- last_with_pick, <- (T t k). unfold id_get, dread. destruct (dget _ (ids x) t); reflexivity. }
  intros t l TA TB. unfold inject_id_step, link_pick. rewrite <- (P _ _ _ _ TA), <- (P _ _ _ _ TB).
  destruct (dread _ _ (l_from_tag l)); [|reflexivity]. cbn [bind].
  destruct (dread _ _ (l_from l)); [|reflexivity]. cbn [bind].
  destruct (dread _ _ (l_to_tag l)); [|reflexivity]. cbn [bind].
  destruct (dread _ _ (l_to l)); reflexivity.
Qed.

Lemma named_n_in (root : elem) t k e : named_n root t k e -> In e (doc_order root) /\ tag e = t.
Proof.
  intros [n [_ H]]. apply nth_error_In in H. apply filter_In in H. destruct H as [A B].
  split; [trivial|]. now apply String.eqb_eq.
Qed.
Lemma named_id_in (root : elem) t k e : named_id root t k e -> In e (doc_order root) /\ tag e = t.
Proof. intros [A [B _]]. auto. Qed.

(** Extraction as a list of pairs. *)
Definition stored_pairs (fr : elem) (fx : index) : list (elem * elem) :=
  flat_map (fun f => map (fun t => (f, t)) (a_aligns (st fx (uid f)))) (doc_order fr).
Definition mk_n (fx tx : index) (p : elem * elem) : link (option Z) :=
  {| l_from_tag := tag (fst p); l_from := n_of fx (fst p); l_to_tag := tag (snd p); l_to := n_of tx (snd p) |}.
Definition mk_id (p : elem * elem) : link (option string) :=
  {| l_from_tag := tag (fst p); l_from := id_of (fst p); l_to_tag := tag (snd p); l_to := id_of (snd p) |}.
Lemma map_flat_map (A B C : Type) (g : B -> C) (f : A -> list B) l : map g (flat_map f l) = flat_map (fun a => map g (f a)) l.
Proof. induction l; cbn [flat_map map]; [reflexivity|]. rewrite map_app. now f_equal. Qed.
Lemma extract_n_eq fr fx tx old : extract_n fr fx tx old = map (mk_n fx tx) (stored_pairs fr fx).
Proof.
  unfold extract_n, stored_pairs. rewrite map_flat_map. apply flat_map_ext. intros f. now rewrite map_map.
Qed.
Lemma extract_id_eq fr fx tx old : extract_id fr fx tx old = map mk_id (stored_pairs fr fx).
Proof.
  unfold extract_id, stored_pairs. rewrite map_flat_map. apply flat_map_ext. intros f. now rewrite map_map.
Qed.

Lemma stored_after fr fx tx pairs : distinct fr -> (forall e, In e (doc_order fr) -> a_aligns (st fx (uid e)) = []) ->
  (forall p, In p pairs -> In (fst p) (doc_order fr)) ->
  stored_pairs fr (fst (apply_pairs pairs (fx, tx))) = grouped fr pairs.
Proof.
  intros D Z S. unfold stored_pairs, grouped.
  assert (G : forall E, incl E (doc_order fr) -> flat_map (fun f => map (fun t => (f, t)) (a_aligns (st (fst (apply_pairs pairs (fx, tx))) (uid f)))) E
    = flat_map (fun e => filter (fun p => uid (fst p) =? uid e) pairs) E).
  { induction E as [|e E IH]; intros I; [reflexivity|]. cbn [flat_map]. rewrite IH by (intros d Hd; apply I; now right). f_equal.
    destruct (apply_aligns pairs (fx, tx) (uid e)) as [A _]. rewrite A. cbn [fst]. rewrite Z by (apply I; now left).
    cbn [app]. rewrite map_map. rewrite <- map_id. apply map_ext_in. intros [f t] Hp. apply filter_In in Hp. destruct Hp as [Hp Q].
    apply Nat.eqb_eq in Q. cbn [fst snd] in *. f_equal. symmetry. apply (@distinct_in _ fr); auto; [exact (S _ Hp)|apply I; now left]. }
  apply G. apply incl_refl.
Qed.

Lemma filter_self (pairs : list (elem * elem)) f ts u : 
  filter (fun p : elem * elem => uid (fst p) =? u) (map (fun t => (f, t)) ts) = if uid f =? u then map (fun t => (f, t)) ts else [].
Proof.
  induction ts as [|t ts IH]; cbn [map filter]; [now destruct (_ =? _)|]. cbn [fst]. rewrite IH. now destruct (uid f =? u).
Qed.
Lemma stored_targets fr fx e : distinct fr -> In e (doc_order fr) ->
  map snd (filter (fun p => uid (fst p) =? uid e) (stored_pairs fr fx)) = a_aligns (st fx (uid e)).
Proof.
  intros D I. unfold stored_pairs.
  assert (G : forall E, NoDup (map (@uid char) E) ->
    map snd (filter (fun p => uid (fst p) =? uid e) (flat_map (fun f => map (fun t => (f, t)) (a_aligns (st fx (uid f)))) E)) =
    if in_dec Nat.eq_dec (uid e) (map (@uid char) E) then a_aligns (st fx (uid e)) else []).
  { induction E as [|d E IH]; intros N; [now destruct in_dec|]. cbn [map] in N. inversion N; subst. cbn [flat_map].
    rewrite filter_app, map_app, IH by trivial. rewrite filter_self by exact [].
    destruct (uid d =? uid e) eqn:Q.
    - apply Nat.eqb_eq in Q. rewrite map_map. cbn [snd]. rewrite map_id. 
      destruct (in_dec Nat.eq_dec (uid e) (map (@uid char) E)) as [X|_]; [rewrite <- Q in X; contradiction|].
      destruct in_dec as [_|X]; [rewrite app_nil_r; now rewrite Q|]. exfalso. apply X. cbn [map]. now left.
    - apply Nat.eqb_neq in Q. cbn [map app]. 
      destruct (in_dec Nat.eq_dec (uid e) (map (@uid char) E)) as [X|X]; destruct in_dec as [Y|Y]; try reflexivity.
      + exfalso. apply Y. now right.
      + exfalso. destruct Y as [Y|Y]; [congruence|contradiction]. }
  rewrite G by exact D. destruct in_dec as [_|X]; [reflexivity|]. exfalso. apply X. now apply in_map.
Qed.
Lemma stored_in fr fx p : In p (stored_pairs fr fx) -> In (fst p) (doc_order fr) /\ In (snd p) (a_aligns (st fx (uid (fst p)))).
Proof.
  unfold stored_pairs. intros H. apply in_flat_map in H. destruct H as [f [A B]]. apply in_map_iff in B.
  destruct B as [t [<- C]]. auto.
Qed.

Lemma nth_of (root e : elem) : In e (doc_order root) -> exists n, nth_error (tagged root (tag e)) n = Some e.
Proof. intros H. apply In_nth_error. apply filter_In. split; [trivial|apply String.eqb_refl]. Qed.

Lemma mk_n_connects fr tr fx tx fx0 tx0 p : distinct fr -> distinct tr -> updated fr fx0 -> updated tr tx0 ->
  (forall e, In e (doc_order fr) -> a_n (st fx (uid e)) = a_n (st fx0 (uid e))) ->
  (forall e, In e (doc_order tr) -> a_n (st tx (uid e)) = a_n (st tx0 (uid e))) ->
  In (fst p) (doc_order fr) -> In (snd p) (doc_order tr) -> connects (@named_n char) fr tr (mk_n fx tx p) p.
Proof.
  intros D1 D2 U1 U2 A1 A2 I1 I2.
  destruct (updated_tabs D1 U1) as [_ [_ [N1 _]]]. destruct (updated_tabs D2 U2) as [_ [_ [N2 _]]].
  destruct (nth_of _ _ I1) as [n Hn]. destruct (nth_of _ _ I2) as [m Hm].
  split; cbn [mk_n l_from_tag l_from l_to_tag l_to]; unfold n_of.
  - rewrite A1 by trivial. rewrite (N1 _ _ _ Hn). exists n. now split.
  - rewrite A2 by trivial. rewrite (N2 _ _ _ Hm). exists m. now split.
Qed.

(** The link is determined by what it connects. *)
Lemma connects_n_mk fr tr fx tx l p : distinct fr -> distinct tr -> updated fr fx -> updated tr tx ->
  connects (@named_n char) fr tr l p -> l = mk_n fx tx p.
Proof.
  intros D1 D2 U1 U2 [[n [E1 H1]] [m [E2 H2]]].
  destruct (updated_tabs D1 U1) as [_ [_ [N1 _]]]. destruct (updated_tabs D2 U2) as [_ [_ [N2 _]]].
  destruct l as [ft f tt t]; cbn [l_from_tag l_from l_to_tag l_to] in *. subst f t. unfold mk_n, n_of.
  rewrite (N1 _ _ _ H1), (N2 _ _ _ H2). cbn [option_map].
  apply nth_error_In in H1, H2. apply filter_In in H1, H2. destruct H1 as [_ H1], H2 as [_ H2].
  apply String.eqb_eq in H1, H2. now rewrite H1, H2.
Qed.
Lemma connects_id_mk fr tr l p : connects (@named_id char) fr tr l p -> l = mk_id p.
Proof.
  intros [[_ [T1 [I1 _]]] [_ [T2 [I2 _]]]]. destruct l as [ft f tt t]; cbn [l_from_tag l_from l_to_tag l_to] in *.
  unfold mk_id. congruence.
Qed.
Lemma mk_id_connects fr tr p : named_id fr (tag (fst p)) (id_of (fst p)) (fst p) ->
  named_id tr (tag (snd p)) (id_of (snd p)) (snd p) -> connects (@named_id char) fr tr (mk_id p) p.
Proof. now split. Qed.

Lemma f2_map (A B : Type) (R : A -> B -> Prop) (f : B -> A) l : (forall b, In b l -> R (f b) b) -> Forall2 R (map f l) l.
Proof. induction l as [|b l IH]; intros H; cbn [map]; constructor; [apply H; now left|apply IH; intros; apply H; now right]. Qed.
Lemma f2_eq (A B : Type) (R : A -> B -> Prop) (f : B -> A) ls ps : (forall a b, R a b -> a = f b) -> Forall2 R ls ps -> ls = map f ps.
Proof. intros H. induction 1; cbn [map]; [reflexivity|]. f_equal; auto. Qed.
Lemma f2_in_r (A B : Type) (R : A -> B -> Prop) ls ps b : Forall2 R ls ps -> In b ps -> exists a, In a ls /\ R a b.
Proof. induction 1; [intros []|]. intros [<-|I]; [exists x; split; [now left|trivial]|]. destruct (IHForall2 I) as [a [P Q]]. exists a. split; [now right|trivial]. Qed.

Lemma mk_n_ext fx tx fx' tx' (p : elem * elem) : (forall u, a_n (st fx u) = a_n (st fx' u)) -> (forall u, a_n (st tx u) = a_n (st tx' u)) ->
  mk_n fx tx p = mk_n fx' tx' p.
Proof. intros A B. unfold mk_n, n_of. now rewrite A, B. Qed.

Lemma grouped_perm (fr : elem) pairs : distinct fr -> (forall p, In p pairs -> In (fst p) (doc_order fr)) ->
  Permutation (grouped fr pairs) pairs.
Proof. intros D H. exact (@groups_perm _ _ _ D H). Qed.
Lemma grouped_sorted (fr : elem) pairs : distinct fr -> (forall p, In p pairs -> In (fst p) (doc_order fr)) ->
  in_doc_order fr pairs -> grouped fr pairs = pairs.
Proof. intros D H O. exact (@groups_sorted _ _ _ D H O). Qed.

Lemma grouped_in (fr : elem) pairs p : distinct fr -> (forall p, In p pairs -> In (fst p) (doc_order fr)) ->
  In p (grouped fr pairs) -> In p pairs.
Proof. intros D H I. eapply Permutation_in; [apply grouped_perm; eauto|trivial]. Qed.
End Props.
