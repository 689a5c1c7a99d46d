(** Loops over matrices and the single steps of Munkres_model. *)
From Coq Require Import FinFun.
From Verif Require Import Py PyLemmas Munkres_model.
Set Implicit Arguments.

(** Loop rules *)
Lemma foldM_prefix S X (f : S -> X -> res S) (P : list X -> S -> Prop) l s :
  P [] s ->
  (forall done x rest s, l = done ++ x :: rest -> P done s -> exists s', f s x = Ok s' /\ P (done ++ [x]) s') ->
  exists s', foldM f s l = Ok s' /\ P l s'.
Proof.
  intros H0 HS.
  assert (G : forall rest done s, l = done ++ rest -> P done s -> exists s', foldM f s rest = Ok s' /\ P l s').
  { induction rest as [|x rest IH]; intros done s0 E HP; cbn [foldM].
    - exists s0. rewrite app_nil_r in E. subst. auto.
    - destruct (HS done x rest s0 E HP) as (s1 & E1 & H1). rewrite E1; cbn [bind].
      apply (IH (done ++ [x])); auto. now rewrite <- app_assoc. }
  now apply (G l []).
Qed.
Lemma foldM_inv S X (f : S -> X -> res S) (P : S -> Prop) l s :
  P s -> (forall x s, In x l -> P s -> exists s', f s x = Ok s' /\ P s') ->
  exists s', foldM f s l = Ok s' /\ P s'.
Proof.
  intros H0 HS. destruct (@foldM_prefix S X f (fun _ => P) l s H0) as (s' & ? & ?); eauto.
  intros done x rest s1 E H. apply HS; auto. rewrite E. apply in_or_app; cbn; auto.
Qed.
Lemma foldM_map S X Y (g : X -> Y) (f : S -> Y -> res S) l s :
  foldM f s (map g l) = foldM (fun s x => f s (g x)) s l.
Proof. revert s; induction l as [|x l IH]; intros s; cbn; auto. destruct (f s (g x)); cbn; auto. Qed.
Lemma foldM_prod S X Y (f : S -> X -> Y -> res S) (a : list X) (b : list Y) s :
  foldM (fun s x => foldM (fun s y => f s x y) s b) s a =
  foldM (fun s p => f s (fst p) (snd p)) s (list_prod a b).
Proof.
  revert s; induction a as [|x a IH]; intros s; cbn [foldM list_prod]; auto.
  rewrite foldM_app, foldM_map. cbn [fst snd].
  destruct (foldM _ s b); cbn [bind]; auto.
Qed.

Definition cells n := list_prod (seq 0 n) (seq 0 n).
Lemma in_cells n i j : In (i, j) (cells n) <-> i < n /\ j < n.
Proof. unfold cells. rewrite in_prod_iff, !in_seq. lia. Qed.
Lemma nodup_app A (l1 l2 : list A) : NoDup l1 -> NoDup l2 -> (forall x, In x l1 -> ~ In x l2) -> NoDup (l1 ++ l2).
Proof.
  induction l1 as [|x l1 IH]; cbn; auto. intros N1 N2 D. inversion N1; subst. constructor.
  - rewrite in_app_iff. intros [H|H]; auto. apply (D x); auto.
  - apply IH; auto.
Qed.
Lemma nodup_prod A B (a : list A) (b : list B) : NoDup a -> NoDup b -> NoDup (list_prod a b).
Proof.
  intros Ha Hb. induction a as [|x a IH]; cbn; [constructor|]. inversion Ha; subst.
  apply nodup_app; auto.
  - apply Injective_map_NoDup; auto. now intros y y' [= ->].
  - intros [x' y] H. apply in_map_iff in H as (y' & [= <- <-] & _). rewrite in_prod_iff. tauto.
Qed.
Lemma nodup_cells n : NoDup (cells n).
Proof. apply nodup_prod; apply seq_NoDup. Qed.

(** Square matrices *)
Section Mat.
Variable A : Type.
Variable d : A.
Definition ent (m : mat A) i j := nth j (nth i m []) d.
Definition sq n (m : mat A) := length m = n /\ forall i, i < n -> length (nth i m []) = n.
Lemma mget_ok n m i j : sq n m -> i < n -> j < n -> mget m i j = Ok (ent m i j).
Proof.
  intros [H1 H2] Hi Hj. unfold mget. rewrite (get_ok m [] (i:=i)) by lia. cbn [bind].
  apply get_ok. rewrite H2; auto.
Qed.
Lemma mset_ok n m i j v : sq n m -> i < n -> j < n ->
  exists m', mset m i j v = Ok m' /\ sq n m' /\
    forall i' j', ent m' i' j' = if (i' =? i) && (j' =? j) then v else ent m i' j'.
Proof.
  intros [H1 H2] Hi Hj. unfold mset. rewrite (get_ok m [] (i:=i)) by lia. cbn [bind].
  unfold set. rewrite H2, (proj2 (Nat.ltb_lt _ _)) by auto. cbn [bind].
  rewrite H1, (proj2 (Nat.ltb_lt _ _)) by auto.
  eexists; split; [reflexivity|]. split.
  - split; [now rewrite set_nth_length|]. intros i' Hi'. destruct (Nat.eq_dec i i') as [<-|N].
    + rewrite set_nth_same by lia. rewrite set_nth_length. auto.
    + rewrite set_nth_other by auto. auto.
  - intros i' j'. unfold ent. destruct (Nat.eqb_spec i' i) as [->|N]; cbn.
    + rewrite set_nth_same by lia. destruct (Nat.eqb_spec j' j) as [->|N'].
      * rewrite set_nth_same; auto. rewrite H2; auto.
      * rewrite set_nth_other; auto.
    + rewrite set_nth_other; auto.
Qed.
Lemma for_cells_ok n m f g : sq n m ->
  (forall i j v, i < n -> j < n -> f i j v = Ok (g i j v)) ->
  exists m', for_cells n f m = Ok m' /\ sq n m' /\
    forall i j, i < n -> j < n -> ent m' i j = g i j (ent m i j).
Proof.
  intros Hm Hf. unfold for_cells.
  rewrite (foldM_prod (fun m i j => v <- mget m i j ;; v' <- f i j v ;; mset m i j v')).
  fold (cells n).
  destruct (@foldM_prefix (mat A) (nat * nat) (fun s p => v <- mget s (fst p) (snd p) ;;
       v' <- f (fst p) (snd p) v ;; mset s (fst p) (snd p) v')
     (fun done m' => sq n m' /\ forall i j, i < n -> j < n ->
        (In (i, j) done -> ent m' i j = g i j (ent m i j)) /\ (~ In (i, j) done -> ent m' i j = ent m i j))
     (cells n) m) as (m' & E & Hm' & H).
  - split; auto. intros. cbn. tauto.
  - intros done [i j] rest m1 E [Hs H1]. cbn [fst snd].
    assert (Hij : i < n /\ j < n).
    { apply in_cells. rewrite E. apply in_or_app; cbn; auto. }
    destruct Hij as [Hi Hj].
    assert (ND : ~ In (i, j) done).
    { pose proof (nodup_cells n) as N. rewrite E in N. apply NoDup_remove_2 in N.
      intros C; apply N, in_or_app; auto. }
    rewrite (mget_ok Hs Hi Hj). cbn [bind]. rewrite Hf by auto. cbn [bind].
    destruct (mset_ok (g i j (ent m1 i j)) Hs Hi Hj) as (m2 & E2 & Hs2 & H2). exists m2; split; auto. split; auto.
    intros i' j' Hi' Hj'. destruct (H1 i' j' Hi' Hj') as [Ha Hb]. rewrite H2.
    destruct (Nat.eqb_spec i' i) as [->|N]; cbn.
    + destruct (Nat.eqb_spec j' j) as [->|N'].
      * split; [|intros C; exfalso; apply C, in_or_app; cbn; auto]. intros _. now rewrite Hb.
      * rewrite in_app_iff. cbn. split; [intros [C|[[= ?]|[]]]; [auto|congruence]|auto].
    + rewrite in_app_iff. cbn. split; [intros [C|[[= ? ?]|[]]]; [auto|congruence]|auto].
  - exists m'; split; auto. split; auto. intros i j Hi Hj. apply H; auto. now apply in_cells.
Qed.
End Mat.
Global Arguments ent : simpl never.

Lemma sq_repeat A n (x : A) : sq n (repeat (repeat x n) n).
Proof.
  split; [apply repeat_length|]. intros i Hi.
  rewrite (nth_indep _ [] (repeat x n)) by (rewrite repeat_length; auto).
  rewrite nth_repeat. apply repeat_length.
Qed.
Lemma ent_repeat A n (x : A) i j : ent x (repeat (repeat x n) n) i j = x.
Proof.
  unfold ent. destruct (Nat.lt_ge_cases i n).
  - rewrite (nth_indep _ [] (repeat x n)) by (rewrite repeat_length; auto). rewrite nth_repeat. apply nth_repeat.
  - rewrite nth_overflow with (l := repeat _ _) by (rewrite repeat_length; auto). destruct j; auto.
Qed.

Section Covers.
Lemma set_ok A (l : list A) i v d : i < length l ->
  exists l', set l i v = Ok l' /\ length l' = length l /\ forall i', nth i' l' d = if i' =? i then v else nth i' l d.
Proof.
  intros H. unfold set. rewrite (proj2 (Nat.ltb_lt _ _)) by auto. eexists; split; [reflexivity|].
  split; [apply set_nth_length|]. intros i'. destruct (Nat.eqb_spec i' i) as [->|N].
  - now apply set_nth_same.
  - now apply set_nth_other; auto.
Qed.
Lemma clear_loop n (l : list bool) : length l = n ->
  exists l', foldM (fun l i => set l i false) l (seq 0 n) = Ok l' /\ length l' = n /\ forall i, nth i l' false = false.
Proof.
  intros H.
  destruct (@foldM_seq_inv _ (fun l i => set l i false)
    (fun k l' => length l' = n /\ forall i, i < k -> nth i l' false = false) 0 n l) as (l' & E & L & H').
  - split; auto. lia.
  - intros i s Hi [L1 H1]. destruct (@set_ok _ s i false false ltac:(lia)) as (s' & E & L' & H').
    exists s'; split; auto. split; [lia|]. intros i' Hi'. rewrite H'. destruct (Nat.eqb_spec i' i); auto.
    apply H1; lia.
  - exists l'; split; auto. split; auto. intros i. destruct (Nat.lt_ge_cases i n); [apply H'; lia|].
    apply nth_overflow. lia.
Qed.
End Covers.
