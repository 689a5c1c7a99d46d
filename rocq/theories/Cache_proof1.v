(** The doubly linked ring of LRUStock represents a list of nodes. *)
From Verif Require Import Py PyLemmas Cache_spec Cache_model.
Set Implicit Arguments.

Fixpoint chain (nx pv : nat -> nat) (a : nat) (l : list nat) (b : nat) : Prop :=
  match l with
  | [] => nx a = b /\ pv b = a
  | x :: l' => (nx a = x /\ pv x = a) /\ chain nx pv x l' b
  end.
Lemma chain_app nx pv l1 : forall a x l2 b, chain nx pv a (l1 ++ x :: l2) b <-> chain nx pv a l1 x /\ chain nx pv x l2 b.
Proof. induction l1 as [|y l1 IH]; intros; cbn; [tauto|]. rewrite IH. tauto. Qed.
Lemma upd_same A (f : nat -> A) i v : upd f i v i = v.
Proof. unfold upd. now rewrite Nat.eqb_refl. Qed.
Lemma upd_other A (f : nat -> A) i j v : j <> i -> upd f i v j = f j.
Proof. intros. unfold upd. now rewrite (proj2 (Nat.eqb_neq j i)). Qed.
Lemma chain_ext nx pv nx' pv' l : forall a b,
  (forall x, In x (a :: l) -> nx' x = nx x) -> (forall x, In x (l ++ [b]) -> pv' x = pv x) ->
  chain nx pv a l b -> chain nx' pv' a l b.
Proof.
  induction l as [|y l IH]; intros a b N P; cbn.
  - intros [E1 E2]. rewrite N by (now left). rewrite P by (now left). auto.
  - intros [[E1 E2] C]. split.
    + rewrite N by (now left). rewrite P by (now left). auto.
    + apply IH; auto.
      * intros x X. apply N. now right.
      * intros x X. apply P. cbn. now right.
Qed.

Lemma nodup_app_iff A (a b : list A) : NoDup (a ++ b) <-> NoDup a /\ NoDup b /\ forall x, In x a -> In x b -> False.
Proof.
  induction a as [|x a IH]; cbn [app].
  - split; [intros H; split; [constructor|split; auto]|tauto].
  - rewrite !NoDup_cons_iff, IH, in_app_iff. split.
    + intros (N & Na & Nb & D). repeat split; auto; try tauto. intros y [<-|Y] Z; eauto.
    + intros ((N & Na) & Nb & D). repeat split; auto; [|intros; eapply D; eauto; now right].
      intros [X|X]; auto. eapply D; eauto. now left.
Qed.
Ltac nd := intros ?; subst; repeat match goal with
  | H : In _ (_ ++ _) |- _ => apply in_app_or in H as [H|H]
  | H : In _ (_ :: _) |- _ => destruct H as [H|H]; [subst|]
  | H : In _ [] |- _ => destruct H
  end; try congruence; try tauto;
  repeat match goal with
  | H : forall x, In x ?l -> _ -> False, I : In ?y ?l |- _ =>
      let h := fresh in pose proof (H y I) as h; clear I; cbn [In] in h; repeat rewrite in_app_iff in h; cbn [In] in h; tauto
  end; auto.
Lemma unlink nx pv l1 n l2 : NoDup (0 :: l1 ++ n :: l2) -> chain nx pv 0 (l1 ++ n :: l2) 0 ->
  let nx1 := upd nx (pv n) (nx n) in let pv1 := upd pv (nx1 n) (pv n) in chain nx1 pv1 0 (l1 ++ l2) 0.
Proof.
  intros N C. apply chain_app in C as [C1 C2].
  destruct l1 as [|p l1 _] using rev_ind.
  - cbn [app] in *. destruct C1 as [A1 A2]. rewrite A2. cbv zeta.
    rewrite !NoDup_cons_iff in N. cbn [In] in N.
    rewrite (upd_other _ (i := 0)) by (intros ->; tauto).
    destruct l2 as [|y l2]; cbn [chain] in *.
    + destruct C2 as [B1 B2]. rewrite B1, !upd_same. auto.
    + destruct C2 as [[B1 B2] C2]. rewrite B1, !upd_same. split; auto. rewrite !NoDup_cons_iff in N. cbn [In] in N.
      eapply chain_ext; [| |exact C2].
      * intros x X. apply upd_other. intros ->. destruct X; tauto.
      * intros x X. apply upd_other. intros ->. destruct N as (N0 & Nn & Ny & _). apply in_app_or in X as [X|[X|[]]]; [tauto|]. subst. apply N0. auto.
  - rewrite <- app_assoc in N. cbn [app] in N. apply chain_app in C1 as [C1 [A1 A2]]. rewrite A2. cbv zeta.
    rewrite NoDup_cons_iff, nodup_app_iff, !NoDup_cons_iff, in_app_iff in N. cbn [In] in N.
    destruct N as (N0 & N1 & (Np & Nn & N2) & D).
    rewrite (upd_other _ (i := p)) by (intros ->; tauto). rewrite <- app_assoc. cbn [app].
    apply chain_app. split.
    + eapply chain_ext; [| |exact C1].
      * intros x X. apply upd_other. intros ->. destruct X as [X|X]; [subst; tauto|]. apply (D _ X). now left.
      * intros x X. apply upd_other. intros ->. destruct l2 as [|y l2]; cbn [chain] in C2.
        -- destruct C2 as [B1 _]. rewrite B1 in X. apply in_app_or in X as [X|[X|[]]]; [tauto|]. subst. tauto.
        -- destruct C2 as [[B1 _] _]. rewrite B1 in X. cbn [In] in *. apply in_app_or in X as [X|[X|[]]].
           ++ apply (D _ X). tauto.
           ++ subst. auto.
    + destruct l2 as [|y l2]; cbn [chain] in *.
      * destruct C2 as [B1 B2]. rewrite B1, !upd_same. auto.
      * destruct C2 as [[B1 B2] C2]. rewrite B1, !upd_same. split; auto. rewrite NoDup_cons_iff in N2. cbn [In] in *.
        eapply chain_ext; [| |exact C2].
        -- intros x X. apply upd_other. intros ->. destruct X; subst; try tauto; apply N0; auto.
        -- intros x X. apply upd_other. intros ->. apply in_app_or in X as [X|[X|[]]]; subst; try tauto; apply N0; auto.
Qed.
Lemma link nx pv l n : NoDup (0 :: l) -> ~ In n (0 :: l) -> chain nx pv 0 l 0 ->
  let nx1 := upd nx n 0 in let pv1 := upd pv n (pv 0) in
  let nx2 := upd nx1 (pv1 n) n in let pv2 := upd pv1 0 n in chain nx2 pv2 0 (l ++ [n]) 0.
Proof.
  intros N F C. cbv zeta. rewrite upd_same. rewrite NoDup_cons_iff in N. cbn [In] in F.
  apply chain_app. split.
  - destruct l as [|p l _] using rev_ind; cbn [chain] in *.
    + destruct C as [A1 A2]. rewrite A2, !upd_same. rewrite (upd_other _ (i := 0)) by (intros ->; tauto). rewrite upd_same. auto.
    + apply chain_app in C as [C [A1 A2]]. rewrite A2. rewrite nodup_app_iff in N. rewrite in_app_iff in F, N. cbn [In] in *.
      destruct N as (N0 & N1 & _ & D). apply chain_app. split.
      * eapply chain_ext; [| |exact C].
        -- intros x [<-|X]; rewrite !upd_other; auto; intros E; subst; try tauto; first [apply F; auto; fail|apply N0; auto; fail|apply (D _ X); auto].
        -- intros x X. rewrite !upd_other; auto; intros E; subst; apply in_app_or in X as [X|[X|[]]]; subst; try tauto; first [apply F; auto; fail|apply N0; auto; fail].
      * cbn [chain]. rewrite upd_same. rewrite (upd_other _ (i := 0)) by (intros ->; tauto). rewrite upd_same. auto.
  - cbn [chain]. split; [|apply upd_same]. rewrite upd_other; [apply upd_same|].
    destruct l as [|p l _] using rev_ind; cbn [chain] in C.
    + destruct C as [_ A]. rewrite A. intros ->; tauto.
    + apply chain_app in C as [_ [_ A]]. rewrite A. rewrite in_app_iff in F. cbn in F. intros ->. tauto.
Qed.

Section R.
Variable K : Type.
Variable keqb : K -> K -> bool.
Hypothesis keq : forall x y, keqb x y = true <-> x = y.

Record rep (r : lru K) (l : list nat) : Prop := {
  r_nodup : NoDup (0 :: l);
  r_chain : chain (nx r) (pv r) 0 l 0;
  r_fresh : forall n, In n (0 :: l) -> n < fresh r;
  r_item : forall n, In n l -> exists k, item r n = Some k;
  r_dict : NoDup (dkeys (lkeys r));
  r_keys : forall k n, dget keqb (lkeys r) k = Some n -> In n l /\ item r n = Some k }.

Lemma rep_new : rep (new_lru K) [].
Proof.
  split; cbn; auto.
  - constructor; [auto|constructor].
  - intros n [<-|[]]; lia.
  - tauto.
  - constructor.
  - discriminate.
Qed.
Lemma k_dec (x y : K) : {x = y} + {x <> y}.
Proof. destruct (keqb x y) eqn:E; [left; now apply keq|right; intros H; apply keq in H; congruence]. Qed.
Lemma rep_discard r l1 n l2 k : rep r (l1 ++ n :: l2) -> dget keqb (lkeys r) k = Some n -> rep (discard keqb r k) (l1 ++ l2).
Proof.
  intros R E. pose proof (@unlink _ _ l1 n l2 (r_nodup R) (r_chain R)) as U. cbv zeta in U. unfold discard. rewrite E.
  pose proof (r_nodup R) as N.
  assert (SUB : forall x, In x (l1 ++ l2) -> In x (l1 ++ n :: l2)).
  { intros x X. apply in_app_or in X as [X|X]; apply in_or_app; [now left|right; now right]. }
  split; cbn [nx pv item lkeys fresh]; auto.
  - rewrite !NoDup_cons_iff in *. destruct N as [N0 N]. split; [auto|]. eapply NoDup_remove_1; eauto.
  - intros x [<-|X]; apply (r_fresh R); [now left|right; auto].
  - intros x X. apply (r_item R); auto.
  - apply nodup_ddel, (r_dict R).
  - intros k' m Em. destruct (k_dec k' k) as [->|Ne].
    + rewrite (dget_ddel_same keqb keq) in Em by apply (r_dict R). discriminate.
    + rewrite (dget_ddel_other keqb keq) in Em by auto. destruct (r_keys R _ Em) as [I J]. split; auto.
      apply in_app_or in I as [I|[<-|I]]; apply in_or_app; auto.
      destruct (r_keys R _ E) as [_ J']. congruence.
Qed.
Lemma discard_missing r k : dget keqb (lkeys r) k = None -> discard keqb r k = r.
Proof. intros E. unfold discard. now rewrite E. Qed.
Lemma rep_add r l k : rep r l -> rep (add keqb r k) (l ++ [fresh r]) /\
  item (add keqb r k) (fresh r) = Some k /\ (forall n, In n l -> item (add keqb r k) n = item r n).
Proof.
  intros R. assert (F : ~ In (fresh r) (0 :: l)) by (intros X; apply (r_fresh R) in X; lia).
  pose proof (@link _ _ _ _ (r_nodup R) F (r_chain R)) as L. cbv zeta in L. pose proof (r_nodup R) as N.
  assert (IT : forall n, In n l -> item (add keqb r k) n = item r n).
  { intros n X. unfold add. cbn [item]. apply upd_other. intros ->. apply F. now right. }
  split; [|split; auto; unfold add; cbn [item]; apply upd_same].
  split; auto.
  - unfold add; cbn [nx]. rewrite NoDup_cons_iff in *. destruct N as [N0 N]. cbn [In] in F. split.
    + rewrite in_app_iff. cbn. intros [X|[X|[]]]; [tauto|]. apply F. auto.
    + apply nodup_snoc; auto.
  - intros n X. change (fresh (add keqb r k)) with (S (fresh r)). cbn [In] in X. rewrite in_app_iff in X.
    destruct X as [X|[X|[X|[]]]]; [| |lia]; assert (n < fresh r); try lia; apply (r_fresh R); cbn; auto.
  - intros n X. apply in_app_or in X as [X|[<-|[]]].
    + rewrite IT by auto. now apply (r_item R).
    + exists k. unfold add; cbn [item]. apply upd_same.
  - unfold add; cbn [lkeys]. apply (nodup_dset keqb keq), (r_dict R).
  - intros k' n E. unfold add in E; cbn [lkeys] in E. destruct (k_dec k k') as [<-|Ne].
    + rewrite (dget_dset_same keqb keq) in E. injection E as <-. split; [apply in_or_app; right; now left|]. apply upd_same.
    + rewrite (dget_dset_other keqb keq) in E by auto. destruct (r_keys R _ E) as [I J]. split; [apply in_or_app; auto|].
      rewrite IT; auto.
Qed.
Lemma rep_clear r l : rep r l -> rep (lru_clear r) [].
Proof.
  intros R. split; cbn; auto.
  - constructor; [auto|constructor].
  - intros n [<-|[]]. apply (r_fresh R). now left.
  - tauto.
  - constructor.
  - discriminate.
Qed.
Lemma rep_pop r l : rep r l -> pop r = match l with [] => None | n :: _ => item r n end.
Proof.
  intros R. pose proof (r_chain R) as C. unfold pop. destruct l as [|n l]; cbn [chain] in C.
  - destruct C as [-> _]. reflexivity.
  - destruct C as [[-> _] _]. pose proof (r_nodup R) as N. rewrite NoDup_cons_iff in N. cbn in N.
    destruct (Nat.eqb_spec n 0); [subst; tauto|reflexivity].
Qed.
Lemma rep_tolist r l : rep r l -> forall fuel, length l < fuel -> lru_tolist fuel r 0 = Ok (map (item r) l).
Proof.
  intros R. pose proof (r_chain R) as C. pose proof (r_nodup R) as N. rewrite NoDup_cons_iff in N. destruct N as [N _].
  revert C N. generalize 0 at 1 4. clear R. induction l as [|x l IH]; intros a C N [|fuel] Lf; try (cbn in Lf; lia); cbn [chain lru_tolist map] in *.
  - destruct C as [-> _]. reflexivity.
  - destruct C as [[-> _] C]. destruct (Nat.eqb_spec x 0) as [->|]; [exfalso; apply N; now left|].
    rewrite (IH x C) by (cbn in *; try lia; intros X; apply N; now right). reflexivity.
Qed.
End R.
