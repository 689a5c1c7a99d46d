From Coq Require Import String List Bool Arith Lia.
From Verif Require Import Py PyLemmas Pairs_spec Pairs_model.
Import ListNotations.
Set Implicit Arguments.
Open Scope string_scope. Open Scope nat_scope. Open Scope list_scope.
Section S.
Variable A : Type.
Variable none : A.
Variable aeqb : A -> A -> bool.
Notation value := (value A). Notation heap := (heap A).
Notation contains := (@contains A).
Lemma contains_fun (h : heap) v t : contains h v t -> forall u, contains h v u -> t = u.
Proof.
  induction 1 as [a|i s t x y E C1 IH1 C2 IH2]; intros u Q; inversion Q; subst; auto.
  match goal with H : nth_error h i = Some _ |- _ => rewrite E in H; injection H as <- <- end. f_equal; auto.
Qed.
Lemma eq_trees (h : heap) v t : contains h v t -> forall w u fuel, contains h w u -> height t <= fuel ->
  exists x, eq aeqb fuel h v w = Ok x /\ (x = Yes <-> same aeqb t u) /\ (x = Neither <-> unlike aeqb t u).
Proof.
  induction 1 as [a|i s t x y E C1 IH1 C2 IH2]; intros w u fuel Q L; inversion Q; subst.
  - destruct fuel; cbn [eq]; eexists; (split; [reflexivity|]); destruct (aeqb a a0) eqn:E; (split; split; intros H; try discriminate; try (now constructor); inversion H; congruence).
  - destruct fuel; cbn [eq]; eexists; (split; [reflexivity|]); (split; split; intros H'; try discriminate; try (now constructor); try reflexivity; inversion H').
  - destruct fuel; cbn [eq]; eexists; (split; [reflexivity|]); (split; split; intros H'; try discriminate; try (now constructor); try reflexivity; inversion H').
  - cbn [height] in L. destruct fuel as [|f]; [lia|]. cbn [eq]. rewrite E. rewrite H.
    match goal with I1 : contains h s0 ?x1, I2 : contains h t0 ?y1 |- _ =>
      destruct (IH1 s0 x1 f I1) as (r & Er & R1 & R2); [lia|]; destruct (IH2 t0 y1 f I2) as (r' & Er' & R1' & R2'); [lia|] end.
    rewrite Er. cbn [bind]. destruct r.
    + exists r'. split; [exact Er'|]. split.
      * rewrite R1'. split; [intros; constructor; auto; now apply R1|]. intros Z; inversion Z; auto.
      * rewrite R2'. split; [intros; apply unlike_t; auto; now apply R1|]. intros Z; inversion Z; subst; auto.
        exfalso. assert (Yes = Neither) by (now apply R2). discriminate.
    + exists No. split; auto. split; split; intros Z; try discriminate; inversion Z; subst; auto.
      * apply R1; auto.
      * apply R2; auto.
      * assert (No = Yes) by (now apply R1). discriminate.
    + exists Neither. split; auto. split; split; intros Z; auto; try discriminate.
      * inversion Z; subst. apply R1; auto.
      * apply unlike_s. now apply R2.
Qed.
Lemma same_refl t : (forall a, aeqb a a = true) -> same aeqb t t.
Proof. intros R. induction t; constructor; auto. Qed.
Lemma same_sym t u : (forall a b, aeqb a b = true -> aeqb b a = true) -> same aeqb t u -> same aeqb u t.
Proof. intros R. induction 1; constructor; auto. Qed.
Lemma same_trans t u : (forall a b c, aeqb a b = true -> aeqb b c = true -> aeqb a c = true) -> same aeqb t u -> forall w, same aeqb u w -> same aeqb t w.
Proof. intros R. induction 1; intros w Q; inversion Q; subst; constructor; eauto. Qed.
Lemma eq_mono f : forall f' (h : heap) v w x, eq aeqb f h v w = Ok x -> f <= f' -> eq aeqb f' h v w = Ok x.
Proof.
  induction f as [|f IH]; intros f' h v w x E L; destruct v as [a|i], w as [b|j]; cbn [eq] in E; try (destruct f'; exact E); try discriminate.
  destruct f' as [|f']; [lia|]. cbn [eq]. destruct (nth_error h i) as [[s t]|]; [|discriminate].
  destruct (nth_error h j) as [[s' t']|]; [|discriminate].
  destruct (eq aeqb f h s s') as [y|] eqn:E1; cbn [bind] in E; [|discriminate].
  rewrite (IH f' h s s' y E1) by lia. cbn [bind]. destruct y; auto. apply IH; auto. lia.
Qed.
Lemma eq_self_tree : (forall a, aeqb a a = true) -> forall f (h : heap) v x, eq aeqb f h v v = Ok x -> x = Yes /\ exists t, contains h v t.
Proof.
  intros R. induction f as [|f IH]; intros h [a|i] x E; cbn [eq] in E; try discriminate.
  - rewrite R in E. injection E as <-. split; auto. exists (Leaf a). constructor.
  - rewrite R in E. injection E as <-. split; auto. exists (Leaf a). constructor.
  - destruct (nth_error h i) as [[s t]|] eqn:N; [|discriminate].
    destruct (eq aeqb f h s s) as [y|] eqn:E1; cbn [bind] in E; [|discriminate].
    destruct (IH _ _ _ E1) as [-> [u1 C1]]. destruct (IH _ _ _ E) as [-> [u2 C2]]. split; auto. exists (Node u1 u2). econstructor; eauto.
Qed.
Lemma eq_self_iff : (forall a, aeqb a a = true) -> forall (h : heap) v, (exists fuel x, eq aeqb fuel h v v = Ok x) <-> exists t, contains h v t.
Proof.
  intros R h v. split.
  - intros (f & x & E). now destruct (eq_self_tree R _ _ _ E).
  - intros [t C]. destruct (eq_trees C C (le_n _)) as (x & E & _). eauto.
Qed.
Lemma eq_equiv : (forall a, aeqb a a = true) -> (forall a b, aeqb a b = true -> aeqb b a = true) -> (forall a b c, aeqb a b = true -> aeqb b c = true -> aeqb a c = true) ->
  forall (h : heap) u v w a b c fuel, contains h u a -> contains h v b -> contains h w c -> height a <= fuel -> height b <= fuel -> height c <= fuel ->
  eq aeqb fuel h u u = Ok Yes /\
  (eq aeqb fuel h u v = Ok Yes -> eq aeqb fuel h v u = Ok Yes) /\
  (eq aeqb fuel h u v = Ok Yes -> eq aeqb fuel h v w = Ok Yes -> eq aeqb fuel h u w = Ok Yes).
Proof.
  intros R Sy Tr h u v w a b c fuel Ca Cb Cc La Lb Lc.
  assert (Y : forall v w t u, contains h v t -> contains h w u -> height t <= fuel -> (eq aeqb fuel h v w = Ok Yes <-> same aeqb t u)).
  { intros v' w' t u' C C' L. destruct (eq_trees C C' L) as (x & E & [I1 I2] & _). rewrite E. split; intros Q.
    - injection Q as ->. auto.
    - f_equal. auto. }
  split; [|split].
  - apply (Y _ _ _ _ Ca Ca La). now apply same_refl.
  - intros E. apply (Y _ _ _ _ Cb Ca Lb). apply same_sym; auto. now apply (Y _ _ _ _ Ca Cb La).
  - intros E1 E2. apply (Y _ _ _ _ Ca Cc La). eapply same_trans; [exact Tr|now apply (Y _ _ _ _ Ca Cb La)|now apply (Y _ _ _ _ Cb Cc Lb)].
Qed.
(** heaps *)
Lemma contains_more (h : heap) x v t : contains h v t -> contains (h ++ [x]) v t.
Proof.
  induction 1; econstructor; eauto. rewrite nth_error_app1; auto. apply nth_error_Some. congruence.
Qed.
Definition all_finite (h : heap) := forall v, valid h v = true -> exists t, contains h v t.
Lemma new_finite (h : heap) s t : all_finite h -> all_finite (step none h (New s t)).
Proof.
  intros F. cbn [step]. destruct (valid h s) eqn:V1; cbn [andb]; auto. destruct (valid h t) eqn:V2; auto.
  intros [a|i] V; [exists (Leaf a); constructor|]. cbn [valid] in V. apply Nat.ltb_lt in V. rewrite app_length in V. cbn in V.
  destruct (Nat.eq_dec i (length h)) as [->|Ne].
  - destruct (F _ V1) as [x C1]. destruct (F _ V2) as [y C2]. exists (Node x y). econstructor.
    + rewrite nth_error_app2, Nat.sub_diag by lia. reflexivity.
    + now apply contains_more.
    + now apply contains_more.
  - destruct (F (Ref i)) as [x C]; [cbn; apply Nat.ltb_lt; lia|]. exists x. now apply contains_more.
Qed.
Lemma news_finite os : (forall o, In o os -> exists s t, o = New s t) -> forall h, all_finite h -> all_finite (run none h os).
Proof.
  induction os as [|o os IH]; intros H h F; cbn [run fold_left]; auto. apply IH; [intros o' I; apply H; right; auto|].
  destruct (H o (or_introl eq_refl)) as (s & t & ->). now apply new_finite.
Qed.
Lemma new_only os : (forall o, In o os -> exists s t, o = New s t) -> forall i, i < length (run none [] os) -> exists t, contains (run none [] os) (Ref i) t.
Proof.
  intros H i L. apply (@news_finite os H []); [|cbn; now apply Nat.ltb_lt].
  intros [a|j] V; [exists (Leaf a); constructor|]. cbn in V. discriminate.
Qed.
Lemma set_elsewhere (h : heap) i p v t : contains h v t -> ~ reaches h v i -> contains (set_nth h i p) v t.
Proof.
  induction 1 as [a|j s t x y E C1 IH1 C2 IH2]; intros N; [constructor|]. econstructor.
  - rewrite nth_error_set_nth_other; eauto. intros ->. apply N. constructor.
  - apply IH1. intros Q. apply N. eapply reach_s; eauto.
  - apply IH2. intros Q. apply N. eapply reach_t; eauto.
Qed.
Lemma iter_new (h : heap) s t : valid h s = true -> valid h t = true ->
  iter (step none h (New s t)) (length h) = Ok [s; t] /\ (forall v x, contains h v x -> contains (step none h (New s t)) v x).
Proof.
  intros V1 V2. cbn [step]. rewrite V1, V2. cbn [andb]. split; [|intros; now apply contains_more].
  unfold iter. rewrite nth_error_app2, Nat.sub_diag by lia. reflexivity.
Qed.
Lemma iter_set (h : heap) i s t : i < length h -> valid_opt h s = true -> valid_opt h t = true ->
  let h' := step none h (SetBoth i s t) in
  iter h' i = Ok [match s with Some v => v | None => Atom none end; match t with Some v => v | None => Atom none end] /\
  (forall j, j <> i -> iter h' j = iter h j) /\ (forall v x, contains h v x -> ~ reaches h v i -> contains h' v x).
Proof.
  intros L V1 V2. cbn [step]. apply Nat.ltb_lt in L as L'. rewrite L', V1, V2. cbn [andb]. unfold set_pair, iter. split; [|split].
  - rewrite nth_error_set_nth_same by auto. reflexivity.
  - intros j Ne. rewrite nth_error_set_nth_other; auto.
  - intros v x C N. now apply set_elsewhere.
Qed.
Lemma iter_assign (h : heap) i v s t : valid h v = true -> iter h i = Ok [s; t] ->
  iter (step none h (SetSource i v)) i = Ok [v; t] /\ iter (step none h (SetTarget i v)) i = Ok [s; v] /\
  forall j, j <> i -> iter (step none h (SetSource i v)) j = iter h j /\ iter (step none h (SetTarget i v)) j = iter h j.
Proof.
  intros V E. unfold iter in E. destruct (nth_error h i) as [[s' t']|] eqn:N; [|discriminate]. injection E as -> ->.
  assert (L : i < length h) by (apply nth_error_Some; congruence).
  cbn [step]. rewrite N, V. unfold iter. split; [|split].
  - now rewrite nth_error_set_nth_same.
  - now rewrite nth_error_set_nth_same.
  - intros j Ne. now rewrite !nth_error_set_nth_other by auto.
Qed.
Lemma text_tree show (h : heap) v t : contains h v t -> forall fuel, height t <= fuel -> text_of show fuel h v = Ok (shown show t).
Proof.
  induction 1 as [a|i s t x y E C1 IH1 C2 IH2]; intros fuel L.
  - destruct fuel; reflexivity.
  - cbn [height] in L. destruct fuel as [|f]; [lia|]. cbn [text_of]. rewrite E, IH1, IH2 by lia. reflexivity.
Qed.
Lemma text_tree_inv show f : forall (h : heap) v x, text_of show f h v = Ok x -> exists t, contains h v t.
Proof.
  induction f as [|f IH]; intros h [a|i] x E; cbn [text_of] in E; try discriminate; try (exists (Leaf a); constructor).
  destruct (nth_error h i) as [[s t]|] eqn:N; [|discriminate].
  destruct (text_of show f h s) eqn:E1; cbn [bind] in E; [|discriminate]. destruct (text_of show f h t) eqn:E2; cbn [bind] in E; [|discriminate].
  destruct (IH _ _ _ E1) as [u1 C1]. destruct (IH _ _ _ E2) as [u2 C2]. exists (Node u1 u2). econstructor; eauto.
Qed.
Lemma in_list_ok fuel (h : heap) i t : contains h (Ref i) t -> forall l ts, Forall2 (contains h) l ts -> Forall (fun u => height u <= fuel) ts ->
  exists b, in_list aeqb fuel h i l = Ok b /\ (b = true <-> In (Ref i) l \/ exists u, In u ts /\ same aeqb u t).
Proof.
  intros C l ts F. induction F as [|v u l ts Cv F IH]; intros Hh; cbn [in_list].
  - exists false. split; auto. split; [discriminate|]. intros [[]|(u & [] & _)].
  - pose proof (Forall_inv Hh) as Lu. pose proof (Forall_inv_tail Hh) as Ht. destruct (IH Ht) as (b & Eb & B).
    destruct (match v with Ref j => j =? i | Atom _ => false end) eqn:M.
    + exists true. split; auto. split; auto. intros _. left. destruct v as [a|j]; [discriminate|]. apply Nat.eqb_eq in M. subst. now left.
    + destruct (eq_trees Cv C Lu) as (x & Ex & X & _). rewrite Ex. cbn [bind]. destruct x.
      * exists true. split; auto. split; auto. intros _. right. exists u. split; [now left|]. now apply X.
      * exists b. split; auto. rewrite B. split.
        -- intros [Q|(w & I & Q)]; [left; now right|right; exists w; split; auto; now right].
        -- intros [[Q|Q]|(w & [<-|I] & Q)]; auto.
           ++ subst v. rewrite Nat.eqb_refl in M. discriminate.
           ++ apply X in Q. discriminate.
           ++ right. eauto.
      * exists b. split; auto. rewrite B. split.
        -- intros [Q|(w & I & Q)]; [left; now right|right; exists w; split; auto; now right].
        -- intros [[Q|Q]|(w & [<-|I] & Q)]; auto.
           ++ subst v. rewrite Nat.eqb_refl in M. discriminate.
           ++ apply X in Q. discriminate.
           ++ right. eauto.
Qed.
Lemma self_loop (h : heap) i t : nth_error h i = Some (Ref i, t) -> forall fuel x, eq aeqb fuel h (Ref i) (Ref i) <> Ok x.
Proof.
  intros E. induction fuel as [|f IH]; intros x; cbn [eq]; [discriminate|]. rewrite E.
  destruct (eq aeqb f h (Ref i) (Ref i)) as [y|] eqn:Q; cbn [bind]; [|discriminate]. exfalso. now apply (IH y).
Qed.
End S.
