From Coq Require Import String.
From Verif Require Import Py PyLemmas Ielem_spec Ielem_model.
Set Implicit Arguments.

Section P.
Variable char : Type.
Variable space : char -> bool.
Variable nl : char.
Notation elem := (elem char).
Notation stripped := (stripped space).
Notation contribution := (contribution space nl).
Notation contents := (contents space nl).
Notation index_elem := (index_elem space nl).
Implicit Types (e d : elem) (x : index char) (r : render).

Lemma elem_ind2 (P : elem -> Prop)
  (H : forall u tg i tx tl ch, Forall P ch -> P (Elem u tg i tx tl ch)) : forall e, P e.
Proof.
  fix IH 1. intros [u tg i tx tl ch]. apply H.
  induction ch as [|c ch IHc]; constructor; [apply IH|exact IHc].
Qed.

Lemma strip_eq o : strip_or_empty space o = stripped o.
Proof. destruct o; reflexivity. Qed.
Lemma mem_existsb t l : mem String.eqb t l = existsb (String.eqb t) l.
Proof. induction l; simpl; congruence. Qed.

Definition ign_loop r u := fix go (l : list elem) x :=
  match l with [] => x | c :: l' => go l' (fst (index_elem r c 0 true (set_ignore x u))) end.
Definition vis_loop r start := fix go (l : list elem) x (text : list char) :=
  match l with [] => (x, text)
  | c :: l' => let '(x', t) := index_elem r c (start + length text) false x in go l' x' (text ++ t) end.

Lemma index_elem_eq r u tg i tx tl ch start ign x :
  let e := Elem u tg i tx tl ch in
  index_elem r e start ign x =
  if ign || ignoredb r e then (ign_loop r u ch (register x e), stripped tl)
  else let '(x1, text) := vis_loop r start ch (register x e) (stripped tx) in
       (set_span x1 u start (start + length text), text ++ separator nl r e ++ stripped tl).
Proof.
  cbn zeta. cbn [Ielem_model.index_elem]. unfold ignoredb. rewrite mem_existsb. cbn [tag].
  fold (ign_loop r u). rewrite !strip_eq. destruct (ign || _); [reflexivity|].
  fold (vis_loop r start). destruct (vis_loop r start ch _ _) as [x1 text].
  f_equal. unfold separator. rewrite !mem_existsb. cbn [tag].
  destruct (existsb _ (blankline r)); [now rewrite app_assoc|].
  destruct (existsb _ (newline r)); [now rewrite app_assoc|reflexivity].
Qed.

Definition with_tag (t : string) (l : list elem) := filter (fun d => String.eqb (tag d) t) l.
Definition last_with (t : string) (i : option string) (l : list elem) : option elem :=
  fold_left (fun acc d => if String.eqb (tag d) t && id_eqb (id_of d) i then Some d else acc) l None.
Definition id_get x t i := match dget String.eqb (ids x) t with Some d => dget id_eqb d i | None => None end.

Record Inv x (done : list elem) : Prop := {
  i_counts : forall t, dget String.eqb (counts x) t =
     match with_tag t done with [] => None | l => Some l end;
  i_ids : forall t i, id_get x t i = last_with t i done;
  i_n : forall before e after, done = before ++ e :: after ->
     a_n (st x (uid e)) = Some (S (length (with_tag (tag e) before))) /\ a_aligns (st x (uid e)) = [] }.

Lemma id_eqb_spec a b : id_eqb a b = true <-> a = b.
Proof.
  destruct a, b; simpl; try (split; congruence). rewrite String.eqb_eq. split; congruence.
Qed.

Lemma upd_same (s : store char) u a : upd s u a u = a.
Proof. unfold upd. now rewrite Nat.eqb_refl. Qed.
Lemma upd_other (s : store char) u v a : v <> u -> upd s u a v = s v.
Proof. unfold upd. intros H. apply Nat.eqb_neq in H. now rewrite H. Qed.

Lemma with_tag_app t l1 l2 : with_tag t (l1 ++ l2) = with_tag t l1 ++ with_tag t l2.
Proof. apply filter_app. Qed.

Lemma register_inv x done e : ~ In (uid e) (map (@uid char) done) -> Inv x done -> Inv (register x e) (done ++ [e]).
Proof.
  intros F [IC II IN]. 
  assert (C : forall t, dget String.eqb (counts (register x e)) t =
    match with_tag t (done ++ [e]) with [] => None | l => Some l end).
  { intros t. rewrite with_tag_app. unfold register. cbn [counts].
    unfold with_tag at 2. cbn [filter]. pose proof (IC (tag e)) as ICe. rewrite ICe.
    destruct (String.eqb (tag e) t) eqn:E.
    - apply String.eqb_eq in E. subst t.
      destruct (with_tag (tag e) done) as [|y l] eqn:W.
      + rewrite (dget_dset_same String.eqb String.eqb_eq). reflexivity.
      + rewrite (dget_dset_same String.eqb String.eqb_eq). reflexivity.
    - apply String.eqb_neq in E. rewrite app_nil_r.
      destruct (with_tag (tag e) done); rewrite (dget_dset_other String.eqb String.eqb_eq); auto. }
  split; [exact C| |].
  - intros t i. unfold id_get, register. cbn [ids].
    unfold last_with. rewrite fold_left_app. fold (last_with t i done). cbn [fold_left].
    destruct (String.eqb (tag e) t) eqn:E; cbn [andb].
    + apply String.eqb_eq in E. subst t. specialize (II (tag e) i). unfold id_get in II.
      destruct (dget String.eqb (ids x) (tag e)) as [d|] eqn:D.
      * rewrite (dget_dset_same String.eqb String.eqb_eq).
        destruct (id_eqb (id_of e) i) eqn:EI.
        -- apply id_eqb_spec in EI. rewrite EI. now rewrite (dget_dset_same id_eqb id_eqb_spec).
        -- rewrite (dget_dset_other id_eqb id_eqb_spec); [exact II|].
           intros Q. rewrite <- id_eqb_spec in Q. congruence.
      * rewrite (dget_dset_same String.eqb String.eqb_eq). cbn [dget].
        destruct (id_eqb (id_of e) i) eqn:EI.
        -- apply id_eqb_spec in EI. subst i. replace (id_eqb (id_of e) (id_of e)) with true; [reflexivity|symmetry; now apply id_eqb_spec].
        -- destruct (id_eqb i (id_of e)) eqn:Q; [|exact II]. apply id_eqb_spec in Q. subst i.
           assert (id_eqb (id_of e) (id_of e) = true) by now apply id_eqb_spec. congruence.
    + apply String.eqb_neq in E. specialize (II t i). unfold id_get in II.
      destruct (dget String.eqb (ids x) (tag e)); rewrite (dget_dset_other String.eqb String.eqb_eq); auto.
  - intros before e' after Q.
    assert (CE := C (tag e)). unfold register in CE. cbn [counts] in CE.
    destruct after as [|z after _] using rev_ind.
    + apply app_inj_tail in Q. destruct Q as [-> ->]. unfold register. cbn [st]. rewrite upd_same. cbn [a_n a_aligns].
      split; [|reflexivity]. f_equal. rewrite CE. rewrite with_tag_app. unfold with_tag at 2. cbn [filter].
      rewrite String.eqb_refl.
      destruct (with_tag (tag e') before ++ [e']) eqn:W; [destruct (with_tag (tag e') before); discriminate|].
      rewrite <- W. rewrite app_length. cbn [length]. lia.
    + change (before ++ e' :: after ++ [z]) with (before ++ (e' :: after) ++ [z]) in Q.
      rewrite app_assoc in Q. apply app_inj_tail in Q. destruct Q as [-> ->].
      destruct (IN before e' after eq_refl) as [A B].
      unfold register. cbn [st]. rewrite upd_other; [now split|].
      intros Q. apply F. rewrite <- Q. rewrite map_app. apply in_app_iff. right. now left.
Qed.

Lemma set_ignore_inv x done u : Inv x done -> Inv (set_ignore x u) done.
Proof.
  intros [IC II IN]. split; [exact IC|exact II|].
  intros before e after Q. destruct (IN _ _ _ Q) as [A B]. unfold set_ignore. cbn [st].
  destruct (Nat.eq_dec (uid e) u) as [<-|NE]; [rewrite upd_same|rewrite upd_other by trivial]; now split.
Qed.
Lemma set_span_inv x done u b z : Inv x done -> Inv (set_span x u b z) done.
Proof.
  intros [IC II IN]. split; [exact IC|exact II|].
  intros before e after Q. destruct (IN _ _ _ Q) as [A B]. unfold set_span. cbn [st].
  destruct (Nat.eq_dec (uid e) u) as [<-|NE]; [rewrite upd_same|rewrite upd_other by trivial]; now split.
Qed.

Definition uids (l : list elem) := map (@uid char) l.

(** What indexing [es] (forest) does to state [x], with visible elements [vis] and text [t]
    starting at offset [start]. *)
Record Eff r (all vis : list elem) (start : nat) (t : list char) x x' : Prop := {
  f_frame : forall u, ~ In u (uids all) -> st x' u = st x u;
  f_span : forall d, In d vis -> exists pre post, t = pre ++ contents r d ++ post /\
      a_start (st x' (uid d)) = Some (start + length pre) /\
      a_end (st x' (uid d)) = Some (start + length pre + length (contents r d));
  f_hid : forall d, In d all -> ~ In (uid d) (uids vis) ->
      a_start (st x' (uid d)) = a_start (st x (uid d)) /\ a_end (st x' (uid d)) = a_end (st x (uid d)) /\
      a_ignore (st x' (uid d)) = match children d with [] => a_ignore (st x (uid d)) | _ => true end;
  f_vis : forall d, In d vis -> a_ignore (st x' (uid d)) = a_ignore (st x (uid d)) }.

Lemma visible_incl r : forall e d, In d (visible r e) -> In d (doc_order e).
Proof.
  induction e as [u tg i tx tl ch IH] using elem_ind2. intros d. cbn [visible doc_order].
  destruct (ignoredb _ _); [intros []|]. intros [->|H]; [now left|right].
  apply in_flat_map in H. destruct H as [c [Hc Hd]]. apply in_flat_map. exists c. split; [trivial|].
  rewrite Forall_forall in IH. now apply IH.
Qed.

Lemma uids_app l1 l2 : uids (l1 ++ l2) = uids l1 ++ uids l2.
Proof. apply map_app. Qed.

Lemma nodup_app_disj (A : Type) (l1 l2 : list A) : NoDup (l1 ++ l2) -> forall a, In a l1 -> In a l2 -> False.
Proof.
  induction l1 as [|b l1 IH]; simpl; [tauto|]. intros N a. inversion N; subst.
  intros [->|H] G2; [apply H1; apply in_app_iff; now right|eauto].
Qed.
Lemma nodup_app_l (A : Type) (l1 l2 : list A) : NoDup (l1 ++ l2) -> NoDup l1.
Proof. induction l1 as [|b l1 IH]; simpl; [constructor|]. intros N; inversion N; subst. constructor; auto. rewrite in_app_iff in H1. tauto. Qed.
Lemma nodup_app_r (A : Type) (l1 l2 : list A) : NoDup (l1 ++ l2) -> NoDup l2.
Proof. induction l1; simpl; auto. intros N; inversion N; auto. Qed.

Lemma in_uids d l : In d l -> In (uid d) (uids l).
Proof. apply in_map. Qed.

Lemma eff_nil r start t x : Eff r [] [] start t x x.
Proof. split; auto; intros ? []. Qed.

(** Two forests one after the other. *)
Lemma eff_app r all1 vis1 all2 vis2 start t1 t2 x1 x2 x3 :
  NoDup (uids (all1 ++ all2)) -> incl vis1 all1 -> incl vis2 all2 ->
  Eff r all1 vis1 start t1 x1 x2 -> Eff r all2 vis2 (start + length t1) t2 x2 x3 ->
  Eff r (all1 ++ all2) (vis1 ++ vis2) start (t1 ++ t2) x1 x3.
Proof.
  intros N I1 I2 [F1 S1 H1 V1] [F2 S2 H2 V2]. rewrite uids_app in N.
  assert (D : forall d, In d all1 -> ~ In (uid d) (uids all2)).
  { intros d Hd Hd'. exact (nodup_app_disj _ _ N _ (in_uids _ _ Hd) Hd'). }
  assert (D' : forall d, In d all2 -> ~ In (uid d) (uids all1)).
  { intros d Hd Hd'. exact (nodup_app_disj _ _ N _ Hd' (in_uids _ _ Hd)). }
  split.
  - intros u. rewrite uids_app, in_app_iff. intros Hu. rewrite F2, F1; tauto.
  - intros d Hd. apply in_app_iff in Hd. destruct Hd as [Hd|Hd].
    + destruct (S1 d Hd) as [pre [post [E [A B]]]]. rewrite F2 by (apply D, I1, Hd).
      exists pre, (post ++ t2). rewrite E, <- !app_assoc. auto.
    + destruct (S2 d Hd) as [pre [post [E [A B]]]]. exists (t1 ++ pre), post.
      rewrite E, <- !app_assoc, app_length. split; [reflexivity|].
      rewrite A, B. split; f_equal; lia.
  - intros d Hd NV. rewrite uids_app, in_app_iff in NV. apply in_app_iff in Hd. destruct Hd as [Hd|Hd].
    + rewrite !F2 by (now apply D). apply H1; tauto.
    + destruct (H2 d Hd) as [A [B C]]; [tauto|]. rewrite A, B, C. rewrite !F1 by (now apply D'). auto.
  - intros d Hd. apply in_app_iff in Hd. destruct Hd as [Hd|Hd].
    + rewrite F2 by (apply D, I1, Hd). auto.
    + rewrite V2 by trivial. rewrite F1 by (apply D', I2, Hd). auto.
Qed.

Lemma visible_ignored r e : ignoredb r e = true -> visible r e = [].
Proof. destruct e. cbn [visible]. now intros ->. Qed.

Definition P r e := forall start ign x done, NoDup (uids (done ++ doc_order e)) -> Inv x done ->
  let '(x', t) := index_elem r e start ign x in
  Inv x' (done ++ doc_order e) /\ t = (if ign then stripped (tail e) else contribution r e) /\
  Eff r (doc_order e) (if ign then [] else visible r e) start t x x'.

Lemma flat_map_cons' (A B : Type) (f : A -> list B) a l : flat_map f (a :: l) = f a ++ flat_map f l.
Proof. reflexivity. Qed.

Lemma incl_flat_visible r ch : incl (flat_map (visible r) ch) (flat_map (@doc_order char) ch).
Proof.
  intros d H. apply in_flat_map in H. destruct H as [c [A B]]. apply in_flat_map. exists c.
  split; [trivial|]. eapply visible_incl; eauto.
Qed.

Lemma vis_loop_ok r : forall ch, Forall (P r) ch -> forall start x text done,
  NoDup (uids (done ++ flat_map (@doc_order char) ch)) -> Inv x done ->
  let '(x', t) := vis_loop r start ch x text in
  Inv x' (done ++ flat_map (@doc_order char) ch) /\ t = text ++ flat_map (contribution r) ch /\
  Eff r (flat_map (@doc_order char) ch) (flat_map (visible r) ch) (start + length text) (flat_map (contribution r) ch) x x'.
Proof.
  induction 1 as [|c ch Pc Pch IH]; intros start x text done N I.
  - cbn [vis_loop flat_map]. rewrite !app_nil_r. split; [trivial|]. split; [trivial|]. apply eff_nil.
  - cbn [vis_loop]. rewrite !flat_map_cons' in *. rewrite app_assoc in N.
    assert (Nc : NoDup (uids (done ++ doc_order c))) by (rewrite uids_app in N; eapply nodup_app_l; exact N).
    specialize (Pc (start + length text) false x done Nc I).
    destruct (index_elem r c (start + length text) false x) as [x1 t1]. destruct Pc as [I1 [T1 E1]].
    specialize (IH start x1 (text ++ t1) (done ++ doc_order c) N I1).
    fold (vis_loop r start). destruct (vis_loop r start ch x1 (text ++ t1)) as [x2 t2].
    destruct IH as [I2 [T2 E2]]. rewrite <- app_assoc in I2. split; [exact I2|]. subst t1.
    split; [rewrite T2; now rewrite <- app_assoc|].
    eapply eff_app; [|intros d Hd; eapply visible_incl; exact Hd| |exact E1|].
    + rewrite <- app_assoc, uids_app in N. now apply nodup_app_r in N.
    + apply incl_flat_visible.
    + rewrite app_length in E2. replace (start + length text + length (contribution r c)) with (start + (length text + length (contribution r c))) by lia.
      exact E2.
Qed.

Lemma eff_upd_own r all vis start t x x' u s0 : ~ In u (uids all) ->
  (forall v, v <> u -> s0 v = st x v) ->
  Eff r all vis start t {| counts := counts x; ids := ids x; st := s0 |} x' -> incl vis all ->
  forall d, In d all -> st {| counts := counts x; ids := ids x; st := s0 |} (uid d) = st x (uid d).
Proof. intros H E _ _ d Hd. cbn. apply E. intros Q. apply H. rewrite <- Q. now apply in_uids. Qed.

(** Hidden children: only [u]'s own ignore flag changes besides them. *)
Lemma ign_loop_ok r u : forall ch, Forall (P r) ch -> forall x done,
  NoDup (uids (done ++ flat_map (@doc_order char) ch)) -> ~ In u (uids (flat_map (@doc_order char) ch)) -> Inv x done ->
  let x' := ign_loop r u ch x in
  Inv x' (done ++ flat_map (@doc_order char) ch) /\
  (forall v, v <> u -> ~ In v (uids (flat_map (@doc_order char) ch)) -> st x' v = st x v) /\
  (a_start (st x' u) = a_start (st x u) /\ a_end (st x' u) = a_end (st x u) /\
   a_ignore (st x' u) = match ch with [] => a_ignore (st x u) | _ => true end) /\
  (forall d, In d (flat_map (@doc_order char) ch) ->
      a_start (st x' (uid d)) = a_start (st x (uid d)) /\ a_end (st x' (uid d)) = a_end (st x (uid d)) /\
      a_ignore (st x' (uid d)) = match children d with [] => a_ignore (st x (uid d)) | _ => true end).
Proof.
  induction 1 as [|c ch Pc Pch IH]; intros x done N U I.
  - cbn [ign_loop flat_map]. cbn zeta. rewrite !app_nil_r. split; [trivial|]. split; [auto|].
    split; [auto|]. intros ? [].
  - cbn [ign_loop]. rewrite !flat_map_cons' in *. rewrite app_assoc in N. rewrite uids_app, in_app_iff in U.
    assert (Nc : NoDup (uids (done ++ doc_order c))) by (rewrite uids_app in N; eapply nodup_app_l; exact N).
    specialize (Pc 0 true (set_ignore x u) done Nc (set_ignore_inv u I)).
    destruct (index_elem r c 0 true (set_ignore x u)) as [x1 t1]. destruct Pc as [I1 [_ [F1 _ H1 _]]].
    cbn [fst]. specialize (IH x1 (done ++ doc_order c) N (fun Q => U (or_intror Q)) I1).
    fold (ign_loop r u). cbn zeta in IH. destruct IH as [I2 [F2 [UU D2]]]. cbn zeta.
    rewrite <- app_assoc in I2, N. rewrite uids_app in N. apply nodup_app_r in N. rewrite uids_app in N.
    assert (NU : forall v, v <> u -> st (set_ignore x u) v = st x v) by (intros; unfold set_ignore; cbn [st]; now rewrite upd_other).
    split; [exact I2|]. split; [|split].
    + intros v NV. rewrite uids_app, in_app_iff. intros Hv. rewrite F2, F1; auto.
    + destruct UU as [A [B C]]. rewrite A, B, C. rewrite F1 by tauto. unfold set_ignore. cbn [st]. rewrite upd_same. cbn.
      split; [auto|]. split; [auto|]. now destruct ch.
    + intros d Hd. apply in_app_iff in Hd.
      assert (du : uid d <> u). { intros Q. apply U. rewrite <- Q. destruct Hd as [Hd|Hd]; [left|right]; now apply in_uids. }
      destruct Hd as [Hd|Hd].
      * assert (~ In (uid d) (uids (flat_map (@doc_order char) ch))) by (intros Q; exact (nodup_app_disj _ _ N _ (in_uids _ _ Hd) Q)).
        rewrite !F2 by trivial. destruct (H1 d Hd) as [A [B C]]; [intros []|]. rewrite A, B, C. rewrite NU by trivial. auto.
      * assert (~ In (uid d) (uids (doc_order c))) by (intros Q; exact (nodup_app_disj _ _ N _ Q (in_uids _ _ Hd))).
        destruct (D2 d Hd) as [A [B C]]. rewrite A, B, C. rewrite !F1 by trivial. rewrite NU by trivial. auto.
Qed.

Lemma register_other x e v : v <> uid e -> st (register x e) v = st x v.
Proof. intros H. unfold register. cbn [st]. now rewrite upd_other. Qed.
Lemma register_same x e : a_start (st (register x e) (uid e)) = a_start (st x (uid e)) /\
  a_end (st (register x e) (uid e)) = a_end (st x (uid e)) /\ a_ignore (st (register x e) (uid e)) = a_ignore (st x (uid e)).
Proof. unfold register. cbn [st]. rewrite upd_same. auto. Qed.

Lemma index_ok r e : P r e.
Proof.
  induction e as [u tg i tx tl ch IH] using elem_ind2. intros start ign x done N I.
  rewrite index_elem_eq. cbn zeta. set (e := Elem u tg i tx tl ch) in *.
  assert (DO : doc_order e = e :: flat_map (@doc_order char) ch) by reflexivity.
  rewrite DO in *. change (done ++ e :: flat_map (@doc_order char) ch) with (done ++ [e] ++ flat_map (@doc_order char) ch) in N.
  rewrite app_assoc in N.
  assert (U : ~ In u (uids (flat_map (@doc_order char) ch))).
  { intros Q. rewrite uids_app in N. apply (nodup_app_disj _ _ N u); [|trivial].
    rewrite uids_app. apply in_app_iff. right. now left. }
  assert (F : ~ In u (uids done)).
  { intros Q. rewrite uids_app in N. apply nodup_app_l in N. rewrite uids_app in N.
    apply (nodup_app_disj _ _ N u); [trivial|now left]. }
  assert (IR := register_inv e F I).
  assert (REO : forall v, v <> u -> st (register x e) v = st x v) by (intros; now apply register_other).
  destruct (register_same x e) as [RA [RB RC]]. change (uid e) with u in RA, RB, RC.
  destruct (ign || ignoredb r e) eqn:G.
  - assert (VE : (if ign then [] else visible r e) = []).
    { destruct ign; [reflexivity|]. cbn [orb] in G. now apply visible_ignored. }
    assert (CE : stripped tl = (if ign then stripped (tail e) else contribution r e)).
    { destruct ign; [reflexivity|]. cbn [orb] in G. unfold e. cbn [Ielem_spec.contribution]. fold e. now rewrite G. }
    rewrite VE. destruct (ign_loop_ok u IH N U IR) as [I2 [F2 [[UA [UB UC]] D2]]].
    split; [now rewrite <- app_assoc in I2|]. split; [exact CE|]. split.
    + intros v Hv. assert (v <> u) by (intros ->; apply Hv; now left).
      assert (~ In v (uids (flat_map (@doc_order char) ch))) by (intros Q; apply Hv; now right). rewrite F2, REO; auto.
    + intros d [].
    + intros d Hd _. destruct Hd as [<-|Hd].
      * change (uid e) with u. rewrite UA, UB, UC, RA, RB, RC. auto.
      * destruct (D2 d Hd) as [A [B C]]. rewrite A, B, C. rewrite REO; auto. intros Q. apply U. rewrite <- Q. now apply in_uids.
    + intros d [].
  - apply orb_false_iff in G. destruct G as [-> G].
    assert (VE : visible r e = e :: flat_map (visible r) ch) by (unfold e; cbn [visible]; fold e; now rewrite G).
    rewrite VE. pose proof (vis_loop_ok IH start (stripped tx) N IR) as VL.
    destruct (vis_loop r start ch (register x e) (stripped tx)) as [x2 t2].
    destruct VL as [I2 [T2 [F2 S2 H2 V2]]]. 
    assert (CO : t2 = contents r e) by exact T2.
    split; [rewrite <- app_assoc in I2; now apply set_span_inv|].
    split. { unfold e. cbn [Ielem_spec.contribution]. fold e. rewrite G, T2, <- !app_assoc. reflexivity. }
    set (x3 := set_span x2 u start (start + length t2)).
    assert (O3 : forall v, v <> u -> st x3 v = st x2 v) by (intros; unfold x3, set_span; cbn [st]; now rewrite upd_other).
    assert (O3u : a_start (st x3 u) = Some start /\ a_end (st x3 u) = Some (start + length t2) /\ a_ignore (st x3 u) = a_ignore (st x2 u)).
    { unfold x3, set_span; cbn [st]. rewrite upd_same. auto. }
    destruct O3u as [OA [OB OC]].
    assert (NU : forall d, In d (flat_map (@doc_order char) ch) -> uid d <> u) by (intros d Hd Q; apply U; rewrite <- Q; now apply in_uids).
    split.
    + intros v Hv. assert (v <> u) by (intros ->; apply Hv; now left).
      assert (~ In v (uids (flat_map (@doc_order char) ch))) by (intros Q; apply Hv; now right). rewrite O3, F2, REO; auto.
    + intros d Hd. destruct Hd as [<-|Hd].
      * exists [], (separator nl r e ++ stripped tl). cbn [app length]. change (uid e) with u.
        rewrite OA, OB, CO, Nat.add_0_r. auto.
      * destruct (S2 d Hd) as [pre [post [E [A B]]]]. exists (stripped tx ++ pre), (post ++ separator nl r e ++ stripped tl).
        rewrite O3 by (apply NU; now apply (@incl_flat_visible r ch)). rewrite A, B, app_length.
        split; [rewrite T2, E, <- !app_assoc; reflexivity|]. split; f_equal; lia.
    + intros d Hd NV. cbn [uids map] in NV. destruct Hd as [<-|Hd]; [exfalso; apply NV; now left|].
      rewrite O3 by auto. destruct (H2 d Hd) as [A [B C]]; [intros Q; apply NV; now right|]. rewrite A, B, C. rewrite REO; auto.
    + intros d Hd. destruct Hd as [<-|Hd].
      * change (uid e) with u. rewrite OC, F2 by trivial. exact RC.
      * rewrite O3 by (apply NU; now apply (@incl_flat_visible r ch)). rewrite V2 by trivial. rewrite REO; auto.
        apply NU. now apply (@incl_flat_visible r ch).
Qed.

Lemma inv_nil s : Inv {| counts := []; ids := []; st := s |} [].
Proof. split; try reflexivity. intros [|? ?]; discriminate. Qed.

Lemma update_ok r root old x t : distinct root -> update space nl r root old = (x, t) ->
  Inv x (doc_order root) /\ t = contribution r root /\
  Eff r (doc_order root) (visible r root) 0 t {| counts := []; ids := []; st := old |} x.
Proof.
  intros D E. unfold update in E. pose proof (@index_ok r root 0 false {| counts := []; ids := []; st := old |} [] D (inv_nil old)) as H.
  rewrite E in H. exact H.
Qed.

Lemma slice_mid (A : Type) (a b c : list A) : slice (a ++ b ++ c) (length a) (length a + length b) = b.
Proof.
  unfold slice. rewrite skipn_app, skipn_all, Nat.sub_diag. cbn [app skipn].
  replace (length a + length b - length a) with (length b) by lia.
  rewrite firstn_app, Nat.sub_diag, firstn_all. cbn [firstn]. now rewrite app_nil_r.
Qed.

Lemma text_ok r root old x t e : distinct root -> update space nl r root old = (x, t) -> In e (visible r root) ->
  get_elem_text t (st x) (uid e) = contents r e.
Proof.
  intros D E V. destruct (update_ok r old D E) as [_ [_ [_ S _ _]]]. destruct (S e V) as [pre [post [T [A B]]]].
  unfold get_elem_text. rewrite A, B, T. cbn [plus]. apply slice_mid.
Qed.

Lemma distinct_in root e d : distinct root -> In e (doc_order root) -> In d (doc_order root) -> uid e = uid d -> e = d.
Proof.
  unfold distinct. induction (doc_order root) as [|y l IH]; [intros _ []|]. cbn [map]. intros N. inversion N; subst.
  intros [->|A] [->|B] Q; auto.
  - exfalso. apply H1. rewrite Q. now apply in_map.
  - exfalso. apply H1. rewrite <- Q. now apply in_map.
Qed.

Lemma n_ok r root old x t e k : distinct root -> update space nl r root old = (x, t) ->
  is_nth root e k -> a_n (st x (uid e)) = Some k /\ a_aligns (st x (uid e)) = [] /\
  exists l, dget String.eqb (counts x) (tag e) = Some l /\ nth_error l (k - 1) = Some e.
Proof.
  intros D E [before [after [Q ->]]]. destruct (update_ok r old D E) as [[IC _ IN] _].
  destruct (IN _ _ _ Q) as [A B]. split; [exact A|]. split; [exact B|].
  rewrite IC. rewrite Q, with_tag_app.
  assert (W : with_tag (tag e) (e :: after) = e :: with_tag (tag e) after) by (unfold with_tag; cbn [filter]; now rewrite String.eqb_refl).
  rewrite W. fold (with_tag (tag e) before).
  exists (with_tag (tag e) before ++ e :: with_tag (tag e) after).
  split. { destruct (with_tag (tag e) before ++ e :: with_tag (tag e) after) eqn:Z; [destruct (with_tag (tag e) before); discriminate|reflexivity]. }
  rewrite nth_error_app2.
  - replace (S (length (with_tag (tag e) before)) - 1 - length (with_tag (tag e) before)) with 0 by lia. reflexivity.
  - lia.
Qed.
End P.

Section Q.
Variable char : Type.
Variable space : char -> bool.
Variable nl : char.
Notation elem := (elem char).

Lemma last_with_spec (l : list elem) t i e : last_with t i l = Some e ->
  exists before after, l = before ++ e :: after /\ tag e = t /\ id_of e = i /\
    forall d, In d after -> ~ (tag d = t /\ id_of d = i).
Proof.
  induction l as [|y l IH] using rev_ind; [discriminate|]. unfold last_with. rewrite fold_left_app. cbn [fold_left].
  fold (last_with t i l). destruct (String.eqb (tag y) t && id_eqb (id_of y) i) eqn:E.
  - intros Q. injection Q as <-. apply andb_true_iff in E. destruct E as [A B].
    apply String.eqb_eq in A. apply id_eqb_spec in B. exists l, []. repeat split; auto; intros ? [].
  - intros Q. destruct (IH Q) as [b [a [-> [T [I N]]]]]. exists b, (a ++ [y]).
    split; [now rewrite <- app_assoc|]. repeat split; auto. intros d Hd [Q1 Q2]. apply in_app_iff in Hd.
    destruct Hd as [Hd|[<-|[]]]; [exact (N d Hd (conj Q1 Q2))|].
    apply andb_false_iff in E. apply String.eqb_eq in Q1. apply id_eqb_spec in Q2. destruct E; congruence.
Qed.
Lemma last_with_found (l : list elem) t i e : In e l -> tag e = t -> id_of e = i -> last_with t i l <> None.
Proof.
  induction l as [|y l IH] using rev_ind; [intros []|]. unfold last_with. rewrite fold_left_app. cbn [fold_left].
  fold (last_with t i l). intros H T I. destruct (String.eqb (tag y) t && id_eqb (id_of y) i) eqn:E; [discriminate|].
  apply in_app_iff in H. destruct H as [H|[<-|[]]]; [now apply IH|].
  apply andb_false_iff in E. apply String.eqb_eq in T. apply id_eqb_spec in I. destruct E; congruence.
Qed.

Lemma counts_ok r (root : elem) old x t tg : distinct root -> update space nl r root old = (x, t) ->
  match dget String.eqb (counts x) tg with Some l => l | None => [] end =
  filter (fun d => String.eqb (tag d) tg) (doc_order root).
Proof.
  intros D E. destruct (update_ok space nl r old D E) as [[IC _ _] _]. rewrite IC.
  unfold with_tag. now destruct (filter _ _).
Qed.

Lemma hidden_ok r (root : elem) old x t e : distinct root -> update space nl r root old = (x, t) ->
  In e (doc_order root) -> ~ In e (visible r root) ->
  a_start (st x (uid e)) = a_start (old (uid e)) /\ a_end (st x (uid e)) = a_end (old (uid e)) /\
  a_ignore (st x (uid e)) = match children e with [] => a_ignore (old (uid e)) | _ => true end.
Proof.
  intros D E I V. destruct (update_ok space nl r old D E) as [_ [_ [_ _ H _]]]. apply (H e I).
  intros Q. apply V. unfold uids in Q. apply in_map_iff in Q. destruct Q as [d [Q1 Q2]].
  rewrite (@distinct_in _ root e d D I (visible_incl r root d Q2)); auto.
Qed.
Lemma shown_ok r (root : elem) old x t e : distinct root -> update space nl r root old = (x, t) ->
  In e (visible r root) -> a_ignore (st x (uid e)) = a_ignore (old (uid e)).
Proof. intros D E I. destruct (update_ok space nl r old D E) as [_ [_ [_ _ _ V]]]. exact (V e I). Qed.
End Q.
