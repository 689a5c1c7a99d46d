From Coq Require Import String Reals Permutation Sorted Lra.
From Verif Require Import Py PyLemmas Ielem_spec Ielem_model Ielem_proof Hdoc_spec Hdoc_model Hdoc_proof Textal_spec Textal_model.
Set Implicit Arguments.
Open Scope nat_scope.

Lemma nd_l (A : Type) (l1 l2 : list A) : NoDup (l1 ++ l2) -> NoDup l1.
Proof. induction l1 as [|b l1 IH]; cbn [app]; intros N; [constructor|]. inversion N; subst. constructor; [rewrite in_app_iff in *; tauto|auto]. Qed.

Section Filters.
Variables S X : Type.
Variable lt : S -> S -> bool.
Hypothesis O : score_order lt.
Variable ns : X -> nat * nat.
Notation ge a b := (lt a b = false).

Lemma crosses_any_spec s t l : crosses_any s t l = true <-> exists p, In p l /\ cross p (s, t).
Proof.
  induction l as [|[i j] l IH]; cbn [crosses_any].
  - split; [discriminate|intros [p [[] _]]].
  - destruct ((i <? s) && (t <? j)) eqn:A; [|destruct ((s <? i) && (j <? t)) eqn:B].
    + split; [|trivial]. intros _. exists (i, j). split; [now left|]. left. cbn [fst snd].
      apply andb_true_iff in A. destruct A as [A1 A2]. apply Nat.ltb_lt in A1, A2. lia.
    + split; [|trivial]. intros _. exists (i, j). split; [now left|]. right. cbn [fst snd].
      apply andb_true_iff in B. destruct B as [A1 A2]. apply Nat.ltb_lt in A1, A2. lia.
    + rewrite IH. split; intros [p [I C]]; [exists p; split; [now right|trivial]|].
      destruct I as [<-|I]; [|now exists p]. exfalso.
      apply andb_false_iff in A, B. rewrite !Nat.ltb_ge in A, B. unfold cross in C. cbn [fst snd] in C. lia.
Qed.

Lemma cross_sym p q : cross p q -> cross q p.
Proof. unfold cross. lia. Qed.
Lemma cross_irr p : ~ cross p p.
Proof. unfold cross. lia. Qed.

Definition apart (f : list (S * X)) := forall a b, In a f -> In b f -> ~ cross (ns (snd a)) (ns (snd b)).

Lemma sorted_app (l1 l2 : list (S * X)) R : StronglySorted R (l1 ++ l2) ->
  StronglySorted R l2 /\ forall a b, In a l1 -> In b l2 -> R a b.
Proof.
  induction l1 as [|x l1 IH]; cbn [app]; intros H; [split; [trivial|intros ? ? []]|].
  inversion H; subst. destruct (IH H2) as [A B]. split; [trivial|]. intros a b [<-|Ia] Ib; [|auto].
  rewrite Forall_forall in H3. apply H3. apply in_app_iff. now right.
Qed.

Lemma loop_ok thr l f : StronglySorted (fun a b => ge (fst a) (fst b)) (f ++ l) -> apart f ->
  Forall (fun a => ge (fst a) thr) f ->
  let r := no_cross_loop lt ns thr l (map (fun a => ns (snd a)) f) f in
  StronglySorted (fun a b => ge (fst a) (fst b)) r /\ apart r /\ Forall (fun a => ge (fst a) thr) r /\
  incl r (f ++ l) /\ incl f r /\ (NoDup (f ++ l) -> NoDup r) /\
  forall x, In x l -> ge (fst x) thr -> In x r \/ exists y, In y r /\ cross (ns (snd y)) (ns (snd x)) /\ ge (fst y) (fst x).
Proof.
  revert f. induction l as [|[sc p] l IH]; intros f HS HA HT; cbn [no_cross_loop]; cbn zeta.
  - rewrite app_nil_r in *. repeat split; auto using incl_refl. intros x [].
  - destruct (lt sc thr) eqn:T.
    + assert (SF : StronglySorted (fun a b => ge (fst a) (fst b)) f).
      { clear - HS. induction f as [|x f IHf]; [constructor|]. cbn [app] in HS. inversion HS; subst. constructor; auto.
        rewrite Forall_forall in *. intros b Hb. apply H2. apply in_app_iff. now left. }
      split; [trivial|]. split; [trivial|]. split; [trivial|]. split; [intros a Ha; apply in_app_iff; now left|].
      split; [apply incl_refl|]. split; [apply nd_l|].
      intros x Hx Tx. exfalso. apply sorted_app in HS. destruct HS as [HS _]. inversion HS; subst.
      assert (G : ge sc (fst x)).
      { destruct Hx as [<-|Hx]; [cbn [fst]; destruct (lt sc sc) eqn:Q; [|reflexivity]; pose proof (lt_asym O _ _ Q); congruence|].
        rewrite Forall_forall in H2. apply (H2 x Hx). }
      rewrite (ge_trans O _ _ _ G Tx) in T. discriminate.
    + destruct (ns p) as [s t] eqn:N. destruct (crosses_any s t (map (fun a => ns (snd a)) f)) eqn:C.
      * assert (HS' : StronglySorted (fun a b => ge (fst a) (fst b)) (f ++ l)).
        { clear - HS. induction f as [|x f IHf]; cbn [app] in *; [now inversion HS|]. inversion HS; subst. constructor; auto.
          rewrite Forall_forall in *. intros b Hb. apply H2. rewrite in_app_iff in *. cbn [In]. tauto. }
        destruct (IH f HS' HA HT) as [R1 [R2 [R3 [R4 [R5 [R6 R7]]]]]].
        split; [trivial|]. split; [trivial|]. split; [trivial|].
        split; [intros a Ha; apply R4 in Ha; rewrite in_app_iff in *; cbn [In]; tauto|].
        split; [trivial|]. split; [intros ND; apply R6; now apply NoDup_remove_1 in ND|].
        intros x [<-|Hx] Tx; [|auto]. right. apply crosses_any_spec in C. destruct C as [q [Iq Cq]].
        apply in_map_iff in Iq. destruct Iq as [y [<- Iy]]. exists y. split; [now apply R5|]. cbn [snd]. rewrite N. split; [trivial|].
        apply sorted_app in HS. destruct HS as [_ HS]. apply (HS y (sc, p)); [trivial|now left].
      * replace (map (fun a => ns (snd a)) f ++ [(s, t)]) with (map (fun a => ns (snd a)) (f ++ [(sc, p)])) by (rewrite map_app; cbn [map snd]; now rewrite N).
        assert (NC : forall q, In q f -> ~ cross (ns (snd q)) (s, t)).
        { intros q Hq Cq. assert (crosses_any s t (map (fun a => ns (snd a)) f) = true); [|congruence].
          apply crosses_any_spec. eexists. split; [apply in_map; exact Hq|exact Cq]. }
        specialize (IH (f ++ [(sc, p)])). rewrite <- app_assoc in IH. cbn [app] in IH.
        destruct IH as [R1 [R2 [R3 [R4 [R5 [R6 R7]]]]]]; [trivial| | |].
        -- intros a b Ha Hb. apply in_app_iff in Ha, Hb. destruct Ha as [Ha|[<-|[]]], Hb as [Hb|[<-|[]]]; cbn [snd].
           ++ now apply HA.
           ++ rewrite N. now apply NC.
           ++ rewrite N. intros Q. apply cross_sym in Q. now apply (NC b).
           ++ apply cross_irr.
        -- apply Forall_app. split; [trivial|]. constructor; [exact T|constructor].
        -- split; [trivial|]. split; [trivial|]. split; [trivial|]. split; [trivial|].
           split; [intros a Ha; apply R5, in_app_iff; now left|]. split; [trivial|].
           intros x [<-|Hx] Tx; [left; apply R5, in_app_iff; right; now left|auto].
Qed.
End Filters.

Section Align.
Variable char : Type.
Notation elem := (elem char).
Notation index := (index char).
Variable S : Type.

Lemma in_elems_spec e (l : list elem) : in_elems e l = true <-> In (uid e) (uids l).
Proof.
  unfold in_elems, uids. rewrite existsb_exists, in_map_iff. split.
  - intros [d [I E]]. apply Nat.eqb_eq in E. exists d. auto.
  - intros [d [E I]]. exists d. split; [trivial|]. now apply Nat.eqb_eq.
Qed.

(** [fx'] has the alignments of [fx] and new ones satisfying [P]. *)
Definition same_but (a b : attrs char) := a_n a = a_n b /\ a_ignore a = a_ignore b /\ a_start a = a_start b /\ a_end a = a_end b.
Definition ext (P : nat -> elem -> Prop) (fx fx' : index) : Prop := forall u,
  same_but (st fx' u) (st fx u) /\
  exists new, a_aligns (st fx' u) = a_aligns (st fx u) ++ new /\ NoDup (uids new) /\
    (forall t, In t new -> P u t /\ ~ In (uid t) (uids (a_aligns (st fx u)))).

Lemma same_refl (a : attrs char) : same_but a a.
Proof. repeat split. Qed.
Lemma ext_refl P fx : ext P fx fx.
Proof. intros u. split; [apply same_refl|]. exists []. rewrite app_nil_r. split; [trivial|]. split; [constructor|intros ? []]. Qed.
Lemma uids_app' (l1 l2 : list elem) : uids (l1 ++ l2) = uids l1 ++ uids l2.
Proof. apply map_app. Qed.
Lemma nodup_app' (A : Type) (l1 l2 : list A) : NoDup l1 -> NoDup l2 -> (forall a, In a l1 -> In a l2 -> False) -> NoDup (l1 ++ l2).
Proof.
  induction l1 as [|a l1 IH]; intros N1 N2 D; cbn [app]; [trivial|]. inversion N1; subst. constructor.
  - rewrite in_app_iff. intros [H|H]; [contradiction|]. apply (D a); [now left|trivial].
  - apply IH; auto. intros b Hb. apply D. now right.
Qed.
Lemma ext_trans (P Q : nat -> elem -> Prop) a b c : ext P a b -> ext Q b c -> (forall u t, P u t -> Q u t) -> ext Q a c.
Proof.
  intros H1 H2 PQ u. destruct (H1 u) as [S1 [n1 [E1 [N1 T1]]]]. destruct (H2 u) as [S2 [n2 [E2 [N2 T2]]]].
  split. { unfold same_but in *. intuition congruence. }
  exists (n1 ++ n2). rewrite E2, E1, <- app_assoc. split; [trivial|]. rewrite uids_app'. rewrite E1, uids_app' in T2. split.
  - apply nodup_app'; auto. intros v I1 I2. unfold uids in I2. apply in_map_iff in I2. destruct I2 as [t [<- I2]].
    destruct (T2 t I2) as [_ X]. apply X, in_app_iff. now right.
  - intros t Ht. apply in_app_iff in Ht. destruct Ht as [Ht|Ht].
    + destruct (T1 t Ht). auto.
    + destruct (T2 t Ht) as [X Y]. split; [trivial|]. rewrite in_app_iff in Y. tauto.
Qed.
Lemma ext_mono (P Q : nat -> elem -> Prop) a b : ext P a b -> (forall u t, P u t -> Q u t) -> ext Q a b.
Proof. intros H PQ. eapply ext_trans; [exact H|apply ext_refl|trivial]. Qed.
Lemma ext_incl P a b u t : ext P a b -> In t (a_aligns (st a u)) -> In t (a_aligns (st b u)).
Proof. intros H I. destruct (H u) as [_ [n [-> _]]]. apply in_app_iff. now left. Qed.

Lemma create_ext fx (scores : list (S * (elem * elem))) :
  ext (fun u t => exists s x, In (x, (s, t)) scores /\ uid s = u) fx (create_alignments fx scores) /\
  forall x s t, In (x, (s, t)) scores -> In (uid t) (uids (a_aligns (st (create_alignments fx scores) (uid s)))).
Proof.
  unfold create_alignments. revert fx. induction scores as [|[x [s t]] l IH]; intros fx; cbn [fold_left].
  - split; [apply ext_refl|intros ? ? ? []].
  - cbn [snd]. set (fx1 := if in_elems t (a_aligns (st fx (uid s))) then fx else append_alignment fx s t).
    destruct (IH fx1) as [E C].
    assert (E1 : ext (fun u t' => t' = t /\ uid s = u) fx fx1 /\ In (uid t) (uids (a_aligns (st fx1 (uid s))))).
    { unfold fx1. destruct (in_elems t (a_aligns (st fx (uid s)))) eqn:I.
      - split; [apply ext_refl|now apply in_elems_spec].
      - split.
        + intros u. split.
          * unfold append_alignment. cbn [st]. unfold upd. destruct (u =? uid s) eqn:Q; [|apply same_refl].
            apply Nat.eqb_eq in Q. subst u. repeat split.
          * rewrite append_aligns. eexists. split; [reflexivity|]. destruct (uid s =? u) eqn:Q.
            -- split; [repeat constructor; intros []|]. intros t' [<-|[]]. apply Nat.eqb_eq in Q. split; [auto|].
               subst u. intros X. apply in_elems_spec in X. congruence.
            -- split; [constructor|intros ? []].
        + rewrite append_aligns, Nat.eqb_refl, uids_app'. apply in_app_iff. right. now left. }
    destruct E1 as [E1 I1]. split.
    + eapply ext_trans; [|eapply ext_mono; [exact E|]|].
      * eapply ext_mono; [exact E1|]. intros u t' [-> <-]. instantiate (1 := fun u t' => exists s0 x0, In (x0, (s0, t')) ((x, (s, t)) :: l) /\ uid s0 = u).
        exists s, x. split; [now left|trivial].
      * intros u t' [s0 [x0 [I U]]]. exists s0, x0. split; [now right|trivial].
      * auto.
    + intros x' s' t' [Q|I].
      * injection Q as <- <- <-. unfold uids in *. apply in_map_iff in I1. destruct I1 as [d [D1 D2]].
        apply in_map_iff. exists d. split; [trivial|]. eapply ext_incl; eauto.
      * eauto.
Qed.

Variables focus_source focus_target : string.
Variable sim_func : list elem -> list elem -> elem -> elem -> S.
Variable filter_func : list (S * (elem * elem)) -> list (S * (elem * elem)).
Hypothesis filter_incl : forall l, incl (filter_func l) l.
Notation align_within_scope := (align_within_scope focus_source focus_target sim_func filter_func).
Notation align_scopes := (align_scopes focus_source focus_target sim_func filter_func).

Lemma score_sim_in (ss ts : list elem) x s t : In (x, (s, t)) (score_sim sim_func ss ts) -> In s ss /\ In t ts.
Proof.
  unfold score_sim. intros H. apply in_flat_map in H. destruct H as [s0 [I H]]. apply in_map_iff in H.
  destruct H as [t0 [Q J]]. injection Q as _ <- <-. auto.
Qed.

(** A target chosen for a focus element within a scope. *)
Definition chosen (fx tx : index) (ss ts : elem) (s t : elem) : Prop :=
  exists x, In (x, (s, t)) (filter_func (score_sim sim_func (focus_elems fx ss focus_source) (focus_elems tx ts focus_target))).

Lemma within_ext fx tx ss ts :
  ext (fun u t => exists s, uid s = u /\ chosen fx tx ss ts s t) fx (align_within_scope fx tx ss ts) /\
  forall s t, chosen fx tx ss ts s t -> In (uid t) (uids (a_aligns (st (align_within_scope fx tx ss ts) (uid s)))).
Proof.
  unfold Textal_model.align_within_scope, chosen.
  set (so := focus_elems fx ss focus_source). set (ta := focus_elems tx ts focus_target).
  assert (G : forall A B : Prop, (so = [] \/ ta = [] -> A) -> (so <> [] -> ta <> [] -> A) -> A) by (destruct so, ta; intuition congruence).
  destruct so as [|s0 so'] eqn:EQ1; [|destruct ta as [|t0 ta'] eqn:EQ2].
  - split; [apply ext_refl|]. intros s t [x I]. apply filter_incl in I. destruct I.
  - split; [apply ext_refl|]. intros s t [x I]. apply filter_incl in I. apply score_sim_in in I. destruct I as [_ []].
  - destruct (create_ext fx (filter_func (score_sim sim_func (s0 :: so') (t0 :: ta')))) as [E C]. split.
    + eapply ext_mono; [exact E|]. intros u t [s [x [I U]]]. eauto.
    + intros s t [x I]. eauto.
Qed.

(** focus_elems only depends on the "_ignore" marks. *)
Lemma focus_same P fx fx' e t : ext P fx fx' -> focus_elems fx' e t = focus_elems fx e t.
Proof.
  intros H. unfold focus_elems. apply filter_ext. intros d. destruct (H (uid d)) as [[_ [-> _]] _]. reflexivity.
Qed.
Lemma chosen_same P fx fx' tx ss ts s t : ext P fx fx' -> chosen fx' tx ss ts s t <-> chosen fx tx ss ts s t.
Proof. intros H. unfold chosen. rewrite (focus_same _ _ H). reflexivity. Qed.

Variables scope_source scope_target : list string.
Variable from_root : elem.

(** Target [t] was chosen for the element [u] in some aligned scope. *)
Definition justified (fx tx : index) (u : nat) (t : elem) : Prop :=
  exists ss ts s, In ss (doc_order from_root) /\ In (tag ss) scope_source /\ In ts (a_aligns (st fx (uid ss))) /\
    In (tag ts) scope_target /\ uid s = u /\ chosen fx tx ss ts s t.

Lemma justified_mono P fx fx' tx u t : ext P fx fx' -> justified fx tx u t -> justified fx' tx u t.
Proof.
  intros E [ss [ts [s [A [B [C [D [F G]]]]]]]]. exists ss, ts, s. repeat split; auto.
  - eapply ext_incl; eauto.
  - now apply (chosen_same tx ss ts s t E).
Qed.

Lemma mem_In (t : string) l : mem String.eqb t l = true <-> In t l.
Proof. apply mem_spec. apply String.eqb_eq. Qed.

Definition targets_loop tx s := fold_left (fun fx t => if mem String.eqb (tag t) scope_target then align_within_scope fx tx s t else fx).

Lemma targets_loop_ext tx s l fx : In s (doc_order from_root) -> In (tag s) scope_source -> incl l (a_aligns (st fx (uid s))) ->
  ext (justified (targets_loop tx s l fx) tx) fx (targets_loop tx s l fx) /\
  forall ts a t, In ts l -> In (tag ts) scope_target -> chosen fx tx s ts a t ->
    In (uid t) (uids (a_aligns (st (targets_loop tx s l fx) (uid a)))).
Proof.
  intros Is Ts. revert fx. induction l as [|t l IH]; intros fx H; cbn [targets_loop fold_left].
  - split; [apply ext_refl|intros ? ? ? []].
  - fold (targets_loop tx s l). set (fx1 := if mem String.eqb (tag t) scope_target then align_within_scope fx tx s t else fx).
    assert (E1 : ext (justified fx1 tx) fx fx1 /\ (In (tag t) scope_target -> forall a t', chosen fx tx s t a t' -> In (uid t') (uids (a_aligns (st fx1 (uid a)))))).
    { unfold fx1. destruct (mem String.eqb (tag t) scope_target) eqn:M.
      - apply mem_In in M. destruct (within_ext fx tx s t) as [E C]. split; [|intros _; exact C].
        eapply ext_mono; [exact E|]. intros u t' [a [U CH]]. eapply justified_mono; [exact E|].
        exists s, t, a. repeat split; auto. apply H. now left.
      - split; [apply ext_refl|]. intros I. apply mem_In in I. congruence. }
    destruct E1 as [E1 C1].
    assert (H1 : incl l (a_aligns (st fx1 (uid s)))) by (intros d Hd; eapply ext_incl; [exact E1|]; apply H; now right).
    destruct (IH fx1 H1) as [E2 C2]. split.
    + eapply ext_trans; [exact E1|exact E2|]. intros u t' J. eapply justified_mono; [exact E2|trivial].
    + intros ts a t' [<-|I] T C.
      * specialize (C1 T a t' C). unfold uids in *. apply in_map_iff in C1. destruct C1 as [d [D1 D2]].
        apply in_map_iff. exists d. split; [trivial|]. eapply ext_incl; eauto.
      * apply (C2 ts); auto. now apply (chosen_same tx s ts a t' E1).
Qed.

Lemma scopes_ext tx fx : 
  let fx' := align_scopes fx tx from_root scope_source scope_target in
  ext (justified fx' tx) fx fx' /\
  forall ss ts s t, In ss (doc_order from_root) -> In (tag ss) scope_source -> In ts (a_aligns (st fx (uid ss))) ->
    In (tag ts) scope_target -> chosen fx tx ss ts s t -> In (uid t) (uids (a_aligns (st fx' (uid s)))).
Proof.
  cbn zeta. unfold Textal_model.align_scopes.
  change (fun (fx0 : index) (s : elem) => if mem String.eqb (tag s) scope_source then
     fold_left (fun (fx1 : index) (t : elem) => if mem String.eqb (tag t) scope_target then align_within_scope fx1 tx s t else fx1) (a_aligns (st fx0 (uid s))) fx0 else fx0)
   with (fun (fx0 : index) (s : elem) => if mem String.eqb (tag s) scope_source then targets_loop tx s (a_aligns (st fx0 (uid s))) fx0 else fx0).
  assert (G : forall E, incl E (doc_order from_root) -> forall fx,
    let fx' := fold_left (fun (fx0 : index) (s : elem) => if mem String.eqb (tag s) scope_source then targets_loop tx s (a_aligns (st fx0 (uid s))) fx0 else fx0) E fx in
    ext (justified fx' tx) fx fx' /\
    forall ss ts s t, In ss E -> In (tag ss) scope_source -> In ts (a_aligns (st fx (uid ss))) ->
    In (tag ts) scope_target -> chosen fx tx ss ts s t -> In (uid t) (uids (a_aligns (st fx' (uid s))))).
  { clear fx. induction E as [|s E IH]; intros I fx; cbn [fold_left]; cbn zeta.
    - split; [apply ext_refl|intros ? ? ? ? []].
    - set (fx1 := if mem String.eqb (tag s) scope_source then targets_loop tx s (a_aligns (st fx (uid s))) fx else fx).
      assert (E1 : ext (justified fx1 tx) fx fx1 /\ (In (tag s) scope_source -> forall ts a t, In ts (a_aligns (st fx (uid s))) -> In (tag ts) scope_target ->
        chosen fx tx s ts a t -> In (uid t) (uids (a_aligns (st fx1 (uid a)))))).
      { unfold fx1. destruct (mem String.eqb (tag s) scope_source) eqn:M.
        - apply mem_In in M. destruct (@targets_loop_ext tx s (a_aligns (st fx (uid s))) fx) as [E1 C1]; auto using incl_refl.
          apply I. now left.
        - split; [apply ext_refl|]. intros J. apply mem_In in J. congruence. }
      destruct E1 as [E1 C1]. destruct (IH (fun d Hd => I d (or_intror Hd)) fx1) as [E2 C2]. cbn zeta in E2, C2. split.
      + eapply ext_trans; [exact E1|exact E2|]. intros u t J. eapply justified_mono; [exact E2|trivial].
      + intros ss ts a t [<-|J] T1 It T2 C.
        * specialize (C1 T1 ts a t It T2 C). unfold uids in *. apply in_map_iff in C1. destruct C1 as [d [D1 D2]].
          apply in_map_iff. exists d. split; [trivial|]. eapply ext_incl; eauto.
        * apply (C2 ss ts); auto; [eapply ext_incl; eauto|]. now apply (chosen_same tx ss ts a t E1). }
  apply G. apply incl_refl.
Qed.
End Align.

Lemma flat_map_ext_in' (A B : Type) (f g : A -> list B) l : (forall a, In a l -> f a = g a) -> flat_map f l = flat_map g l.
Proof. induction l as [|a l IH]; intros H; [reflexivity|]. cbn [flat_map]. rewrite (H a) by now left. f_equal. apply IH. intros; apply H; now right. Qed.
Lemma filter_and (A : Type) (f g : A -> bool) l : filter f (filter g l) = filter (fun a => g a && f a) l.
Proof. induction l as [|a l IH]; [reflexivity|]. cbn [filter]. destruct (g a); cbn [filter andb]; [|trivial]. destruct (f a); [now f_equal|trivial]. Qed.

Section Corpus.
Variable char : Type.
Notation elem := (elem char).
Notation index := (index char).
Variable S : Type.
Variable space : char -> bool.
Variable nl : char.

Lemma same_trans (a b c : attrs char) : same_but a b -> same_but b c -> same_but a c.
Proof. unfold same_but. intuition congruence. Qed.
Lemma apply_same pairs (t : index * index) u :
  same_but (st (fst (apply_pairs pairs t)) u) (st (fst t) u) /\ same_but (st (snd (apply_pairs pairs t)) u) (st (snd t) u).
Proof.
  assert (A : forall (x : index) e o v, same_but (st (append_alignment x e o) v) (st x v)).
  { intros x e o v. unfold append_alignment. cbn [st]. unfold upd. destruct (v =? uid e) eqn:Q; [|repeat split].
    apply Nat.eqb_eq in Q. subst v. repeat split. }
  revert t. induction pairs as [|p pairs IH]; intros t; cbn [apply_pairs fold_left]; [repeat split|].
  fold (@apply_pairs char). destruct (IH (append2 t p)) as [B C]. change (fst (append2 t p)) with (append_alignment (fst t) (fst p) (snd p)) in B.
  change (snd (append2 t p)) with (append_alignment (snd t) (snd p) (fst p)) in C.
  pose proof (A (fst t) (fst p) (snd p) u) as A1. pose proof (A (snd t) (snd p) (fst p) u) as A2.
  split; eapply same_trans; eauto.
Qed.

Lemma doc_order_inside (root e d : elem) : In e (doc_order root) -> In d (inside e) -> In d (doc_order root).
Proof.
  revert e d. induction root as [u tg i tx tl ch IH] using elem_ind2. intros e d. cbn [doc_order].
  intros [<-|I] J; [right; exact J|right]. apply in_flat_map in I. destruct I as [c [Ic Ie]].
  apply in_flat_map. exists c. split; [trivial|]. rewrite Forall_forall in IH. now apply (IH c Ic e).
Qed.

Variables focus_source focus_target : string.
Variable sim_func : list elem -> list elem -> elem -> elem -> S.
Variable filter_func : list (S * (elem * elem)) -> list (S * (elem * elem)).
Hypothesis filter_incl : forall l, incl (filter_func l) l.
Notation align_within_scope := (align_within_scope focus_source focus_target sim_func filter_func).
Notation align_scopes := (align_scopes focus_source focus_target sim_func filter_func).
Variables fr tr : elem.

Definition allin (fx : index) := forall u t, In t (a_aligns (st fx u)) -> In t (doc_order tr).
Lemma within_allin fx tx ss ts : In ts (doc_order tr) -> allin fx -> allin (align_within_scope fx tx ss ts).
Proof.
  intros I H u t J. destruct (within_ext focus_source focus_target sim_func _ filter_incl fx tx ss ts) as [E _].
  destruct (E u) as [_ [new [Q [_ N]]]]. rewrite Q in J. apply in_app_iff in J. destruct J as [J|J]; [eauto|].
  destruct (N t J) as [[s [_ [x C]]] _]. apply filter_incl in C. apply score_sim_in in C. destruct C as [_ C].
  unfold focus_elems, findall in C. apply filter_In in C. destruct C as [C _]. apply filter_In in C. destruct C as [C _].
  eapply doc_order_inside; eauto.
Qed.
Lemma scopes_allin tx fx s1 s2 : allin fx -> allin (align_scopes fx tx fr s1 s2).
Proof.
  unfold Textal_model.align_scopes. revert fx. induction (doc_order fr) as [|s E IH]; intros fx H; cbn [fold_left]; [trivial|].
  apply IH. destruct (mem String.eqb (tag s) s1); [|trivial].
  assert (L : forall t, In t (a_aligns (st fx (uid s))) -> In t (doc_order tr)) by (intros; eauto).
  revert H L. generalize (a_aligns (st fx (uid s))) as l. intros l. revert fx. induction l as [|t l IHl]; intros fx H L; cbn [fold_left]; [trivial|].
  apply IHl; [|intros; apply L; now right]. destruct (mem String.eqb (tag t) s2); [|trivial].
  apply within_allin; [apply L; now left|trivial].
Qed.

(** _ignore in a freshly updated tree *)
Lemma fresh_ignore r root x doc (e : elem) : distinct root -> update space nl r root (fun _ => no_attrs _) = (x, doc) ->
  In e (doc_order root) -> (a_ignore (st x (uid e)) = false <-> In e (visible r root) \/ children e = []).
Proof.
  intros D U I.
  assert (V : In e (visible r root) \/ ~ In e (visible r root)).
  { destruct (in_dec Nat.eq_dec (uid e) (uids (visible r root))) as [J|J].
    - left. unfold uids in J. apply in_map_iff in J. destruct J as [d [Q J]].
      rewrite (@distinct_in _ root e d D I (visible_incl r root d J)); auto.
    - right. intros K. apply J. now apply in_map. }
  destruct V as [V|V].
  - rewrite (shown_ok space nl r _ e D U V). cbn. tauto.
  - destruct (hidden_ok space nl r _ e D U I V) as [_ [_ C]]. rewrite C. destruct (children e); cbn; [tauto|].
    split; [discriminate|]. intros [K|K]; [contradiction|discriminate].
Qed.
Lemma fresh_aligns r root x doc u : distinct root -> update space nl r root (fun _ => no_attrs _) = (x, doc) ->
  a_aligns (st x u) = [].
Proof.
  intros D U. destruct (in_dec Nat.eq_dec u (uids (doc_order root))) as [J|J].
  - unfold uids in J. apply in_map_iff in J. destruct J as [e [<- I]].
    assert (UP : updated space nl root x) by (eexists _, _, _; exact U).
    destruct (updated_tabs D UP) as [_ [_ [_ Z]]]. now apply Z.
  - destruct (update_ok space nl r _ D U) as [_ [_ [F _ _ _]]]. now rewrite F.
Qed.

(** Everything about one run. *)
Lemma align_corpus_ok links pairs (clear : bool) ig_s ig_t (scope : option (list string * list string)) :
  distinct fr -> distinct tr ->
  Forall2 (connects (@named_n char) fr tr) (if clear then clear_alignments links focus_source focus_target else links) pairs ->
  let s1 := match scope with Some (s, _) => s | None => [tag fr] end in
  let s2 := match scope with Some (_, t) => t | None => [tag tr] end in
  let rs := {| ignore := ig_s; newline := []; blankline := [] |} in
  let rt := {| ignore := ig_t; newline := []; blankline := [] |} in
  let base (e : elem) := match scope with None => if uid e =? uid fr then [tr] else targets pairs e | Some _ => targets pairs e end in
  exists out opairs, align_corpus space nl focus_source focus_target sim_func filter_func links fr tr clear ig_s ig_t scope = Ok out /\
    Forall2 (connects (@named_n char) fr tr) out opairs /\ grouped fr opairs = opairs /\
    (forall p, In p opairs -> In (fst p) (doc_order fr) /\ In (snd p) (doc_order tr)) /\
    (forall e, In e (doc_order fr) -> exists new, targets opairs e = base e ++ new /\ NoDup (map (@uid char) new) /\
       forall t, In t new -> ~ In t (base e) /\ exists ss ts, In ss (doc_order fr) /\ In (tag ss) s1 /\ In ts (targets opairs ss) /\ In (tag ts) s2 /\
         In e (inside ss) /\ tag e = focus_source /\ (In e (visible rs fr) \/ children e = []) /\
         In t (inside ts) /\ tag t = focus_target /\ (In t (visible rt tr) \/ children t = [])) /\
    (forall sel1 sel2 ss ts x s t,
       (forall e, In e (doc_order fr) -> sel1 e = true <-> tag e = focus_source /\ (In e (visible rs fr) \/ children e = [])) ->
       (forall e, In e (doc_order tr) -> sel2 e = true <-> tag e = focus_target /\ (In e (visible rt tr) \/ children e = [])) ->
       In ss (doc_order fr) -> In (tag ss) s1 -> In ts (base ss) -> In (tag ts) s2 ->
       In (x, (s, t)) (filter_func (score_sim sim_func (filter sel1 (inside ss)) (filter sel2 (inside ts)))) ->
       In t (targets opairs s)).
Proof.
  intros D1 D2 F. cbn zeta.
  set (s1 := match scope with Some (s, _) => s | None => [tag fr] end).
  set (s2 := match scope with Some (_, t) => t | None => [tag tr] end).
  set (rs := {| ignore := ig_s; newline := []; blankline := [] |}).
  set (rt := {| ignore := ig_t; newline := []; blankline := [] |}).
  unfold align_corpus. fold rs rt. set (links' := if clear then clear_alignments links focus_source focus_target else links) in *.
  destruct (update space nl rs fr (fun _ => no_attrs _)) as [fx0 docf] eqn:U1. destruct (update space nl rt tr (fun _ => no_attrs _)) as [tx0 doct] eqn:U2.
  cbn [fst].
  assert (UP1 : updated space nl fr fx0) by (eexists _, _, _; exact U1).
  assert (UP2 : updated space nl tr tx0) by (eexists _, _, _; exact U2).
  destruct (updated_tabs D1 UP1) as [T1 _]. destruct (updated_tabs D2 UP2) as [T2 _].
  rewrite (inject_n_ok T1 T2 F). cbn [bind].
  assert (PIN : forall p, In p pairs -> In (fst p) (doc_order fr) /\ In (snd p) (doc_order tr)).
  { intros p Hp. destruct (f2_in_r _ F Hp) as [l [_ [C1 C2]]]. split; [apply (named_n_in C1)|apply (named_n_in C2)]. }
  pose proof (apply_aligns pairs (fx0, tx0)) as AL. pose proof (apply_same pairs (fx0, tx0)) as AS.
  destruct (apply_pairs pairs (fx0, tx0)) as [fx1 tx1]. cbn [fst snd] in AL, AS.
  set (base := fun e : elem => match scope with None => if uid e =? uid fr then [tr] else targets pairs e | Some _ => targets pairs e end).
  set (fx2 := match scope with Some _ => fx1 | None => set_alignments fx1 fr [tr] end).
  assert (R : (let '(fx, scope_source, scope_target) :=
     match scope with Some (s, t) => (fx1, s, t) | None => (set_alignments fx1 fr [tr], [tag fr], [tag tr]) end in
     Ok (extract_n fr (align_scopes fx tx1 fr scope_source scope_target) tx1 links')) =
     Ok (extract_n fr (align_scopes fx2 tx1 fr s1 s2) tx1 links')).
  { unfold fx2, s1, s2. destruct scope as [[? ?]|]; reflexivity. }
  rewrite R. clear R.
  assert (SB2 : forall u, same_but (st fx2 u) (st fx0 u)).
  { intros u. destruct (AS u) as [A _]. unfold fx2. destruct scope; [trivial|]. unfold set_alignments. cbn [st]. unfold upd.
    destruct (u =? uid fr) eqn:Q; [|trivial]. apply Nat.eqb_eq in Q. subst u. exact A. }
  assert (B2 : forall e, a_aligns (st fx2 (uid e)) = base e).
  { intros e. destruct (AL (uid e)) as [A _]. rewrite (fresh_aligns _ _ D1 U1) in A. cbn [app] in A.
    unfold fx2, base. destruct scope; [exact A|]. unfold set_alignments. cbn [st]. unfold upd.
    destruct (uid e =? uid fr); [reflexivity|exact A]. }
  assert (TRin : In tr (doc_order tr)) by (destruct tr; now left).
  assert (AI2 : allin fx2).
  { intros u t H.
    assert (G : In t (map snd (filter (fun p => uid (fst p) =? u) pairs)) -> In t (doc_order tr)).
    { intros J. apply in_map_iff in J. destruct J as [p [<- J]]. apply filter_In in J. apply PIN. tauto. }
    destruct (AL u) as [A _]. rewrite (fresh_aligns _ _ D1 U1) in A. cbn [app] in A.
    unfold fx2 in H. destruct scope; [rewrite A in H; auto|]. unfold set_alignments in H. cbn [st] in H. unfold upd in H.
    destruct (u =? uid fr); [destruct H as [<-|[]]; trivial|]. rewrite A in H. auto. }
  destruct (@scopes_ext char S focus_source focus_target sim_func filter_func filter_incl s1 s2 fr tx1 fx2) as [E C]. cbn zeta in E, C.
  pose proof (@scopes_allin tx1 fx2 s1 s2 AI2) as AI3.
  set (fx3 := align_scopes fx2 tx1 fr s1 s2) in *.
  exists (extract_n fr fx3 tx1 links'), (stored_pairs fr fx3). split; [reflexivity|].
  assert (SP : forall p, In p (stored_pairs fr fx3) -> In (fst p) (doc_order fr) /\ In (snd p) (doc_order tr)).
  { intros p Hp. destruct (stored_in _ _ _ Hp) as [A B]. split; [trivial|]. eapply AI3. exact B. }
  assert (TG : forall e, In e (doc_order fr) -> targets (stored_pairs fr fx3) e = a_aligns (st fx3 (uid e))).
  { intros e I. unfold targets. now apply stored_targets. }
  assert (IG1 : forall e, In e (doc_order fr) -> (a_ignore (st fx2 (uid e)) = false <-> In e (visible rs fr) \/ children e = [])).
  { intros e I. destruct (SB2 (uid e)) as [_ [-> _]]. eapply fresh_ignore; eauto. }
  assert (IG2 : forall e, In e (doc_order tr) -> (a_ignore (st tx1 (uid e)) = false <-> In e (visible rt tr) \/ children e = [])).
  { intros e I. destruct (AS (uid e)) as [_ [_ [-> _]]]. eapply fresh_ignore; eauto. }
  split; [|split; [|split; [exact SP|split]]].
  - rewrite extract_n_eq. apply f2_map. intros p Hp. destruct (SP p Hp).
    eapply mk_n_connects; [exact D1|exact D2|exact UP1|exact UP2| | |trivial|trivial].
    + intros e _. destruct (E (uid e)) as [[-> _] _]. now destruct (SB2 (uid e)).
    + intros e _. now destruct (AS (uid e)) as [_ [-> _]].
  - unfold grouped, stored_pairs. apply flat_map_ext_in' with (f := fun e => filter (fun p : elem * elem => uid (fst p) =? uid e) (stored_pairs fr fx3)).
    intros e I. transitivity (map (fun t => (e, t)) (targets (stored_pairs fr fx3) e)); [|now rewrite TG].
    unfold targets. rewrite map_map. rewrite <- map_id at 1. apply map_ext_in. intros [f t] J. apply filter_In in J. destruct J as [J Q].
    apply Nat.eqb_eq in Q. cbn [fst snd] in *. f_equal. apply (@distinct_in _ fr); auto. apply (SP _ J).
  - intros e I. destruct (E (uid e)) as [_ [new [Q [N P]]]]. exists new. rewrite TG by trivial. rewrite Q, B2.
    split; [reflexivity|]. split; [exact N|]. intros t Ht. destruct (P t Ht) as [J NI]. split.
    + intros X. apply NI. rewrite B2. now apply in_map.
    + destruct J as [ss [ts [s [A1 [A2 [A3 [A4 [A5 [x A6]]]]]]]]].
      apply filter_incl in A6. apply score_sim_in in A6. destruct A6 as [A6 A7].
      unfold focus_elems, findall in A6, A7. rewrite !filter_In in A6, A7. fold (inside ss) in A6. fold (inside ts) in A7.
      destruct A6 as [[A6 A6t] A6i], A7 as [[A7 A7t] A7i]. apply String.eqb_eq in A6t, A7t. apply negb_true_iff in A6i, A7i.
      assert (Is : In s (doc_order fr)) by (eapply doc_order_inside; eauto).
      assert (Its : In ts (doc_order tr)) by (eapply AI3; eauto).
      assert (It : In t (doc_order tr)) by (eapply doc_order_inside; eauto).
      assert (s = e) by (apply (@distinct_in _ fr); auto). subst s.
      exists ss, ts. rewrite TG by trivial. repeat split; auto.
      * apply IG1; [trivial|]. destruct (E (uid e)) as [[_ [K _]] _]. now rewrite <- K.
      * now apply IG2.
  - intros sel1 sel2 ss ts x s t H1 H2 Iss T Its T' X.
    assert (F1 : focus_elems fx2 ss focus_source = filter sel1 (inside ss)).
    { unfold focus_elems, findall. fold (inside ss). rewrite filter_and. apply filter_ext_in. intros e Ie.
      assert (In e (doc_order fr)) as J by (eapply doc_order_inside; eauto). specialize (H1 e J). specialize (IG1 e J).
      destruct (sel1 e) eqn:Q.
      - destruct H1 as [H1 _]. destruct (H1 eq_refl) as [K1 K2]. apply IG1 in K2. rewrite K1, String.eqb_refl, K2. reflexivity.
      - destruct (String.eqb (tag e) focus_source) eqn:Z; [|reflexivity]. apply String.eqb_eq in Z.
        destruct (a_ignore (st fx2 (uid e))) eqn:Y; [reflexivity|]. assert (false = true); [|discriminate]. apply H1. split; [trivial|now apply IG1]. }
    assert (Its' : In ts (doc_order tr)) by (apply (AI2 (uid ss)); now rewrite B2).
    assert (F2 : focus_elems tx1 ts focus_target = filter sel2 (inside ts)).
    { unfold focus_elems, findall. fold (inside ts). rewrite filter_and. apply filter_ext_in. intros e Ie.
      assert (In e (doc_order tr)) as J by (eapply doc_order_inside; eauto). specialize (H2 e J). specialize (IG2 e J).
      destruct (sel2 e) eqn:Q.
      - destruct H2 as [H2 _]. destruct (H2 eq_refl) as [K1 K2]. apply IG2 in K2. rewrite K1, String.eqb_refl, K2. reflexivity.
      - destruct (String.eqb (tag e) focus_target) eqn:Z; [|reflexivity]. apply String.eqb_eq in Z.
        destruct (a_ignore (st tx1 (uid e))) eqn:Y; [reflexivity|]. assert (false = true); [|discriminate]. apply H2. split; [trivial|now apply IG2]. }
    assert (CH : chosen focus_source focus_target sim_func filter_func fx2 tx1 ss ts s t) by (exists x; now rewrite F1, F2).
    assert (Its2 : In ts (a_aligns (st fx2 (uid ss)))) by (rewrite B2; exact Its). specialize (C ss ts s t Iss T Its2 T' CH).
    apply filter_incl in X. apply score_sim_in in X. destruct X as [X1 X2]. apply filter_In in X1, X2.
    assert (Is : In s (doc_order fr)) by (eapply doc_order_inside; [exact Iss|tauto]).
    assert (It : In t (doc_order tr)) by (eapply doc_order_inside; [exact Its'|tauto]).
    rewrite TG by trivial. unfold uids in C. apply in_map_iff in C. destruct C as [d [Q J]].
    rewrite <- (@distinct_in _ tr d t D2 (AI3 _ _ J) It Q). trivial.
Qed.
End Corpus.

Section Cosine.
Open Scope R_scope.
Lemma fold_left_plus l a : fold_left Rplus l a = a + fold_right Rplus 0 l.
Proof. revert a. induction l as [|x l IH]; intros a; cbn [fold_left fold_right]; [ring|]. rewrite IH. ring. Qed.
Lemma cosine_eq a b : weighted_cosine_sim a b =
  if Req_EM_T (sqrt (square_length a * square_length b)) 0 then 0 else dot a b / sqrt (square_length a * square_length b).
Proof.
  unfold weighted_cosine_sim, dot, square_length. rewrite !fold_left_plus, !Rplus_0_l.
  assert (E : forall l, map (fun w => w ^ 2) l = map (fun x => x * x) l) by (intros l; apply map_ext; intros; ring).
  rewrite !E. reflexivity.
Qed.
Lemma sl_cons x a : square_length (x :: a) = x * x + square_length a.
Proof. reflexivity. Qed.
Lemma sl_nonneg a : 0 <= square_length a.
Proof. induction a as [|x a IH]; [apply Rle_refl|]. rewrite sl_cons. nra. Qed.
Lemma dot_sym a b : dot a b = dot b a.
Proof.
  revert b. unfold dot. induction a as [|x a IH]; intros [|y b]; cbn [combine map fold_right]; try reflexivity.
  rewrite IH. cbn [fst snd]. ring.
Qed.
Lemma dot_cons x a y b : dot (x :: a) (y :: b) = x * y + dot a b.
Proof. reflexivity. Qed.
Lemma cauchy a b : dot a b * dot a b <= square_length a * square_length b.
Proof.
  revert b. induction a as [|x a IH]; intros [|y b].
  - unfold dot, square_length. cbn. lra.
  - unfold dot, square_length. cbn. lra.
  - unfold dot, square_length. cbn. rewrite Rmult_0_l, Rmult_0_r. apply Rle_refl.
  - rewrite dot_cons, !sl_cons. specialize (IH b).
    assert (HA := sl_nonneg a). assert (HB := sl_nonneg b).
    set (A := square_length a) in *. set (B := square_length b) in *. set (D := dot a b) in *.
    assert (NN : 0 <= x * x * B + y * y * A).
    { pose proof (Rle_0_sqr x). pose proof (Rle_0_sqr y). unfold Rsqr in *. apply Rplus_le_le_0_compat; now apply Rmult_le_pos. }
    assert (K : 2 * (x * y) * D <= x * x * B + y * y * A).
    { destruct (Rle_dec 0 ((x * y) * D)) as [P|P].
      - assert (Q : (2 * (x * y) * D) * (2 * (x * y) * D) <= (x * x * B + y * y * A) * (x * x * B + y * y * A)).
        { replace ((2 * (x * y) * D) * (2 * (x * y) * D)) with (4 * ((x * y) * (x * y)) * (D * D)) by ring.
          apply Rle_trans with (4 * ((x * y) * (x * y)) * (A * B)).
          - apply Rmult_le_compat_l; [|exact IH]. pose proof (Rle_0_sqr (x * y)). unfold Rsqr in *. lra.
          - pose proof (Rle_0_sqr (x * x * B - y * y * A)) as Z. unfold Rsqr in Z.
            assert (Z2 : (x * x * B - y * y * A) * (x * x * B - y * y * A) = (x * x * B + y * y * A) * (x * x * B + y * y * A) - 4 * (x * y * (x * y)) * (A * B)) by ring.
            lra. }
        apply Rsqr_incr_0_var; [exact Q|exact NN].
      - lra. }
    nra.
Qed.
Lemma cosine_abs a b : -1 <= weighted_cosine_sim a b <= 1.
Proof.
  rewrite cosine_eq. destruct Req_EM_T as [E|E]; [lra|].
  set (s := sqrt (square_length a * square_length b)) in *.
  assert (H0 : 0 <= square_length a * square_length b) by (apply Rmult_le_pos; apply sl_nonneg).
  assert (S0 : 0 < s) by (destruct (sqrt_pos (square_length a * square_length b)); [trivial|unfold s in E; lra]).
  assert (SS : s * s = square_length a * square_length b) by (apply sqrt_sqrt; trivial).
  pose proof (cauchy a b) as C. rewrite <- SS in C.
  assert (-s <= dot a b <= s) by (split; nra).
  split.
  - apply Rmult_le_reg_r with s; [trivial|]. unfold Rdiv. rewrite Rmult_assoc, Rinv_l by trivial. lra.
  - apply Rmult_le_reg_r with s; [trivial|]. unfold Rdiv. rewrite Rmult_assoc, Rinv_l by trivial. lra.
Qed.
Lemma dot_nonneg a b : Forall (fun x => 0 <= x) a -> Forall (fun x => 0 <= x) b -> 0 <= dot a b.
Proof.
  intros Ha. revert b. induction Ha as [|x a Hx Ha IH]; intros b Hb; [destruct b; apply Rle_refl|].
  destruct Hb as [|y b Hy Hb]; [apply Rle_refl|]. rewrite dot_cons. specialize (IH b Hb). nra.
Qed.
Lemma cosine_nonneg a b : Forall (fun x => 0 <= x) a -> Forall (fun x => 0 <= x) b -> 0 <= weighted_cosine_sim a b.
Proof.
  intros Ha Hb. rewrite cosine_eq. destruct Req_EM_T as [E|E]; [apply Rle_refl|].
  apply Rmult_le_pos; [now apply dot_nonneg|]. left. apply Rinv_0_lt_compat.
  destruct (sqrt_pos (square_length a * square_length b)); [trivial|congruence].
Qed.
Lemma cosine_sym a b : weighted_cosine_sim a b = weighted_cosine_sim b a.
Proof. rewrite !cosine_eq, dot_sym, (Rmult_comm (square_length a)). reflexivity. Qed.
Lemma dot_self a : dot a a = square_length a.
Proof. induction a as [|x a IH]; [reflexivity|]. now rewrite dot_cons, sl_cons, IH. Qed.
Lemma sl_zero a : square_length a = 0 <-> Forall (fun x => x = 0) a.
Proof.
  induction a as [|x a IH]; [split; [constructor|reflexivity]|]. rewrite sl_cons. pose proof (sl_nonneg a). split.
  - intros E. assert (x = 0) by nra. assert (square_length a = 0) by nra. constructor; [trivial|tauto].
  - intros F. inversion F; subst. rewrite (proj2 IH H3). ring.
Qed.
Lemma cosine_self a : ~ Forall (fun x => x = 0) a -> weighted_cosine_sim a a = 1.
Proof.
  intros N. rewrite <- sl_zero in N. pose proof (sl_nonneg a). rewrite cosine_eq, dot_self, sqrt_square by trivial.
  destruct Req_EM_T as [E|E]; [contradiction|]. now field.
Qed.
Lemma cosine_zero a b : Forall (fun x => x = 0) a -> weighted_cosine_sim a b = 0.
Proof.
  intros F. apply sl_zero in F. rewrite cosine_eq, F, Rmult_0_l, sqrt_0. destruct Req_EM_T; [reflexivity|congruence].
Qed.
Lemma cosine_value a b : ~ Forall (fun x => x = 0) a -> ~ Forall (fun x => x = 0) b ->
  weighted_cosine_sim a b = dot a b / (sqrt (square_length a) * sqrt (square_length b)).
Proof.
  intros A B. rewrite <- sl_zero in A, B. pose proof (sl_nonneg a). pose proof (sl_nonneg b).
  rewrite cosine_eq, sqrt_mult by trivial. destruct Req_EM_T as [E|E]; [|reflexivity]. exfalso.
  assert (0 < square_length a) by lra. assert (0 < square_length b) by lra.
  pose proof (sqrt_lt_R0 _ H1). pose proof (sqrt_lt_R0 _ H2). nra.
Qed.
End Cosine.

Lemma named_n_fun (char : Type) (root : elem char) t k e d : named_n root t k e -> named_n root t k d -> e = d.
Proof. intros [n [-> H]] [m [Q H2]]. injection Q as Q. replace m with n in H2 by lia. congruence. Qed.
Lemma connects_n_unique (char : Type) (fr tr : elem char) links p q :
  Forall2 (connects (@named_n char) fr tr) links p -> Forall2 (connects (@named_n char) fr tr) links q -> p = q.
Proof.
  intros H. revert q. induction H as [|l a ls ps C _ IH]; intros q Hq; inversion Hq; subst; [reflexivity|].
  f_equal; [|auto]. destruct C as [C1 C2], H1 as [D1 D2]. destruct a, y. cbn [fst snd] in *. f_equal; eapply named_n_fun; eauto.
Qed.
