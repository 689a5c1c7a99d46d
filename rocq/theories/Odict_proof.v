From Coq Require Import List Sorted.
From Verif Require Import Py PyLemmas Odict_spec Odict_model.
Set Implicit Arguments.

Lemma Forall2_impl A B (P Q : A -> B -> Prop) l l' : (forall a b, P a b -> Q a b) -> Forall2 P l l' -> Forall2 Q l l'.
Proof. intros H F. induction F; constructor; auto. Qed.

Section P.
Variables K V : Type.
Variable keqb : K -> K -> bool.
Hypothesis keq : forall x y, keqb x y = true <-> x = y.
Notation event := (event K V). Notation log := (log K V).

Lemma k_dec (x y : K) : {x = y} + {x <> y}.
Proof. destruct (keqb x y) eqn:E; [left; now apply keq|right; intros H; apply keq in H; congruence]. Qed.
Lemma removes_dec k (e : event) : {removes k e} + {~ removes k e}.
Proof.
  destruct e as [k' v|k'|]; unfold removes.
  - right. intros [H|H]; discriminate.
  - destruct (k_dec k k'); [left; subst; auto|right; intros [H|H]; congruence].
  - left; auto.
Qed.
Lemma assigns_dec k (e : event) : {exists v, e = Assign k v} + {~ assigns k e}.
Proof.
  destruct e as [k' v|k'|]; unfold assigns.
  - destruct (k_dec k k'); [left; subst; eauto|right; intros [x H]; congruence].
  - right; intros [x H]; discriminate.
  - right; intros [x H]; discriminate.
Qed.
Lemma snoc_split (h h1 : log) e x h2 : h ++ [e] = h1 ++ x :: h2 ->
  (h2 = [] /\ h1 = h /\ x = e) \/ exists h3, h2 = h3 ++ [e] /\ h = h1 ++ x :: h3.
Proof.
  destruct (@exists_last _ (x :: h2)) as (l & y & E); [discriminate|]. intros H. rewrite E, app_assoc in H.
  apply app_inj_tail in H as [H <-]. destruct l as [|z l]; cbn in E.
  - injection E as -> ->. rewrite app_nil_r in H. auto.
  - injection E as -> ->. right. eauto.
Qed.
Lemma holds_snoc (h : log) (e : event) k v : holds (h ++ [e]) k v <->
  e = Assign k v \/ (holds h k v /\ ~ removes k e /\ ~ assigns k e).
Proof.
  split.
  - intros (h1 & h2 & E & H). apply snoc_split in E as [(-> & -> & <-)|(h3 & -> & ->)]; auto.
    right. split; [|apply H, in_or_app; cbn; auto]. exists h1, h3. split; auto. intros e' X; apply H, in_or_app; auto.
  - intros [->|[(h1 & h2 & -> & H) N]].
    + exists h, []. split; auto.
    + exists h1, (h2 ++ [e]). rewrite <- app_assoc. split; auto.
      intros e' X. apply in_app_or in X as [X|[<-|[]]]; auto.
Qed.
Lemma inserted_snoc (h : log) (e : event) k t : inserted_at (h ++ [e]) k t <->
  (assigns k e /\ ~ present h k /\ t = length h) \/ (inserted_at h k t /\ ~ removes k e).
Proof.
  split.
  - intros (h1 & v & h2 & E & L & N & H). apply snoc_split in E as [(-> & -> & <-)|(h3 & -> & ->)].
    + left. repeat split; auto. now exists v.
    + right. split; [|apply H, in_or_app; cbn; auto]. exists h1, v, h3. repeat split; auto. intros e' X; apply H, in_or_app; auto.
  - intros [([v ->] & N & ->)|[(h1 & v & h2 & -> & L & N & H) R]].
    + exists h, v, []. repeat split; auto.
    + exists h1, v, (h2 ++ [e]). rewrite <- app_assoc. repeat split; auto.
      intros e' X. apply in_app_or in X as [X|[<-|[]]]; auto.
Qed.
Lemma inserted_lt (h : log) k t : inserted_at h k t -> t < length h.
Proof. intros (h1 & v & h2 & -> & <- & _). rewrite app_length. cbn. lia. Qed.

Lemma describes_nil : describes [] (@nil (K * V)).
Proof.
  split; [constructor|]. split.
  - intros k v. split; [intros []|]. intros (h1 & h2 & E & _). destruct h1; discriminate.
  - exists []. split; constructor.
Qed.
Lemma sorted_snoc l x : StronglySorted lt l -> Forall (fun y => y < x) l -> StronglySorted lt (l ++ [x]).
Proof.
  intros S. induction S as [|y l S IH F]; cbn; intros H.
  - constructor; constructor.
  - inversion H; subst. constructor; auto. apply Forall_app. auto.
Qed.
Lemma present_in (h : log) items k : describes h items -> present h k <-> In k (map fst items).
Proof.
  intros (_ & D & _). split.
  - intros [v H]. apply D in H. apply in_map_iff. now exists (k, v).
  - intros H. apply in_map_iff in H as ([k' v] & <- & H). exists v. now apply D.
Qed.
Lemma in_dset (d : list (K * V)) k v k' v' : NoDup (dkeys d) ->
  In (k', v') (dset keqb d k v) <-> (k' = k /\ v' = v) \/ (k' <> k /\ In (k', v') d).
Proof.
  intros N. split.
  - intros H. apply (in_dget keqb keq) in H; [|now apply (nodup_dset keqb keq)].
    destruct (k_dec k' k) as [->|Ne].
    + rewrite (dget_dset_same keqb keq) in H. left; split; congruence.
    + rewrite (dget_dset_other keqb keq) in H by auto. right. split; auto. now apply (dget_in keqb keq) in H.
  - intros [[-> ->]|[Ne H]]; apply (dget_in keqb keq).
    + apply (dget_dset_same keqb keq).
    + rewrite (dget_dset_other keqb keq) by auto. now apply (in_dget keqb keq).
Qed.
Lemma in_ddel_iff (d : list (K * V)) k k' v' : NoDup (dkeys d) ->
  In (k', v') (ddel keqb d k) <-> k' <> k /\ In (k', v') d.
Proof.
  intros N. split.
  - intros H. apply (in_dget keqb keq) in H; [|now apply (nodup_ddel keqb)].
    destruct (k_dec k' k) as [->|Ne].
    + rewrite (dget_ddel_same keqb keq) in H by auto. discriminate.
    + rewrite (dget_ddel_other keqb keq) in H by auto. split; auto. now apply (dget_in keqb keq) in H.
  - intros [Ne H]; apply (dget_in keqb keq). rewrite (dget_ddel_other keqb keq) by auto. now apply (in_dget keqb keq).
Qed.
Lemma assign_inj k v k' v' : @Assign K V k v = Assign k' v' <-> k' = k /\ v' = v.
Proof. split; [intros E; injection E; auto|intros [-> ->]; auto]. Qed.
Lemma not_removes_assign (k k' : K) (v : V) : ~ removes k (Assign k' v).
Proof. intros [H|H]; discriminate. Qed.
Lemma assigns_assign (k k' : K) (v : V) : assigns k (Assign k' v) <-> k = k'.
Proof. split; [intros [x H]; congruence|intros ->; now exists v]. Qed.
Lemma not_assigns_remove (k k' : K) : ~ @assigns K V k (Remove k').
Proof. intros [x H]; discriminate. Qed.
Lemma removes_remove (k k' : K) : @removes K V k (Remove k') <-> k = k'.
Proof. split; [intros [H|H]; congruence|intros ->; now left]. Qed.

Lemma assign_describes (h : log) items k v : describes h items -> describes (h ++ [Assign k v]) (dset keqb items k v).
Proof.
  intros D. pose proof (present_in k D) as P. destruct D as (N & D & times & F & S). split; [now apply (nodup_dset keqb keq)|].
  split.
  - intros k' v'. rewrite in_dset by auto. rewrite holds_snoc, assign_inj, assigns_assign, <- D.
    pose proof (@not_removes_assign k' k v). intuition.
  - destruct (In_dec k_dec k (map fst items)) as [I|NI].
    + exists times. split; auto. change (Forall2 (inserted_at (h ++ [Assign k v])) (dkeys (dset keqb items k v)) times).
      rewrite (dkeys_dset_in keqb keq) by auto. eapply Forall2_impl; [|exact F]. intros k' t Ht. apply inserted_snoc. right.
      split; auto. apply not_removes_assign.
    + rewrite (dkeys_dset_new keqb keq) by auto. exists (times ++ [length h]). rewrite map_app. split.
      * apply Forall2_app; [|constructor; [|constructor]].
        -- eapply Forall2_impl; [|exact F]. intros k' t Ht. apply inserted_snoc. right. split; auto. apply not_removes_assign.
        -- apply inserted_snoc. left. cbn. repeat split; [now apply assigns_assign|]. tauto.
      * apply sorted_snoc; auto. clear -F. induction F; constructor; eauto using inserted_lt.
Qed.
Lemma remove_times (h : log) k (items : list (K * V)) : NoDup (map fst items) -> forall times, Forall2 (inserted_at h) (map fst items) times -> StronglySorted lt times ->
  exists times', Forall2 (inserted_at (h ++ [Remove k])) (map fst (ddel keqb items k)) times' /\ StronglySorted lt times' /\
    (forall t, In t times' -> In t times).
Proof.
  assert (G : forall (items : list (K * V)) times, ~ In k (map fst items) -> Forall2 (inserted_at h) (map fst items) times ->
     Forall2 (inserted_at (h ++ [Remove k])) (map fst items) times).
  { intros l ts Ni F. remember (map fst l) as ks. clear Heqks l. induction F as [|k' t ks ts Ht F IH]; constructor.
    - apply inserted_snoc. right. split; auto. rewrite removes_remove. intros ->. apply Ni. now left.
    - apply IH. intros X; apply Ni; now right. }
  induction items as [|[k' v'] items IH]; intros N times F S; cbn [map fst] in *.
  - inversion F; subst. exists []. cbn. repeat split; auto; constructor.
  - inversion F as [|? t ? ts Ht F']; subst. inversion S; subst. inversion N; subst. cbn [ddel].
    destruct (keqb k k') eqn:E.
    + apply keq in E. subst k'. exists ts. split; [apply G; auto|]. split; auto. intros; now right.
    + destruct (IH H4 ts F' H1) as (ts' & F2 & S2 & I2). exists (t :: ts'). cbn [map fst]. split; [|split].
      * constructor; auto. apply inserted_snoc. right. split; auto. rewrite removes_remove. intros ->.
        rewrite (proj2 (keq k k) eq_refl) in E. discriminate.
      * constructor; auto. rewrite Forall_forall in *. auto.
      * intros x [->|X]; [now left|right; auto].
Qed.
Lemma remove_describes (h : log) items k : describes h items -> describes (h ++ [Remove k]) (ddel keqb items k).
Proof.
  intros (N & D & times & F & S). split; [now apply (nodup_ddel keqb)|]. split.
  - intros k' v'. rewrite in_ddel_iff by auto. rewrite holds_snoc, removes_remove, <- D.
    pose proof (@not_assigns_remove k' k). assert (@Remove K V k <> Assign k' v') by discriminate. intuition.
  - destruct (remove_times k items N F S) as (ts & F2 & S2 & _). eauto.
Qed.
Lemma removeall_describes (h : log) items : describes h items -> describes (h ++ [RemoveAll]) (@nil (K * V)).
Proof.
  intros _. split; [constructor|]. split.
  - intros k v. split; [intros []|]. intros H. apply holds_snoc in H as [H|[_ [H _]]]; [discriminate|]. apply H. now right.
  - exists []. split; constructor.
Qed.

(** The object: key list and dict agree. *)
Definition good (d : odict K V) := od_keys d = dkeys (od_dict d).
Lemma dhas_in (d : list (K * V)) k : dhas keqb d k = true <-> In k (dkeys d).
Proof.
  unfold dhas. destruct (dget keqb d k) eqn:E.
  - split; auto. intros _. apply (dget_in keqb keq) in E. unfold dkeys. apply in_map_iff. now exists (k, v).
  - apply (dget_none keqb keq) in E. split; [discriminate|contradiction].
Qed.
Lemma good_set d k v : good d -> good (od_set keqb d k v).
Proof.
  unfold good, od_set. cbn [od_keys od_dict]. intros H. destruct (dhas keqb (od_dict d) k) eqn:E.
  - apply dhas_in in E. now rewrite (dkeys_dset_in keqb keq).
  - assert (N : ~ In k (dkeys (od_dict d))) by (intros X; apply dhas_in in X; congruence).
    rewrite (dkeys_dset_new keqb keq) by auto. unfold dkeys in *. rewrite map_app, H. reflexivity.
Qed.
Lemma list_remove_ddel (d : list (K * V)) k : In k (dkeys d) -> list_remove keqb (dkeys d) k = Ok (dkeys (ddel keqb d k)).
Proof.
  induction d as [|[k' v'] d IH]; cbn [dkeys map fst list_remove ddel]; [intros []|].
  destruct (keqb k k') eqn:E; auto. intros [->|X].
  - rewrite (proj2 (keq k k) eq_refl) in E. discriminate.
  - unfold dkeys in *. rewrite IH by auto. reflexivity.
Qed.
Lemma del_ok d k : good d -> In k (dkeys (od_dict d)) ->
  od_del keqb d k = Ok {| od_dict := ddel keqb (od_dict d) k; od_keys := dkeys (ddel keqb (od_dict d) k) |}.
Proof.
  intros G I. unfold od_del. rewrite (proj2 (dhas_in _ _) I), G, list_remove_ddel by auto. reflexivity.
Qed.
Lemma del_missing (d : odict K V) k : ~ In k (dkeys (od_dict d)) -> od_del keqb d k = Err KeyError.
Proof.
  intros I. unfold od_del. destruct (dhas keqb (od_dict d) k) eqn:E; auto. apply dhas_in in E. contradiction.
Qed.
Lemma ddel_last (l : list (K * V)) k v : NoDup (dkeys (l ++ [(k, v)])) -> ddel keqb (l ++ [(k, v)]) k = l.
Proof.
  induction l as [|[k' v'] l IH]; cbn [app ddel dkeys map fst]; intros N.
  - now rewrite (proj2 (keq k k) eq_refl).
  - inversion N; subst. destruct (keqb k k') eqn:E.
    + apply keq in E; subst. exfalso. apply H1. unfold dkeys. rewrite map_app. apply in_or_app. right. now left.
    + f_equal. auto.
Qed.
Lemma get_in (d : odict K V) k v : NoDup (dkeys (od_dict d)) -> In (k, v) (od_dict d) -> od_get keqb d k = Ok v.
Proof. intros N I. unfold od_get, dread. now rewrite (in_dget keqb keq _ _ _ N I). Qed.
Lemma get_missing (d : odict K V) k : ~ In k (dkeys (od_dict d)) -> od_get keqb d k = Err KeyError.
Proof. intros I. unfold od_get, dread. now rewrite (proj2 (dget_none keqb keq _ _) I). Qed.
Lemma absent_iff (l : list (K * V)) k : absent l k <-> ~ In k (dkeys l).
Proof.
  unfold absent, dkeys. split.
  - intros H X. apply in_map_iff in X as ([k' v] & <- & X). exact (H v X).
  - intros H v X. apply H. apply in_map_iff. now exists (k, v).
Qed.
Lemma in_or_absent (l : list (K * V)) k : (exists v, In (k, v) l) \/ absent l k.
Proof.
  destruct (In_dec k_dec k (dkeys l)) as [I|N].
  - left. unfold dkeys in I. apply in_map_iff in I as ([k' v] & <- & I). eauto.
  - right. now apply absent_iff.
Qed.
Lemma in_dkeys (l : list (K * V)) k v : In (k, v) l -> In k (dkeys l).
Proof. intros X. unfold dkeys. apply in_map_iff. now exists (k, v). Qed.

Lemma update_ok l : forall h d, good d -> describes h (od_dict d) ->
  good (od_update keqb d l) /\ describes (h ++ map (fun p => Assign (fst p) (snd p)) l) (od_dict (od_update keqb d l)).
Proof.
  induction l as [|[k v] l IH]; intros h d G D; cbn [od_update fold_left map fst snd].
  - rewrite app_nil_r. auto.
  - replace (h ++ Assign k v :: map (fun p => Assign (fst p) (snd p)) l) with
      ((h ++ [Assign k v]) ++ map (fun p => Assign (fst p) (snd p)) l) by (rewrite <- app_assoc; reflexivity).
    apply IH; [now apply good_set|]. cbn. now apply assign_describes.
Qed.

Lemma call_ok h d c : good d -> describes h (od_dict d) ->
  exists events, effect (od_dict d) c events (snd (od_call keqb d c)) /\
    good (fst (od_call keqb d c)) /\ describes (h ++ events) (od_dict (fst (od_call keqb d c))).
Proof.
  intros G D. pose proof (proj1 D : NoDup (dkeys (od_dict d))) as N. destruct c as [k v|k| | |k v|k o|l]; cbn [od_call].
  - exists [Assign k v]. cbn. split; [constructor|]. split; [now apply good_set|now apply assign_describes].
  - destruct (in_or_absent (od_dict d) k) as [[v I]|A].
    + rewrite del_ok by eauto using in_dkeys. exists [Remove k]. cbn. split; [econstructor; eauto|].
      split; [reflexivity|now apply remove_describes].
    + rewrite del_missing by now apply absent_iff. exists []. cbn. rewrite app_nil_r. split; [now constructor|auto].
  - exists [RemoveAll]. cbn. split; [constructor|]. split; [reflexivity|]. eapply removeall_describes; eauto.
  - unfold od_popitem. destruct (Nat.eqb_spec (length (od_dict d)) 0) as [E|E].
    + exists []. cbn. rewrite app_nil_r. split; auto. constructor. now destruct (od_dict d).
    + destruct (@exists_last _ (od_dict d)) as (l & [k v] & El).
      { intros X; rewrite X in E; now apply E. }
      unfold list_pop. rewrite G, El. unfold dkeys. rewrite map_app, rev_app_distr. cbn [rev map app fst bind].
      unfold dread. rewrite <- El, (in_dget keqb keq (od_dict d) k v N) by (rewrite El; apply in_or_app; cbn; auto).
      cbn [bind fst snd]. exists [Remove k]. split; [now apply EPopitem with l|]. split.
      * unfold good. cbn. rewrite El, ddel_last by (rewrite <- El; auto). rewrite rev_involutive. reflexivity.
      * cbn. now apply remove_describes.
  - unfold od_setdefault. destruct (in_or_absent (od_dict d) k) as [[v' I]|A].
    + rewrite (get_in d k v' N I). exists []. cbn. rewrite app_nil_r. split; [now constructor|auto].
    + rewrite get_missing by now apply absent_iff. exists [Assign k v]. cbn. split; [now constructor|].
      split; [now apply good_set|now apply assign_describes].
  - unfold od_pop. destruct (in_or_absent (od_dict d) k) as [[v' I]|A].
    + rewrite (get_in d k v' N I), del_ok by eauto using in_dkeys. exists [Remove k]. cbn. split; [now constructor|].
      split; [reflexivity|now apply remove_describes].
    + rewrite get_missing by now apply absent_iff. exists []. rewrite app_nil_r. destruct o; cbn; (split; [now constructor|auto]).
  - exists (map (fun p => Assign (fst p) (snd p)) l). cbn. split; [constructor|]. now apply update_ok.
Qed.
Lemma run_ok cs : forall h d, good d -> describes h (od_dict d) ->
  exists h', history h cs (snd (od_run keqb d cs)) h' /\ good (fst (od_run keqb d cs)) /\
    describes h' (od_dict (fst (od_run keqb d cs))).
Proof.
  induction cs as [|c cs IH]; intros h d G D; cbn [od_run].
  - exists h. cbn. split; [constructor|auto].
  - destruct (call_ok c G D) as (ev & E & G1 & D1). destruct (od_call keqb d c) as [d1 a] eqn:C. cbn [fst snd] in *.
    destruct (IH _ _ G1 D1) as (h' & H & G2 & D2). destruct (od_run keqb d1 cs) as [d2 l] eqn:R. cbn [fst snd] in *.
    exists h'. split; auto. econstructor; eauto.
Qed.
Lemma items_ok (d : odict K V) : good d -> NoDup (dkeys (od_dict d)) -> od_items keqb d = Ok (od_dict d).
Proof.
  intros G N. unfold od_items, od_iter. rewrite G.
  assert (H : forall l, (forall k v, In (k, v) l -> In (k, v) (od_dict d)) ->
    mapM (fun k => v <- od_get keqb d k ;; Ok (k, v)) (dkeys l) = Ok l).
  { induction l as [|[k v] l IH]; intros S; cbn [dkeys map fst mapM]; auto.
    rewrite (get_in d k v N) by (apply S; now left). cbn [bind]. unfold dkeys in IH. rewrite IH by (intros; apply S; now right). reflexivity. }
  apply H; auto.
Qed.
Lemma lookup_ok (d : odict K V) k v : NoDup (dkeys (od_dict d)) -> od_get keqb d k = Ok v <-> In (k, v) (od_dict d).
Proof.
  intros N. split; [|now apply get_in]. unfold od_get, dread. destruct (dget keqb (od_dict d) k) eqn:E; [|discriminate].
  intros H; injection H as ->. now apply (dget_in keqb keq) in E.
Qed.

Lemma odict_history cs : exists h items, let d := fst (od_run keqb (empty_odict K V) cs) in
  history [] cs (snd (od_run keqb (empty_odict K V) cs)) h /\ describes h items /\
  od_items keqb d = Ok items /\ od_iter d = map fst items /\ od_reversed d = rev (map fst items) /\
  (forall k v, od_get keqb d k = Ok v <-> In (k, v) items) /\
  (forall k, absent items k -> od_get keqb d k = Err KeyError).
Proof.
  destruct (@run_ok cs [] (empty_odict K V)) as (h & H & G & D); [reflexivity|apply describes_nil|].
  exists h, (od_dict (fst (od_run keqb (empty_odict K V) cs))). cbn zeta. pose proof (proj1 D) as N.
  split; auto. split; auto. split; [now apply items_ok|]. split; [exact G|]. split; [unfold od_reversed; now rewrite G|].
  split; [intros; now apply lookup_ok|]. intros k A. apply get_missing. now apply absent_iff.
Qed.

(** copies *)
Lemma update_fresh : forall l d, good d -> NoDup (dkeys (od_dict d) ++ dkeys l) ->
  od_dict (od_update keqb d l) = od_dict d ++ l /\ good (od_update keqb d l).
Proof.
  induction l as [|[k v] l IH]; intros d G N; cbn [od_update fold_left fst snd].
  - now rewrite app_nil_r.
  - assert (Nk : ~ In k (dkeys (od_dict d))).
    { intros X. apply NoDup_remove_2 in N. apply N. apply in_or_app; auto. }
    destruct (IH (od_set keqb d k v)) as [E G'].
    + now apply good_set.
    + cbn [od_set od_dict]. rewrite (dkeys_dset_new keqb keq) by auto. unfold dkeys in *. rewrite map_app. cbn [map fst].
      rewrite <- app_assoc. exact N.
    + unfold od_update in E, G'. split; auto. rewrite E. cbn [od_set od_dict]. rewrite (dkeys_dset_new keqb keq) by auto. now rewrite <- app_assoc.
Qed.
Lemma copy_ok cs : let d := fst (od_run keqb (empty_odict K V) cs) in
  exists d', od_copy keqb d = Ok d' /\ od_items keqb d' = od_items keqb d /\ od_iter d' = od_iter d /\
   forall k, od_get keqb d' k = od_get keqb d k.
Proof.
  destruct (@run_ok cs [] (empty_odict K V)) as (h & H & G & D); [reflexivity|apply describes_nil|]. pose proof (proj1 D) as N.
  intros d. fold d in H, G, D, N. unfold od_copy. rewrite items_ok by auto. cbn [bind].
  destruct (@update_fresh (od_dict d) (empty_odict K V)) as [E G']; [reflexivity|exact N|]. cbn in E.
  eexists. split; [reflexivity|]. unfold od_init. repeat split.
  - rewrite (items_ok G'); [now rewrite E|rewrite E; exact N].
  - unfold od_iter. rewrite G', G, E. reflexivity.
  - intros k. unfold od_get. now rewrite E.
Qed.
(** the log determines the map *)
Lemma present_snoc_not (h : log) k t : inserted_at h k t -> present h k.
Proof.
  revert k t. induction h as [|e h IH] using rev_ind; intros k t H.
  - apply inserted_lt in H. cbn in H. lia.
  - apply inserted_snoc in H as [([v ->] & _)|[H R]].
    + exists v. apply holds_snoc. auto.
    + destruct (IH _ _ H) as [v Hv]. destruct (assigns_dec k e) as [[v' ->]|A].
      * exists v'. apply holds_snoc. auto.
      * exists v. apply holds_snoc. auto.
Qed.
Lemma inserted_unique (h : log) k t t' : inserted_at h k t -> inserted_at h k t' -> t = t'.
Proof.
  revert t t'. induction h as [|e h IH] using rev_ind; intros t t' H H'.
  - apply inserted_lt in H. cbn in H. lia.
  - apply inserted_snoc in H as [(A & P & ->)|[H R]]; apply inserted_snoc in H' as [(A' & P' & ->)|[H' R']]; auto.
    + apply present_snoc_not in H'. contradiction.
    + apply present_snoc_not in H. contradiction.
Qed.
Lemma holds_fun (h : log) k v v' : holds h k v -> holds h k v' -> v = v'.
Proof.
  revert v v'. induction h as [|e h IH] using rev_ind; intros v v' H H'.
  - destruct H as (h1 & h2 & E & _). destruct h1; discriminate.
  - apply holds_snoc in H as [H|(H & R & A)]; apply holds_snoc in H' as [H'|(H' & R' & A')]; subst.
    + congruence.
    + exfalso. apply A'. now exists v.
    + exfalso. apply A. now exists v'.
    + auto.
Qed.
Lemma describes_unique (h : log) l l' : describes h l -> describes h l' -> l = l'.
Proof.
  intros (N & D & ts & F & S) (N' & D' & ts' & F' & S').
  assert (Q : forall k v, In (k, v) l <-> In (k, v) l') by (intros; rewrite D, D'; reflexivity).
  clear D D'. revert ts F S l' N' Q ts' F' S'. induction l as [|[k v] l IH]; intros ts F S l' N' Q ts' F' S'.
  - destruct l' as [|[k v] l']; auto. exfalso. apply (Q k v). now left.
  - destruct l' as [|[k' v'] l']; [exfalso; apply (Q k v); now left|].
    cbn [map fst] in *. inversion F as [|? t ? ts0 Ht F0]; subst. inversion F' as [|? t' ? ts0' Ht' F0']; subst.
    inversion S; subst. inversion S'; subst.
    assert (LE : forall ks ts x, Forall2 (inserted_at h) ks ts -> In x ks -> exists tx, In tx ts /\ inserted_at h x tx).
    { clear. intros ks ts x F. induction F; intros [].
      - subst. eexists; split; [now left|auto].
      - destruct (IHF H0) as (tx & A & B). exists tx. split; auto. now right. }
    assert (E : (k, v) = (k', v')).
    { destruct (proj1 (Q k v) ltac:(now left)) as [X|X]; auto.
      destruct (proj2 (Q k' v') ltac:(now left)) as [Y|Y]; auto. exfalso.
      apply (in_map fst) in X. apply (in_map fst) in Y. cbn [fst] in X, Y.
      destruct (LE _ _ _ F0' X) as (tx & A & B). destruct (LE _ _ _ F0 Y) as (ty & A2 & B2).
      rewrite Forall_forall in *. specialize (H2 _ A2). specialize (H4 _ A).
      pose proof (inserted_unique Ht B). pose proof (inserted_unique Ht' B2). lia. }
    injection E as <- <-. f_equal. inversion N; subst. inversion N'; subst.
    eapply IH; eauto. intros k1 v1. split; intros X.
    + destruct (proj1 (Q k1 v1) ltac:(now right)) as [Y|Y]; auto. injection Y as <- <-. exfalso. apply (in_map fst) in X. auto.
    + destruct (proj2 (Q k1 v1) ltac:(now right)) as [Y|Y]; auto. injection Y as <- <-. exfalso. apply (in_map fst) in X. auto.
Qed.
Lemma init_ok (l : list (K * V)) : exists items, describes (map (fun p => Assign (fst p) (snd p)) l) items /\
  od_items keqb (od_init keqb l) = Ok items /\ od_iter (od_init keqb l) = map fst items.
Proof.
  destruct (odict_history [CUpdate l]) as (h & items & H & D & I & J & _). cbn [od_run od_call fst snd] in *.
  inversion H as [|? ? ? events a ? ? ? D0 E H']; subst. inversion E; subst. inversion H'; subst. cbn [app] in D. exists items. auto.
Qed.
End P.
