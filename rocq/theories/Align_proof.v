From Verif Require Import Py PyLemmas Align_model Align_spec.
Set Implicit Arguments.

Section P.
Variables N R : Type.
Variable neqb : N -> N -> bool.
Variable reqb : R -> R -> bool.
Hypothesis neqb_spec : forall x y, neqb x y = true <-> x = y.
Hypothesis reqb_spec : forall x y, reqb x y = true <-> x = y.
Notation digraph := (digraph N R).
Notation eeqb := (pair_eqb neqb neqb).
Notation ga := (get_align neqb).
Implicit Type g : digraph.

Lemma eeqb_spec : forall p q : N * N, eeqb p q = true <-> p = q.
Proof. now apply pair_eqb_spec. Qed.
Lemma neqb_refl x : neqb x x = true. Proof. now apply neqb_spec. Qed.
Lemma neqb_ne x y : x <> y -> neqb x y = false.
Proof. intros H. destruct (neqb x y) eqn:E; auto. apply neqb_spec in E; congruence. Qed.
Lemma neqb_false x y : neqb x y = false -> x <> y.
Proof. intros E ->. rewrite neqb_refl in E. discriminate. Qed.
Lemma N_dec (x y : N) : {x = y} + {x <> y}.
Proof. destruct (neqb x y) eqn:E; [left; now apply neqb_spec|right; now apply neqb_false]. Qed.

(** Well-formedness: edges are keyed uniquely, nodes are exactly the edge ends, once each. *)
Definition incident g n := exists s t r, In ((s, t), r) (edges g) /\ (n = s \/ n = t).
Record wf g : Prop := {
  wf_edges : NoDup (dkeys (edges g));
  wf_nodes : NoDup (nodes g);
  wf_inc : forall n, incident g n -> In n (nodes g);
}.
Definition tight g := forall n, In n (nodes g) -> incident g n.

Lemma ga_in g s t r : wf g -> ga g s t = Some r <-> In ((s, t), r) (edges g).
Proof.
  intros W. unfold get_align. split.
  - apply dget_in, eeqb_spec.
  - apply in_dget; [apply eeqb_spec|apply W].
Qed.

Lemma ext_ga g h : wf g -> wf h ->
  (forall e, In e (edges g) <-> In e (edges h)) -> forall s t, ga g s t = ga h s t.
Proof.
  intros Wg Wh H s t. destruct (ga g s t) as [r|] eqn:E.
  - symmetry. apply ga_in; auto. apply H. apply ga_in; auto.
  - destruct (ga h s t) as [r|] eqn:E'; auto. apply ga_in in E'; auto. apply H in E'.
    apply ga_in in E'; auto. congruence.
Qed.

Lemma wf_empty : wf (empty_digraph N R).
Proof. constructor; cbn; try constructor. intros n (s & t & r & [] & _). Qed.
Lemma tight_empty : tight (empty_digraph N R).
Proof. intros n []. Qed.

Lemma add_node_in n m l : In m (add_node neqb n l) <-> m = n \/ In m l.
Proof.
  unfold add_node. destruct (mem neqb n l) eqn:E.
  - apply mem_spec in E; auto. split; auto. intros [->|]; auto.
  - rewrite in_app_iff. cbn. intuition congruence.
Qed.
Lemma add_node_nodup n l : NoDup l -> NoDup (add_node neqb n l).
Proof.
  intros H. unfold add_node. destruct (mem neqb n l) eqn:E; auto.
  apply nodup_snoc; auto. intros C. apply (mem_spec neqb) in C; auto. congruence.
Qed.

Lemma dset_in (d : list ((N * N) * R)) k v e : NoDup (dkeys d) ->
  In e (dset eeqb d k v) <-> e = (k, v) \/ (In e d /\ fst e <> k).
Proof.
  intros ND. assert (ND' := nodup_dset eeqb eeqb_spec d k v ND).
  destruct e as [k' v']. cbn [fst]. split.
  - intros H. apply (in_dget eeqb eeqb_spec) in H; auto.
    destruct (eeqb k k') eqn:E.
    + apply eeqb_spec in E as <-. rewrite dget_dset_same in H by apply eeqb_spec.
      injection H as ->; auto.
    + assert (k <> k') by (intros ->; rewrite (proj2 (eeqb_spec k' k') eq_refl) in E; discriminate).
      rewrite dget_dset_other in H by auto using eeqb_spec. right; split; [|congruence].
      eapply dget_in; eauto using eeqb_spec.
  - intros [E|[H NE]].
    + injection E as -> ->. apply (dget_in eeqb eeqb_spec). now apply dget_dset_same, eeqb_spec.
    + apply (dget_in eeqb eeqb_spec). rewrite dget_dset_other by auto using eeqb_spec.
      now apply in_dget; [apply eeqb_spec| |].
Qed.
Lemma ddel_in (d : list ((N * N) * R)) k e : NoDup (dkeys d) ->
  In e (ddel eeqb d k) <-> (In e d /\ fst e <> k).
Proof.
  intros ND. assert (ND' := nodup_ddel eeqb d k ND).
  destruct e as [k' v']. cbn [fst]. split.
  - intros H. assert (H2 := H). apply in_ddel in H. split; auto. intros ->.
    apply (in_dget eeqb eeqb_spec) in H2; auto. rewrite dget_ddel_same in H2 by (auto using eeqb_spec). discriminate.
  - intros [H NE]. apply (dget_in eeqb eeqb_spec). rewrite dget_ddel_other by (auto using eeqb_spec).
    now apply in_dget; [apply eeqb_spec| |].
Qed.

Lemma add_edge_in g s t r e : wf g ->
  In e (edges (add_edge neqb g s t r)) <-> e = ((s, t), r) \/ (In e (edges g) /\ fst e <> (s, t)).
Proof. intros W. cbn. apply dset_in, W. Qed.

Lemma add_edge_wf g s t r : wf g -> wf (add_edge neqb g s t r).
Proof.
  intros W. constructor; cbn.
  - apply nodup_dset; [apply eeqb_spec|apply W].
  - apply add_node_nodup, add_node_nodup, W.
  - intros n (s' & t' & r' & H & Hn). cbn in H. apply dset_in in H; [|apply W].
    rewrite !add_node_in. destruct H as [[= -> -> ->]|[H _]]; [intuition|].
    right; right. apply W. exists s', t', r'; auto.
Qed.
Lemma add_edge_tight g s t r : wf g ->
  (forall n, In n (nodes g) -> n = s \/ n = t \/ incident g n) -> tight (add_edge neqb g s t r).
Proof.
  intros W T n H. cbn in H. rewrite !add_node_in in H.
  assert (B : n = s \/ n = t \/ incident g n) by (destruct H as [->|[->|H]]; auto).
  destruct B as [->|[->|(s' & t' & r' & H1 & H2)]].
  - exists s, t, r. rewrite add_edge_in by auto. auto.
  - exists s, t, r. rewrite add_edge_in by auto. auto.
  - destruct (eeqb (s', t') (s, t)) eqn:E.
    + apply eeqb_spec in E. injection E as -> ->. exists s, t, r. rewrite add_edge_in by auto. auto.
    + exists s', t', r'. rewrite add_edge_in by auto. split; auto. right; split; auto.
      cbn. intros C. apply eeqb_spec in C. congruence.
Qed.

Lemma has_edge_ga g s t : has_edge neqb g s t = true <-> exists r, ga g s t = Some r.
Proof. unfold has_edge, dhas, get_align. destruct (dget _ _ _); split; eauto; try discriminate. intros (r & [=]). Qed.

Lemma remove_edge_ok g s t r : wf g -> In ((s, t), r) (edges g) ->
  exists g', remove_edge neqb g s t = Ok g' /\ wf g' /\ nodes g' = nodes g /\
    forall e, In e (edges g') <-> (In e (edges g) /\ fst e <> (s, t)).
Proof.
  intros W H. unfold remove_edge.
  assert (E : has_edge neqb g s t = true).
  { apply has_edge_ga. exists r. now apply ga_in. }
  rewrite E. eexists; split; [reflexivity|].
  assert (X : forall e, In e (ddel eeqb (edges g) (s, t)) <-> (In e (edges g) /\ fst e <> (s, t))).
  { intros e. apply ddel_in, W. }
  cbn. repeat split; auto; cbn; try apply X; auto.
  - apply nodup_ddel, W.
  - apply W.
  - intros n (s' & t' & r' & H' & Hn). cbn in H'. apply X in H' as [H' _]. apply W.
    exists s', t', r'; auto.
Qed.

Lemma degree_zero g n : degree neqb g n = 0 <-> ~ incident g n.
Proof.
  unfold degree. split.
  - intros H (s & t & r & Hin & [-> | ->]).
    + assert (In ((s,t),r) (filter (fun e : (N*N)*R => neqb s (fst (fst e))) (edges g))).
      { apply filter_In; cbn; auto using neqb_refl. }
      destruct (filter _ _); cbn in *; [tauto|lia].
    + assert (In ((s,t),r) (filter (fun e : (N*N)*R => neqb t (snd (fst e))) (edges g))).
      { apply filter_In; cbn; auto using neqb_refl. }
      destruct (filter (fun e : (N*N)*R => neqb t (snd (fst e))) _); cbn in *; [tauto|lia].
  - intros H. destruct (filter (fun e : (N*N)*R => neqb n (fst (fst e))) _) as [|[[s t] r] l] eqn:E1.
    + destruct (filter (fun e : (N*N)*R => neqb n (snd (fst e))) _) as [|[[s t] r] l] eqn:E2; auto.
      exfalso. apply H. assert (In ((s,t),r) (((s,t),r)::l)) by (cbn; auto). rewrite <- E2 in H0.
      apply filter_In in H0 as [H0 H1]. cbn in H1. apply neqb_spec in H1 as ->. exists s, t, r; auto.
    + exfalso. apply H. assert (In ((s,t),r) (((s,t),r)::l)) by (cbn; auto). rewrite <- E1 in H0.
      apply filter_In in H0 as [H0 H1]. cbn in H1. apply neqb_spec in H1 as ->. exists s, t, r; auto.
Qed.

Lemma remove_node_ok g n : wf g -> In n (nodes g) -> ~ incident g n ->
  exists g', remove_node neqb g n = Ok g' /\ wf g' /\ edges g' = edges g /\
    forall m, In m (nodes g') <-> (In m (nodes g) /\ m <> n).
Proof.
  intros W H HI. unfold remove_node. rewrite (proj2 (mem_spec neqb neqb_spec n (nodes g)) H).
  eexists; split; [reflexivity|]. cbn.
  assert (E : filter (fun e : (N*N)*R => negb (neqb n (fst (fst e))) && negb (neqb n (snd (fst e)))) (edges g) = edges g).
  { assert (F : forall l : list ((N*N)*R), (forall s t r, In ((s,t),r) l -> n <> s /\ n <> t) ->
      filter (fun e => negb (neqb n (fst (fst e))) && negb (neqb n (snd (fst e)))) l = l).
    { induction l as [|[[s t] r] l IH]; intros HF; cbn; auto.
      destruct (HF s t r) as [H1 H2]; [cbn; auto|].
      rewrite !neqb_ne by auto. cbn. f_equal. apply IH. intros; eapply HF; cbn; eauto. }
    apply F. intros s t r Hin. split; intros ->; apply HI; exists s, t, r || exists s, t, r; auto. }
  rewrite E.
  assert (X : forall m, In m (filter (fun m => negb (neqb n m)) (nodes g)) <-> (In m (nodes g) /\ m <> n)).
  { intros m. rewrite filter_In. destruct (neqb n m) eqn:En; cbn.
    - apply neqb_spec in En. intuition congruence.
    - apply neqb_false in En. intuition. }
  repeat split; auto; cbn; try apply X; auto.
  - apply W.
  - apply NoDup_filter, W.
  - intros m Hm. apply X. split.
    + apply W. exact Hm.
    + intros ->. auto.
Qed.

Lemma incident_dec g n : incident g n \/ ~ incident g n.
Proof.
  destruct (Nat.eq_dec (degree neqb g n) 0) as [D|D]; [right; now apply degree_zero|left].
  destruct (existsb (fun e : (N*N)*R => neqb n (fst (fst e)) || neqb n (snd (fst e))) (edges g)) eqn:X.
  * apply existsb_exists in X as ([[s t] r] & Hin & Hx). cbn in Hx. apply orb_true_iff in Hx.
    exists s, t, r. split; auto. destruct Hx as [Hx|Hx]; apply neqb_spec in Hx; auto.
  * exfalso. apply D, degree_zero. intros (s & t & r & Hin & Hn).
    assert (existsb (fun e : (N*N)*R => neqb n (fst (fst e)) || neqb n (snd (fst e))) (edges g) = true); [|congruence].
    apply existsb_exists. exists ((s,t),r). split; auto. cbn. apply orb_true_iff.
    destruct Hn as [-> | ->]; rewrite neqb_refl; auto.
Qed.

Lemma drop_ok g n : wf g -> exists g', drop_if_unaligned neqb g n = g' /\ wf g' /\ edges g' = edges g /\
  forall m, In m (nodes g') <-> (In m (nodes g) /\ (m = n -> incident g n)).
Proof.
  intros W. unfold drop_if_unaligned. destruct (mem neqb n (nodes g)) eqn:E.
  - apply mem_spec in E; auto. destruct (Nat.eqb_spec (degree neqb g n) 0) as [D|D].
    + apply degree_zero in D. destruct (remove_node_ok W E D) as (g' & -> & W' & E' & H').
      exists g'. split; auto. split; auto. split; auto. intros m. rewrite H'. intuition.
    + exists g. split; auto. split; auto. split; auto. intros m.
      destruct (incident_dec g n) as [I|I]; [intuition|].
      apply degree_zero in I. congruence.
  - exists g. split; auto. split; auto. split; auto. intros m. split; [|tauto].
    intros H. split; auto. intros ->. apply (mem_spec neqb neqb_spec) in H. congruence.
Qed.

Lemma del_ok g s t r : wf g -> tight g -> ga g s t = Some r ->
  exists g', del_align neqb g s t = Ok g' /\ wf g' /\ tight g' /\
   forall e, In e (edges g') <-> (In e (edges g) /\ fst e <> (s, t)).
Proof.
  intros W T H. apply ga_in in H; auto. unfold del_align.
  destruct (remove_edge_ok _ _ _ W H) as (g1 & E1 & W1 & N1 & X1). rewrite E1; cbn [bind].
  destruct (drop_ok s W1) as (g2 & -> & W2 & E2 & X2).
  destruct (drop_ok t W2) as (g3 & -> & W3 & E3 & X3).
  eexists; split; [reflexivity|]. split; auto. split.
  - intros n Hn. apply X3 in Hn as [Hn H3]. apply X2 in Hn as [Hn H2].
    rewrite N1 in Hn. apply T in Hn as (s' & t' & r' & Hin & Hn).
    assert (I : incident g1 n -> incident g3 n) by (unfold incident; rewrite E3, E2; auto).
    apply I.
    destruct (eeqb (s', t') (s, t)) eqn:Ee.
    + apply eeqb_spec in Ee. injection Ee as -> ->. destruct Hn as [-> | ->].
      * apply H2; auto.
      * assert (K := H3 eq_refl). unfold incident in K |- *. now rewrite E2 in K.
    + exists s', t', r'. split; auto. apply X1. split; auto.
      cbn. intros C. apply eeqb_spec in C. congruence.
  - intros e. rewrite E3, E2. apply X1.
Qed.

Lemma del_missing g s t : ga g s t = None -> del_align neqb g s t = Err NetworkXError.
Proof.
  intros H. unfold del_align, remove_edge.
  destruct (has_edge neqb g s t) eqn:E; auto. apply has_edge_ga in E as (r & E). congruence.
Qed.

(** One-to-one on the edge list *)
Definition inj_edges g :=
  (forall s t t' r r', In ((s,t),r) (edges g) -> In ((s,t'),r') (edges g) -> t = t') /\
  (forall s s' t r r', In ((s,t),r) (edges g) -> In ((s',t),r') (edges g) -> s = s').

Lemma first_succ_some g s t : first_succ neqb g s = Some t -> exists r, In ((s,t),r) (edges g).
Proof.
  unfold first_succ. destruct (filter _ _) as [|[[s' t'] r'] l] eqn:E; [discriminate|].
  intros [= <-]. cbn. assert (In ((s',t'),r') (((s',t'),r')::l)) by (cbn; auto).
  rewrite <- E in H. apply filter_In in H as [H1 H2]. cbn in H2. apply neqb_spec in H2 as ->. eauto.
Qed.
Lemma first_succ_none g s : first_succ neqb g s = None -> forall t r, ~ In ((s,t),r) (edges g).
Proof.
  unfold first_succ. destruct (filter _ _) as [|[[s' t'] r'] l] eqn:E; [|discriminate].
  intros _ t r H. assert (In ((s,t),r) []); auto. rewrite <- E. apply filter_In. cbn. auto using neqb_refl.
Qed.
Lemma first_pred_some g s t : first_pred neqb g t = Some s -> exists r, In ((s,t),r) (edges g).
Proof.
  unfold first_pred. destruct (filter _ _) as [|[[s' t'] r'] l] eqn:E; [discriminate|].
  intros [= <-]. cbn. assert (In ((s',t'),r') (((s',t'),r')::l)) by (cbn; auto).
  rewrite <- E in H. apply filter_In in H as [H1 H2]. cbn in H2. apply neqb_spec in H2 as ->. eauto.
Qed.
Lemma first_pred_none g t : first_pred neqb g t = None -> forall s r, ~ In ((s,t),r) (edges g).
Proof.
  unfold first_pred. destruct (filter _ _) as [|[[s' t'] r'] l] eqn:E; [|discriminate].
  intros _ s r H. assert (In ((s,t),r) []); auto. rewrite <- E. apply filter_In. cbn. auto using neqb_refl.
Qed.

(** removing an edge (u,v) and, if isolated, node m (one of the ends), when all other nodes are incident or in S *)
Lemma remove_and_drop g u v r m (S : N -> Prop) : wf g -> In ((u,v),r) (edges g) ->
  (m = u /\ S v \/ m = v /\ S u) ->
  (forall n, In n (nodes g) -> S n \/ incident g n) ->
  exists g', (g1 <- remove_edge neqb g u v ;;
              if degree neqb g1 m =? 0 then remove_node neqb g1 m else Ok g1) = Ok g' /\
   wf g' /\ (forall e, In e (edges g') <-> (In e (edges g) /\ fst e <> (u,v))) /\
   (forall n, In n (nodes g') -> S n \/ incident g' n).
Proof.
  intros W Hin Hm HS.
  destruct (remove_edge_ok _ _ _ W Hin) as (g1 & E1 & W1 & N1 & X1). rewrite E1; cbn [bind].
  assert (INC : forall n, n <> u -> n <> v -> incident g n -> incident g1 n).
  { intros n Nu Nv (s' & t' & r' & Hin' & Hn'). exists s', t', r'. split; auto. apply X1. split; auto.
    cbn. intros [= -> ->]. intuition. }
  destruct (Nat.eqb_spec (degree neqb g1 m) 0) as [D|D].
  - apply degree_zero in D.
    assert (In m (nodes g1)).
    { rewrite N1. apply W. exists u, v, r. split; auto. intuition. }
    destruct (remove_node_ok W1 H D) as (g2 & E2 & W2 & EE2 & X2).
    exists g2; split; auto. split; auto. split.
    + intros e. rewrite EE2. apply X1.
    + intros n Hn. apply X2 in Hn as [Hn Nm]. rewrite N1 in Hn.
      assert (I : incident g1 n -> incident g2 n) by (unfold incident; rewrite EE2; auto).
      destruct (HS n Hn) as [Hs|Hi]; auto.
      destruct (N_dec n u) as [->|Nu]; [left; intuition congruence|].
      destruct (N_dec n v) as [->|Nv]; [left; intuition congruence|]. right. auto.
  - exists g1; split; auto. split; auto. split; auto.
    intros n Hn. rewrite N1 in Hn. destruct (HS n Hn) as [Hs|Hi]; auto.
    assert (incident g1 m). { destruct (incident_dec g1 m) as [I|I]; auto. apply degree_zero in I; congruence. }
    destruct (N_dec n m) as [->|Nm]; auto.
    destruct (N_dec n u) as [->|Nu]; [left; intuition congruence|].
    destruct (N_dec n v) as [->|Nv]; [left; intuition congruence|]. right. auto.
Qed.

Lemma free_source_ok g s t : wf g -> tight g -> inj_edges g ->
  exists g', free_source neqb g s t = Ok g' /\ wf g' /\
   (forall e, In e (edges g') <-> (In e (edges g) /\ (fst (fst e) = s -> snd (fst e) = t))) /\
   (forall n, In n (nodes g') -> n = s \/ incident g' n).
Proof.
  intros W T [I1 I2]. unfold free_source. destruct (first_succ neqb g s) as [o|] eqn:F.
  - apply first_succ_some in F as (r & F). destruct (neqb o t) eqn:E; cbn [negb].
    + apply neqb_spec in E as ->. exists g. split; auto. split; auto. split; auto.
      intros [[s' t'] r']; cbn. split; [|tauto]. intros H; split; auto. intros ->. eapply I1; eauto.
    + apply neqb_false in E.
      destruct (@remove_and_drop g s o r o (fun n => n = s) W F) as (g' & E' & W' & X' & N'); auto.
      exists g'; split; auto. split; auto. split; auto.
      intros [[s' t'] r']. rewrite X'. cbn. split; intros [H1 H2]; split; auto.
      * intros ->. exfalso. apply H2. f_equal. eapply I1; eauto.
      * intros [= -> ->]. apply E. auto.
  - exists g. split; auto. split; auto. split; auto.
    intros [[s' t'] r']; cbn. split; [|tauto]. intros H; split; auto. intros ->.
    exfalso. eapply first_succ_none; eauto.
Qed.

Lemma free_target_ok g s t : wf g -> inj_edges g ->
  (forall n, In n (nodes g) -> n = s \/ incident g n) ->
  exists g', free_target neqb g s t = Ok g' /\ wf g' /\
   (forall e, In e (edges g') <-> (In e (edges g) /\ (snd (fst e) = t -> fst (fst e) = s))) /\
   (forall n, In n (nodes g') -> (n = s \/ n = t) \/ incident g' n).
Proof.
  intros W [I1 I2] T. unfold free_target. destruct (first_pred neqb g t) as [o|] eqn:F.
  - apply first_pred_some in F as (r & F). destruct (neqb o s) eqn:E; cbn [negb].
    + apply neqb_spec in E as ->. exists g. split; auto. split; auto. split.
      * intros [[s' t'] r']; cbn. split; [|tauto]. intros H; split; auto. intros ->. eapply I2; eauto.
      * intros n Hn. destruct (T n Hn); auto.
    + apply neqb_false in E.
      destruct (@remove_and_drop g o t r o (fun n => n = s \/ n = t) W F) as (g' & E' & W' & X' & N'); auto.
      { intros n Hn. destruct (T n Hn); auto. }
      exists g'; split; auto. split; auto. split; auto.
      intros [[s' t'] r']. rewrite X'. cbn. split; intros [H1 H2]; split; auto.
      * intros ->. exfalso. apply H2. f_equal. eapply I2; eauto.
      * intros [= -> ->]. apply E. auto.
  - exists g. split; auto. split; auto. split.
    + intros [[s' t'] r']; cbn. split; [|tauto]. intros H; split; auto. intros ->.
      exfalso. eapply first_pred_none; eauto.
    + intros n Hn. destruct (T n Hn); auto.
Qed.

Lemma add_ok g s t r : wf g -> tight g -> inj_edges g ->
  exists g', matching_add_align neqb g s t r = Ok g' /\ wf g' /\ tight g' /\ inj_edges g' /\
   forall e, In e (edges g') <-> e = ((s,t),r) \/ (In e (edges g) /\ fst (fst e) <> s /\ snd (fst e) <> t).
Proof.
  intros W T I. unfold matching_add_align.
  destruct (free_source_ok s t W T I) as (g1 & E1 & W1 & X1 & T1). rewrite E1; cbn [bind].
  assert (I1 : inj_edges g1).
  { destruct I as [Ia Ib]. split; intros; [eapply Ia|eapply Ib]; eapply X1; eauto. }
  destruct (free_target_ok t W1 I1 T1) as (g2 & E2 & W2 & X2 & T2). rewrite E2; cbn [bind].
  eexists; split; [reflexivity|]. split; [now apply add_edge_wf|].
  assert (X : forall e, In e (edges (add_edge neqb g2 s t r)) <->
     e = ((s,t),r) \/ (In e (edges g) /\ fst (fst e) <> s /\ snd (fst e) <> t)).
  { intros [[s' t'] r']. rewrite add_edge_in by auto. rewrite X2, X1. cbn.
    destruct (N_dec s' s) as [->|Ns], (N_dec t' t) as [->|Nt]; intuition congruence. }
  split.
  { apply add_edge_tight; auto. intros n Hn. apply T2 in Hn. tauto. }
  split; auto. destruct I as [Ia Ib]. split.
  - intros s1 t1 t2 r1 r2 H1 H2. apply X in H1, H2. cbn in *.
    destruct H1 as [[= -> -> ->]|(H1 & A1 & B1)], H2 as [[= -> ->]|(H2 & A2 & B2)]; auto; try congruence.
    eapply Ia; eauto.
  - intros s1 s2 t1 r1 r2 H1 H2. apply X in H1, H2. cbn in *.
    destruct H1 as [[= -> -> ->]|(H1 & A1 & B1)], H2 as [[= -> ->]|(H2 & A2 & B2)]; auto; try congruence.
    eapply Ib; eauto.
Qed.

(** Refinement *)
Definition good g := wf g /\ tight g /\ inj_edges g.
Definition rep g (m : alignment N R) := forall s t, ga g s t = m s t.

Lemma rep_ext g' (m' : alignment N R) : wf g' ->
  (forall s t r, In ((s,t),r) (edges g') <-> m' s t = Some r) -> rep g' m'.
Proof.
  intros W' H s t. destruct (m' s t) as [r|] eqn:E.
  - apply ga_in; auto. now apply H.
  - destruct (ga g' s t) as [r|] eqn:E'; auto. apply ga_in, H in E'; auto. congruence.
Qed.

Lemma step_good g m o : good g -> rep g m ->
  good (keep (matching_op neqb) g o) /\ rep (keep (matching_op neqb) g o) (matching_spec neqb m o).
Proof.
  intros (W & T & I) Hr. unfold keep. destruct o as [s t r|s t]; cbn [matching_op matching_spec].
  - destruct (add_ok s t r W T I) as (g' & E & W' & T' & I' & X). rewrite E.
    split; [split; auto|]. apply rep_ext; auto.
    intros s' t' r'. rewrite X. cbn. unfold realign.
    destruct (neqb s' s) eqn:Es; [apply neqb_spec in Es as ->|apply neqb_false in Es];
    (destruct (neqb t' t) eqn:Et; [apply neqb_spec in Et as ->|apply neqb_false in Et]); cbn;
    rewrite <- ?Hr, <- ?(ga_in s' t' r' W); intuition congruence.
  - destruct (ga g s t) as [r|] eqn:G.
    + destruct (del_ok _ _ W T G) as (g' & E & W' & T' & X). rewrite E. split.
      * split; [auto|split; auto]. destruct I as [Ia Ib].
        split; intros; [eapply Ia|eapply Ib]; eapply X; eauto.
      * apply rep_ext; auto. intros s' t' r'. rewrite X. cbn. unfold unalign.
        destruct (neqb s' s) eqn:Es; [apply neqb_spec in Es as ->|apply neqb_false in Es];
        (destruct (neqb t' t) eqn:Et; [apply neqb_spec in Et as ->|apply neqb_false in Et]); cbn;
        rewrite <- ?Hr, ?(ga_in _ _ _ W); intuition congruence.
    + rewrite (del_missing _ _ _ G). split; [split; auto|].
      intros s' t'. unfold unalign.
      destruct (neqb s' s) eqn:Es; [apply neqb_spec in Es as ->|]; cbn; auto.
      destruct (neqb t' t) eqn:Et; [apply neqb_spec in Et as ->|]; cbn; auto.
Qed.

Lemma run_good ops g m : good g -> rep g m ->
  good (run_matching neqb g ops) /\ rep (run_matching neqb g ops) (fold_left (matching_spec neqb) ops m).
Proof.
  revert g m; induction ops as [|o ops IH]; intros g m Hg Hr; cbn; auto.
  destruct (step_good o Hg Hr) as [Hg' Hr']. apply IH; auto.
Qed.

Lemma good_empty : good (empty_digraph N R).
Proof. split; [apply wf_empty|split; [apply tight_empty|]]. split; intros; cbn in *; tauto. Qed.
Lemma rep_empty : rep (empty_digraph N R) (@no_alignment N R).
Proof. intros s t. reflexivity. Qed.

Lemma matching_refines ops s t :
  ga (run_matching neqb (empty_digraph N R) ops) s t =
  fold_left (matching_spec neqb) ops (@no_alignment N R) s t.
Proof. apply (run_good ops good_empty rep_empty). Qed.

Lemma matching_one_to_one ops : one_to_one (ga (run_matching neqb (empty_digraph N R) ops)).
Proof.
  destruct (run_good ops good_empty rep_empty) as [(W & T & Ia & Ib) _]. split.
  - intros s t t' r r' H1 H2. apply ga_in in H1, H2; auto. eapply Ia; eauto.
  - intros s s' t r r' H1 H2. apply ga_in in H1, H2; auto. eapply Ib; eauto.
Qed.

Lemma matching_outcome ops s t r :
  let g := run_matching neqb (empty_digraph N R) ops in
  (exists g', matching_add_align neqb g s t r = Ok g') /\
  (ga g s t = None -> del_align neqb g s t = Err NetworkXError) /\
  (ga g s t <> None -> exists g', del_align neqb g s t = Ok g').
Proof.
  intros g. destruct (run_good ops good_empty rep_empty) as [(W & T & I) _]. fold g in W, T, I.
  repeat split.
  - destruct (add_ok s t r W T I) as (g' & E & _). eauto.
  - apply del_missing.
  - intros H. destruct (ga g s t) as [r'|] eqn:G; [|congruence].
    destruct (del_ok _ _ W T G) as (g' & E & _). eauto.
Qed.

Lemma matching_listing ops (rels : list R) :
  let g := run_matching neqb (empty_digraph N R) ops in
  NoDup (map fst (alignments reqb g rels)) /\
  (forall s t r, In ((s, t), r) (alignments reqb g rels) <->
     (ga g s t = Some r /\ (rels = [] \/ In r rels))) /\
  align_len g = length (alignments reqb g []) /\
  NoDup (nodes g) /\
  (forall n, In n (nodes g) <-> exists m r, ga g n m = Some r \/ ga g m n = Some r).
Proof.
  intros g. destruct (run_good ops good_empty rep_empty) as [(W & T & I) _]. fold g in W, T, I.
  assert (FN : forall f, NoDup (map fst (edges g)) -> NoDup (map fst (filter f (edges g)))).
  { intros f. generalize (edges g). induction l as [|e l IH]; cbn; auto.
    intros H; inversion H; subst. destruct (f e); cbn; auto. constructor; auto.
    intros C. apply in_map_iff in C as (e' & E & C). apply filter_In in C as [C _].
    apply H2. rewrite <- E. now apply in_map. }
  repeat split.
  - destruct rels; cbn; [apply W|]. apply FN, W.
  - intros. apply ga_in; auto. destruct rels; cbn in H; auto. apply filter_In in H as [H _]; auto.
  - destruct rels; auto. right. cbn [alignments] in H. apply filter_In in H as [_ H].
    now apply (mem_spec reqb reqb_spec) in H.
  - intros [H1 H2]. apply ga_in in H1; auto. destruct rels as [|r0 rels]; cbn [alignments]; auto.
    apply filter_In. split; auto. apply (mem_spec reqb reqb_spec). destruct H2; [discriminate|auto].
  - apply W.
  - intros H. apply T in H as (s & t & r & H & [-> | ->]); apply ga_in in H; eauto.
  - intros (m & r & [H|H]); apply ga_in in H; auto; apply W; unfold incident; eauto 7.
Qed.

Lemma aligned_nodes ops n m :
  let g := run_matching neqb (empty_digraph N R) ops in
  (get_aligned_target_node neqb g n = Some m <-> exists r, ga g n m = Some r) /\
  (get_aligned_source_node neqb g n = Some m <-> exists r, ga g m n = Some r).
Proof.
  intros g. destruct (run_good ops good_empty rep_empty) as [(W & T & Ia & Ib) _]. fold g in W, T, Ia, Ib.
  unfold get_aligned_target_node, get_aligned_source_node. split; split.
  - intros H. apply first_succ_some in H as (r & H). exists r. now apply ga_in.
  - intros (r & H). apply ga_in in H; auto. destruct (first_succ neqb g n) as [m'|] eqn:F.
    + apply first_succ_some in F as (r' & F). f_equal. eapply Ia; eauto.
    + exfalso. eapply first_succ_none; eauto.
  - intros H. apply first_pred_some in H as (r & H). exists r. now apply ga_in.
  - intros (r & H). apply ga_in in H; auto. destruct (first_pred neqb g n) as [m'|] eqn:F.
    + apply first_pred_some in F as (r' & F). f_equal. eapply Ib; eauto.
    + exfalso. eapply first_pred_none; eauto.
Qed.

(** Mapping *)
Lemma mstep_good g m o : wf g -> tight g -> rep g m ->
  let g' := keep (mapping_op neqb) g o in wf g' /\ tight g' /\ rep g' (mapping_spec neqb m o).
Proof.
  intros W T Hr. unfold keep. destruct o as [s t r|s t]; cbn [mapping_op mapping_spec].
  - unfold mapping_add_align. split; [now apply add_edge_wf|]. split.
    + apply add_edge_tight; auto.
    + apply rep_ext; [now apply add_edge_wf|]. intros s' t' r'. rewrite add_edge_in by auto. cbn. unfold align.
      destruct (neqb s' s) eqn:Es; [apply neqb_spec in Es as ->|apply neqb_false in Es];
      (destruct (neqb t' t) eqn:Et; [apply neqb_spec in Et as ->|apply neqb_false in Et]); cbn;
      rewrite <- ?Hr, ?(ga_in _ _ _ W); intuition congruence.
  - destruct (ga g s t) as [r|] eqn:G.
    + destruct (del_ok _ _ W T G) as (g' & E & W' & T' & X). rewrite E. split; auto. split; auto.
      apply rep_ext; auto. intros s' t' r'. rewrite X. cbn. unfold unalign.
      destruct (neqb s' s) eqn:Es; [apply neqb_spec in Es as ->|apply neqb_false in Es];
      (destruct (neqb t' t) eqn:Et; [apply neqb_spec in Et as ->|apply neqb_false in Et]); cbn;
      rewrite <- ?Hr, ?(ga_in _ _ _ W); intuition congruence.
    + rewrite (del_missing _ _ _ G). split; auto. split; auto.
      intros s' t'. unfold unalign.
      destruct (neqb s' s) eqn:Es; [apply neqb_spec in Es as ->|]; cbn; auto.
      destruct (neqb t' t) eqn:Et; [apply neqb_spec in Et as ->|]; cbn; auto.
Qed.
Lemma mrun_good ops g m : wf g -> tight g -> rep g m ->
  let g' := run_mapping neqb g ops in
  wf g' /\ tight g' /\ rep g' (fold_left (mapping_spec neqb) ops m).
Proof.
  revert g m; induction ops as [|o ops IH]; intros g m W T Hr; cbn; auto.
  destruct (mstep_good o W T Hr) as (W' & T' & Hr'). apply IH; auto.
Qed.
Lemma mapping_refines ops s t :
  ga (run_mapping neqb (empty_digraph N R) ops) s t =
  fold_left (mapping_spec neqb) ops (@no_alignment N R) s t.
Proof. apply (mrun_good ops wf_empty tight_empty rep_empty). Qed.

Lemma mapping_listing ops (rels : list R) :
  let g := run_mapping neqb (empty_digraph N R) ops in
  NoDup (map fst (alignments reqb g rels)) /\
  (forall s t r, In ((s, t), r) (alignments reqb g rels) <->
     (ga g s t = Some r /\ (rels = [] \/ In r rels))) /\
  (forall n, In n (nodes g) <-> exists m r, ga g n m = Some r \/ ga g m n = Some r).
Proof.
  intros g. destruct (mrun_good ops wf_empty tight_empty rep_empty) as (W & T & _). fold g in W, T.
  assert (FN : forall f, NoDup (map fst (edges g)) -> NoDup (map fst (filter f (edges g)))).
  { intros f. generalize (edges g). induction l as [|e l IH]; cbn; auto.
    intros H; inversion H; subst. destruct (f e); cbn; auto. constructor; auto.
    intros C. apply in_map_iff in C as (e' & E & C). apply filter_In in C as [C _].
    apply H2. rewrite <- E. now apply in_map. }
  repeat split.
  - destruct rels; cbn; [apply W|]. apply FN, W.
  - intros. apply ga_in; auto. destruct rels; cbn in H; auto. apply filter_In in H as [H _]; auto.
  - destruct rels; auto. right. cbn [alignments] in H. apply filter_In in H as [_ H].
    now apply (mem_spec reqb reqb_spec) in H.
  - intros [H1 H2]. apply ga_in in H1; auto. destruct rels as [|r0 rels]; cbn [alignments]; auto.
    apply filter_In. split; auto. apply (mem_spec reqb reqb_spec). destruct H2; [discriminate|auto].
  - intros H. apply T in H as (s & t & r & H & [-> | ->]); apply ga_in in H; eauto.
  - intros (m & r & [H|H]); apply ga_in in H; auto; apply W; unfold incident; eauto 7.
Qed.

(** Equality of alignments *)
Lemma align_equal_iff g h : wf g -> wf h ->
  alignments_equal neqb reqb g h = true <-> forall s t, ga g s t = ga h s t.
Proof.
  intros Wg Wh. unfold alignments_equal, align_len, alignments.
  assert (Lmap : forall k : digraph, length (map fst (edges k)) = length (edges k)) by (intros; apply map_length).
  split.
  - destruct (Nat.eqb_spec (length (edges g)) (length (edges h))) as [L|]; [|discriminate].
    intros F. rewrite forallb_forall in F.
    assert (S1 : forall s t r, In ((s,t),r) (edges g) -> In ((s,t),r) (edges h)).
    { intros s t r Hin. specialize (F _ Hin). cbn in F. destruct (ga h s t) as [r'|] eqn:G; [|discriminate].
      apply reqb_spec in F as ->. now apply ga_in. }
    assert (S2 : incl (edges h) (edges g)).
    { apply NoDup_length_incl; [|lia|].
      - eapply NoDup_map_inv, Wg.
      - intros [[s t] r]; auto. }
    apply ext_ga; auto. intros [[s t] r]; split; auto.
  - intros H.
    assert (EQ : forall e, In e (edges g) <-> In e (edges h)).
    { intros [[s t] r]. rewrite <- !ga_in by auto. now rewrite H. }
    assert (L : length (edges g) = length (edges h)).
    { apply Nat.le_antisymm; apply NoDup_incl_length; try (eapply NoDup_map_inv, Wg); try (eapply NoDup_map_inv, Wh);
      intros e; apply EQ. }
    rewrite (proj2 (Nat.eqb_eq _ _) L). apply forallb_forall. intros [[s t] r] Hin. cbn.
    apply EQ in Hin. apply ga_in in Hin; auto. rewrite Hin. now apply reqb_spec.
Qed.
Lemma equal_histories ops1 ops2 :
  let g := run_mapping neqb (empty_digraph N R) ops1 in
  let h := run_mapping neqb (empty_digraph N R) ops2 in
  alignments_equal neqb reqb g h = true <-> forall s t, ga g s t = ga h s t.
Proof.
  intros g h. apply align_equal_iff.
  - apply (mrun_good ops1 wf_empty tight_empty rep_empty).
  - apply (mrun_good ops2 wf_empty tight_empty rep_empty).
Qed.
Lemma equal_histories_matching ops1 ops2 :
  let g := run_matching neqb (empty_digraph N R) ops1 in
  let h := run_matching neqb (empty_digraph N R) ops2 in
  alignments_equal neqb reqb g h = true <-> forall s t, ga g s t = ga h s t.
Proof.
  intros g h. apply align_equal_iff.
  - apply (run_good ops1 good_empty rep_empty).
  - apply (run_good ops2 good_empty rep_empty).
Qed.
End P.
