(** Proofs about the ordered graph model. *)
From Verif Require Import Py PyLemmas Graph_spec Graph_model.
Set Implicit Arguments.
Section P.
Variables N A W : Type.
Variable neqb : N -> N -> bool.
Hypothesis neq : forall x y, neqb x y = true <-> x = y.
Variable aeqb : A -> A -> bool.
Hypothesis aeq : forall x y, aeqb x y = true <-> x = y.
Variables label_key tokens_key : A.
Hypothesis lt_neq : label_key <> tokens_key.
Notation graph := (graph N A W).
Notation summary := (summary N W).
Notation attrs := (attrs A W).

(** ** dupdate *)
Lemma dupdate_last (e d : attrs) k :
  NoDup (map fst e) ->
  dget aeqb (dupdate aeqb d e) k = match dget aeqb e k with Some v => Some v | None => dget aeqb d k end.
Proof.
  revert d; induction e as [|[k1 v1] e IH]; intros d Hn; cbn [dupdate fold_left dget fst snd]; auto.
  inversion Hn; subst. fold (dupdate aeqb (dset aeqb d k1 v1) e). rewrite IH by auto.
  destruct (aeqb k k1) eqn:E.
  - apply aeq in E; subst. rewrite (proj2 (dget_none aeqb aeq e k1)) by auto. apply (dget_dset_same aeqb aeq).
  - destruct (dget aeqb e k); auto. apply (dget_dset_other aeqb aeq). intros ->.
    rewrite (proj2 (aeq k k) eq_refl) in E; discriminate.
Qed.

(** ** firsts *)
Lemma firsts_from_snoc seen l x :
  firsts_from neqb seen (l ++ [x]) =
  firsts_from neqb seen l ++ (if mem neqb x seen || mem neqb x l then [] else [x]).
Proof.
  revert seen; induction l as [|y l IH]; intros seen; cbn [app firsts_from].
  - cbn [mem]. rewrite orb_false_r. destruct (mem neqb x seen); auto.
  - destruct (mem neqb y seen) eqn:E.
    + rewrite IH. f_equal. cbn [mem]. destruct (neqb x y) eqn:Exy; auto.
      apply neq in Exy; subst. rewrite E. auto.
    + rewrite IH. cbn [mem app]. do 2 f_equal. destruct (neqb x y), (mem neqb x seen); auto.
Qed.
Lemma firsts_snoc l x : firsts neqb (l ++ [x]) = if mem neqb x l then firsts neqb l else firsts neqb l ++ [x].
Proof. unfold firsts. rewrite firsts_from_snoc. cbn [mem orb]. destruct (mem neqb x l); auto. apply app_nil_r. Qed.
Lemma firsts_in l x : In x (firsts neqb l) <-> In x l.
Proof.
  induction l as [|y l IH] using rev_ind; [cbn; tauto|]. rewrite firsts_snoc.
  destruct (mem neqb y l) eqn:E.
  - apply (mem_spec neqb neq) in E. rewrite in_app_iff, IH. cbn. intuition congruence.
  - rewrite !in_app_iff, IH. tauto.
Qed.
Lemma firsts_nodup l : NoDup (firsts neqb l).
Proof.
  induction l as [|y l IH] using rev_ind; [constructor|]. rewrite firsts_snoc.
  destruct (mem neqb y l) eqn:E; auto. apply nodup_snoc; auto.
  rewrite firsts_in. intros H. apply (mem_spec neqb neq) in H. congruence.
Qed.
Lemma targets_insert (s : summary) u v l u' :
  targets neqb (insert_edge s u v l) u' =
  if neqb u' u then (if mem neqb v (targets neqb s u') then targets neqb s u' else targets neqb s u' ++ [v])
  else targets neqb s u'.
Proof.
  unfold targets, insert_edge. cbn [inserted]. rewrite filter_app, map_app. cbn [filter fst snd].
  destruct (neqb u' u) eqn:E; cbn [map fst snd]; [|now rewrite app_nil_r].
  rewrite firsts_snoc.
  set (m := map _ _). assert (mem neqb v m = mem neqb v (firsts neqb m)) as ->; auto.
  apply eq_true_iff_eq. rewrite !(mem_spec neqb neq). symmetry. apply firsts_in.
Qed.
Lemma sources_insert (s : summary) u v l v' :
  sources neqb (insert_edge s u v l) v' =
  if neqb v' v then (if mem neqb u (sources neqb s v') then sources neqb s v' else sources neqb s v' ++ [u])
  else sources neqb s v'.
Proof.
  unfold sources, insert_edge. cbn [inserted]. rewrite filter_app, map_app. cbn [filter fst snd].
  destruct (neqb v' v) eqn:E; cbn [map fst snd]; [|now rewrite app_nil_r].
  rewrite firsts_snoc.
  set (m := map _ _). assert (mem neqb u m = mem neqb u (firsts neqb m)) as ->; auto.
  apply eq_true_iff_eq. rewrite !(mem_spec neqb neq). symmetry. apply firsts_in.
Qed.
Lemma last_label_insert (s : summary) u v l u' v' :
  last_label neqb (insert_edge s u v l) u' v' =
  if neqb u' u && neqb v' v then Some l else last_label neqb s u' v'.
Proof.
  unfold last_label, insert_edge. cbn [inserted]. rewrite filter_app, rev_app_distr. cbn [filter fst snd].
  destruct (neqb u' u && neqb v' v); auto.
Qed.

(** ** The invariant *)
Definition sref (g : graph) u v := match dget neqb (succ g) u with Some row => dget neqb row v | None => None end.
Definition pref (g : graph) u v := match dget neqb (pred g) v with Some row => dget neqb row u | None => None end.
Record inv (g : graph) (s : summary) : Prop := {
  i_succ : dkeys (succ g) = all_nodes s;
  i_pred : dkeys (pred g) = all_nodes s;
  i_node : dkeys (node g) = all_nodes s;
  i_nd : NoDup (all_nodes s);
  i_dicts : length (caller g) = dicts s;
  i_ends : forall u v l, In (u, v, l) (inserted s) -> In u (all_nodes s) /\ In v (all_nodes s);
  i_row : forall u row, dget neqb (succ g) u = Some row -> dkeys row = targets neqb s u;
  i_prow : forall v row, dget neqb (pred g) v = Some row -> dkeys row = sources neqb s v;
  i_sym : forall u v, sref g u v = pref g u v;
  i_own : forall u v r, sref g u v = Some r -> exists i, r = Own i /\ i < length (own g);
  i_inj : forall u v u' v' r, sref g u v = Some r -> sref g u' v' = Some r -> u = u' /\ v = v';
  i_lab : forall u v r, sref g u v = Some r -> dget aeqb (deref g r) label_key = last_label neqb s u v;
}.
Definition safe (g : graph) (r : ref) : Prop :=
  match r with
  | Caller i => i < length (caller g)
  | Own i => i < length (own g) /\ forall u v, sref g u v <> Some (Own i)
  end.
Definition nodes_safe (g : graph) : Prop := forall n r, dget neqb (node g) n = Some r -> safe g r.

Lemma sref_store (g : graph) r d u v : sref (store g r d) u v = sref g u v.
Proof. destruct r; reflexivity. Qed.
Lemma pref_store (g : graph) r d u v : pref (store g r d) u v = pref g u v.
Proof. destruct r; reflexivity. Qed.
Lemma safe_store (g : graph) r d r' : safe (store g r d) r' <-> safe g r'.
Proof. destruct r, r'; cbn; rewrite ?set_nth_length; reflexivity. Qed.
Lemma deref_store_other (g : graph) r d r' : r <> r' -> deref (store g r d) r' = deref g r'.
Proof. destruct r, r'; cbn; intros; auto; apply set_nth_other; congruence. Qed.
Lemma deref_store_same (g : graph) r d : safe g r -> deref (store g r d) r = d.
Proof. destruct r; cbn; intros; apply set_nth_same; intuition. Qed.
Lemma len_own_store (g : graph) r d : length (own (store g r d)) = length (own g).
Proof. destruct r; cbn; rewrite ?set_nth_length; auto. Qed.
Lemma len_caller_store (g : graph) r d : length (caller (store g r d)) = length (caller g).
Proof. destruct r; cbn; rewrite ?set_nth_length; auto. Qed.
Lemma node_store (g : graph) r d : node (store g r d) = node g.
Proof. destruct r; reflexivity. Qed.
Lemma succ_store (g : graph) r d : succ (store g r d) = succ g.
Proof. destruct r; reflexivity. Qed.
Lemma pred_store (g : graph) r d : pred (store g r d) = pred g.
Proof. destruct r; reflexivity. Qed.

Lemma inv_store (g : graph) s r d : inv g s -> safe g r -> inv (store g r d) s.
Proof.
  intros I Hs. destruct I. constructor; auto;
    rewrite ?succ_store, ?pred_store, ?node_store, ?len_caller_store; auto.
  - intros u v. rewrite sref_store, pref_store. auto.
  - intros u v r'. rewrite sref_store, len_own_store. eauto.
  - intros u v u' v' r'. rewrite !sref_store. eauto.
  - intros u v r'. rewrite sref_store. intros H. rewrite deref_store_other; auto.
    intros ->. destruct (i_own0 _ _ _ H) as (i & -> & Hi). cbn in Hs. destruct Hs as [_ Hs]. now apply (Hs u v).
Qed.

(** *** alloc *)
Lemma deref_alloc (g : graph) d r : safe g r -> deref (fst (alloc g d)) r = deref g r.
Proof. destruct r; cbn; auto. intros [H _]. now apply app_nth1. Qed.
Lemma deref_alloc_new (g : graph) d : deref (fst (alloc g d)) (snd (alloc g d)) = d.
Proof. cbn. rewrite app_nth2, Nat.sub_diag by lia. reflexivity. Qed.
Lemma safe_alloc (g : graph) d r : safe g r -> safe (fst (alloc g d)) r.
Proof.
  destruct r; cbn; auto. intros [H Ha]. rewrite app_length. cbn. split; [lia|].
  intros u v. apply (Ha u v).
Qed.
Lemma inv_alloc (g : graph) s d : inv g s -> inv (fst (alloc g d)) s /\ safe (fst (alloc g d)) (snd (alloc g d)).
Proof.
  intros I. split.
  - destruct I. constructor; auto.
    + intros u v r H. destruct (i_own0 u v r H) as (i & -> & Hi). exists i. cbn. rewrite app_length. cbn. split; auto; lia.
    + intros u v r H. destruct (i_own0 u v r H) as (i & -> & Hi).
      cbn. rewrite app_nth1 by auto. apply (i_lab0 u v _ H).
  - cbn. rewrite app_length. cbn. split; [lia|]. intros u v H.
    destruct (i_own I u v H) as (i & [= <-] & Hi). lia.
Qed.

(** *** put_edge *)
Lemma in_keys_some B (t : list (N * B)) n : In n (dkeys t) -> exists x, dget neqb t n = Some x.
Proof.
  intros H. destruct (dget neqb t n) eqn:E; eauto. apply (dget_none neqb neq) in E. contradiction.
Qed.
Lemma some_in_keys B (t : list (N * B)) n x : dget neqb t n = Some x -> In n (dkeys t).
Proof. intros H. apply (dget_in neqb neq) in H. now apply (in_map fst) in H. Qed.

Lemma dkeys_dset B (t : list (N * B)) k x :
  dkeys (dset neqb t k x) = if mem neqb k (dkeys t) then dkeys t else dkeys t ++ [k].
Proof.
  destruct (mem neqb k (dkeys t)) eqn:E.
  - apply (mem_spec neqb neq) in E. now apply (dkeys_dset_in neqb neq).
  - assert (~ In k (dkeys t)) by (intros H; apply (mem_spec neqb neq) in H; congruence).
    rewrite (dkeys_dset_new neqb neq) by auto. unfold dkeys. now rewrite map_app.
Qed.
Lemma neq_dec (x y : N) : {x = y} + {x <> y}.
Proof. destruct (neqb x y) eqn:E; [left; now apply neq|right; intros H; apply neq in H; congruence]. Qed.
Lemma neqb_refl x : neqb x x = true.
Proof. now apply neq. Qed.
Lemma neqb_false x y : x <> y -> neqb x y = false.
Proof. intros H. destruct (neqb x y) eqn:E; auto. apply neq in E. contradiction. Qed.

Lemma put_edge_inv (g : graph) s u v ups l :
  inv g s -> In u (all_nodes s) -> In v (all_nodes s) ->
  (forall d0, dget aeqb (fold_left (dupdate aeqb) ups d0) label_key = Some l) ->
  exists g', put_edge neqb aeqb g u v ups = Ok g' /\ inv g' (insert_edge s u v l) /\
    node g' = node g /\
    (forall r, safe g r -> safe g' r /\ deref g' r = deref g r).
Proof.
  intros I Hu Hv Hl.
  destruct (in_keys_some (succ g) u) as (row & Erow); [now rewrite (i_succ I)|].
  destruct (in_keys_some (pred g) v) as (prow & Eprow); [now rewrite (i_pred I)|].
  unfold put_edge. unfold dread at 1. rewrite Erow. cbn [bind].
  (* existing or new dict *)
  assert (exists g1 r, (match dget neqb row v with Some r => (g, r) | None => alloc g [] end) = (g1, r) /\
    inv g1 s /\ succ g1 = succ g /\ pred g1 = pred g /\ node g1 = node g /\ caller g1 = caller g /\
    (exists i, r = Own i /\ i < length (own g1)) /\
    (forall u' v', sref g u' v' = Some r -> u' = u /\ v' = v) /\
    (forall r', safe g r' -> safe g1 r' /\ deref g1 r' = deref g r' /\ r' <> r) /\
    (forall r0, dget neqb row v = Some r0 -> r0 = r)) as (g1 & r & E1 & I1 & Es & Ep & En & Ec & (i & Hr & Hi) & Hinj & Hsafe & Hex).
  { destruct (dget neqb row v) as [r|] eqn:Ev.
    - assert (sref g u v = Some r) as Hsr by (unfold sref; rewrite Erow; auto).
      exists g, r. repeat (split; [solve [auto]|]). split; [now apply (i_own I u v)|]. split; [|split].
      + intros u' v' H. now apply (i_inj I u' v' u v H).
      + intros r' Hs. split; [auto|split; [auto|]]. intros ->.
        destruct (i_own I u v Hsr) as (j & -> & Hj). cbn in Hs. now apply (proj2 Hs u v).
      + intros r0 [= ->]. reflexivity.
    - exists (fst (alloc g [])), (snd (alloc g [])). split; [reflexivity|].
      destruct (inv_alloc [] I) as [Ia Sa]. split; [exact Ia|]. repeat (split; [reflexivity|]).
      split; [cbn; exists (length (own g)); rewrite app_length; cbn; split; auto; lia|].
      split; [|split].
      + intros u' v' H. exfalso. destruct (i_own I u' v' H) as (j & [= <-] & Hj). lia.
      + intros r' Hs. split; [now apply safe_alloc|]. split; [now apply deref_alloc|].
        intros ->. cbn in Hs. destruct Hs as [Hs _]. lia.
      + discriminate. }
  rewrite E1. unfold dread. rewrite succ_store, Es, Erow. cbn [bind]. rewrite pred_store, Ep, Eprow. cbn [bind].
  eexists. split; [reflexivity|].
  set (d' := fold_left (dupdate aeqb) ups (deref g1 r)).
  set (g2 := {| succ := _ |}).
  assert (forall u' v', sref g2 u' v' = if neqb u' u && neqb v' v then Some r else sref g u' v') as HS.
  { intros u' v'. unfold sref, g2. cbn [succ].
    destruct (neq_dec u' u) as [->|Hne].
    - rewrite (dget_dset_same neqb neq), neqb_refl. cbn [andb]. rewrite Erow.
      destruct (neq_dec v' v) as [->|Hnv].
      + rewrite (dget_dset_same neqb neq), neqb_refl. auto.
      + rewrite (dget_dset_other neqb neq), (neqb_false Hnv) by auto. auto.
    - rewrite (dget_dset_other neqb neq), (neqb_false Hne) by auto. auto. }
  assert (forall u' v', pref g2 u' v' = if neqb u' u && neqb v' v then Some r else pref g u' v') as HP.
  { intros u' v'. unfold pref, g2. cbn [pred].
    destruct (neq_dec v' v) as [->|Hne].
    - rewrite (dget_dset_same neqb neq), neqb_refl, andb_true_r. rewrite Eprow.
      destruct (neq_dec u' u) as [->|Hnv].
      + rewrite (dget_dset_same neqb neq), neqb_refl. auto.
      + rewrite (dget_dset_other neqb neq), (neqb_false Hnv) by auto. auto.
    - rewrite (dget_dset_other neqb neq), (neqb_false Hne), andb_false_r by auto. auto. }
  assert (forall r', deref g2 r' = deref (store g1 r d') r') as HD by (intros []; reflexivity).
  assert (length (own g2) = length (own g1)) as HL by (unfold g2; cbn [own]; apply len_own_store).
  assert (forall r', safe g r' -> safe g2 r' /\ deref g2 r' = deref g r') as HSF.
  { intros r' Hs. destruct (Hsafe _ Hs) as (A1 & A2 & A3). split.
    - destruct r' as [j|j]; cbn in *.
      + now rewrite len_caller_store, Ec.
      + rewrite len_own_store. split; [apply A1|]. intros u' v'. rewrite HS.
        destruct (neqb u' u && neqb v' v); [congruence|]. apply Hs.
    - rewrite HD, deref_store_other; auto. }
  split; [|split; [cbn; rewrite node_store; exact En|exact HSF]].
  assert (NoDup (dkeys row)) as NDr by (rewrite (i_row I u Erow); apply firsts_nodup).
  constructor; cbn [insert_edge all_nodes dicts inserted].
  - unfold g2; cbn [succ]. rewrite dkeys_dset. rewrite (i_succ I).
    now rewrite (proj2 (mem_spec neqb neq u (all_nodes s))).
  - unfold g2; cbn [pred]. rewrite dkeys_dset. rewrite (i_pred I).
    now rewrite (proj2 (mem_spec neqb neq v (all_nodes s))).
  - unfold g2; cbn [node]. rewrite node_store, En. apply (i_node I).
  - apply (i_nd I).
  - unfold g2; cbn [caller]. rewrite len_caller_store, Ec. apply (i_dicts I).
  - intros u' v' l' H. apply in_app_or in H as [H|[H|[]]]; [now apply (i_ends I u' v' l')|].
    injection H as -> -> ->. auto.
  - intros u' row'. unfold g2; cbn [succ]. intros H. rewrite targets_insert.
    destruct (neq_dec u' u) as [->|Hne].
    + rewrite (dget_dset_same neqb neq) in H. injection H as <-. rewrite neqb_refl, dkeys_dset, (i_row I u Erow). auto.
    + rewrite (dget_dset_other neqb neq) in H by auto. rewrite (neqb_false Hne). now apply (i_row I).
  - intros v' row'. unfold g2; cbn [pred]. intros H. rewrite sources_insert.
    destruct (neq_dec v' v) as [->|Hne].
    + rewrite (dget_dset_same neqb neq) in H. injection H as <-. rewrite neqb_refl, dkeys_dset, (i_prow I v Eprow). auto.
    + rewrite (dget_dset_other neqb neq) in H by auto. rewrite (neqb_false Hne). now apply (i_prow I).
  - intros u' v'. rewrite HS, HP, (i_sym I). auto.
  - intros u' v' r'. rewrite HS, HL. destruct (neqb u' u && neqb v' v).
    + intros [= <-]. eauto.
    + intros H. destruct (i_own I u' v' H) as (j & -> & Hj). exists j. split; auto.
      assert (sref g1 u' v' = Some (Own j)) as H1 by (unfold sref in *; now rewrite Es).
      destruct (i_own I1 u' v' H1) as (j' & [= <-] & Hj'). auto.
  - intros u1 v1 u2 v2 r'. rewrite !HS.
    destruct (neqb u1 u && neqb v1 v) eqn:B1, (neqb u2 u && neqb v2 v) eqn:B2; intros H1 H2.
    + apply andb_prop in B1 as [B1 B1'], B2 as [B2 B2']. apply neq in B1, B1', B2, B2'. subst. auto.
    + injection H1 as <-. destruct (Hinj _ _ H2) as [-> ->]. rewrite !neqb_refl in B2. discriminate.
    + injection H2 as <-. destruct (Hinj _ _ H1) as [-> ->]. rewrite !neqb_refl in B1. discriminate.
    + now apply (i_inj I u1 v1 u2 v2 H1).
  - intros u' v' r'. rewrite HS, HD, last_label_insert. destruct (neqb u' u && neqb v' v) eqn:B.
    + intros [= <-]. subst r. cbn [store deref own]. rewrite set_nth_same by auto. apply Hl.
    + intros H. rewrite deref_store_other.
      * assert (sref g1 u' v' = Some r') as H1 by (unfold sref in *; now rewrite Es).
        apply (i_lab I1 u' v' H1).
      * intros <-. destruct (Hinj _ _ H) as [-> ->]. rewrite !neqb_refl in B. discriminate.
Qed.

(** *** attr_arg *)
Definition keeps_own (g g' : graph) : Prop :=
  (forall i, safe g (Own i) -> safe g' (Own i) /\ deref g' (Own i) = deref g (Own i)) /\
  length (caller g) <= length (caller g').
Lemma keeps_refl g : keeps_own g g.
Proof. split; auto. Qed.
Lemma keeps_trans g1 g2 g3 : keeps_own g1 g2 -> keeps_own g2 g3 -> keeps_own g1 g3.
Proof.
  intros [A1 A2] [B1 B2]. split; [|lia]. intros i H. destruct (A1 i H) as [C1 C2]. destruct (B1 i C1) as [D1 D2].
  split; auto. congruence.
Qed.
Lemma keeps_safe g g' r : keeps_own g g' -> safe g r -> safe g' r.
Proof. intros [A1 A2] H. destruct r; cbn in *; [lia|]. now apply A1. Qed.
Lemma attr_arg_inv (g : graph) s d a :
  inv g s ->
  match attr_arg aeqb g d a with
  | Ok (g', r) => valid s d = true /\ inv g' s /\ safe g' r /\ node g' = node g /\ keeps_own g g' /\
                  succ g' = succ g /\ pred g' = pred g /\
                  (forall i, safe g (Own i) -> r <> Own i) /\
                  (d = None -> deref g' r = a /\ exists i, r = Own i)
  | Err e => valid s d = false /\ e = NameError
  end.
Proof.
  intros I. unfold attr_arg, valid. destruct d as [i|].
  - rewrite <- (i_dicts I). destruct (i <? length (caller g)) eqn:E; [|auto].
    apply Nat.ltb_lt in E. split; auto. split; [now apply inv_store|].
    split; [now apply safe_store|]. split; [reflexivity|]. split; [|split; [|split; [|split]]]; auto.
    + split; [|rewrite len_caller_store; auto]. intros j Hj. split; [now apply safe_store|]. apply deref_store_other. discriminate.
    + discriminate.
    + discriminate.
  - split; [reflexivity|]. destruct (inv_alloc a I) as [Ia Sa].
    split; [exact Ia|]. split; [exact Sa|]. split; [reflexivity|]. split; [|split; [|split; [|split]]]; auto.
    + split; [|reflexivity]. intros j Hj. split; [now apply (@safe_alloc g a (Own j))|now apply (@deref_alloc g a (Own j))].
    + intros j [Hj _] [= <-]. lia.
    + intros _. split; [apply deref_alloc_new|eauto].
Qed.
Lemma keeps_store (g : graph) r d : (forall i, safe g (Own i) -> r <> Own i) -> keeps_own g (store g r d).
Proof.
  intros H. split; [|rewrite len_caller_store; auto]. intros i Hi. split; [now apply safe_store|].
  apply deref_store_other. auto.
Qed.

(** *** has_node *)
Lemma has_node_spec (g : graph) s n : inv g s -> has_node neqb g n = mem neqb n (all_nodes s).
Proof.
  intros I. apply eq_true_iff_eq. rewrite (mem_spec neqb neq), <- (i_succ I). unfold has_node, dhas.
  destruct (dget neqb (succ g) n) eqn:E.
  - split; auto. intros _. eapply some_in_keys; eauto.
  - split; [discriminate|]. intros H. apply (dget_none neqb neq) in E. contradiction.
Qed.
Lemma both_true {s : summary} {u v} : both neqb s u v = true -> In u (all_nodes s) /\ In v (all_nodes s).
Proof. unfold both. intros H. apply andb_prop in H as [H1 H2]. split; now apply (mem_spec neqb neq). Qed.

(** *** add_edge *)
Lemma get_after_label (d : attrs) l : dget aeqb (dset aeqb d label_key l) label_key = Some l.
Proof. apply (dget_dset_same aeqb aeq). Qed.
Definition dict_ok (d : attrs) := NoDup (map fst d).
Lemma dict_ok_dset (d : attrs) k w : dict_ok d -> dict_ok (dset aeqb d k w).
Proof. intros H. exact (@nodup_dset _ _ aeqb aeq d k w H). Qed.
Lemma dict_ok_dupdate (d e : attrs) : dict_ok d -> dict_ok (dupdate aeqb d e).
Proof.
  revert d; induction e as [|[k w] e IH]; intros d H; cbn [dupdate fold_left]; auto.
  apply IH. now apply dict_ok_dset.
Qed.
Definition caller_ok (g : graph) := Forall dict_ok (caller g).
Lemma caller_ok_get (g : graph) i : caller_ok g -> dict_ok (deref g (Caller i)).
Proof.
  intros H. cbn. destruct (Nat.lt_ge_cases i (length (caller g))).
  - eapply Forall_forall; [exact H|]. now apply nth_In.
  - rewrite nth_overflow by auto. constructor.
Qed.
Lemma Forall_set_nth B (P : B -> Prop) l i x : Forall P l -> P x -> Forall P (set_nth l i x).
Proof.
  intros H Hx. revert i; induction H; intros [|i]; cbn; auto.
Qed.
Lemma caller_ok_store (g : graph) r d : caller_ok g -> dict_ok d -> caller_ok (store g r d).
Proof. intros H Hd. destruct r; cbn; auto. unfold caller_ok. cbn. apply Forall_set_nth; auto. Qed.
Lemma caller_ok_attr (g : graph) d a g' r :
  caller_ok g -> dict_ok a -> attr_arg aeqb g d a = Ok (g', r) -> caller_ok g' /\ dict_ok (deref g' r).
Proof.
  intros H Ha. unfold attr_arg. destruct d as [i|].
  - destruct (i <? length (caller g)) eqn:E; [|discriminate]. intros [= <- <-]. apply Nat.ltb_lt in E.
    assert (dict_ok (dupdate aeqb (deref g (Caller i)) a)) by (apply dict_ok_dupdate; now apply caller_ok_get).
    split; [now apply (@caller_ok_store g (Caller i))|].
    cbn. rewrite set_nth_same by auto. auto.
  - intros [= <- <-]. split; auto. cbn. now rewrite app_nth2, Nat.sub_diag by lia.
Qed.
Lemma caller_put (g : graph) u v ups g' : put_edge neqb aeqb g u v ups = Ok g' ->
  (forall u v r, sref g u v = Some r -> exists i, r = Own i) -> caller g' = caller g.
Proof.
  intros H Ho. unfold put_edge, dread in H.
  destruct (dget neqb (succ g) u) as [row|] eqn:E1; [|discriminate]. cbn [bind] in H.
  destruct (dget neqb row v) as [r|] eqn:E2.
  - destruct (Ho u v r) as [i ->]; [unfold sref; now rewrite E1|].
    rewrite succ_store, E1, pred_store in H. cbn [bind] in H.
    destruct (dget neqb (pred g) v); [|discriminate]. now injection H as <-.
  - cbn [alloc] in H. cbn [store succ pred] in H. rewrite E1 in H. cbn [bind] in H.
    destruct (dget neqb (pred g) v); [|discriminate]. now injection H as <-.
Qed.

Lemma add_edge_inv (g : graph) s u v l d a :
  inv g s -> caller_ok g -> dict_ok a ->
  In u (all_nodes s) -> In v (all_nodes s) -> valid s d = true ->
  exists g', add_edge neqb aeqb label_key g u v l d a = Ok g' /\ inv g' (insert_edge s u v l) /\
     node g' = node g /\ keeps_own g g' /\ caller_ok g'.
Proof.
  intros I Hc Hda Hu Hv Hval. unfold add_edge. rewrite !(has_node_spec _ I).
  rewrite (proj2 (mem_spec neqb neq u _)), (proj2 (mem_spec neqb neq v _)) by auto. cbn [andb].
  pose proof (attr_arg_inv d a I) as HA. pose proof (@caller_ok_attr g d a) as HC.
  destruct (attr_arg aeqb g d a) as [[g1 r]|e]; [|destruct HA; congruence]. cbn [bind fst snd].
  destruct HA as (_ & I1 & S1 & N1 & K1 & _ & _ & R1 & D1).
  destruct (HC g1 r Hc Hda eq_refl) as [C1 O1].
  assert (dict_ok (dset aeqb (deref g1 r) label_key l)) as Ol by now apply dict_ok_dset.
  set (g2 := store g1 r (dset aeqb (deref g1 r) label_key l)).
  assert (inv g2 s) as I2 by now apply inv_store.
  destruct (@put_edge_inv g2 s u v [deref g2 r] l I2 Hu Hv) as (g' & E & I' & N' & F').
  { intros d0. cbn [fold_left]. unfold g2. rewrite deref_store_same by auto.
    rewrite dupdate_last; [now rewrite get_after_label|exact Ol]. }
  exists g'. rewrite E. split; auto. split; auto. split; [|split].
  - rewrite N'. unfold g2. now rewrite node_store.
  - assert (caller g' = caller g2) as Ecl by (eapply caller_put; [exact E|]; intros u0 v0 r0 H; destruct (i_own I2 u0 v0 H) as (i & -> & _); eauto).
    split.
    + intros i Hi. destruct (proj1 K1 i Hi) as [A1 A2].
      assert (safe g2 (Own i)) as A3 by now apply safe_store.
      destruct (F' _ A3) as [A4 A5]. split; auto. rewrite A5. unfold g2. rewrite deref_store_other; auto.
    + rewrite Ecl. unfold g2. rewrite len_caller_store. apply K1.
  - assert (caller g' = caller g2) as Ecl by (eapply caller_put; [exact E|]; intros u0 v0 r0 H; destruct (i_own I2 u0 v0 H) as (i & -> & _); eauto).
    unfold caller_ok. rewrite Ecl. now apply (@caller_ok_store g1 r).
Qed.

Lemma bunch_inv (r : ref) l dl es : forall (g : graph) s,
  inv g s -> caller_ok g -> safe g r -> deref g r = dl -> dict_ok dl -> dget aeqb dl label_key = Some l ->
  Forall (fun e => dict_ok (snd e)) es ->
  let (g', e) := bunch neqb aeqb r g es in
  let (s', e') := insert_bunch neqb aeqb label_key s es l in
  e = e' /\ inv g' s' /\ node g' = node g /\ caller_ok g' /\ keeps_own g g'.
Proof.
  induction es as [|[[u v] d] es IH]; intros g s I Hc Hs Ed Hd Hl Hes; cbn [bunch insert_bunch].
  - split; [reflexivity|]. split; [exact I|]. split; [reflexivity|]. split; [exact Hc|apply keeps_refl].
  - inversion Hes as [|? ? Hd1 Hes']; subst. cbn [snd] in Hd1.
    rewrite !(has_node_spec _ I). change (mem neqb u (all_nodes s) && mem neqb v (all_nodes s)) with (both neqb s u v).
    destruct (both neqb s u v) eqn:EB.
    + destruct (both_true EB) as [Hu Hv].
      set (l' := match dget aeqb d label_key with Some l' => l' | None => l end).
      destruct (@put_edge_inv g s u v [deref g r; d] l' I Hu Hv) as (g' & E & I' & N' & F').
      { intros d0. cbn [fold_left]. rewrite dupdate_last by auto. unfold l'.
        destruct (dget aeqb d label_key); auto. rewrite dupdate_last, Hl; auto. }
      rewrite E.
      assert (caller g' = caller g) as Ecl by (eapply caller_put; [exact E|]; intros u0 v0 r0 H; destruct (i_own I u0 v0 H) as (i & -> & _); eauto).
      destruct (F' _ Hs) as [S' D'].
      specialize (IH g' (insert_edge s u v l') I').
      destruct (bunch neqb aeqb r g' es) as [g2 e2], (insert_bunch neqb aeqb label_key (insert_edge s u v l') es l) as [s2 e2'].
      destruct IH as (B1 & B2 & B3 & B4 & B5); auto.
      { unfold caller_ok. now rewrite Ecl. }
      split; auto. split; auto. split; [congruence|]. split; auto.
      eapply keeps_trans; [|exact B5]. split; [|rewrite Ecl; auto]. intros i Hi. apply F'; auto.
    + split; [reflexivity|]. split; [exact I|]. split; [reflexivity|]. split; [exact Hc|apply keeps_refl].
Qed.

(** *** add_node *)
Definition nodes_of (s : summary) n := if mem neqb n (all_nodes s) then all_nodes s else all_nodes s ++ [n].
Definition with_node (s : summary) n : summary := {| dicts := dicts s; all_nodes := nodes_of s n; inserted := inserted s |}.
Lemma in_nodes_of (s : summary) n m : In m (all_nodes s) -> In m (nodes_of s n).
Proof. unfold nodes_of. destruct (mem neqb n (all_nodes s)); auto. intros. apply in_or_app; auto. Qed.
Lemma fresh_rows (g : graph) s n : inv g s -> ~ In n (all_nodes s) ->
  targets neqb s n = [] /\ sources neqb s n = [] /\ (forall v, sref g n v = None) /\ (forall u, pref g u n = None).
Proof.
  intros I Hn. split; [|split; [|split]].
  - destruct (targets neqb s n) as [|x l] eqn:E; auto. exfalso.
    assert (In x (targets neqb s n)) as H by (rewrite E; left; auto).
    unfold targets in H. rewrite firsts_in in H. apply in_map_iff in H as ([[a b] c] & H1 & H2).
    apply filter_In in H2 as [H2 H3]. cbn in H3. apply neq in H3; subst.
    apply Hn. apply (i_ends I a b c H2).
  - destruct (sources neqb s n) as [|x l] eqn:E; auto. exfalso.
    assert (In x (sources neqb s n)) as H by (rewrite E; left; auto).
    unfold sources in H. rewrite firsts_in in H. apply in_map_iff in H as ([[a b] c] & H1 & H2).
    apply filter_In in H2 as [H2 H3]. cbn in H3. apply neq in H3; subst.
    apply Hn. apply (i_ends I a b c H2).
  - intros v. unfold sref. rewrite (proj2 (dget_none neqb neq (succ g) n)); auto. now rewrite (i_succ I).
  - intros u. unfold pref. rewrite (proj2 (dget_none neqb neq (pred g) n)); auto. now rewrite (i_pred I).
Qed.
Lemma o_add_node_inv (g : graph) s n r :
  inv g s -> safe g r -> nodes_safe g ->
  exists g', o_add_node neqb aeqb g n r = Ok g' /\ inv g' (with_node s n) /\ nodes_safe g' /\
    length (caller g') = length (caller g) /\
    (forall r', safe g r' -> safe g' r') /\
    (forall m, dget neqb (node g') m = if neqb m n then Some (match dget neqb (node g) n with Some r0 => r0 | None => r end) else dget neqb (node g) m) /\
    (match dget neqb (node g) n with
     | None => caller g' = caller g /\ forall r', deref g' r' = deref g r'
     | Some r0 => (caller g' = match r0 with Caller i => set_nth (caller g) i (dupdate aeqb (deref g r0) (deref g r)) | Own _ => caller g end) /\
         deref g' r0 = dupdate aeqb (deref g r0) (deref g r) /\ forall r', r' <> r0 -> deref g' r' = deref g r' end).
Proof.
  intros I Hs HN. unfold o_add_node. rewrite (has_node_spec _ I).
  destruct (mem neqb n (all_nodes s)) eqn:E; cbn [negb].
  - apply (mem_spec neqb neq) in E as Hin.
    destruct (in_keys_some (node g) n) as (r0 & E0); [now rewrite (i_node I)|].
    unfold dread. rewrite E0. cbn [bind]. eexists. split; [reflexivity|].
    assert (safe g r0) as Hs0 by (eapply HN; eauto).
    assert (with_node s n = s) as -> by (unfold with_node, nodes_of; rewrite E; destruct s; reflexivity).
    split; [now apply inv_store|]. split; [|split; [|split; [|split; [|split; [|split]]]]].
    + intros m r'. rewrite node_store. intros H. apply safe_store. eapply HN; eauto.
    + apply len_caller_store.
    + intros r' H. now apply safe_store.
    + intros m. rewrite node_store. destruct (neq_dec m n) as [->|Hne]; [now rewrite neqb_refl|now rewrite neqb_false].
    + destruct r0; reflexivity.
    + now apply deref_store_same.
    + intros r' H. apply deref_store_other. auto.
  - assert (~ In n (all_nodes s)) as Hn by (intros H; apply (mem_spec neqb neq) in H; congruence).
    destruct (@fresh_rows _ _ n I Hn) as (T1 & T2 & T3 & T4).
    assert (dget neqb (succ g) n = None) as D1 by (apply (dget_none neqb neq); now rewrite (i_succ I)).
    assert (dget neqb (pred g) n = None) as D2 by (apply (dget_none neqb neq); now rewrite (i_pred I)).
    assert (dget neqb (node g) n = None) as D3 by (apply (dget_none neqb neq); now rewrite (i_node I)).
    eexists. split; [reflexivity|]. set (g' := {| succ := _ |}).
    assert (forall u v, sref g' u v = sref g u v) as HS.
    { intros u v. unfold sref, g'. cbn [succ]. destruct (neq_dec u n) as [->|Hne].
      - rewrite (dget_dset_same neqb neq), D1. reflexivity.
      - now rewrite (dget_dset_other neqb neq) by auto. }
    assert (forall u v, pref g' u v = pref g u v) as HP.
    { intros u v. unfold pref, g'. cbn [pred]. destruct (neq_dec v n) as [->|Hne].
      - rewrite (dget_dset_same neqb neq), D2. reflexivity.
      - now rewrite (dget_dset_other neqb neq) by auto. }
    assert (forall r', deref g' r' = deref g r') as HD by (intros []; reflexivity).
    assert (forall r', safe g r' -> safe g' r') as HSF.
    { intros [j|j]; cbn; auto. intros [A1 A2]. split; auto. intros u v. rewrite HS. auto. }
    split; [|split; [|split; [|split; [|split]]]]; auto.
    + constructor; cbn [with_node all_nodes dicts inserted]; unfold nodes_of; rewrite ?E.
      * unfold g'; cbn [succ]. rewrite dkeys_dset, (i_succ I), E. auto.
      * unfold g'; cbn [pred]. rewrite dkeys_dset, (i_pred I), E. auto.
      * unfold g'; cbn [node]. rewrite dkeys_dset, (i_node I), E. auto.
      * apply nodup_snoc; auto. apply (i_nd I).
      * apply (i_dicts I).
      * intros u v l H. destruct (i_ends I u v l H). rewrite !in_app_iff. auto.
      * intros u row H. unfold g' in H; cbn [succ] in H. change (targets neqb (with_node s n) u) with (targets neqb s u).
        destruct (neq_dec u n) as [->|Hne].
        -- rewrite (dget_dset_same neqb neq) in H. injection H as <-. exact (eq_sym T1).
        -- rewrite (dget_dset_other neqb neq) in H by auto. now apply (i_row I).
      * intros v row H. unfold g' in H; cbn [pred] in H. change (sources neqb (with_node s n) v) with (sources neqb s v).
        destruct (neq_dec v n) as [->|Hne].
        -- rewrite (dget_dset_same neqb neq) in H. injection H as <-. exact (eq_sym T2).
        -- rewrite (dget_dset_other neqb neq) in H by auto. now apply (i_prow I).
      * intros u v. rewrite HS, HP. apply (i_sym I).
      * intros u v r0. rewrite HS. apply (i_own I).
      * intros u v u' v' r0. rewrite !HS. apply (i_inj I).
      * intros u v r0. rewrite HS, HD. apply (i_lab I).
    + intros m r'. unfold g'; cbn [node]. destruct (neq_dec m n) as [->|Hne].
      * rewrite (dget_dset_same neqb neq). intros [= <-]. auto.
      * rewrite (dget_dset_other neqb neq) by auto. intros H. apply HSF. eapply HN; eauto.
    + intros m. rewrite D3. unfold g'; cbn [node]. destruct (neq_dec m n) as [->|Hne].
      * now rewrite (dget_dset_same neqb neq), neqb_refl.
      * now rewrite (dget_dset_other neqb neq), neqb_false by auto.
    + rewrite D3. auto.
Qed.
(** *** Calls *)
Notation gcall := (gcall N A W).
Notation g_call := (g_call neqb aeqb label_key tokens_key).
Notation g_run := (g_run neqb aeqb label_key tokens_key).
Notation summarize := (@summarize N A W neqb aeqb label_key).
Notation summary_of := (@summary_of N A W neqb aeqb label_key).
Record good (g : graph) (s : summary) : Prop := { g_inv : inv g s; g_safe : nodes_safe g; g_caller : caller_ok g }.
Definition is_add_node (c : gcall) := match c with GAddNode _ _ _ _ _ => true | _ => false end.
Lemma nodes_safe_keep (g g' : graph) : nodes_safe g -> node g' = node g -> keeps_own g g' -> nodes_safe g'.
Proof. intros H E K n r Hn. rewrite E in Hn. eapply keeps_safe; eauto. Qed.

Definition node_dict (l t : W) (a : attrs) : attrs := dupdate aeqb [(label_key, l); (tokens_key, t)] a.
Lemma node_dict_get l t a k : dict_ok a -> ~ In label_key (map fst a) -> ~ In tokens_key (map fst a) ->
  dict_ok (node_dict l t a) /\
  (k = label_key -> dget aeqb (node_dict l t a) k = Some l) /\
  (k = tokens_key -> dget aeqb (node_dict l t a) k = Some t).
Proof.
  intros Hd H1 H2. split; [|split].
  - apply dict_ok_dupdate. unfold dict_ok. cbn. constructor; [intros [H|[]]; congruence|constructor; [tauto|constructor]].
  - intros ->. unfold node_dict. rewrite dupdate_last by auto.
    rewrite (proj2 (dget_none aeqb aeq a label_key)) by auto. cbn. now rewrite (proj2 (aeq label_key label_key)).
  - intros ->. unfold node_dict. rewrite dupdate_last by auto.
    rewrite (proj2 (dget_none aeqb aeq a tokens_key)) by auto. cbn.
    destruct (aeqb tokens_key label_key) eqn:E; [apply aeq in E; congruence|].
    now rewrite (proj2 (aeq tokens_key tokens_key)).
Qed.

Lemma g_call_good (g : graph) s c :
  good g s -> possible label_key tokens_key c ->
  let (g', e) := g_call g c in
  let (s', e') := summarize s c in
  e = e' /\ good g' s' /\
  (is_add_node c = false -> node g' = node g /\ keeps_own g g').
Proof.
  intros [I HS HC] Hp. destruct c as [d|n l t d a|u v l d a|es l d a]; cbn [Graph_model.g_call Graph_spec.summarize].
  - (* GNewDict *)
    split; auto. split.
    + constructor.
      * destruct I. constructor; auto.
        -- cbn. rewrite app_length. cbn. lia.
        -- intros u v r H. destruct (i_own0 u v r H) as (i & -> & _). apply (i_lab0 u v _ H).
      * intros n r H. specialize (HS n r H). destruct r; cbn in *; auto. rewrite app_length. cbn. lia.
      * unfold caller_ok. cbn. apply Forall_app. split; auto.
    + intros _. split; auto. split; auto. cbn. rewrite app_length. lia.
  - (* GAddNode *)
    destruct Hp as (Hd & H1 & H2). unfold add_node. fold (node_dict l t a).
    destruct (@node_dict_get l t a label_key Hd H1 H2) as (Hnd & _ & _).
    pose proof (attr_arg_inv d (node_dict l t a) I) as HA. pose proof (@caller_ok_attr g d (node_dict l t a)) as HCA.
    destruct (attr_arg aeqb g d (node_dict l t a)) as [[g1 r]|e]; cbn [bind try].
    + destruct HA as (Hv & I1 & S1 & N1 & K1 & _). destruct (HCA g1 r HC Hnd eq_refl) as [C1 O1]. rewrite Hv. cbn [fst snd].
      destruct (@o_add_node_inv g1 s n r I1 S1) as (g' & E & I' & NS' & _ & _ & _ & HM).
      { eapply nodes_safe_keep; eauto. }
      rewrite E. cbn [try]. split; auto. split; [|discriminate]. constructor; auto.
      destruct (dget neqb (node g1) n) as [[i|i]|].
      * destruct HM as (Hc' & _). unfold caller_ok. rewrite Hc'. apply Forall_set_nth; auto.
        apply dict_ok_dupdate. now apply caller_ok_get.
      * destruct HM as (Hc' & _). unfold caller_ok. now rewrite Hc'.
      * destruct HM as (Hc' & _). unfold caller_ok. now rewrite Hc'.
    + destruct HA as (Hv & ->). rewrite Hv. split; auto. split; [constructor; auto|discriminate].
  - (* GAddEdge *)
    destruct Hp as (Hd & H1).
    assert (forall (x : graph * option exc) b, b = valid s d -> x = (if b then try g (add_edge neqb aeqb label_key g u v l d a) else (g, Some NameError)) ->
      let (g', e) := x in
      let (s', e') := if valid s d then if both neqb s u v then (insert_edge s u v l, None) else (s, Some ValueError) else (s, Some NameError) in
      e = e' /\ good g' s' /\ (is_add_node (GAddEdge u v l d a) = false -> node g' = node g /\ keeps_own g g')) as K.
    { intros x b Hb Hx. subst x b. destruct (valid s d) eqn:Hv.
      - destruct (both neqb s u v) eqn:EB.
        + destruct (both_true EB) as [Hu Hv'].
          destruct (@add_edge_inv g s u v l d a I HC Hd Hu Hv' Hv) as (g' & E & I' & N' & K' & C').
          rewrite E. cbn [try]. split; auto. split; auto. constructor; auto. eapply nodes_safe_keep; eauto.
        + unfold add_edge. rewrite !(has_node_spec _ I). unfold both in EB. rewrite EB. cbn [try].
          split; auto. split; [constructor; auto|]. intros _. split; auto. apply keeps_refl.
      - split; auto. split; [constructor; auto|]. intros _. split; auto. apply keeps_refl. }
    destruct d as [i|]; [apply (K _ (i <? length (caller g)))|apply (K _ true)]; auto.
    cbn [valid]. now rewrite (i_dicts I).
  - (* GAddEdges *)
    destruct Hp as (Hd & H1 & Hes). unfold add_edges_from.
    pose proof (attr_arg_inv d a I) as HA. pose proof (@caller_ok_attr g d a) as HCA.
    destruct (attr_arg aeqb g d a) as [[g1 r]|e].
    + destruct HA as (Hv & I1 & S1 & N1 & K1 & _ & _ & R1 & _). destruct (HCA g1 r HC Hd eq_refl) as [C1 O1]. rewrite Hv.
      set (dl := dset aeqb (deref g1 r) label_key l).
      assert (dict_ok dl) as Odl by now apply dict_ok_dset.
      pose proof (@bunch_inv r l dl es (store g1 r dl) s) as HB.
      destruct (bunch neqb aeqb r (store g1 r dl) es) as [g' e'], (insert_bunch neqb aeqb label_key s es l) as [s' e''].
      destruct HB as (B1 & B2 & B3 & B4 & B5); auto.
      * now apply inv_store.
      * now apply (@caller_ok_store g1 r).
      * now apply safe_store.
      * now apply deref_store_same.
      * apply get_after_label.
      * assert (node g' = node g) as EN by (rewrite B3, node_store; auto).
        assert (keeps_own g g') as KK.
        { eapply keeps_trans; [|exact B5]. split.
          - intros i Hi. destruct (proj1 K1 i Hi) as [A1 A2]. split; [now apply safe_store|].
            rewrite deref_store_other; auto.
          - rewrite len_caller_store. apply K1. }
        split; auto. split; auto. constructor; auto. eapply nodes_safe_keep; eauto.
    + destruct HA as (Hv & ->). rewrite Hv. split; auto. split; [constructor; auto|]. intros _. split; auto. apply keeps_refl.
Qed.

Lemma g_run_good cs : forall (g : graph) s, good g s -> Forall (possible label_key tokens_key) cs ->
  let (g', es) := g_run g cs in let (s', es') := summary_of s cs in es = es' /\ good g' s'.
Proof.
  induction cs as [|c cs IH]; intros g s G Hp; cbn [Graph_model.g_run Graph_spec.summary_of]; auto.
  inversion Hp; subst. pose proof (@g_call_good g s c G H1) as HC.
  destruct (g_call g c) as [g1 e], (summarize s c) as [s1 e']. destruct HC as (-> & G1 & _).
  specialize (IH g1 s1 G1 H2). destruct (g_run g1 cs) as [g2 es], (summary_of s1 cs) as [s2 es'].
  destruct IH as [-> G2]. auto.
Qed.
Lemma good_empty : good (empty_graph N A W) (nothing N W).
Proof.
  constructor; [constructor|intros n r; discriminate|constructor]; cbn; try discriminate; try tauto; auto.
  constructor.
Qed.

(** ** Statements *)
Section Run.
Variable cs : list gcall.
Hypothesis Hcs : Forall (possible label_key tokens_key) cs.
Let g := fst (g_run (empty_graph N A W) cs).
Let s := fst (summary_of (nothing N W) cs).
Lemma run_good : good g s /\ snd (g_run (empty_graph N A W) cs) = snd (summary_of (nothing N W) cs).
Proof.
  pose proof (@g_run_good cs _ _ good_empty Hcs) as H. unfold g, s.
  destruct (g_run _ cs), (summary_of _ cs). destruct H. auto.
Qed.
Lemma graph_nodes : snd (g_run (empty_graph N A W) cs) = snd (summary_of (nothing N W) cs) /\
  g_nodes g = all_nodes s /\ NoDup (g_nodes g).
Proof.
  destruct run_good as [[I _ _] E]. split; auto. unfold g_nodes. rewrite (i_succ I). split; auto. apply (i_nd I).
Qed.
Lemma graph_rows n : 
  (In n (all_nodes s) -> successors neqb g n = Ok (targets neqb s n) /\ predecessors neqb g n = Ok (sources neqb s n)) /\
  (~ In n (all_nodes s) -> successors neqb g n = Err KeyError /\ predecessors neqb g n = Err KeyError).
Proof.
  destruct run_good as [[I _ _] _]. unfold successors, predecessors, dread. split; intros H.
  - destruct (in_keys_some (succ g) n) as (row & E); [now rewrite (i_succ I)|].
    destruct (in_keys_some (pred g) n) as (prow & E'); [now rewrite (i_pred I)|].
    rewrite E, E'. cbn. rewrite (i_row I n E), (i_prow I n E'). auto.
  - rewrite (proj2 (dget_none neqb neq (succ g) n)) by now rewrite (i_succ I).
    rewrite (proj2 (dget_none neqb neq (pred g) n)) by now rewrite (i_pred I). auto.
Qed.
Lemma sref_in u v r : sref g u v = Some r -> In v (targets neqb s u) /\ In u (all_nodes s).
Proof.
  destruct run_good as [[I _ _] _]. unfold sref. destruct (dget neqb (succ g) u) as [row|] eqn:E; [|discriminate].
  intros H. rewrite <- (i_row I u E), <- (i_succ I). split; eapply some_in_keys; eauto.
Qed.
Lemma succ_data_ok u v r : succ_data neqb g u v = Ok r <-> sref g u v = Some r.
Proof.
  unfold succ_data, sref, dread. destruct (dget neqb (succ g) u) as [row|]; cbn; [|split; discriminate].
  destruct (dget neqb row v); split; congruence.
Qed.
Lemma pred_data_ok u v r : pred_data neqb g u v = Ok r <-> pref g u v = Some r.
Proof.
  unfold pred_data, pref, dread. destruct (dget neqb (pred g) v) as [row|]; cbn; [|split; discriminate].
  destruct (dget neqb row u); split; congruence.
Qed.
Lemma graph_sides u v :
  (forall r, succ_data neqb g u v = Ok r <-> pred_data neqb g u v = Ok r) /\
  (forall u' v' r, succ_data neqb g u v = Ok r -> succ_data neqb g u' v' = Ok r -> u = u' /\ v = v') /\
  (In v (targets neqb s u) <-> In u (sources neqb s v)) /\
  (In v (targets neqb s u) -> In u (all_nodes s) /\ In v (all_nodes s)) /\
  (In v (targets neqb s u) -> exists l, last_label neqb s u v = Some l /\ edge_attr neqb aeqb g u v label_key = Ok l) /\
  (~ In v (targets neqb s u) -> edge_attr neqb aeqb g u v label_key = Err KeyError).
Proof.
  destruct run_good as [[I _ _] _].
  assert (In v (targets neqb s u) <-> exists l, In (u, v, l) (inserted s)) as HT.
  { unfold targets. rewrite firsts_in, in_map_iff. split.
    - intros ([[a b] c] & <- & H). apply filter_In in H as [H1 H2]. cbn in *. apply neq in H2; subst. eauto.
    - intros (l & H). exists (u, v, l). split; auto. apply filter_In. cbn. rewrite neqb_refl. auto. }
  assert (In u (sources neqb s v) <-> exists l, In (u, v, l) (inserted s)) as HSo.
  { unfold sources. rewrite firsts_in, in_map_iff. split.
    - intros ([[a b] c] & <- & H). apply filter_In in H as [H1 H2]. cbn in *. apply neq in H2; subst. eauto.
    - intros (l & H). exists (u, v, l). split; auto. apply filter_In. cbn. rewrite neqb_refl. auto. }
  split; [|split; [|split; [|split; [|split]]]].
  - intros r. rewrite succ_data_ok, pred_data_ok, (i_sym I). tauto.
  - intros u' v' r. rewrite !succ_data_ok. apply (i_inj I).
  - now rewrite HT, HSo.
  - rewrite HT. intros (l & H). now apply (i_ends I u v l).
  - intros H. pose proof H as H'. rewrite HT in H'. destruct H' as (l0 & H0). destruct (i_ends I _ _ _ H0) as [Hu Hv].
    destruct (in_keys_some (succ g) u) as (row & E); [now rewrite (i_succ I)|].
    destruct (in_keys_some row v) as (r & E'); [now rewrite (i_row I u E)|].
    assert (sref g u v = Some r) as Hr by (unfold sref; now rewrite E).
    pose proof (i_lab I u v Hr) as HL.
    destruct (last_label neqb s u v) as [l|] eqn:EL.
    + exists l. split; auto. unfold edge_attr. rewrite (proj2 (succ_data_ok u v r) Hr). cbn. unfold dread. now rewrite HL.
    + exfalso. unfold last_label in EL. destruct (rev _) eqn:ER; [|discriminate].
      assert (In (u, v, l0) (rev (filter (fun e => neqb u (fst (fst e)) && neqb v (snd (fst e))) (inserted s)))) as HI.
      { rewrite <- in_rev. apply filter_In. cbn. rewrite !neqb_refl. auto. }
      rewrite ER in HI. destruct HI.
  - intros H. unfold edge_attr. destruct (succ_data neqb g u v) as [r|e] eqn:E.
    + apply succ_data_ok in E. apply sref_in in E. tauto.
    + unfold succ_data, dread in E. cbn. destruct (dget neqb (succ g) u) as [row|]; cbn in E; [|congruence].
      destruct (dget neqb row v); congruence.
Qed.
End Run.

(** ** Node attributes *)
Lemma last_node_snoc n cs c : last_node neqb n (cs ++ [c : gcall]) =
  match c with GAddNode m l t _ _ => if neqb n m then Some (l, t) else last_node neqb n cs | _ => last_node neqb n cs end.
Proof.
  induction cs as [|c' cs IH]; cbn [app last_node].
  - destruct c; auto.
  - rewrite IH. destruct c; auto. destruct (neqb n n0); auto.
Qed.
Record named (g : graph) (cs : list gcall) : Prop := {
  n_inj : forall n m r, dget neqb (node g) n = Some r -> dget neqb (node g) m = Some r -> n = m;
  n_own : forall n r, dget neqb (node g) n = Some r -> exists i, r = Own i;
  n_val : forall n, match dget neqb (node g) n with
                    | Some r => exists l t, last_node neqb n cs = Some (l, t) /\
                        dget aeqb (deref g r) label_key = Some l /\ dget aeqb (deref g r) tokens_key = Some t
                    | None => last_node neqb n cs = None end }.
Lemma g_call_named (g : graph) s cs c :
  good g s -> named g cs -> possible label_key tokens_key c -> no_shared_dict c ->
  named (fst (g_call g c)) (cs ++ [c]).
Proof.
  intros G Hn Hp Hs.
  destruct (is_add_node c) eqn:EA.
  - destruct c as [|n l t d a| |]; try discriminate. cbn in Hs. subst d.
    destruct G as [I HS HC]. destruct Hp as (Hd & H1 & H2).
    cbn [Graph_model.g_call]. unfold add_node. fold (node_dict l t a).
    destruct (@node_dict_get l t a label_key Hd H1 H2) as (Hnd & HLl & _). specialize (HLl eq_refl).
    destruct (@node_dict_get l t a tokens_key Hd H1 H2) as (_ & _ & HLt). specialize (HLt eq_refl).
    pose proof (attr_arg_inv None (node_dict l t a) I) as HA.
    destruct (attr_arg aeqb g None (node_dict l t a)) as [[g1 r]|e]; [|destruct HA; discriminate]. cbn [bind fst snd].
    destruct HA as (_ & I1 & S1 & N1 & K1 & _ & _ & R1 & D1). destruct (D1 eq_refl) as (D2 & i & ->).
    destruct (@o_add_node_inv g1 s n (Own i) I1 S1) as (g' & E & I' & NS' & _ & _ & HM & HD).
    { eapply nodes_safe_keep; eauto. }
    rewrite E. cbn [try fst].
    assert (forall m r0, dget neqb (node g) m = Some r0 -> r0 <> Own i) as Hfresh.
    { intros m r0 Hm ->. apply (R1 i); auto. exact (HS _ _ Hm). }
    assert (forall m r0, dget neqb (node g) m = Some r0 -> deref g1 r0 = deref g r0) as Hsame.
    { intros m r0 Hm. destruct (n_own Hn _ Hm) as (j & ->). apply (proj1 K1). exact (HS _ _ Hm). }
    rewrite N1 in *.
    constructor.
    + intros m m' r0. rewrite !HM. destruct (neqb m n) eqn:B1, (neqb m' n) eqn:B2; intros A1 A2.
      * apply neq in B1, B2. congruence.
      * apply neq in B1; subst. destruct (dget neqb (node g) n) as [rn|] eqn:En.
        -- injection A1 as ->. eapply (n_inj Hn); eauto.
        -- injection A1 as <-. now apply Hfresh in A2.
      * apply neq in B2; subst. destruct (dget neqb (node g) n) as [rn|] eqn:En.
        -- injection A2 as ->. eapply (n_inj Hn); eauto.
        -- injection A2 as <-. now apply Hfresh in A1.
      * eapply (n_inj Hn); eauto.
    + intros m r0. rewrite HM. destruct (neqb m n).
      * destruct (dget neqb (node g) n) as [rn|] eqn:En; intros [= <-]; [eapply (n_own Hn); eauto|eauto].
      * apply (n_own Hn).
    + intros m. rewrite HM, last_node_snoc. destruct (neqb m n) eqn:B.
      * exists l, t. split; auto. destruct (dget neqb (node g) n) as [rn|] eqn:En.
        -- destruct HD as (_ & HD & _). rewrite HD, D2, !dupdate_last by exact Hnd. now rewrite HLl, HLt.
        -- destruct HD as (_ & HD). now rewrite HD, D2.
      * pose proof (n_val Hn m) as HV. destruct (dget neqb (node g) m) as [rm|] eqn:Em; auto.
        destruct HV as (l' & t' & A1 & A2 & A3). exists l', t'. split; auto.
        assert (deref g' rm = deref g rm) as ->; auto.
        rewrite <- (Hsame _ _ Em). destruct (dget neqb (node g) n) as [rn|] eqn:En.
        -- destruct HD as (_ & _ & HD). apply HD. intros ->.
           assert (m = n) by (eapply (n_inj Hn); eauto). subst. rewrite neqb_refl in B. discriminate.
        -- destruct HD as (_ & HD). apply HD.
  - pose proof (@g_call_good g s c G Hp) as H. destruct (g_call g c) as [g' e], (summarize s c) as [s' e'].
    destruct H as (_ & _ & H). destruct (H EA) as [EN K]. cbn [fst]. destruct Hn. constructor; rewrite ?EN; auto.
    intros n. rewrite last_node_snoc. specialize (n_val0 n).
    assert (match c with GAddNode m l t _ _ => if neqb n m then Some (l, t) else last_node neqb n cs | _ => last_node neqb n cs end = last_node neqb n cs) as ->
      by (destruct c; auto; discriminate).
    destruct (dget neqb (node g) n) as [r|] eqn:En; auto. destruct (n_own0 _ _ En) as (i & ->).
    assert (deref g' (Own i) = deref g (Own i)) as ->; auto. apply (proj1 K). exact (g_safe G _ En).
Qed.
Lemma g_run_named cs : forall done (g : graph) s, good g s -> named g done ->
  Forall (possible label_key tokens_key) cs -> Forall (@no_shared_dict N A W) cs ->
  named (fst (g_run g cs)) (done ++ cs).
Proof.
  induction cs as [|c cs IH]; intros done g s G Hn Hp Hs; cbn [Graph_model.g_run].
  - now rewrite app_nil_r.
  - inversion Hp; inversion Hs; subst.
    pose proof (@g_call_named g s done c G Hn H1 H5) as HN. pose proof (@g_call_good g s c G H1) as HG.
    destruct (g_call g c) as [g1 e], (summarize s c) as [s1 e']. destruct HG as (_ & G1 & _). cbn [fst] in HN.
    specialize (IH _ _ _ G1 HN H2 H6). rewrite <- app_assoc in IH.
    destruct (g_run g1 cs) as [g2 es]. exact IH.
Qed.
Lemma graph_node_attrs cs n :
  Forall (possible label_key tokens_key) cs -> Forall (@no_shared_dict N A W) cs ->
  let g := fst (g_run (empty_graph N A W) cs) in
  match last_node neqb n cs with
  | Some (l, t) => node_attr neqb aeqb g n label_key = Ok l /\ node_attr neqb aeqb g n tokens_key = Ok t
  | None => node_attr neqb aeqb g n label_key = Err KeyError
  end.
Proof.
  intros Hp Hs g. assert (named g cs) as HN.
  { change cs with ([] ++ cs) at 1. eapply g_run_named; eauto using good_empty.
    constructor; cbn; try discriminate; auto. }
  pose proof (n_val HN n) as HV. unfold node_attr, dread.
  destruct (dget neqb (node g) n) as [r|].
  - destruct HV as (l & t & -> & E1 & E2). cbn. rewrite E1, E2. auto.
  - rewrite HV. reflexivity.
Qed.
(** ** terminal_yield *)
Section Yield.
Variables no_tokens all_punct : W -> bool.
Notation yield_loop := (yield_loop neqb aeqb tokens_key no_tokens all_punct).
Notation node_is_terminal := (node_is_terminal neqb aeqb tokens_key no_tokens all_punct).
Variable g : graph.
Variables wp we : bool.
Variable sc : N -> list N.
Variable tm : N -> bool.
Variable V : list N.
Hypothesis HVnd : NoDup V.
Hypothesis HVsc : forall v, In v V -> successors neqb g v = Ok (sc v).
Hypothesis HVtm : forall v, In v V -> node_is_terminal g v wp we = Ok (tm v).
Hypothesis HVcl : forall v w, In v V -> In w (sc v) -> In w V.
Inductive rch (u : N) : N -> Prop :=
| rch_self : rch u u
| rch_step v w : rch u v -> In w (sc v) -> rch u w.

Lemma yield_unfold f v below seen found :
  In v V ->
  yield_loop (S f) g wp we (v :: below) seen found =
  let seen' := if mem neqb v seen then seen else seen ++ [v] in
  let found' := if mem neqb v seen then found else if tm v then found ++ [v] else found in
  match find (fun w => negb (mem neqb w seen')) (sc v) with
  | Some w => yield_loop f g wp we (w :: v :: below) seen' found'
  | None => yield_loop f g wp we below seen' found'
  end.
Proof.
  intros Hv. cbn [Graph_model.yield_loop]. destruct (mem neqb v seen) eqn:E.
  - cbn [bind fst snd]. rewrite HVsc by auto. reflexivity.
  - rewrite HVtm by auto. cbn [bind fst snd]. rewrite HVsc by auto. reflexivity.
Qed.

Record yinv (start : N) (stack seen found : list N) : Prop := {
  y_seen : NoDup seen;
  y_sV : incl seen V;
  y_kV : incl stack V;
  y_found : found = filter tm seen;
  y_below : forall x, In x (tl stack) -> In x seen;
  y_done : forall x w, In x seen -> ~ In x stack -> In w (sc x) -> In w seen;
  y_reach : forall x, In x seen \/ In x stack -> rch start x;
  y_start : In start seen \/ In start stack }.
Definition unseen_top (stack seen : list N) : nat :=
  match stack with [] => 0 | v :: _ => if mem neqb v seen then 0 else 1 end.
Definition meas (stack seen : list N) : nat := 2 * (length V - (length seen + unseen_top stack seen)) + length stack.
Lemma mem_false x l : mem neqb x l = false <-> ~ In x l.
Proof.
  rewrite <- (mem_spec neqb neq x l). destruct (mem neqb x l); intuition congruence.
Qed.
Lemma find_none_all (l seen : list N) : find (fun w => negb (mem neqb w seen)) l = None -> incl l seen.
Proof.
  intros H x Hx. apply find_none with (x := x) in H; auto. apply negb_false_iff in H. now apply (mem_spec neqb neq) in H.
Qed.
Lemma y_bound seen : NoDup seen -> incl seen V -> length seen <= length V.
Proof. apply NoDup_incl_length. Qed.

Lemma yield_terminates start : forall fuel stack seen found,
  yinv start stack seen found -> meas stack seen <= fuel ->
  exists seen', yield_loop fuel g wp we stack seen found = Ok (filter tm seen') /\ yinv start [] seen' (filter tm seen').
Proof.
  induction fuel as [|f IH]; intros stack seen found I HM.
  - destruct stack as [|v below]; [|cbn [meas length] in HM; unfold meas in HM; cbn [length] in HM; lia].
    exists seen. cbn. rewrite <- (y_found I). auto.
  - destruct stack as [|v below]; [exists seen; cbn; rewrite <- (y_found I); auto|].
    assert (In v V) as Hv by (apply (y_kV I); left; auto).
    rewrite yield_unfold by auto. cbv zeta.
    set (seen' := if mem neqb v seen then seen else seen ++ [v]).
    set (found' := if mem neqb v seen then found else if tm v then found ++ [v] else found).
    assert (NoDup seen') as S1.
    { unfold seen'. destruct (mem neqb v seen) eqn:E; [apply (y_seen I)|]. apply nodup_snoc; [apply (y_seen I)|].
      now apply mem_false. }
    assert (incl seen' V) as S2.
    { unfold seen'. destruct (mem neqb v seen); [apply (y_sV I)|]. apply incl_app; [apply (y_sV I)|].
      intros x [<-|[]]; auto. }
    assert (found' = filter tm seen') as S3.
    { unfold found', seen'. destruct (mem neqb v seen); [apply (y_found I)|]. rewrite filter_app, <- (y_found I). cbn.
      destruct (tm v); auto. now rewrite app_nil_r. }
    assert (forall x, In x seen' <-> In x seen \/ x = v) as S4.
    { intros x. unfold seen'. destruct (mem neqb v seen) eqn:E.
      - apply (mem_spec neqb neq) in E. intuition (subst; auto).
      - rewrite in_app_iff. cbn. intuition. }
    assert (length seen + unseen_top (v :: below) seen = length seen') as S5.
    { unfold unseen_top, seen'. destruct (mem neqb v seen); [lia|]. rewrite app_length. cbn. lia. }
    pose proof (y_bound S1 S2) as S6.
    destruct (find _ (sc v)) as [w|] eqn:EF.
    + apply find_some in EF as [Hw Hun]. apply negb_true_iff in Hun. pose proof (proj1 (mem_false w seen') Hun) as Hun'.
      apply IH.
      * constructor; auto.
        -- intros x [<-|Hx]; [eapply HVcl; eauto|now apply (y_kV I)].
        -- cbn [tl]. intros x [<-|Hx]; apply S4; auto. left. now apply (y_below I).
        -- intros x z Hx Hnx Hz. apply S4 in Hx as [Hx| ->]; [|exfalso; apply Hnx; right; left; auto].
           apply S4. left. eapply (y_done I); eauto. intros Hk. apply Hnx. right; auto.
        -- intros x [Hx|[<-|Hx]].
           ++ apply S4 in Hx as [Hx| ->]; [apply (y_reach I); auto|apply (y_reach I); right; left; auto].
           ++ eapply rch_step; [|exact Hw]. apply (y_reach I). right; left; auto.
           ++ apply (y_reach I); auto.
        -- destruct (y_start I) as [H|H]; [left; apply S4; auto|right; right; auto].
      * assert (length seen' + 1 <= length V).
        { replace (length seen' + 1) with (length (seen' ++ [w])) by (rewrite app_length; reflexivity).
          apply NoDup_incl_length; [now apply nodup_snoc|]. apply incl_app; auto.
          intros x [<-|[]]. eapply HVcl; eauto. }
        unfold meas in *. rewrite S5 in HM. cbn [unseen_top length] in *. rewrite Hun. lia.
    + pose proof (find_none_all _ _ EF) as Hall. apply IH.
      * constructor; auto.
        -- intros x Hx. apply (y_kV I). right; auto.
        -- intros x Hx. apply S4. left. apply (y_below I). cbn [tl]. destruct below; [destruct Hx|right; auto].
        -- intros x z Hx Hnx Hz. destruct (neq_dec x v) as [->|Hne]; [apply Hall; auto|].
           apply S4 in Hx as [Hx| ->]; [|contradiction].
           apply S4. left. eapply (y_done I); eauto. intros [Hk|Hk]; auto.
        -- intros x [Hx|Hx].
           ++ apply S4 in Hx as [Hx| ->]; [apply (y_reach I); auto|apply (y_reach I); right; left; auto].
           ++ apply (y_reach I); right; right; auto.
        -- destruct (y_start I) as [H|[->|H]]; [left; apply S4; auto|left; apply S4; auto|right; auto].
      * unfold meas in *. rewrite S5 in HM. cbn [length] in *.
        assert (unseen_top below seen' = 0) as ->; [|lia].
        destruct below as [|b bs]; auto. cbn [unseen_top].
        rewrite (proj2 (mem_spec neqb neq b seen')); auto. apply S4. left. apply (y_below I). left; auto.
Qed.

Lemma yield_spec fuel start : In start V -> 2 * length V <= fuel ->
  exists l, yield_loop fuel g wp we [start] [] [] = Ok l /\ NoDup l /\
    forall x, In x l <-> rch start x /\ tm x = true.
Proof.
  intros Hs Hf. destruct (@yield_terminates start fuel [start] [] []) as (seen & E & I).
  - constructor.
    + constructor.
    + intros x [].
    + intros x [<-|[]]; auto.
    + reflexivity.
    + intros x [].
    + intros x w [].
    + intros x [[]|[<-|[]]]. constructor.
    + right; left; auto.
  - unfold meas. cbn. assert (length V > 0) by (destruct V; [destruct Hs|cbn; lia]). lia.
  - exists (filter tm seen). split; auto. split; [apply NoDup_filter, (y_seen I)|].
    intros x. rewrite filter_In. split; intros [H1 H2]; split; auto.
    + apply (y_reach I); auto.
    + assert (In start seen) as H0 by (destruct (y_start I) as [H|[]]; auto).
      clear H2. induction H1 as [|a b H1 IH Hab]; auto. eapply (y_done I); eauto.
Qed.

Lemma yield_more fuel m stack : forall seen found r,
  yield_loop fuel g wp we stack seen found = Ok r -> yield_loop (fuel + m) g wp we stack seen found = Ok r.
Proof.
  revert stack. induction fuel as [|f IH]; intros stack seen found r.
  - destruct stack; cbn [Graph_model.yield_loop]; [destruct m; auto|discriminate].
  - destruct stack as [|v below]; [auto|]. cbn [Nat.add Graph_model.yield_loop].
    destruct (if mem neqb v seen then _ else _) as [p|e]; cbn [bind]; [|auto].
    destruct (successors neqb g v) as [ws|e]; cbn [bind]; [|auto].
    destruct (find _ ws); apply IH.
Qed.

(** Trees *)
Inductive hng : tree N -> Prop := hng_T n ts : sc n = map (@top N) ts -> Forall hng ts -> hng (T n ts).
Fixpoint size (t : tree N) : nat := let (_, ts) := t in S (list_sum (map size ts)).
Lemma find_skip (a : list N) b seen : incl a seen -> ~ In b seen -> forall c,
  find (fun w => negb (mem neqb w seen)) (a ++ b :: c) = Some b.
Proof.
  induction a as [|x a IH]; intros Ha Hb c; cbn.
  - rewrite (proj2 (mem_false b seen) Hb). reflexivity.
  - rewrite (proj2 (mem_spec neqb neq x seen)) by (apply Ha; left; auto). cbn. apply IH; auto.
    intros y Hy. apply Ha. right; auto.
Qed.
Lemma find_nothing (a seen : list N) : incl a seen -> find (fun w => negb (mem neqb w seen)) a = None.
Proof.
  induction a as [|x a IH]; intros Ha; cbn; auto.
  rewrite (proj2 (mem_spec neqb neq x seen)) by (apply Ha; left; auto). cbn. apply IH.
  intros y Hy. apply Ha. right; auto.
Qed.
Lemma top_in_labels (t : tree N) : In (top t) (labels t).
Proof. destruct t; left; auto. Qed.

Definition walk_claim (t : tree N) : Prop :=
  forall below seen found, hng t -> incl (labels t) V -> NoDup (labels t) ->
  (forall x, In x (labels t) -> ~ In x seen) ->
  exists k, forall f, yield_loop (k + f) g wp we (top t :: below) seen found =
    yield_loop f g wp we below (seen ++ labels t) (found ++ filter tm (labels t)).

Lemma nodup_app_inv B (a b : list B) : NoDup (a ++ b) -> NoDup a /\ NoDup b /\ forall x, In x a -> ~ In x b.
Proof.
  induction a as [|x a IH]; cbn; intros H; [split; [constructor|split; auto]|].
  inversion H; subst. destruct (IH H3) as (A1 & A2 & A3). split; [|split; auto].
  - constructor; auto. intros Hx. apply H2, in_or_app; auto.
  - intros y [<-|Hy]; [intros Hb; apply H2, in_or_app; auto|auto].
Qed.
Lemma walk_children n below (rest : list (tree N)) : Forall walk_claim rest -> forall did seen found,
  sc n = map (@top N) (did ++ rest) -> In n V -> In n seen ->
  incl (map (@top N) did) seen -> Forall hng rest -> incl (flat_map (@labels N) rest) V ->
  NoDup (flat_map (@labels N) rest) -> (forall x, In x (flat_map (@labels N) rest) -> ~ In x seen) ->
  exists k, forall f, yield_loop (S k + f) g wp we (n :: below) seen found =
    yield_loop f g wp we below (seen ++ flat_map (@labels N) rest) (found ++ filter tm (flat_map (@labels N) rest)).
Proof.
  induction 1 as [|t rest Ht Hrest IH]; intros did seen found Hsc HnV Hns Hdid Hh HV HN Hnew.
  - exists 0. intros f. cbn [Nat.add]. rewrite yield_unfold by auto. cbv zeta.
    rewrite (proj2 (mem_spec neqb neq n seen)) by auto. rewrite app_nil_r in Hsc.
    rewrite find_nothing by now rewrite Hsc. cbn. now rewrite !app_nil_r.
  - inversion Hh; subst. cbn [flat_map] in *.
    apply nodup_app_inv in HN as (N1 & N2 & N3).
    destruct (Ht (n :: below) seen found) as (k1 & E1); auto.
    { intros x Hx. apply HV, in_or_app; auto. }
    { intros x Hx. apply Hnew, in_or_app; auto. }
    destruct (IH (did ++ [t]) (seen ++ labels t) (found ++ filter tm (labels t))) as (k2 & E2); auto.
    { now rewrite <- app_assoc. }
    { apply in_or_app; auto. }
    { rewrite map_app. apply incl_app; [intros x Hx; apply in_or_app; left; auto|].
      intros x [<-|[]]. apply in_or_app; right. apply top_in_labels. }
    { intros x Hx. apply HV, in_or_app; auto. }
    { intros x Hx H. apply in_app_or in H as [H|H]; [revert H; apply Hnew, in_or_app; auto|].
      exact (N3 x H Hx). }
    exists (k1 + S k2). intros f. cbn [Nat.add]. rewrite yield_unfold by auto. cbv zeta.
    rewrite (proj2 (mem_spec neqb neq n seen)) by auto. rewrite Hsc, map_app. cbn [map].
    rewrite find_skip; auto.
    + rewrite <- Nat.add_assoc, E1, E2, filter_app, <- !app_assoc. reflexivity.
    + apply Hnew, in_or_app. left. apply top_in_labels.
Qed.
Lemma walk_tree : forall m t, size t <= m -> walk_claim t.
Proof.
  induction m as [|m IH]; intros [n ts] Hm; cbn [size] in Hm; [lia|].
  intros below seen found Hh HV HN Hnew. inversion Hh; subst. cbn [labels top] in *.
  inversion HN; subst.
  assert (In n V) as HnV by (apply HV; left; auto).
  assert (~ In n seen) as Hns by (apply Hnew; left; auto).
  assert (Forall walk_claim ts) as Hts.
  { apply Forall_forall. intros t Ht. apply IH.
    assert (size t <= list_sum (map size ts)); [|lia]. clear -Ht. induction ts as [|t' ts IHts]; [destruct Ht|].
    destruct Ht as [->|Ht]; cbn [map]; unfold list_sum in *; cbn [fold_right]; [lia|]. specialize (IHts Ht). lia. }
  destruct (@walk_children n below ts Hts [] (seen ++ [n]) (found ++ filter tm [n])) as (k & E); auto.
  { apply in_or_app; right; left; auto. }
  { intros x []. }
  { intros x Hx. apply HV. right; auto. }
  { intros x Hx H. apply in_app_or in H as [H|[<-|[]]]; [revert H; apply Hnew; right; auto|contradiction]. }
  (* the first visit of n does the same as a second one after marking *)
  exists (S k). intros f. rewrite <- (E f) || idtac.
  specialize (E f). cbn [Nat.add] in *. rewrite yield_unfold in E |- * by auto. cbv zeta in *.
  rewrite (proj2 (mem_spec neqb neq n (seen ++ [n]))) in E by (apply in_or_app; right; left; auto).
  rewrite (proj2 (mem_false n seen)) by auto. cbn [filter] in *. rewrite <- !app_assoc in E. cbn [app] in E.
  destruct (tm n); cbn [app] in *; rewrite ?app_nil_r in *; exact E.
Qed.
Lemma nonterm_filter (t : tree N) : (forall n, In n (labels t) -> sc n <> [] -> tm n = false) -> hng t ->
  filter tm (labels t) = filter tm (leaves t).
Proof.
  revert t. assert (forall m t, size t <= m -> (forall n, In n (labels t) -> sc n <> [] -> tm n = false) -> hng t ->
    filter tm (labels t) = filter tm (leaves t)) as K; [|intros t; apply (K (size t)); auto].
  induction m as [|m IH]; intros [n ts] Hm Hn Hh; cbn [size] in Hm; [lia|].
  inversion Hh as [n' ts' Hsc Hts]; subst. cbn [labels leaves]. destruct ts as [|t ts]; [reflexivity|].
  assert (tm n = false) as E by (apply Hn; [left; auto|rewrite Hsc; discriminate]).
  cbn [filter]. rewrite E.
  assert (forall us, incl us (t :: ts) -> filter tm (flat_map (@labels N) us) = filter tm (flat_map (@leaves N) us)) as K2;
    [|apply K2; intros x; auto].
  induction us as [|u us IHu]; intros Hu; auto. cbn [flat_map]. rewrite !filter_app.
  assert (In u (t :: ts)) as Hin by (apply Hu; left; auto).
  rewrite IHu by (intros x Hx; apply Hu; right; auto). f_equal. apply IH.
  - assert (size u <= list_sum (map size (t :: ts))); [|lia]. clear -Hin. induction (t :: ts) as [|t' us IHts]; [destruct Hin|].
    destruct Hin as [->|Ht]; cbn [map]; unfold list_sum in *; cbn [fold_right]; [lia|]. specialize (IHts Ht). lia.
  - intros x Hx. apply Hn. right. apply in_flat_map. eauto.
  - rewrite Forall_forall in Hts. auto.
Qed.
Lemma yield_tree fuel t : hng t -> incl (labels t) V -> NoDup (labels t) ->
  (forall n, In n (labels t) -> sc n <> [] -> tm n = false) -> 2 * length V <= fuel ->
  yield_loop fuel g wp we [top t] [] [] = Ok (filter tm (leaves t)).
Proof.
  intros Hh HV HN Htm Hf.
  destruct (@walk_tree (size t) t (le_n _) [] [] []) as (k & E); auto.
  destruct (@yield_spec fuel (top t)) as (l & E' & _); auto; [apply HV, top_in_labels|].
  specialize (E 0). cbn [app] in E. assert (forall a b c, yield_loop a g wp we [] b c = Ok c) as EE by (intros []; auto).
  rewrite EE in E. apply yield_more with (m := fuel) in E. rewrite E' . apply yield_more with (m := k + 0) in E'.
  rewrite (Nat.add_comm (k + 0)) in E. rewrite E in E'. injection E' as <-.
  now rewrite <- nonterm_filter by auto.
Qed.
End Yield.

Section YieldRun.
Variables no_tokens all_punct : W -> bool.
Variable truthy : N -> bool.
Notation terminal_yield := (terminal_yield neqb aeqb tokens_key no_tokens all_punct truthy).
Variable cs : list gcall.
Hypothesis Hcs : Forall (possible label_key tokens_key) cs.
Hypothesis Hsh : Forall (@no_shared_dict N A W) cs.
Let g := fst (g_run (empty_graph N A W) cs).
Let s := fst (summary_of (nothing N W) cs).
Variables wp we : bool.
Let sc := targets neqb s.
Let tm n := match sc n with [] => wanted neqb no_tokens all_punct cs wp we n | _ => false end.
Lemma run_named : named g cs.
Proof.
  change cs with ([] ++ cs). unfold g. eapply g_run_named; eauto using good_empty.
  constructor; cbn; try discriminate; auto.
Qed.
Lemma run_term n : In n (all_nodes s) -> node_is_terminal neqb aeqb tokens_key no_tokens all_punct g n wp we = Ok (tm n).
Proof.
  intros Hn. destruct (@run_good cs Hcs) as [[I _ _] _]. fold g s in I.
  destruct (in_keys_some (succ g) n) as (row & E); [now rewrite (i_succ I)|].
  destruct (in_keys_some (node g) n) as (r & Er); [now rewrite (i_node I)|].
  pose proof (i_row I n E) as Hrow. pose proof (n_val run_named n) as HV. rewrite Er in HV.
  destruct HV as (l & t & HL & _ & HT).
  unfold node_is_terminal, node_is_punct, node_is_empty, node_attr, dread. rewrite E, Er. cbn [bind]. rewrite HT. cbn [bind].
  unfold tm, sc, wanted. rewrite HL, <- Hrow. destruct row as [|p row]; cbn [length Nat.eqb negb dkeys map]; auto.
  destruct wp, we, (no_tokens t), (all_punct t); reflexivity.
Qed.
Lemma run_closed v w : In v (all_nodes s) -> In w (sc v) -> In w (all_nodes s).
Proof. intros _ H. now apply (graph_sides Hcs v w). Qed.
Lemma reach_rch u v : reach neqb s u v <-> rch sc u v.
Proof. split; induction 1; econstructor; eauto. Qed.
Lemma hangs_hng t : hangs neqb s t -> hng sc t.
Proof.
  assert (forall m t, size t <= m -> hangs neqb s t -> hng sc t) as K; [|apply (K (size t)); auto]. clear t.
  induction m as [|m IH]; intros [n ts] Hm Hh; cbn [size] in Hm; [lia|].
  inversion Hh; subst. constructor; auto. apply Forall_forall. rewrite Forall_forall in H2. intros t Ht. apply IH; auto.
  assert (size t <= list_sum (map size ts)); [|lia]. clear -Ht. induction ts as [|t' us IHts]; [destruct Ht|].
  destruct Ht as [->|Ht]; cbn [map]; unfold list_sum in *; cbn [fold_right]; [lia|]. specialize (IHts Ht). lia.
Qed.
Lemma run_yield n root fuel : truthy n = true -> In n (all_nodes s) -> 2 * length (all_nodes s) <= fuel ->
  exists l, terminal_yield fuel g root (Some n) wp we = Ok l /\ NoDup l /\
    forall x, In x l <-> reach neqb s n x /\ terminal neqb no_tokens all_punct s cs wp we x.
Proof.
  intros Ht Hn Hf. unfold terminal_yield. rewrite Ht. destruct (@run_good cs Hcs) as [[I _ _] _]. fold g s in I.
  destruct (@yield_spec no_tokens all_punct g wp we sc tm (all_nodes s)) with (fuel := fuel) (start := n) as (l & E & HN & HL); auto.
  - apply (i_nd I).
  - intros v Hv. now apply graph_rows.
  - apply run_term.
  - apply run_closed.
  - exists l. split; auto. split; auto. intros x. rewrite HL, reach_rch. unfold terminal, tm. fold sc.
    destruct (sc x); intuition discriminate.
Qed.
Lemma run_yield_unknown n root fuel : truthy n = true -> ~ In n (all_nodes s) -> 1 <= fuel ->
  terminal_yield fuel g root (Some n) wp we = Err KeyError.
Proof.
  intros Ht Hn Hf. unfold terminal_yield. rewrite Ht. destruct (@run_good cs Hcs) as [[I _ _] _]. fold g s in I.
  destruct fuel; [lia|]. cbn [yield_loop mem bind]. unfold node_is_terminal, dread.
  rewrite (proj2 (dget_none neqb neq (succ g) n)) by now rewrite (i_succ I). reflexivity.
Qed.
Lemma run_yield_root n root fuel : truthy n = false ->
  terminal_yield fuel g root (Some n) wp we = terminal_yield fuel g root None wp we.
Proof. intros H. unfold terminal_yield. now rewrite H. Qed.
Lemma run_yield_no_n root fuel : truthy root = true ->
  terminal_yield fuel g (Some root) None wp we = terminal_yield fuel g None (Some root) wp we.
Proof. intros H. unfold terminal_yield. now rewrite H. Qed.
Lemma run_yield_tree t root fuel : truthy (top t) = true -> hangs neqb s t -> incl (labels t) (all_nodes s) ->
  NoDup (labels t) -> 2 * length (all_nodes s) <= fuel ->
  terminal_yield fuel g root (Some (top t)) wp we = Ok (filter (wanted neqb no_tokens all_punct cs wp we) (leaves t)).
Proof.
  intros Ht Hh Hi HN Hf. unfold terminal_yield. rewrite Ht. destruct (@run_good cs Hcs) as [[I _ _] _]. fold g s in I.
  rewrite (@yield_tree no_tokens all_punct g wp we sc tm (all_nodes s)); auto.
  - f_equal. clear -Hh. apply hangs_hng in Hh. 
    assert (forall m t, size t <= m -> hng sc t -> filter tm (leaves t) = filter (wanted neqb no_tokens all_punct cs wp we) (leaves t)) as K;
      [|apply (K (size t)); auto]. clear t Hh.
    induction m as [|m IH]; intros [n ts] Hm Hh; cbn [size] in Hm; [lia|].
    inversion Hh as [n' ts' Hsc Hts]; subst. cbn [leaves]. destruct ts as [|t ts].
    + cbn [filter]. unfold tm. now rewrite Hsc.
    + assert (forall us, incl us (t :: ts) -> filter tm (flat_map (@leaves N) us) = filter (wanted neqb no_tokens all_punct cs wp we) (flat_map (@leaves N) us)) as K2;
        [|apply K2; intros x; auto].
      induction us as [|u us IHu]; intros Hu; auto. cbn [flat_map]. rewrite !filter_app.
      assert (In u (t :: ts)) as Hin by (apply Hu; left; auto).
      rewrite IHu by (intros x Hx; apply Hu; right; auto). f_equal. apply IH.
      * assert (size u <= list_sum (map size (t :: ts))); [|lia]. clear -Hin. induction (t :: ts) as [|t' us IHts]; [destruct Hin|].
        destruct Hin as [->|Ht]; cbn [map]; unfold list_sum in *; cbn [fold_right]; [lia|]. specialize (IHts Ht). lia.
      * rewrite Forall_forall in Hts. auto.
  - apply (i_nd I).
  - intros v Hv. now apply graph_rows.
  - apply run_term.
  - apply run_closed.
  - now apply hangs_hng.
  - intros n _ Hn. unfold tm. destruct (sc n); auto. contradiction.
Qed.
(** terminals() *)
Lemma run_terminals : terminals neqb aeqb tokens_key no_tokens all_punct g wp we = Ok (filter tm (all_nodes s)).
Proof.
  destruct (@run_good cs Hcs) as [[I _ _] _]. fold g s in I. unfold terminals, g_nodes. rewrite (i_succ I).
  assert (forall l, incl l (all_nodes s) -> filterM (fun n => node_is_terminal neqb aeqb tokens_key no_tokens all_punct g n wp we) l = Ok (filter tm l)) as K;
    [|apply K; intros x; auto].
  induction l as [|x l IH]; intros Hl; auto. cbn [filterM filter]. rewrite run_term by (apply Hl; left; auto). cbn [bind].
  rewrite IH by (intros y Hy; apply Hl; right; auto). reflexivity.
Qed.
Lemma run_non_terminals : all_nodes s <> [] -> non_terminals g = Err AttributeError.
Proof.
  destruct (@run_good cs Hcs) as [[I _ _] _]. fold g s in I. unfold non_terminals, g_nodes. rewrite (i_succ I).
  destruct (all_nodes s); auto. contradiction.
Qed.
End YieldRun.
End P.
