(** Proofs about ordered graphs. *)
From Verif Require Import Py PyLemmas Graph_spec Graph_proof Ograph_spec Ograph_model.
Set Implicit Arguments.
Section P.
Variables N A W : Type.
Variable neqb : N -> N -> bool.
Hypothesis neq : forall x y, neqb x y = true <-> x = y.
Variable aeqb : A -> A -> bool.
Hypothesis aeq : forall x y, aeqb x y = true <-> x = y.
Notation attrs := (list (A * W)).
Notation ograph := (ograph N A W).
Notation ocall := (ocall N A W).
Notation edge := (N * N * attrs)%type.
Notation store := (@Ograph_model.store N A W).
Notation alloc := (@Ograph_model.alloc N A W).
Notation deref := (@Ograph_model.deref N A W).
Notation succ := (@Ograph_model.succ N A W).
Notation pred := (@Ograph_model.pred N A W).
Notation node := (@Ograph_model.node N A W).
Notation heap := (@Ograph_model.heap N A W).
Notation dupdate := (@Ograph_model.dupdate A W aeqb).
Notation put_edge := (@Ograph_model.put_edge N A W neqb aeqb).
Notation firsts := (@firsts N neqb).

Lemma ndec (x y : N) : {x = y} + {x <> y}.
Proof. destruct (neqb x y) eqn:E; [left; now apply neq|right; intros H; apply neq in H; congruence]. Qed.
Lemma nrefl x : neqb x x = true. Proof. now apply neq. Qed.
Lemma nfalse x y : x <> y -> neqb x y = false.
Proof. intros H. destruct (neqb x y) eqn:E; auto. apply neq in E. easy. Qed.
Lemma update_get (d e : attrs) k : NoDup (map fst e) -> dget aeqb (dupdate d e) k = match dget aeqb e k with Some v => Some v | None => dget aeqb d k end.
Proof. exact (@dupdate_last A W aeqb aeq e d k). Qed.
Lemma last_value_snoc k l (d : attrs) : last_value aeqb k (l ++ [d]) = match dget aeqb d k with Some w => Some w | None => last_value aeqb k l end.
Proof. unfold last_value. rewrite fold_left_app. reflexivity. Qed.
Lemma updates_get k : forall ups (d : attrs) l, Forall (fun e => NoDup (map fst e)) ups -> dget aeqb d k = last_value aeqb k l ->
  dget aeqb (fold_left dupdate ups d) k = last_value aeqb k (l ++ ups).
Proof.
  induction ups as [|e ups IH]; intros d l F H; cbn [fold_left]; [now rewrite app_nil_r|].
  pose proof (Forall_inv F) as F1. pose proof (Forall_inv_tail F) as F2. replace (l ++ e :: ups) with ((l ++ [e]) ++ ups) by (now rewrite <- app_assoc).
  apply IH; auto. rewrite update_get, last_value_snoc, H by auto. reflexivity.
Qed.

Definition tg (ed : list edge) u : list N := firsts (map (fun e => snd (fst e)) (filter (fun e => neqb u (fst (fst e))) ed)).
Definition sr (ed : list edge) v : list N := firsts (map (fun e => fst (fst e)) (filter (fun e => neqb v (snd (fst e))) ed)).
Definition ev (ed : list edge) u v : list attrs := map snd (filter (fun e => neqb u (fst (fst e)) && neqb v (snd (fst e))) ed).
Definition sref (g : ograph) u v := match dget neqb (succ g) u with Some row => dget neqb row v | None => None end.
Definition pref (g : ograph) u v := match dget neqb (pred g) v with Some row => dget neqb row u | None => None end.
Definition edge_ref (g : ograph) r := exists u v, sref g u v = Some r.
Record inv (g : ograph) (ms : list N) (ed : list edge) : Prop := {
  i_nodes : dkeys (succ g) = firsts ms;
  i_pred : dkeys (pred g) = firsts ms;
  i_node : forall n, In n ms <-> exists r, dget neqb (node g) n = Some r;
  i_nref : forall n r, dget neqb (node g) n = Some r -> r < length (heap g) /\ ~ edge_ref g r;
  i_rows : forall u row, dget neqb (succ g) u = Some row -> dkeys row = tg ed u;
  i_cols : forall v row, dget neqb (pred g) v = Some row -> dkeys row = sr ed v;
  i_sides : forall u v, sref g u v = pref g u v;
  i_eref : forall u v r, sref g u v = Some r -> r < length (heap g) /\ forall u' v', sref g u' v' = Some r -> u = u' /\ v = v';
  i_val : forall u v r k, sref g u v = Some r -> dget aeqb (deref g r) k = last_value aeqb k (ev ed u v);
  i_ends : forall e, In e ed -> In (fst (fst e)) ms /\ In (snd (fst e)) ms
}.
Lemma deref_store_same g r d : r < length (heap g) -> deref (store g r d) r = d.
Proof. intros H. unfold Ograph_model.deref, Ograph_model.store. cbn. now apply set_nth_same. Qed.
Lemma deref_store_other g r d r' : r <> r' -> deref (store g r d) r' = deref g r'.
Proof. intros H. unfold Ograph_model.deref, Ograph_model.store. cbn. now apply set_nth_other. Qed.
Lemma deref_alloc g d r : r < length (heap g) -> deref (fst (alloc g d)) r = deref g r.
Proof. intros H. unfold Ograph_model.deref. cbn. now apply app_nth1. Qed.
Lemma deref_new g d : deref (fst (alloc g d)) (length (heap g)) = d.
Proof. unfold Ograph_model.deref. cbn. rewrite app_nth2, Nat.sub_diag by lia. reflexivity. Qed.
Lemma inv_store g ms ed r d : inv g ms ed -> ~ edge_ref g r -> inv (store g r d) ms ed.
Proof.
  intros [] H. constructor; auto.
  - intros n r0 E. destruct (i_nref0 n r0 E). split; auto. cbn. now rewrite set_nth_length.
  - intros u v r0 E. destruct (i_eref0 u v r0 E). split; auto. cbn. now rewrite set_nth_length.
  - intros u v r0 k E. change (sref (store g r d) u v) with (sref g u v) in E. rewrite deref_store_other; [apply i_val0; auto|]. intros ->. apply H. exists u, v. auto.
Qed.
Lemma inv_alloc g ms ed d : inv g ms ed -> inv (fst (alloc g d)) ms ed /\ ~ edge_ref (fst (alloc g d)) (length (heap g)).
Proof.
  intros []. split.
  - constructor; auto.
    + intros n r E. destruct (i_nref0 n r E). split; auto. cbn. rewrite app_length. lia.
    + intros u v r E. destruct (i_eref0 u v r E). split; auto. cbn. rewrite app_length. lia.
    + intros u v r k E. change (sref (fst (alloc g d)) u v) with (sref g u v) in E. rewrite deref_alloc; [auto|]. destruct (i_eref0 u v r E). auto.
  - intros (u & v & E). change (sref (fst (alloc g d)) u v) with (sref g u v) in E. destruct (i_eref0 u v _ E). lia.
Qed.
Lemma has_spec g ms ed n : inv g ms ed -> has_node neqb g n = mem neqb n ms.
Proof.
  intros I. apply eq_true_iff_eq. rewrite (mem_spec neqb neq). unfold has_node, dhas. rewrite <- (@firsts_in N neqb neq ms n). rewrite <- (i_nodes I).
  destruct (dget neqb (succ g) n) eqn:E; split; intros H; auto; try discriminate.
  - apply (dget_in neqb neq) in E. now apply (in_map fst) in E.
  - apply (dget_none neqb neq) in E. easy.
Qed.
Lemma inv_known g ms ed n : inv g ms ed -> In n ms -> inv g (ms ++ [n]) ed.
Proof.
  intros [] H. assert (firsts (ms ++ [n]) = firsts ms) as E.
  { rewrite (@firsts_snoc N neqb neq). apply (mem_spec neqb neq) in H. now rewrite H. }
  constructor; auto; try (rewrite E; auto).
  - intros m. rewrite in_app_iff. cbn. rewrite <- i_node0. intuition (subst; auto).
  - intros e I. rewrite !in_app_iff. destruct (i_ends0 e I). auto.
Qed.
Lemma inv_introduce g ms ed n r : inv g ms ed -> ~ In n ms -> r < length (heap g) -> ~ edge_ref g r -> inv (introduce neqb g n r) (ms ++ [n]) ed.
Proof.
  intros I H L R. assert (~ In n (dkeys (succ g))) as K1 by (rewrite (i_nodes I), (@firsts_in N neqb neq); auto).
  assert (~ In n (dkeys (pred g))) as K2 by (rewrite (i_pred I), (@firsts_in N neqb neq); auto).
  assert (firsts (ms ++ [n]) = firsts ms ++ [n]) as E.
  { rewrite (@firsts_snoc N neqb neq). destruct (mem neqb n ms) eqn:M; auto. apply (mem_spec neqb neq) in M. easy. }
  assert (forall u v, sref (introduce neqb g n r) u v = sref g u v) as S1.
  { intros u v. unfold sref. cbn. destruct (ndec n u) as [<-|D]; [|now rewrite (dget_dset_other neqb neq)].
    rewrite (dget_dset_same neqb neq). apply (dget_none neqb neq) in K1. rewrite K1. reflexivity. }
  assert (forall u v, pref (introduce neqb g n r) u v = pref g u v) as S2.
  { intros u v. unfold pref. cbn. destruct (ndec n v) as [<-|D]; [|now rewrite (dget_dset_other neqb neq)].
    rewrite (dget_dset_same neqb neq). apply (dget_none neqb neq) in K2. rewrite K2. reflexivity. }
  assert (forall x, edge_ref (introduce neqb g n r) x <-> edge_ref g x) as S3.
  { intros x. unfold edge_ref. split; intros (u & v & X); exists u, v; rewrite S1 in *; auto. }
  assert (forall e, In e ed -> fst (fst e) <> n /\ snd (fst e) <> n) as NE.
  { intros e Ie. destruct (i_ends I e Ie). split; intros X; rewrite X in *; auto. }
  constructor.
  - cbn. rewrite (dkeys_dset_new neqb neq) by auto. unfold dkeys. rewrite map_app. cbn. fold (dkeys (succ g)). now rewrite (i_nodes I), E.
  - cbn. rewrite (dkeys_dset_new neqb neq) by auto. unfold dkeys. rewrite map_app. cbn. fold (dkeys (pred g)). now rewrite (i_pred I), E.
  - intros m. cbn. rewrite in_app_iff. cbn. destruct (ndec n m) as [<-|D].
    + rewrite (dget_dset_same neqb neq). split; eauto.
    + rewrite (dget_dset_other neqb neq) by auto. rewrite (i_node I). intuition.
  - intros m x. cbn. destruct (ndec n m) as [<-|D].
    + rewrite (dget_dset_same neqb neq). intros [= <-]. split; auto. now rewrite S3.
    + rewrite (dget_dset_other neqb neq) by auto. intros X. rewrite S3. exact (i_nref I _ X).
  - intros u row. cbn. destruct (ndec n u) as [<-|D].
    + rewrite (dget_dset_same neqb neq). intros [= <-]. unfold tg. assert (filter (fun e : edge => neqb n (fst (fst e))) ed = []) as ->; auto.
      clear -neq NE. induction ed as [|e l IH]; cbn; auto. destruct (NE e (or_introl eq_refl)) as [E1 E2]. rewrite nfalse by auto. apply IH. intros; apply NE; cbn; auto.
    + rewrite (dget_dset_other neqb neq) by auto. apply (i_rows I).
  - intros u row. cbn. destruct (ndec n u) as [<-|D].
    + rewrite (dget_dset_same neqb neq). intros [= <-]. unfold sr. assert (filter (fun e : edge => neqb n (snd (fst e))) ed = []) as ->; auto.
      clear -neq NE. induction ed as [|e l IH]; cbn; auto. destruct (NE e (or_introl eq_refl)) as [E1 E2]. rewrite nfalse by auto. apply IH. intros; apply NE; cbn; auto.
    + rewrite (dget_dset_other neqb neq) by auto. apply (i_cols I).
  - intros u v. rewrite S1, S2. apply (i_sides I).
  - intros u v x. rewrite S1. intros X. destruct (i_eref I _ _ X) as [X1 X2]. split; auto. intros u' v'. rewrite S1. apply X2.
  - intros u v x k. rewrite S1. apply (i_val I).
  - intros e Ie. rewrite !in_app_iff. destruct (i_ends I e Ie). auto.
Qed.

Lemma firsts_app_same l x (n : nat) : firsts (l ++ repeat x (S n)) = if mem neqb x l then firsts l else firsts l ++ [x].
Proof.
  induction n as [|n IH]; [apply (@firsts_snoc N neqb neq)|].
  replace (repeat x (S (S n))) with (repeat x (S n) ++ [x]) by (rewrite <- repeat_cons; reflexivity).
  rewrite app_assoc, (@firsts_snoc N neqb neq). assert (mem neqb x (l ++ repeat x (S n)) = true) as -> by (apply (mem_spec neqb neq); rewrite in_app_iff; cbn; auto). exact IH.
Qed.
Definition given (u v : N) (ups : list attrs) : list edge := map (fun d => (u, v, d)) ups.
Lemma filter_given (f : edge -> bool) u v b ups : (forall d, f (u, v, d) = b) -> filter f (given u v ups) = if b then given u v ups else [].
Proof. intros H. unfold given. induction ups as [|d l IH]; cbn; [now destruct b|]. rewrite H, IH. now destruct b. Qed.
Lemma tg_given ed u v ups u' : ups <> [] -> tg (ed ++ given u v ups) u' = if neqb u' u then (if mem neqb v (tg ed u) then tg ed u else tg ed u ++ [v]) else tg ed u'.
Proof.
  intros H. unfold tg. rewrite filter_app, (@filter_given (fun e => neqb u' (fst (fst e))) u v (neqb u' u) ups) by reflexivity.
  destruct (neqb u' u) eqn:E; [|now rewrite app_nil_r]. apply neq in E as ->. rewrite map_app.
  destruct ups as [|d ups]; [easy|]. assert (map (fun e : edge => snd (fst e)) (given u v (d :: ups)) = repeat v (S (length ups))) as ->.
  { cbn. f_equal. clear. induction ups; cbn; congruence. }
  rewrite firsts_app_same. assert (forall l, mem neqb v (firsts l) = mem neqb v l) as X; [|now rewrite X].
  intros l. apply eq_true_iff_eq. rewrite !(mem_spec neqb neq). apply (@firsts_in N neqb neq).
Qed.
Lemma sr_given ed u v ups v' : ups <> [] -> sr (ed ++ given u v ups) v' = if neqb v' v then (if mem neqb u (sr ed v) then sr ed v else sr ed v ++ [u]) else sr ed v'.
Proof.
  intros H. unfold sr. rewrite filter_app, (@filter_given (fun e => neqb v' (snd (fst e))) u v (neqb v' v) ups) by reflexivity.
  destruct (neqb v' v) eqn:E; [|now rewrite app_nil_r]. apply neq in E as ->. rewrite map_app.
  destruct ups as [|d ups]; [easy|]. assert (map (fun e : edge => fst (fst e)) (given u v (d :: ups)) = repeat u (S (length ups))) as ->.
  { cbn. f_equal. clear. induction ups; cbn; congruence. }
  rewrite firsts_app_same. assert (forall l, mem neqb u (firsts l) = mem neqb u l) as X; [|now rewrite X].
  intros l. apply eq_true_iff_eq. rewrite !(mem_spec neqb neq). apply (@firsts_in N neqb neq).
Qed.
Lemma ev_given ed u v ups u' v' : ev (ed ++ given u v ups) u' v' = if neqb u' u && neqb v' v then ev ed u v ++ ups else ev ed u' v'.
Proof.
  unfold ev. rewrite filter_app, (@filter_given (fun e => neqb u' (fst (fst e)) && neqb v' (snd (fst e))) u v (neqb u' u && neqb v' v) ups) by reflexivity.
  destruct (neqb u' u && neqb v' v) eqn:E; [|now rewrite app_nil_r]. apply andb_prop in E as [E1 E2]. apply neq in E1 as ->. apply neq in E2 as ->.
  rewrite map_app. f_equal. unfold given. rewrite map_map. cbn. apply map_id.
Qed.
Lemma ev_none ed u v : ~ In v (tg ed u) -> ev ed u v = [].
Proof.
  intros H. unfold ev. assert (filter (fun e : edge => neqb u (fst (fst e)) && neqb v (snd (fst e))) ed = []) as ->; auto.
  unfold tg in H. rewrite (@firsts_in N neqb neq) in H. induction ed as [|e l IH]; cbn in *; auto.
  destruct (neqb u (fst (fst e))) eqn:E1; cbn in *; auto. destruct (neqb v (snd (fst e))) eqn:E2; auto. apply neq in E2. subst. tauto.
Qed.
Lemma dset_keys (d : list (N * nat)) k r : dkeys (dset neqb d k r) = if mem neqb k (dkeys d) then dkeys d else dkeys d ++ [k].
Proof.
  destruct (mem neqb k (dkeys d)) eqn:M.
  - apply (dkeys_dset_in neqb neq). now apply (mem_spec neqb neq).
  - assert (~ In k (dkeys d)) as K by (intros X; apply (mem_spec neqb neq) in X; congruence).
    rewrite (dkeys_dset_new neqb neq) by auto. unfold dkeys. now rewrite map_app.
Qed.
Lemma row_of g ms ed u : inv g ms ed -> In u ms -> exists row, dget neqb (succ g) u = Some row.
Proof.
  intros I H. destruct (dget neqb (succ g) u) eqn:E; eauto. apply (dget_none neqb neq) in E. rewrite (i_nodes I), (@firsts_in N neqb neq) in E. easy.
Qed.
Lemma col_of g ms ed u : inv g ms ed -> In u ms -> exists row, dget neqb (pred g) u = Some row.
Proof.
  intros I H. destruct (dget neqb (pred g) u) eqn:E; eauto. apply (dget_none neqb neq) in E. rewrite (i_pred I), (@firsts_in N neqb neq) in E. easy.
Qed.
(** the last part of add_edge, from a graph in which the edge's dict is at r *)
Lemma link_inv g ms ed u v ups r row prow d : inv g ms ed -> In u ms -> In v ms -> ups <> [] ->
  dget neqb (succ g) u = Some row -> dget neqb (pred g) v = Some prow ->
  r < length (heap g) -> (forall n, dget neqb (node g) n <> Some r) ->
  (forall u' v', sref g u' v' = Some r -> u' = u /\ v' = v) ->
  (forall r', sref g u v = Some r' -> r' = r) ->
  (forall k, dget aeqb d k = last_value aeqb k (ev ed u v ++ ups)) ->
  let g' := {| Ograph_model.succ := dset neqb (succ g) u (dset neqb row v r); Ograph_model.pred := dset neqb (pred g) v (dset neqb prow u r);
               Ograph_model.node := node g; Ograph_model.heap := set_nth (heap g) r d |} in
  inv g' ms (ed ++ given u v ups).
Proof.
  intros I Hu Hv NE Er Ep Lr Nr Ur Or Dv g'.
  assert (forall u' v', sref g' u' v' = if neqb u' u && neqb v' v then Some r else sref g u' v') as S1.
  { intros u' v'. unfold sref, g'. cbn. destruct (ndec u u') as [<-|D].
    - rewrite (dget_dset_same neqb neq), nrefl, Er. cbn. destruct (ndec v v') as [<-|D].
      + now rewrite (dget_dset_same neqb neq), nrefl.
      + rewrite (dget_dset_other neqb neq) by auto. rewrite (@nfalse v' v) by auto. reflexivity.
    - rewrite (dget_dset_other neqb neq) by auto. rewrite (@nfalse u' u) by auto. reflexivity. }
  assert (forall u' v', pref g' u' v' = if neqb u' u && neqb v' v then Some r else pref g u' v') as S2.
  { intros u' v'. unfold pref, g'. cbn. destruct (ndec v v') as [<-|D].
    - rewrite (dget_dset_same neqb neq), nrefl, Ep, andb_true_r. destruct (ndec u u') as [<-|D].
      + now rewrite (dget_dset_same neqb neq), nrefl.
      + rewrite (dget_dset_other neqb neq) by auto. rewrite (@nfalse u' u) by auto. reflexivity.
    - rewrite (dget_dset_other neqb neq) by auto. rewrite (@nfalse v' v) by auto. now rewrite andb_false_r. }
  assert (forall u' v', neqb u' u && neqb v' v = true -> u' = u /\ v' = v) as B.
  { intros u' v' X. apply andb_prop in X as [X1 X2]. split; now apply neq. }
  constructor.
  - unfold g'. cbn [Ograph_model.succ Ograph_model.pred]. rewrite (dkeys_dset_in neqb neq); [apply (i_nodes I)|]. rewrite (i_nodes I). now apply (@firsts_in N neqb neq).
  - unfold g'. cbn [Ograph_model.succ Ograph_model.pred]. rewrite (dkeys_dset_in neqb neq); [apply (i_pred I)|]. rewrite (i_pred I). now apply (@firsts_in N neqb neq).
  - apply (i_node I).
  - intros n r0 E. destruct (i_nref I n E) as [X1 X2]. split; [unfold g'; cbn; now rewrite set_nth_length|].
    intros (u' & v' & X). rewrite S1 in X. destruct (neqb u' u && neqb v' v) eqn:Q.
    + injection X as <-. exact (Nr n E).
    + apply X2. exists u', v'. auto.
  - intros u' row'. unfold g'. cbn. rewrite tg_given by auto. destruct (ndec u u') as [<-|D].
    + rewrite (dget_dset_same neqb neq), nrefl. intros [= <-]. rewrite dset_keys. now rewrite (i_rows I _ Er).
    + rewrite (dget_dset_other neqb neq) by auto. rewrite (@nfalse u' u) by auto. apply (i_rows I).
  - intros v' row'. unfold g'. cbn. rewrite sr_given by auto. destruct (ndec v v') as [<-|D].
    + rewrite (dget_dset_same neqb neq), nrefl. intros [= <-]. rewrite dset_keys. now rewrite (i_cols I _ Ep).
    + rewrite (dget_dset_other neqb neq) by auto. rewrite (@nfalse v' v) by auto. apply (i_cols I).
  - intros u' v'. rewrite S1, S2, (i_sides I). reflexivity.
  - intros u1 v1 r1 E. unfold g' at 1. cbn. rewrite set_nth_length. rewrite S1 in E. destruct (neqb u1 u && neqb v1 v) eqn:Q1.
    + injection E as <-. apply B in Q1 as [-> ->]. split; auto. intros u2 v2 E2. rewrite S1 in E2. destruct (neqb u2 u && neqb v2 v) eqn:Q2.
      * apply B in Q2 as [-> ->]. auto.
      * apply Ur in E2 as [-> ->]. auto.
    + destruct (i_eref I _ _ E) as [X1 X2]. split; auto. intros u2 v2 E2. rewrite S1 in E2. destruct (neqb u2 u && neqb v2 v) eqn:Q2; [|now apply X2].
      injection E2 as <-. apply Ur in E as [-> ->]. rewrite !nrefl in Q1. discriminate.
  - intros u1 v1 r1 k E. rewrite ev_given. rewrite S1 in E. destruct (neqb u1 u && neqb v1 v) eqn:Q1.
    + injection E as <-. unfold Ograph_model.deref, g'. cbn. rewrite set_nth_same by auto. apply Dv.
    + unfold Ograph_model.deref, g'. cbn. rewrite set_nth_other; [apply (i_val I); auto|]. intros <-. apply Ur in E as [-> ->]. rewrite !nrefl in Q1. discriminate.
  - intros e Ie. apply in_app_iff in Ie as [Ie|Ie]; [apply (i_ends I e Ie)|]. apply in_map_iff in Ie as (d0 & <- & _). auto.
Qed.
Definition noderef (g : ograph) n := dget neqb (node g) n.
(** what a call that only adds edges does to the nodes *)
Record frame (g : ograph) (ms : list N) (g' : ograph) (ms' : list N) : Prop := {
  f_ref : forall n, In n ms -> noderef g' n = noderef g n;
  f_val : forall n r, noderef g n = Some r -> deref g' r = deref g r;
  f_new : forall n, In n ms' -> ~ In n ms -> exists r, noderef g' n = Some r /\ length (heap g) <= r /\ deref g' r = [] /\ forall m, noderef g' m = Some r -> m = n;
  f_len : length (heap g) <= length (heap g')
}.
Lemma put_edge_inv g ms ed u v ups : inv g ms ed -> In u ms -> In v ms -> ups <> [] -> Forall (fun e => NoDup (map fst e)) ups ->
  exists g', put_edge g u v ups = Ok g' /\ inv g' ms (ed ++ given u v ups) /\ frame g ms g' ms.
Proof.
  intros I Hu Hv NE F. destruct (row_of u I Hu) as [row Er]. destruct (col_of v I Hv) as [prow Ep].
  unfold Ograph_model.put_edge, dread at 1. rewrite Er. cbn [bind].
  destruct (dget neqb row v) as [r|] eqn:Ev.
  - assert (sref g u v = Some r) as Sr by (unfold sref; now rewrite Er). destruct (i_eref I _ _ Sr) as [L U].
    unfold dread. cbn. rewrite Er. cbn. rewrite Ep. cbn.
    eexists; split; [reflexivity|]. split.
    + apply (@link_inv g ms ed u v ups r row prow); auto.
      * intros n E. destruct (i_nref I _ E) as [_ X]. apply X. exists u, v. auto.
      * intros u' v' E. destruct (U _ _ E). auto.
      * intros r' E. congruence.
      * intros k. apply updates_get; auto. now apply (i_val I).
    + constructor; auto.
      * intros n r0 E. unfold Ograph_model.deref. cbn. apply set_nth_other. intros <-. destruct (i_nref I _ E) as [_ X]. apply X. exists u, v. auto.
      * intros n A1 A2. easy.
      * cbn. now rewrite set_nth_length.
  - destruct (@inv_alloc g ms ed [] I) as [I1 R1]. unfold dread. cbn. rewrite Er. cbn. rewrite Ep. cbn.
    eexists; split; [reflexivity|]. split.
    + apply (@link_inv (fst (alloc g [])) ms ed u v ups (length (heap g)) row prow); auto.
      * cbn. rewrite app_length. cbn. lia.
      * intros n E. cbn in E. destruct (i_nref I _ E) as [X _]. lia.
      * intros u' v' E. change (sref g u' v' = Some (length (heap g))) in E. destruct (i_eref I _ _ E). lia.
      * intros r' E. change (sref g u v = Some r') in E. unfold sref in E. rewrite Er in E. congruence.
      * intros k. apply updates_get; auto. unfold Ograph_model.deref. cbn. rewrite app_nth2, Nat.sub_diag by lia. cbn.
        rewrite ev_none; auto. rewrite <- (i_rows I _ Er). now apply (dget_none neqb neq).
    + constructor; auto.
      * intros n r0 E. destruct (i_nref I _ E) as [X _]. unfold Ograph_model.deref. cbn. rewrite set_nth_other by lia. now apply app_nth1.
      * intros n A1 A2. easy.
      * cbn. rewrite set_nth_length, app_length. lia.
Qed.
Lemma ensure_inv g ms ed n : inv g ms ed -> inv (ensure neqb g n) (ms ++ [n]) ed /\ frame g ms (ensure neqb g n) (ms ++ [n]).
Proof.
  intros I. unfold ensure. rewrite (has_spec n I). destruct (mem neqb n ms) eqn:M; cbn [negb].
  - apply (mem_spec neqb neq) in M. split; [now apply inv_known|]. constructor; auto. intros m A1 A2. apply in_app_iff in A1. cbn in A1. intuition (subst; easy).
  - assert (~ In n ms) as K by (intros X; apply (mem_spec neqb neq) in X; congruence).
    destruct (@inv_alloc g ms ed [] I) as [I1 R1]. split.
    + apply (inv_introduce n I1); auto. cbn. rewrite app_length. cbn. lia.
    + constructor.
      * intros m H. unfold noderef. cbn. rewrite (dget_dset_other neqb neq); auto. congruence.
      * intros m r E. destruct (i_nref I _ E) as [X _]. unfold Ograph_model.deref. cbn. now apply app_nth1.
      * intros m A1 A2. apply in_app_iff in A1. cbn in A1. destruct A1 as [A1|[<-|[]]]; [easy|]. exists (length (heap g)). unfold noderef. cbn. rewrite (dget_dset_same neqb neq).
        repeat split; auto.
        -- unfold Ograph_model.deref. cbn. rewrite app_nth2, Nat.sub_diag by lia. reflexivity.
        -- intros m E. destruct (ndec n m); auto. rewrite (dget_dset_other neqb neq) in E by auto. destruct (i_nref I _ E). lia.
      * cbn. rewrite app_length. lia.
Qed.
Lemma frame_trans g1 m1 e1 g2 m2 e2 g3 m3 e3 : inv g1 m1 e1 -> inv g2 m2 e2 -> inv g3 m3 e3 -> incl m1 m2 -> frame g1 m1 g2 m2 -> frame g2 m2 g3 m3 -> frame g1 m1 g3 m3.
Proof.
  intros I1 I2 I3 S F1 F2. constructor.
  - intros n H. rewrite (f_ref F2), (f_ref F1); auto.
  - intros n r E. rewrite <- (f_val F1 n E). apply (f_val F2 n). rewrite (f_ref F1); auto. apply (i_node I1). exists r. exact E.
  - intros n A1 A2. destruct (mem neqb n m2) eqn:M.
    + apply (mem_spec neqb neq) in M. destruct (f_new F1 n M A2) as (r & X1 & X2 & X3 & X4). exists r. split; [rewrite (f_ref F2); auto|]. split; auto. split; [rewrite (f_val F2 n X1); auto|].
      intros m E. destruct (mem neqb m m2) eqn:M2.
      * apply (mem_spec neqb neq) in M2. rewrite (f_ref F2) in E by auto. auto.
      * assert (~ In m m2) as K by (intros X; apply (mem_spec neqb neq) in X; congruence).
        assert (In m m3) as K3 by (apply (i_node I3); exists r; exact E).
        destruct (f_new F2 m K3 K) as (r' & Y1 & Y2 & _). assert (r' = r) as -> by congruence. destruct (i_nref I2 _ X1). lia.
    + assert (~ In n m2) as K by (intros X; apply (mem_spec neqb neq) in X; congruence).
      destruct (f_new F2 n A1 K) as (r & X1 & X2 & X3 & X4). exists r. repeat split; auto. pose proof (f_len F1). lia.
  - pose proof (f_len F1). pose proof (f_len F2). lia.
Qed.

(** what add_nodes_from does to the nodes *)
Definition touched (g : ograph) (ns : list N) r := exists n, In n ns /\ noderef g n = Some r.
Record shares (g : ograph) (ms : list N) (a : attrs) (g' : ograph) (ns : list N) : Prop := {
  s_old : forall n, In n ms -> noderef g' n = noderef g n;
  s_new : forall n, In n ns -> ~ In n ms -> noderef g' n = Some (length (heap g));
  s_len : length (heap g') = S (length (heap g));
  s_dict : forall k, dget aeqb (deref g' (length (heap g))) k = dget aeqb a k;
  s_touched : forall r k, r < length (heap g) -> touched g ns r -> dget aeqb (deref g' r) k = match dget aeqb a k with Some w => Some w | None => dget aeqb (deref g r) k end;
  s_rest : forall r k, r < length (heap g) -> ~ touched g ns r -> dget aeqb (deref g' r) k = dget aeqb (deref g r) k;
  s_nodup : NoDup (map fst (deref g' (length (heap g))))
}.
Lemma touched_dec (g : ograph) ns r : touched g ns r \/ ~ touched g ns r.
Proof.
  induction ns as [|n ns IH]; [right; intros (n & [] & _)|].
  destruct IH as [(m & H1 & H2)|H]; [left; exists m; cbn; auto|].
  destruct (noderef g n) as [r'|] eqn:E.
  - destruct (Nat.eq_dec r' r) as [->|D]; [left; exists n; cbn; auto|]. right. intros (m & [<-|H1] & H2); [congruence|]. apply H. exists m. auto.
  - right. intros (m & [<-|H1] & H2); [congruence|]. apply H. exists m. auto.
Qed.
Lemma dupdate_nodup (d e : attrs) : NoDup (map fst d) -> NoDup (map fst (dupdate d e)).
Proof.
  revert d. induction e as [|[k w] e IH]; intros d H; cbn; auto. apply IH. exact (nodup_dset aeqb aeq d k w H).
Qed.
Lemma put_nodes g ms ed a h : inv g ms ed -> NoDup (map fst a) -> h = length (heap g) -> forall ns, exists g',
  foldM (fun g n => put_node neqb aeqb g n h) (fst (alloc g a)) ns = Ok g' /\ inv g' (ms ++ ns) ed /\ ~ edge_ref g' h /\ shares g ms a g' ns.
Proof.
  intros I ND Hh ns. induction ns as [|n ns IH] using rev_ind.
  - exists (fst (alloc g a)). destruct (@inv_alloc g ms ed a I) as [I1 R1]. rewrite <- Hh in R1. rewrite app_nil_r. split; [reflexivity|]. split; [exact I1|]. split; auto. constructor; auto.
    + intros n [].
    + cbn. rewrite app_length. cbn. lia.
    + intros k. now rewrite deref_new.
    + intros r k L (m & [] & _).
    + intros r k L _. now rewrite deref_alloc.
    + now rewrite deref_new.
  - destruct IH as (g1 & E1 & I1 & R1 & [s1 s2 s3 s4 s5 s6 s7]). rewrite foldM_app, E1. cbn [bind foldM]. rewrite app_assoc. unfold put_node.
    rewrite (has_spec n I1). rewrite <- Hh in *.
    destruct (mem neqb n (ms ++ ns)) eqn:M; cbn [negb].
    + apply (mem_spec neqb neq) in M. destruct (proj1 (i_node I1 n) M) as [r Er]. unfold dread. rewrite Er. cbn [bind].
      eexists; split; [reflexivity|]. destruct (i_nref I1 _ Er) as [Lr Rr].
      split; [apply inv_known; auto; now apply inv_store|]. split; [exact R1|].
      assert (forall k, dget aeqb (dupdate (deref g1 r) (deref g1 h)) k = match dget aeqb a k with Some w => Some w | None => dget aeqb (deref g1 r) k end) as U.
      { intros k. rewrite update_get by auto. rewrite s4. reflexivity. }
      destruct (mem neqb n ms) eqn:Mn.
      * (* a node the graph had before *)
        apply (mem_spec neqb neq) in Mn. assert (noderef g n = Some r) as E0 by (rewrite <- s1; auto). destruct (i_nref I _ E0) as [L0 _]. rewrite <- Hh in L0.
        assert (r <> h) as Dr by lia.
        constructor; auto; rewrite <- ?Hh.
        -- intros m A1 A2. apply in_app_iff in A1. cbn in A1. destruct A1 as [A1|[<-|[]]]; [now apply s2|easy].
        -- cbn. now rewrite set_nth_length.
        -- intros k. now rewrite deref_store_other.
        -- intros r' k L T. destruct (Nat.eq_dec r r') as [<-|D].
           ++ rewrite deref_store_same, U by auto. destruct (touched_dec g ns r) as [Y|Y].
              ** rewrite s5 by auto. destruct (dget aeqb a k); auto.
              ** rewrite s6 by auto. reflexivity.
           ++ rewrite deref_store_other by auto. apply s5; auto. destruct T as (m & A1 & A2). apply in_app_iff in A1. cbn in A1.
              destruct A1 as [A1|[<-|[]]]; [exists m; auto|congruence].
        -- intros r' k L T. rewrite deref_store_other.
           ++ apply s6; auto. intros (m & A1 & A2). apply T. exists m. rewrite in_app_iff. auto.
           ++ intros <-. apply T. exists n. rewrite in_app_iff. cbn. auto.
        -- now rewrite deref_store_other.
      * (* a node of this call *)
        assert (~ In n ms) as K by (intros X; apply (mem_spec neqb neq) in X; congruence).
        assert (r = h) as -> by (apply in_app_iff in M as [M|M]; [easy|]; specialize (s2 n M K); unfold noderef in s2; congruence).
        assert (noderef g n = None) as N0.
        { destruct (noderef g n) eqn:E; auto. exfalso. apply K. apply (i_node I). eexists. exact E. }
        constructor; auto; rewrite <- ?Hh.
        -- intros m A1 A2. apply in_app_iff in A1. cbn in A1. destruct A1 as [A1|[<-|[]]]; [now apply s2|exact Er].
        -- cbn. now rewrite set_nth_length.
        -- intros k. rewrite deref_store_same, U, s4 by auto. now destruct (dget aeqb a k).
        -- intros r' k L (m & A1 & A2). rewrite deref_store_other by lia. apply s5; auto. apply in_app_iff in A1. cbn in A1.
           destruct A1 as [A1|[<-|[]]]; [exists m; auto|congruence].
        -- intros r' k L T. rewrite deref_store_other by lia. apply s6; auto. intros (m & A1 & A2). apply T. exists m. rewrite in_app_iff. auto.
        -- rewrite deref_store_same by auto. now apply dupdate_nodup.
    + assert (~ In n (ms ++ ns)) as K by (intros X; apply (mem_spec neqb neq) in X; congruence).
      assert (~ In n ms) as K1 by (intros X; apply K; rewrite in_app_iff; auto).
      eexists; split; [reflexivity|]. split; [apply inv_introduce; auto; rewrite s3; lia|].
      split. { intros (u & v & E). unfold sref in E. cbn in E. destruct (ndec n u) as [<-|D].
        - rewrite (dget_dset_same neqb neq) in E. discriminate.
        - rewrite (dget_dset_other neqb neq) in E by auto. apply R1. exists u, v. exact E. }
      assert (noderef g n = None) as N0.
      { destruct (noderef g n) eqn:E; auto. exfalso. apply K1. apply (i_node I). eexists. exact E. }
      constructor; auto; rewrite <- ?Hh.
      * intros m H. unfold noderef. cbn. rewrite (dget_dset_other neqb neq); [now apply s1|congruence].
      * intros m A1 A2. unfold noderef. cbn. destruct (ndec n m) as [<-|D]; [now rewrite (dget_dset_same neqb neq)|].
        rewrite (dget_dset_other neqb neq) by auto. apply s2; auto. apply in_app_iff in A1. cbn in A1. intuition.
      * exact s3.
      * exact s4.
      * intros r' k L (m & A1 & A2). apply s5; auto. apply in_app_iff in A1. cbn in A1. destruct A1 as [A1|[<-|[]]]; [exists m; auto|congruence].
      * intros r' k L T. apply s6; auto. intros (m & A1 & A2). apply T. exists m. rewrite in_app_iff. auto.
      * exact s7.
Qed.

(** histories *)
Notation mentioned := (@mentioned N A W).
Notation twins := (@twins N A W).
Notation gives := (@gives N A W aeqb).
Notation last_given := (@last_given N A W aeqb).
Lemma mentioned_snoc cs c : mentioned (cs ++ [c]) = mentioned cs ++ mentions c.
Proof. unfold Ograph_spec.mentioned. rewrite flat_map_app. cbn. now rewrite app_nil_r. Qed.
Lemma snoc_split (X : Type) (cs : list X) c pre c' post : cs ++ [c] = pre ++ c' :: post ->
  (post = [] /\ pre = cs /\ c' = c) \/ exists post', post = post' ++ [c] /\ cs = pre ++ c' :: post'.
Proof.
  intros E. destruct post as [|x post] using rev_ind.
  - apply app_inj_tail in E as [-> ->]. auto.
  - right. clear IHpost. exists post. change (pre ++ c' :: post ++ [x]) with (pre ++ (c' :: post) ++ [x]) in E. rewrite app_assoc in E. apply app_inj_tail in E as [-> ->]. auto.
Qed.
Lemma gives_mentions c n k w : gives c n k w -> In n (mentions c).
Proof. destruct c; cbn; intuition. Qed.
Lemma twins_snoc cs c n m : twins (cs ++ [c]) n m <->
  twins cs n m \/ (~ In n (mentioned cs) /\ ~ In m (mentioned cs) /\ In n (mentions c) /\ In m (mentions c) /\ (n = m \/ exists ms a, c = ONodes ms a)).
Proof.
  split.
  - intros (pre & c' & post & E & H). apply snoc_split in E as [(-> & -> & ->)|(post' & -> & ->)]; [right; exact H|left].
    exists pre, c', post'. auto.
  - intros [(pre & c' & post & -> & H)|H].
    + exists pre, c', (post ++ [c]). rewrite <- app_assoc. auto.
    + exists cs, c, []. auto.
Qed.
Lemma twins_mentioned cs n m : twins cs n m -> In n (mentioned cs) /\ In m (mentioned cs).
Proof.
  intros (pre & c & post & -> & _ & _ & H1 & H2 & _). unfold Ograph_spec.mentioned. rewrite flat_map_app, !in_app_iff. cbn. rewrite !in_app_iff. auto.
Qed.
Lemma twins_known cs c n m : In n (mentioned cs) -> twins (cs ++ [c]) n m <-> twins cs n m.
Proof. intros H. rewrite twins_snoc. intuition. Qed.
Lemma twins_new cs c n m : ~ In n (mentioned cs) -> twins (cs ++ [c]) n m <->
  ~ In m (mentioned cs) /\ In n (mentions c) /\ In m (mentions c) /\ (n = m \/ exists ms a, c = ONodes ms a).
Proof. intros H. rewrite twins_snoc. split; [intros [T|T]; [apply twins_mentioned in T; easy|easy]|auto]. Qed.
Lemma given_known cs c n k w : In n (mentioned cs) -> last_given (cs ++ [c]) n k w <->
  (exists m, twins cs n m /\ gives c m k w) \/ (last_given cs n k w /\ forall m w', twins cs n m -> ~ gives c m k w').
Proof.
  intros H. assert (forall c' w', gives_twin aeqb (cs ++ [c]) c' n k w' <-> gives_twin aeqb cs c' n k w') as T.
  { intros c' w'. split; intros (m & A1 & A2); exists m; pose proof (@twins_known cs c n m H) as [T1 T2]; auto. }
  split.
  - intros (pre & c' & post & E & G & L). apply snoc_split in E as [(-> & -> & ->)|(post' & -> & ->)].
    + left. apply T in G. exact G.
    + right. split.
      * exists pre, c', post'. split; auto. split; [apply T; exact G|]. intros c0 w0 I0 G0. apply (L c0 w0); [rewrite in_app_iff; auto|]. apply T. exact G0.
      * intros m w' A1 A2. apply (L c w'); [rewrite in_app_iff; cbn; auto|]. apply T. exists m. auto.
  - intros [G|[(pre & c' & post & E & G & L) Nn]].
    + exists cs, c, []. split; auto. split; [apply T; exact G|]. intros c' w' [].
    + exists pre, c', (post ++ [c]). split; [rewrite E, <- app_assoc; auto|]. split; [apply T; exact G|].
      intros c0 w0 I0 G0. apply T in G0. apply in_app_iff in I0 as [I0|[<-|[]]]; [exact (L c0 w0 I0 G0)|]. destruct G0 as (m & A1 & A2). exact (Nn m w0 A1 A2).
Qed.
Lemma given_new cs c n k w : ~ In n (mentioned cs) -> last_given (cs ++ [c]) n k w <-> exists m, twins (cs ++ [c]) n m /\ gives c m k w.
Proof.
  intros H. split.
  - intros (pre & c' & post & E & (m & A1 & A2) & L). apply snoc_split in E as [(-> & -> & ->)|(post' & -> & ->)]; [exists m; auto|].
    exfalso. rewrite twins_new in A1 by exact H. destruct A1 as (A1 & _). apply A1. apply gives_mentions in A2. unfold Ograph_spec.mentioned. rewrite flat_map_app, in_app_iff. cbn. rewrite in_app_iff. auto.
  - intros G. exists cs, c, []. split; [reflexivity|]. split; [exact G|]. intros c' w' [].
Qed.
Record known (g : ograph) (cs : list ocall) : Prop := {
  k_twins : forall n m r, noderef g n = Some r -> (noderef g m = Some r <-> twins cs n m);
  k_last : forall n r k w, noderef g n = Some r -> (dget aeqb (deref g r) k = Some w <-> last_given cs n k w)
}.
Notation inserted_edges := (@inserted_edges N A W).
Definition good (g : ograph) (cs : list ocall) : Prop := inv g (mentioned cs) (inserted_edges cs) /\ known g cs.
Definition node_call (c : ocall) (ns : list N) (a : attrs) : Prop :=
  mentions c = ns /\ (forall m k w, gives c m k w <-> In m ns /\ dget aeqb a k = Some w) /\ (forall n m, In n ns -> In m ns -> n = m \/ exists ms a, c = ONodes ms a).
Lemma known_nodes g g' cs c ns a : good g cs -> node_call c ns a -> inv g' (mentioned cs ++ ns) (inserted_edges cs) -> shares g (mentioned cs) a g' ns -> known g' (cs ++ [c]).
Proof.
  intros [I [K1 K2]] (Em & G & J) I' [s1 s2 s3 s4 s5 s6 s7]. set (h := length (heap g)) in *.
  assert (forall n, In n (mentioned cs) -> exists r, noderef g n = Some r /\ noderef g' n = Some r /\ r < h) as Old.
  { intros n H. destruct (proj1 (i_node I n) H) as [r E]. exists r. split; auto. split; [rewrite s1; auto|]. now destruct (i_nref I _ E). }
  assert (forall n r, noderef g' n = Some r -> ~ In n (mentioned cs) -> In n ns /\ r = h) as New.
  { intros n r E H. assert (In n (mentioned cs ++ ns)) as X by (apply (i_node I'); exists r; exact E). apply in_app_iff in X as [X|X]; [easy|]. split; auto. specialize (s2 n X H). congruence. }
  assert (forall n, In n (mentioned cs) \/ ~ In n (mentioned cs)) as D.
  { intros n. destruct (mem neqb n (mentioned cs)) eqn:M; [left; now apply (mem_spec neqb neq)|right; intros X; apply (mem_spec neqb neq) in X; congruence]. }
  constructor.
  - intros n m r E. destruct (D n) as [Hn|Hn].
    + rewrite twins_known by auto. destruct (Old n Hn) as (r0 & E0 & E1 & L). assert (r0 = r) as -> by congruence. rewrite <- (K1 n m r E0). split; intros X.
      * destruct (D m) as [Hm|Hm]; [rewrite s1 in X by auto; exact X|]. destruct (New m r X Hm). lia.
      * rewrite s1; auto. apply (i_node I). exists r. exact X.
    + rewrite twins_new by auto. destruct (New n r E Hn) as [Hns ->]. rewrite Em. split.
      * intros X. destruct (D m) as [Hm|Hm]; [destruct (Old m Hm) as (r0 & _ & Y & L); assert (r0 = h) by congruence; lia|].
        destruct (New m h X Hm) as [Hms _]. auto.
      * intros (Hm & _ & Hms & _). now apply s2.
  - intros n r k w E. destruct (D n) as [Hn|Hn].
    + rewrite given_known by auto. destruct (Old n Hn) as (r0 & E0 & E1 & L). assert (r0 = r) as -> by congruence.
      assert (touched g ns r <-> exists m, twins cs n m /\ In m ns) as T.
      { split; intros (m & A1 & A2); exists m; [split; auto; now apply (K1 n m r E0)|split; auto; now apply (K1 n m r E0)]. }
      destruct (touched_dec g ns r) as [Y|Y].
      * rewrite s5 by auto. apply T in Y as (m & A1 & A2). split.
        -- destruct (dget aeqb a k) as [w0|] eqn:Ea.
           ++ intros [= ->]. left. exists m. split; auto. apply G. auto.
           ++ intros X. right. split; [now apply (K2 n r k w E0)|]. intros m' w' _ X'. apply G in X' as [_ X']. congruence.
        -- intros [(m' & B1 & B2)|[X Nn]].
           ++ apply G in B2 as [_ ->]. reflexivity.
           ++ destruct (dget aeqb a k) as [w0|] eqn:Ea; [|now apply (K2 n r k w E0)]. exfalso. apply (Nn m w0 A1). apply G. auto.
      * rewrite s6 by auto. rewrite (K2 n r k w E0). split.
        -- intros X. right. split; auto. intros m w' B1 B2. apply G in B2 as [B2 _]. apply Y. apply T. exists m. auto.
        -- intros [(m & B1 & B2)|[X _]]; auto. apply G in B2 as [B2 _]. exfalso. apply Y. apply T. exists m. auto.
    + rewrite given_new by auto. destruct (New n r E Hn) as [Hns ->]. rewrite s4. split.
      * intros X. exists n. split; [|apply G; auto]. rewrite twins_new by auto. rewrite Em. auto.
      * intros (m & _ & X). apply G in X as [_ X]. exact X.
Qed.
Lemma known_edges g g' cs c ms' ed' : good g cs -> (forall n k w, ~ gives c n k w) -> (forall ms a, c <> ONodes ms a) -> mentioned cs ++ mentions c = ms' ->
  inv g' ms' ed' -> frame g (mentioned cs) g' ms' -> known g' (cs ++ [c]).
Proof.
  intros [I [K1 K2]] G J Em I' F.
  assert (forall n, In n (mentioned cs) -> exists r, noderef g n = Some r /\ noderef g' n = Some r /\ r < length (heap g)) as Old.
  { intros n H. destruct (proj1 (i_node I n) H) as [r E]. exists r. split; auto. split; [rewrite (f_ref F); auto|]. now destruct (i_nref I _ E). }
  assert (forall n r, noderef g' n = Some r -> ~ In n (mentioned cs) -> In n (mentions c) /\ length (heap g) <= r /\ deref g' r = [] /\ forall m, noderef g' m = Some r -> m = n) as New.
  { intros n r E H. assert (In n ms') as X by (apply (i_node I'); exists r; exact E). destruct (f_new F n X H) as (r0 & B1 & B2). assert (r0 = r) as -> by congruence.
    split; auto. rewrite <- Em in X. apply in_app_iff in X as [X|X]; [easy|auto]. }
  assert (forall n, In n (mentioned cs) \/ ~ In n (mentioned cs)) as D.
  { intros n. destruct (mem neqb n (mentioned cs)) eqn:M; [left; now apply (mem_spec neqb neq)|right; intros X; apply (mem_spec neqb neq) in X; congruence]. }
  constructor.
  - intros n m r E. destruct (D n) as [Hn|Hn].
    + rewrite twins_known by auto. destruct (Old n Hn) as (r0 & E0 & E1 & L). assert (r0 = r) as -> by congruence. rewrite <- (K1 n m r E0). split; intros X.
      * destruct (D m) as [Hm|Hm]; [rewrite (f_ref F) in X by auto; exact X|]. destruct (New m r X Hm) as (_ & Y & _). lia.
      * rewrite (f_ref F); auto. apply (i_node I). exists r. exact X.
    + rewrite twins_new by auto. destruct (New n r E Hn) as (Hns & _ & _ & U). split.
      * intros X. apply U in X as ->. auto.
      * intros (_ & _ & _ & [<-|(ms0 & a0 & X)]); [auto|exfalso; exact (J _ _ X)].
  - intros n r k w E. destruct (D n) as [Hn|Hn].
    + rewrite given_known by auto. destruct (Old n Hn) as (r0 & E0 & E1 & L). assert (r0 = r) as -> by congruence. rewrite (f_val F n E0), (K2 n r k w E0). split.
      * intros X. right. split; [exact X|]. intros m w' _ Y. exact (G _ _ _ Y).
      * intros [(m & _ & Y)|[X _]]; auto. destruct (G _ _ _ Y).
    + rewrite given_new by auto. destruct (New n r E Hn) as (_ & _ & -> & _). split; [discriminate|]. intros (m & _ & Y). destruct (G _ _ _ Y).
Qed.

Notation add_edges := (@Ograph_model.add_edges N A W neqb aeqb).
Lemma one_edge g ms ed u v ups : inv g ms ed -> ups <> [] -> Forall (fun e => NoDup (map fst e)) ups ->
  exists g', put_edge (ensure neqb (ensure neqb g u) v) u v ups = Ok g' /\ inv g' (ms ++ [u; v]) (ed ++ given u v ups) /\ frame g ms g' (ms ++ [u; v]).
Proof.
  intros I NE F. destruct (@ensure_inv g ms ed u I) as [I1 F1]. destruct (@ensure_inv _ _ _ v I1) as [I2 F2].
  replace ((ms ++ [u]) ++ [v]) with (ms ++ [u; v]) in * by (now rewrite <- app_assoc).
  destruct (@put_edge_inv _ _ _ u v ups I2) as (g' & E & I3 & F3); auto; try (rewrite in_app_iff; cbn; auto; fail).
  exists g'. split; auto. split; auto.
  assert (frame g ms (ensure neqb (ensure neqb g u) v) (ms ++ [u; v])) as F12.
  { exact (frame_trans I I1 I2 (fun x H => in_or_app _ _ _ (or_introl H)) F1 F2). }
  exact (frame_trans I I2 I3 (fun x H => in_or_app _ _ _ (or_introl H)) F12 F3).
Qed.
Lemma frame_refl g ms : frame g ms g ms.
Proof. constructor; auto. intros n H K. easy. Qed.
Lemma edges_loop a : NoDup (map fst a) -> forall es g ms ed, inv g ms ed -> (forall d, In d (flat_map (fun e => match e with Three _ _ d => [d] | _ => [] end) es) -> NoDup (map fst d)) ->
  exists g', add_edges g es a = (g', failure es) /\ inv g' (ms ++ mentions (OEdges es a)) (ed ++ insertions (OEdges es a)) /\ frame g ms g' (ms ++ mentions (OEdges es a)).
Proof.
  intros ND. induction es as [|e es IH]; intros g ms ed I H.
  - exists g. cbn. rewrite !app_nil_r. split; auto. split; auto. apply frame_refl.
  - destruct e as [u v|u v d|u v|].
    + destruct (@one_edge g ms ed u v [a] I) as (g1 & E1 & I1 & F1); [discriminate|auto|].
      destruct (IH g1 _ _ I1 H) as (g2 & E2 & I2 & F2). exists g2. split.
      * cbn [Ograph_model.add_edges]. change (put_edge (ensure neqb (ensure neqb g u) v) u v [a; []]) with (put_edge (ensure neqb (ensure neqb g u) v) u v [a]). rewrite E1. exact E2.
      * cbn [mentions insertions right_part flat_map fst snd app] in *. rewrite <- !app_assoc in I2. rewrite <- !app_assoc in F2. split; [exact I2|].
        exact (frame_trans I I1 I2 (fun x H => in_or_app _ _ _ (or_introl H)) F1 F2).
    + destruct (@one_edge g ms ed u v [a; d] I) as (g1 & E1 & I1 & F1); [discriminate| |].
      { constructor; auto. constructor; auto. apply H. cbn. auto. }
      destruct (IH g1 _ _ I1) as (g2 & E2 & I2 & F2). { intros d' Hd. apply H. cbn. auto. }
      exists g2. split.
      * cbn [Ograph_model.add_edges]. rewrite E1. exact E2.
      * cbn [mentions insertions right_part flat_map fst snd app] in *. rewrite <- !app_assoc in I2. rewrite <- !app_assoc in F2. split; [exact I2|].
        exact (frame_trans I I1 I2 (fun x H => in_or_app _ _ _ (or_introl H)) F1 F2).
    + exists g. cbn. rewrite !app_nil_r. split; auto. split; auto. apply frame_refl.
    + exists g. cbn. rewrite !app_nil_r. split; auto. split; auto. apply frame_refl.
Qed.
Lemma inserted_snoc cs c : inserted_edges (cs ++ [c]) = inserted_edges cs ++ insertions c.
Proof. unfold Ograph_spec.inserted_edges. rewrite flat_map_app. cbn. now rewrite app_nil_r. Qed.
Notation call := (@Ograph_model.call N A W neqb aeqb).
Notation run := (@Ograph_model.run N A W neqb aeqb).
Lemma call_good g cs c : good g cs -> (forall d, In d (dicts_of c) -> NoDup (map fst d)) -> exists g', call g c = (g', answer c) /\ good g' (cs ++ [c]).
Proof.
  intros Gd H. pose proof (proj1 Gd) as I. unfold good. destruct c as [n a|ns a|u v a|es a].
  - destruct (@put_nodes g _ _ a (length (heap g)) I (H a (or_introl eq_refl)) eq_refl [n]) as (g' & E & I' & _ & Sh).
    exists g'. split.
    + cbn [Ograph_model.call]. unfold Ograph_model.add_node. cbn [Ograph_model.alloc]. cbn [foldM Ograph_model.alloc fst] in E.
      destruct (put_node neqb aeqb _ n (length (heap g))) eqn:Q in E; [|discriminate]. cbn [bind] in E. injection E as ->. rewrite Q. reflexivity.
    + rewrite mentioned_snoc, inserted_snoc. cbn [insertions]. rewrite app_nil_r. split; [exact I'|]. apply (@known_nodes g g' cs (ONode n a) [n] a Gd); auto.
      split; [reflexivity|]. split; [cbn; intuition (subst; auto)|]. intros x y [<-|[]] [<-|[]]. auto.
  - destruct (@put_nodes g _ _ a (length (heap g)) I (H a (or_introl eq_refl)) eq_refl ns) as (g' & E & I' & _ & Sh).
    exists g'. split.
    + cbn [Ograph_model.call]. unfold Ograph_model.add_nodes_from. cbn [Ograph_model.alloc]. cbn [Ograph_model.alloc fst] in E. rewrite E. reflexivity.
    + rewrite mentioned_snoc, inserted_snoc. cbn [insertions]. rewrite app_nil_r. split; [exact I'|]. apply (@known_nodes g g' cs (ONodes ns a) ns a Gd); auto.
      split; [reflexivity|]. split; [reflexivity|]. eauto.
  - destruct (@one_edge g _ _ u v [a] I) as (g' & E & I' & F); [discriminate|constructor; [apply H; cbn; auto|constructor]|].
    exists g'. split.
    + cbn [Ograph_model.call]. unfold Ograph_model.add_edge. rewrite E. reflexivity.
    + rewrite mentioned_snoc, inserted_snoc. split; [exact I'|]. apply (@known_edges g g' cs (OEdge u v a) _ _ Gd) with (5 := F) (4 := I'); auto. discriminate.
  - destruct (@edges_loop a (H a (or_introl eq_refl)) es g _ _ I) as (g' & E & I' & F). { intros d Hd. apply H. cbn. auto. }
    exists g'. split; [exact E|]. rewrite mentioned_snoc, inserted_snoc. split; [exact I'|].
    apply (@known_edges g g' cs (OEdges es a) _ _ Gd) with (5 := F) (4 := I'); auto. discriminate.
Qed.
Lemma good_empty : good (@empty_graph N A W) [].
Proof.
  split; constructor; cbn; try discriminate; auto; try easy. intros n. split; [easy|intros [r E]; discriminate].
Qed.
Lemma run_good : forall cs cs0 g, good g cs0 -> are_dicts cs -> exists g', run g cs = (g', map (@answer N A W) cs) /\ good g' (cs0 ++ cs).
Proof.
  induction cs as [|c cs IH]; intros cs0 g Gd H.
  - exists g. rewrite app_nil_r. auto.
  - destruct (@call_good g cs0 c Gd) as (g1 & E1 & G1). { intros d. apply H. cbn. auto. }
    destruct (IH _ g1 G1) as (g2 & E2 & G2). { intros c' d Hc. apply H. cbn. auto. }
    exists g2. cbn. rewrite E1, E2. split; auto. now rewrite <- app_assoc in G2.
Qed.
Lemma run_empty cs : are_dicts cs -> exists g, run (@empty_graph N A W) cs = (g, map (@answer N A W) cs) /\ good g cs.
Proof. intros H. apply (@run_good cs [] _ good_empty H). Qed.
Lemma twins_refl cs n : In n (mentioned cs) -> twins cs n n.
Proof.
  induction cs as [|c cs IH] using rev_ind; intros H; [easy|]. rewrite mentioned_snoc in H. apply twins_snoc.
  destruct (mem neqb n (mentioned cs)) eqn:M; [left; apply IH; now apply (mem_spec neqb neq)|right].
  assert (~ In n (mentioned cs)) as K by (intros X; apply (mem_spec neqb neq) in X; congruence).
  apply in_app_iff in H as [H|H]; [easy|]. auto 6.
Qed.
Lemma itself cs n k w : one_at_a_time cs -> last_given cs n k w <-> last_given_itself aeqb cs n k w.
Proof.
  intros O. assert (forall m, twins cs n m -> n = m) as T.
  { intros m (pre & c & post & E & H1 & H2 & H3 & H4 & [X|(ms & a & ->)]); auto. exact (O pre ms a post n m E H3 H4 H1 H2). }
  assert (forall c k w, In c cs -> gives_twin aeqb cs c n k w <-> gives c n k w) as G.
  { intros c k' w' Hc. split.
    - intros (m & X & Y). apply T in X as ->. exact Y.
    - intros X. exists n. split; auto. apply twins_refl. apply in_flat_map. exists c. split; auto. exact (gives_mentions _ _ _ _ X). }
  split; intros (pre & c & post & E & X & Y); exists pre, c, post; split; auto; split.
  - apply (G c k w); auto. rewrite E, in_app_iff. cbn. auto.
  - intros c' w' Hc Z. apply (Y c' w' Hc). apply G; auto. rewrite E, in_app_iff. cbn. auto.
  - apply (G c k w); auto. rewrite E, in_app_iff. cbn. auto.
  - intros c' w' Hc Z. apply (Y c' w' Hc). apply G in Z; auto. rewrite E, in_app_iff. cbn. auto.
Qed.

Notation of_history cs := (fst (run (@empty_graph N A W) cs)).
Lemma of_good cs : are_dicts cs -> good (of_history cs) cs.
Proof. intros H. destruct (run_empty H) as (g & -> & G). exact G. Qed.
Lemma rows cs n : are_dicts cs ->
  (In n (mentioned cs) -> successors neqb (of_history cs) n = Ok (targets_of neqb cs n) /\ predecessors neqb (of_history cs) n = Ok (sources_of neqb cs n)) /\
  (~ In n (mentioned cs) -> successors neqb (of_history cs) n = Err KeyError /\ predecessors neqb (of_history cs) n = Err KeyError).
Proof.
  intros H. destruct (of_good H) as [I _]. unfold successors, predecessors, dread. split; intros Hn.
  - destruct (row_of n I Hn) as [row E1]. destruct (col_of n I Hn) as [col E2]. rewrite E1, E2. cbn [bind]. rewrite (i_rows I _ E1), (i_cols I _ E2). auto.
  - assert (dget neqb (succ (of_history cs)) n = None) as -> by (apply (dget_none neqb neq); rewrite (i_nodes I), (@firsts_in N neqb neq); auto).
    assert (dget neqb (pred (of_history cs)) n = None) as -> by (apply (dget_none neqb neq); rewrite (i_pred I), (@firsts_in N neqb neq); auto). auto.
Qed.
Lemma edge_values cs u v k : are_dicts cs ->
  edge_attr neqb aeqb (of_history cs) u v k = match edge_value neqb aeqb cs u v k with Some w => Ok w | None => Err KeyError end /\
  edge_attr_back neqb aeqb (of_history cs) u v k = edge_attr neqb aeqb (of_history cs) u v k.
Proof.
  intros H. destruct (of_good H) as [I _]. unfold edge_attr, edge_attr_back, dread.
  assert (edge_value neqb aeqb cs u v k = last_value aeqb k (ev (inserted_edges cs) u v)) as -> by reflexivity.
  pose proof (i_sides I u v) as Sd. destruct (sref (of_history cs) u v) as [r|] eqn:E.
  - pose proof (i_val I u v k E) as V. unfold sref in E. unfold pref in Sd. destruct (dget neqb (succ (of_history cs)) u) as [row|] eqn:E1; [|discriminate].
    destruct (dget neqb (pred (of_history cs)) v) as [col|] eqn:E2; [|discriminate]. cbn [bind]. rewrite E, <- Sd. cbn [bind]. rewrite V. auto.
  - assert (last_value aeqb k (ev (inserted_edges cs) u v) = None) as ->.
    { rewrite ev_none; auto. intros X. unfold sref in E. destruct (dget neqb (succ (of_history cs)) u) as [row|] eqn:E1.
      - rewrite <- (i_rows I _ E1) in X. apply (dget_none neqb neq) in E. easy.
      - unfold tg in X. rewrite (@firsts_in N neqb neq) in X. apply in_map_iff in X as (e & _ & X). apply filter_In in X as [X Y]. apply neq in Y. destruct (i_ends I e X) as [Z _].
        apply (dget_none neqb neq) in E1. rewrite (i_nodes I), (@firsts_in N neqb neq) in E1. subst. easy. }
    unfold sref in E. unfold pref in Sd. split.
    + destruct (dget neqb (succ (of_history cs)) u) as [row|]; auto. cbn [bind]. now rewrite E.
    + destruct (dget neqb (succ (of_history cs)) u) as [row|]; cbn [bind]; rewrite ?E; cbn [bind];
      (destruct (dget neqb (pred (of_history cs)) v) as [col|]; auto; cbn [bind]; now rewrite <- Sd).
Qed.
Lemma node_values cs n k : are_dicts cs ->
  (forall w, node_attr neqb aeqb (of_history cs) n k = Ok w <-> last_given cs n k w) /\
  ((forall w, ~ last_given cs n k w) -> node_attr neqb aeqb (of_history cs) n k = Err KeyError).
Proof.
  intros H. destruct (of_good H) as [I [K1 K2]]. unfold node_attr, dread. destruct (dget neqb (node (of_history cs)) n) as [r|] eqn:E; cbn [bind].
  - split.
    + intros w. rewrite <- (K2 n r k w E). destruct (dget aeqb (deref (of_history cs) r) k); split; congruence.
    + intros X. destruct (dget aeqb (deref (of_history cs) r) k) as [w|] eqn:Ew; auto. apply (K2 n r k w E) in Ew. destruct (X w Ew).
  - split; auto. intros w. split; [discriminate|]. intros (pre & c & post & Ec & (m & T & G) & _). apply twins_mentioned in T as [T _]. apply (i_node I) in T as [r Er]. unfold noderef in *. congruence.
Qed.
End P.
