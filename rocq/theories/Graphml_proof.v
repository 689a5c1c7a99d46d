(** Proofs about the GraphML parser. *)
From Coq Require Import String.
From Verif Require Import Py PyLemmas Ptceval_proof Create_spec Create_model Create_proof Graphml_spec Graphml_model.
Set Implicit Arguments.
Local Open Scope string_scope.
Local Open Scope list_scope.

Lemma seqb_spec (x y : string) : String.eqb x y = true <-> x = y.
Proof. apply String.eqb_eq. Qed.
Lemma name_eqb_spec (m n : option string) : name_eqb m n = true <-> m = n.
Proof.
  destruct m, n; cbn; rewrite ?String.eqb_eq; split; intros; try congruence.
Qed.
Lemma owner_eqb_spec (a b : owner) : owner_eqb a b = true <-> a = b.
Proof.
  destruct a as [|m|u v], b as [|n|w x]; cbn; try (split; congruence).
  - fold (name_eqb m n). rewrite name_eqb_spec. split; congruence.
  - rewrite andb_true_iff, !String.eqb_eq. split; [intros [-> ->]; auto|intros E; injection E; auto].
Qed.

(** str.split(" ") *)
Section Pieces.
Variable char : Type.
Variable is_blank : char -> bool.
Lemma pieces_nonempty s : forall w, pieces_loop is_blank w s <> [].
Proof. induction s as [|c s IH]; intros w; cbn; [discriminate|]. destruct (is_blank c); [discriminate|auto]. Qed.
End Pieces.

(** firsts *)
Section Firsts.
Variable A : Type.
Variable eqb : A -> A -> bool.
Hypothesis eqs : forall x y, eqb x y = true <-> x = y.
Lemma firsts_in x l : In x (firsts eqb l) <-> In x l.
Proof.
  induction l as [|y l IH]; cbn; [tauto|]. rewrite filter_In, IH. split.
  - intros [H|[H _]]; auto.
  - intros [H|H]; auto. destruct (eqb y x) eqn:E; [left; now apply eqs|right; split; auto].
Qed.
Lemma firsts_snoc l x : firsts eqb (l ++ [x]) = if mem eqb x l then firsts eqb l else firsts eqb l ++ [x].
Proof.
  induction l as [|y l IH]; cbn; auto. rewrite IH.
  destruct (eqb x y) eqn:E; cbn.
  - apply eqs in E. subst y. destruct (mem eqb x l) eqn:M; auto. rewrite filter_app. cbn.
    assert (eqb x x = true) as -> by now apply eqs. cbn. now rewrite app_nil_r.
  - destruct (mem eqb x l); auto. rewrite filter_app. cbn.
    destruct (eqb y x) eqn:F; auto. apply eqs in F. subst y. assert (eqb x x = true) by now apply eqs. congruence.
Qed.
Lemma dkeys_set V (d : list (A * V)) k v : dkeys (dset eqb d k v) = if mem eqb k (dkeys d) then dkeys d else dkeys d ++ [k].
Proof.
  destruct (mem eqb k (dkeys d)) eqn:E.
  - apply (mem_spec eqb eqs) in E. now apply (dkeys_dset_in eqb eqs).
  - assert (~ In k (dkeys d)) by (intros H; apply (mem_spec eqb eqs) in H; congruence).
    rewrite (dkeys_dset_new eqb eqs) by auto. unfold dkeys. now rewrite map_app.
Qed.
Lemma mem_firsts x l : mem eqb x (firsts eqb l) = mem eqb x l.
Proof. apply Bool.eq_true_iff_eq. rewrite !(mem_spec eqb eqs). apply firsts_in. Qed.
Lemma dget_some_in V (d : list (A * V)) k : (exists v, dget eqb d k = Some v) <-> In k (dkeys d).
Proof.
  split.
  - intros (v & H). apply (dget_in eqb eqs) in H. now apply (in_map fst) in H.
  - intros H. destruct (dget eqb d k) eqn:E; eauto. apply (dget_none eqb eqs) in E. contradiction.
Qed.
Lemma dget_set V (d : list (A * V)) k v k' : dget eqb (dset eqb d k v) k' = if eqb k k' then Some v else dget eqb d k'.
Proof.
  destruct (eqb k k') eqn:E.
  - apply eqs in E. subst. apply (dget_dset_same eqb eqs).
  - apply (dget_dset_other eqb eqs). intros ->. assert (eqb k' k' = true) by now apply eqs. congruence.
Qed.
End Firsts.

Section P.
Variable char : Type.
Variable space : char -> bool.
Variable is_blank : char -> bool.
Notation text := (list char).
Notation value := (value char).
Notation event := (event char).
Notation item := (item char).
Notation dgraph := (dgraph char).
Notation parser := (parser char).
Notation step := (step space is_blank).
Notation pieces := (pieces is_blank).
Notation words := (split space).
Implicit Types (o : dgraph) (p : parser) (A : list (owner * string * value)).

Lemma last_app A B ow k : last_value (A ++ B) ow k = match last_value B ow k with Some v => Some v | None => last_value A ow k end.
Proof.
  induction A as [|((q, m), v) A IH]; cbn; [now destruct (last_value B ow k)|]. rewrite IH. destruct (last_value B ow k); auto.
Qed.
Lemma last_one A q m v ow k : last_value (A ++ [(q, m, v)]) ow k = if owner_eqb q ow && String.eqb m k then Some v else last_value A ow k.
Proof. rewrite last_app. cbn. now destruct (owner_eqb q ow && String.eqb m k). Qed.

Lemma targets_snoc u ends a b : targets u (ends ++ [(a, b)]) = targets u ends ++ (if name_eqb (Some a) u then [Some b] else []).
Proof. unfold targets. rewrite filter_app, map_app. cbn [filter]. cbn [fst]. destruct (name_eqb (Some a) u); reflexivity. Qed.
Lemma in_targets u v ends : In (Some v) (targets (Some u) ends) <-> In (u, v) ends.
Proof.
  unfold targets. rewrite in_map_iff. split.
  - intros ((a, b) & E & H). apply filter_In in H as (H & F). apply name_eqb_spec in F. cbn in *. congruence.
  - intros H. exists (u, v). split; auto. apply filter_In. split; auto. now apply name_eqb_spec.
Qed.

(** What a graph object holds after the assignments A, the nodes [names] and the edges [ends]. *)
Record Rep o A (names : list (option string)) (ends : list (string * string)) : Prop := {
  r_tok : match tokens o with Some l => last_value A OGraph "tokens" = Some (VToks l) | None => last_value A OGraph "tokens" = None end;
  r_attrs : forall k, dget String.eqb (attrs o) k = if String.eqb k "tokens" then None else last_value A OGraph k;
  r_node : forall n, match dget name_eqb (node o) n with
                     | Some d => In n names /\ forall k, dget String.eqb d k = last_value A (ONode n) k
                     | None => ~ In n names end;
  r_succ : dkeys (succ o) = firsts name_eqb names;
  r_row : forall u row, dget name_eqb (succ o) u = Some row -> dkeys row = firsts name_eqb (targets u ends);
  r_edge : forall u row v d, dget name_eqb (succ o) (Some u) = Some row -> dget name_eqb row (Some v) = Some d ->
             forall k, dget String.eqb d k = last_value A (OEdge u v) k;
  r_fresh : forall n k, ~ In n names -> last_value A (ONode n) k = None;
  r_nofresh : forall u v k, ~ In (u, v) ends -> last_value A (OEdge u v) k = None;
  r_ends : forall u v, In (u, v) ends -> In (Some u) names /\ In (Some v) names }.

Lemma rep_new i : Rep (new_graph char i) [(OGraph, "name", VText [])] [] [].
Proof.
  constructor; try (cbn; auto; try tauto; discriminate); try (cbn; intros; discriminate).
  - intros k. cbn [new_graph attrs dget last_value owner_eqb andb].
    rewrite (String.eqb_sym k "name"). destruct (String.eqb "name" k) eqn:E, (String.eqb k "tokens") eqn:F; auto.
    apply String.eqb_eq in E, F. congruence.
Qed.

Lemma rep_in_succ o A names ends n : Rep o A names ends -> (exists row, dget name_eqb (succ o) n = Some row) <-> In n names.
Proof. intros R. rewrite (dget_some_in _ name_eqb_spec), (r_succ R). apply firsts_in, name_eqb_spec. Qed.
Lemma rep_row_in o A names ends u v row : Rep o A names ends -> dget name_eqb (succ o) (Some u) = Some row ->
  (exists d, dget name_eqb row (Some v) = Some d) <-> In (u, v) ends.
Proof. intros R H. rewrite (dget_some_in _ name_eqb_spec), (r_row R _ H), (firsts_in _ name_eqb_spec). apply in_targets. Qed.

Lemma node_dec (n : option string) l : In n l \/ ~ In n l.
Proof. destruct (mem name_eqb n l) eqn:E; [left; now apply (mem_spec _ name_eqb_spec)|right; intros H; apply (mem_spec _ name_eqb_spec) in H; congruence]. Qed.

Lemma rep_node o A names ends n : Rep o A names ends ->
  Rep (add_node o n) (A ++ [(ONode n, "label", VNone); (ONode n, "tokens", VToks [])]) (names ++ [n]) ends.
Proof.
  intros R. set (A' := A ++ _).
  assert (LV : forall ow k, last_value A' ow k = if owner_eqb (ONode n) ow && String.eqb "tokens" k then Some (VToks []) else
      if owner_eqb (ONode n) ow && String.eqb "label" k then Some VNone else last_value A ow k).
  { intros ow k. unfold A'. change [(ONode n, "label", VNone); (ONode n, "tokens", VToks [])] with ([(ONode n, "label", @VNone char)] ++ [(ONode n, "tokens", VToks [])]).
    rewrite app_assoc, !last_one. auto. }
  assert (DD : forall d : attr_dict char, forall k, dget String.eqb (update d [("label", VNone); ("tokens", VToks [])]) k =
     if String.eqb "tokens" k then Some (VToks []) else if String.eqb "label" k then Some VNone else dget String.eqb d k).
  { intros d k. unfold update. cbn [fold_left fst snd]. rewrite !(dget_set _ seqb_spec). auto. }
  assert (NODE : forall d : attr_dict char, (forall k, dget String.eqb d k = if String.eqb "tokens" k then Some (VToks []) else if String.eqb "label" k then Some VNone else last_value A (ONode n) k) ->
    forall m, match dget name_eqb (dset name_eqb (node o) n d) m with
              | Some d => In m (names ++ [n]) /\ forall k, dget String.eqb d k = last_value A' (ONode m) k
              | None => ~ In m (names ++ [n]) end).
  { intros d Hd m. rewrite (dget_set _ name_eqb_spec). destruct (name_eqb n m) eqn:E.
    - apply name_eqb_spec in E. subst m. split; [apply in_app_iff; cbn; auto|]. intros k. rewrite LV, (proj2 (owner_eqb_spec (ONode n) (ONode n)) eq_refl). cbn [andb]. apply Hd.
    - assert (m <> n) by (intros ->; rewrite (proj2 (name_eqb_spec n n) eq_refl) in E; discriminate).
      pose proof (r_node R m) as X. destruct (dget name_eqb (node o) m) as [d'|].
      + destruct X as (X & Y). split; [apply in_app_iff; auto|]. intros k. rewrite LV, Y.
        destruct (owner_eqb (ONode n) (ONode m)) eqn:F; auto. apply owner_eqb_spec in F. congruence.
      + rewrite in_app_iff. cbn. intuition congruence. }
  assert (FR : forall m k, ~ In m (names ++ [n]) -> last_value A' (ONode m) k = None).
  { intros m k H. rewrite in_app_iff in H. cbn in H. rewrite LV. destruct (owner_eqb (ONode n) (ONode m)) eqn:F.
    - apply owner_eqb_spec in F. injection F as ->. tauto.
    - cbn. apply (r_fresh R). tauto. }
  assert (NE : forall u v k, last_value A' (OEdge u v) k = last_value A (OEdge u v) k) by (intros; rewrite LV; reflexivity).
  assert (NG : forall k, last_value A' OGraph k = last_value A OGraph k) by (intros; rewrite LV; reflexivity).
  unfold add_node. destruct (dget name_eqb (succ o) n) as [row0|] eqn:E0.
  - assert (IN : In n names) by (apply (rep_in_succ n R); eauto).
    constructor; cbn [set_node set_succ tokens attrs node succ]; auto.
    + pose proof (r_tok R) as X. destruct (tokens o); rewrite NG; auto.
    + intros k. rewrite NG. apply (r_attrs R).
    + apply NODE. intros k. rewrite DD.
      pose proof (r_node R n) as X. destruct (dget name_eqb (node o) n) as [d|]; [|contradiction]. destruct X as (_ & X). now rewrite X.
    + rewrite (firsts_snoc _ name_eqb_spec), (proj2 (mem_spec _ name_eqb_spec n names) IN). apply (r_succ R).
    + apply (r_row R).
    + intros u row v d H1 H2 k. rewrite NE. eapply (r_edge R); eauto.
    + intros u v k H. rewrite NE. now apply (r_nofresh R).
    + intros u v H. rewrite !in_app_iff. destruct (r_ends R _ _ H). auto.
  - assert (NI : ~ In n names) by (intros H; apply (rep_in_succ n R) in H as (row & H); congruence).
    constructor; cbn [set_node set_succ tokens attrs node succ]; auto.
    + pose proof (r_tok R) as X. destruct (tokens o); rewrite NG; auto.
    + intros k. rewrite NG. apply (r_attrs R).
    + apply NODE. intros k. rewrite (r_fresh R) by auto. cbn [dget]. rewrite (String.eqb_sym k "label"), (String.eqb_sym k "tokens").
      destruct (String.eqb "tokens" k) eqn:E1, (String.eqb "label" k) eqn:E2; auto.
      * apply String.eqb_eq in E1, E2. congruence.
    + rewrite (dkeys_set _ name_eqb_spec), (r_succ R), (mem_firsts _ name_eqb_spec), (firsts_snoc _ name_eqb_spec). auto.
    + intros u row. rewrite (dget_set _ name_eqb_spec). destruct (name_eqb n u) eqn:E; [|apply (r_row R)].
      apply name_eqb_spec in E. subst u. intros X; injection X as <-. symmetry.
      destruct (targets n ends) as [|t ts] eqn:T; [auto|]. exfalso.
      assert (In t (targets n ends)) by (rewrite T; cbn; auto). unfold targets in H. apply in_map_iff in H as ((a, b) & H1 & H2).
      apply filter_In in H2 as (H2 & H3). apply name_eqb_spec in H3. cbn in H3. subst n. apply NI. apply (r_ends R _ _ H2).
    + intros u row v d. rewrite (dget_set _ name_eqb_spec). destruct (name_eqb n (Some u)) eqn:E; [intros X; injection X as <-; discriminate|].
      intros H1 H2 k. rewrite NE. eapply (r_edge R); eauto.
    + intros u v k H. rewrite NE. now apply (r_nofresh R).
    + intros u v H. rewrite !in_app_iff. destruct (r_ends R _ _ H). auto.
Qed.

Lemma rep_edge o A names ends u v : Rep o A names ends ->
  match add_edge o (Some u) (Some v) with
  | Ok o' => In (Some u) names /\ In (Some v) names /\ Rep o' (A ++ [(OEdge u v, "label", VNone)]) names (ends ++ [(u, v)])
  | Err e => e = ValueError /\ ~ (In (Some u) names /\ In (Some v) names)
  end.
Proof.
  intros R. unfold add_edge. destruct (dget name_eqb (succ o) (Some u)) as [row|] eqn:Eu.
  2: { split; auto. intros (H & _). apply (rep_in_succ (Some u) R) in H as (x & H). congruence. }
  destruct (dget name_eqb (succ o) (Some v)) as [rowv|] eqn:Ev.
  2: { split; auto. intros (_ & H). apply (rep_in_succ (Some v) R) in H as (x & H). congruence. }
  assert (Iu : In (Some u) names) by (apply (rep_in_succ (Some u) R); eauto).
  assert (Iv : In (Some v) names) by (apply (rep_in_succ (Some v) R); eauto).
  split; auto. split; auto. set (d0 := match dget name_eqb row (Some v) with Some d => d | None => [] end).
  assert (D0 : forall k, dget String.eqb d0 k = last_value A (OEdge u v) k).
  { intros k. unfold d0. destruct (dget name_eqb row (Some v)) as [d|] eqn:E.
    - eapply (r_edge R); eauto.
    - symmetry. apply (r_nofresh R). intros H. apply (rep_row_in _ v R Eu) in H as (d & H). congruence. }
  constructor; cbn [set_node set_succ set_attrs set_tokens tokens attrs node succ]; auto.
  - pose proof (r_tok R) as X. destruct (tokens o); rewrite last_one; auto.
  - intros k. rewrite last_one. cbn. apply (r_attrs R).
  - intros n. pose proof (r_node R n) as X. destruct (dget name_eqb (node o) n); auto. destruct X as (X & Y). split; auto.
    intros k. rewrite last_one. cbn. apply Y.
  - rewrite (dkeys_set _ name_eqb_spec), (r_succ R), (mem_firsts _ name_eqb_spec), (proj2 (mem_spec _ name_eqb_spec _ names) Iu). auto.
  - intros x rx. rewrite (dget_set _ name_eqb_spec), targets_snoc. destruct (name_eqb (Some u) x) eqn:E.
    + apply name_eqb_spec in E. subst x. intros X; injection X as <-.
      rewrite (dkeys_set _ name_eqb_spec), (r_row R _ Eu), (mem_firsts _ name_eqb_spec), (firsts_snoc _ name_eqb_spec). auto.
    + rewrite app_nil_r. apply (r_row R).
  - intros x rx y d. rewrite (dget_set _ name_eqb_spec). destruct (name_eqb (Some u) (Some x)) eqn:E.
    + apply name_eqb_spec in E. injection E as <-. intros X; injection X as <-. rewrite (dget_set _ name_eqb_spec).
      destruct (name_eqb (Some v) (Some y)) eqn:F.
      * apply name_eqb_spec in F. injection F as <-. intros X; injection X as <-. intros k.
        rewrite last_one, (proj2 (owner_eqb_spec (OEdge u v) _) eq_refl). unfold update. cbn [fold_left fst snd andb].
        rewrite (dget_set _ seqb_spec). now rewrite D0.
      * intros H k. rewrite last_one. destruct (owner_eqb (OEdge u v) (OEdge u y)) eqn:G.
        -- apply owner_eqb_spec in G. injection G as <-. rewrite (proj2 (name_eqb_spec (Some v) (Some v)) eq_refl) in F. discriminate.
        -- cbn. eapply (r_edge R); eauto.
    + intros H1 H2 k. rewrite last_one. destruct (owner_eqb (OEdge u v) (OEdge x y)) eqn:G.
      -- apply owner_eqb_spec in G. injection G as <- <-. rewrite (proj2 (name_eqb_spec (Some u) (Some u)) eq_refl) in E. discriminate.
      -- cbn. eapply (r_edge R); eauto.
  - intros n k H. rewrite last_one. cbn. now apply (r_fresh R).
  - intros x y k H. rewrite in_app_iff in H. cbn in H. rewrite last_one. destruct (owner_eqb (OEdge u v) (OEdge x y)) eqn:G.
    + apply owner_eqb_spec in G. injection G as <- <-. tauto.
    + cbn. apply (r_nofresh R). tauto.
  - intros x y H. apply in_app_iff in H as [H|[H|[]]]; [apply (r_ends R _ _ H)|]. injection H as <- <-. auto.
Qed.

(** Setting one attribute. *)
Definition put o (ow : owner) (k : string) (w : value) : res dgraph :=
  match ow with
  | OGraph => Ok (set_attrs o (dset String.eqb (attrs o) k w))
  | ONode n => d <- dread name_eqb (node o) n ;; Ok (set_node o (dset name_eqb (node o) n (dset String.eqb d k w)))
  | OEdge u v => row <- dread name_eqb (succ o) (Some u) ;; d <- dread name_eqb row (Some v) ;;
                 Ok (set_succ o (dset name_eqb (succ o) (Some u) (dset name_eqb row (Some v) (dset String.eqb d k w))))
  end.
Definition here (names : list (option string)) (ends : list (string * string)) (ow : owner) : Prop :=
  match ow with OGraph => True | ONode n => In n names | OEdge u v => In (u, v) ends end.
Lemma owner_refl ow : owner_eqb ow ow = true.
Proof. now apply owner_eqb_spec. Qed.
Lemma name_refl n : name_eqb n n = true.
Proof. now apply name_eqb_spec. Qed.

Lemma rep_put o A names ends ow k w : Rep o A names ends -> here names ends ow -> (ow = OGraph -> k <> "tokens") ->
  exists o', put o ow k w = Ok o' /\ Rep o' (A ++ [(ow, k, w)]) names ends /\ id_ o' = id_ o /\ root o' = root o.
Proof.
  intros R H NT. destruct ow as [|n|u v]; cbn in H |- *.
  - eexists; split; [reflexivity|]. split; [|cbn; auto]. specialize (NT eq_refl). constructor; cbn [set_node set_succ set_attrs set_tokens tokens attrs node succ]; auto.
    + pose proof (r_tok R) as X. assert (Y : last_value (A ++ [(OGraph, k, w)]) OGraph "tokens" = last_value A OGraph "tokens").
      { rewrite last_one. apply String.eqb_neq in NT. rewrite NT. auto. } rewrite Y. auto.
    + intros j. rewrite (dget_set _ seqb_spec), last_one. cbn [owner_eqb andb]. destruct (String.eqb k j) eqn:E; [|apply (r_attrs R)].
      apply String.eqb_eq in E. subst j. apply String.eqb_neq in NT. now rewrite NT.
    + intros n. pose proof (r_node R n) as X. destruct (dget name_eqb (node o) n); auto. destruct X as (X & Y). split; auto. intros j. rewrite last_one. cbn. auto.
    + apply (r_succ R).
    + apply (r_row R).
    + intros. rewrite last_one. cbn. eapply (r_edge R); eauto.
    + intros. rewrite last_one. cbn. now apply (r_fresh R).
    + intros. rewrite last_one. cbn. now apply (r_nofresh R).
    + apply (r_ends R).
  - pose proof (r_node R n) as X. unfold dread. destruct (dget name_eqb (node o) n) as [d|] eqn:En; [|contradiction]. cbn [bind].
    eexists; split; [reflexivity|]. split; [|cbn; auto]. constructor; cbn [set_node set_succ set_attrs set_tokens tokens attrs node succ]; auto.
    + pose proof (r_tok R) as Y. destruct (tokens o); rewrite last_one; auto.
    + intros j. rewrite last_one. cbn. apply (r_attrs R).
    + intros m. rewrite (dget_set _ name_eqb_spec). destruct (name_eqb n m) eqn:E.
      * apply name_eqb_spec in E. subst m. split; auto. intros j. rewrite (dget_set _ seqb_spec), last_one, owner_refl. cbn [andb].
        destruct X as (_ & X). now rewrite X.
      * pose proof (r_node R m) as Y. destruct (dget name_eqb (node o) m) as [d'|]; auto. destruct Y as (Y1 & Y2). split; auto. intros j.
        rewrite last_one. destruct (owner_eqb (ONode n) (ONode m)) eqn:F; [|apply Y2]. apply owner_eqb_spec in F. injection F as <-. rewrite name_refl in E. discriminate.
    + apply (r_succ R).
    + apply (r_row R).
    + intros. rewrite last_one. cbn. eapply (r_edge R); eauto.
    + intros m j Hm. rewrite last_one. destruct (owner_eqb (ONode n) (ONode m)) eqn:F; [|now apply (r_fresh R)].
      apply owner_eqb_spec in F. injection F as <-. contradiction.
    + intros. rewrite last_one. cbn. now apply (r_nofresh R).
    + apply (r_ends R).
  - destruct (r_ends R _ _ H) as (Iu & Iv). apply (rep_in_succ (Some u) R) in Iu as (row & Eu).
    pose proof H as H'. apply (rep_row_in _ v R Eu) in H' as (d & Ed). unfold dread. rewrite Eu. cbn [bind]. rewrite Ed. cbn [bind].
    eexists; split; [reflexivity|]. split; [|cbn; auto]. constructor; cbn [set_node set_succ set_attrs set_tokens tokens attrs node succ]; auto.
    + pose proof (r_tok R) as Y. destruct (tokens o); rewrite last_one; auto.
    + intros j. rewrite last_one. cbn. apply (r_attrs R).
    + intros n. pose proof (r_node R n) as X. destruct (dget name_eqb (node o) n); auto. destruct X as (X & Y). split; auto. intros j. rewrite last_one. cbn. auto.
    + rewrite (dkeys_dset_in _ name_eqb_spec); [apply (r_succ R)|]. apply (dget_some_in _ name_eqb_spec). eauto.
    + intros x rx. rewrite (dget_set _ name_eqb_spec). destruct (name_eqb (Some u) x) eqn:E; [|apply (r_row R)].
      apply name_eqb_spec in E. subst x. intros X; injection X as <-. rewrite (dkeys_dset_in _ name_eqb_spec); [now apply (r_row R)|].
      apply (dget_some_in _ name_eqb_spec). eauto.
    + intros x rx y dd. rewrite (dget_set _ name_eqb_spec). destruct (name_eqb (Some u) (Some x)) eqn:E.
      * apply name_eqb_spec in E. injection E as <-. intros X; injection X as <-. rewrite (dget_set _ name_eqb_spec).
        destruct (name_eqb (Some v) (Some y)) eqn:F.
        -- apply name_eqb_spec in F. injection F as <-. intros X; injection X as <-. intros j.
           rewrite (dget_set _ seqb_spec), last_one, owner_refl. cbn [andb]. destruct (String.eqb k j); auto. eapply (r_edge R); eauto.
        -- intros Hy j. rewrite last_one. destruct (owner_eqb (OEdge u v) (OEdge u y)) eqn:G; [|eapply (r_edge R); eauto].
           apply owner_eqb_spec in G. injection G as <-. rewrite name_refl in F. discriminate.
      * intros H1 H2 j. rewrite last_one. destruct (owner_eqb (OEdge u v) (OEdge x y)) eqn:G; [|eapply (r_edge R); eauto].
        apply owner_eqb_spec in G. injection G as <- <-. rewrite name_refl in E. discriminate.
    + intros. rewrite last_one. cbn. now apply (r_fresh R).
    + intros x y j Hx. rewrite last_one. destruct (owner_eqb (OEdge u v) (OEdge x y)) eqn:G; [|now apply (r_nofresh R)].
      apply owner_eqb_spec in G. injection G as <- <-. contradiction.
    + apply (r_ends R).
Qed.
Lemma rep_tokens o A names ends l : Rep o A names ends -> Rep (set_tokens o l) (A ++ [(OGraph, "tokens", VToks l)]) names ends.
Proof.
  intros R. constructor; cbn [set_node set_succ set_attrs set_tokens tokens attrs node succ]; auto.
  - now rewrite last_one.
  - intros k. rewrite last_one. cbn [owner_eqb andb]. rewrite (r_attrs R). rewrite (String.eqb_sym k "tokens"). destruct (String.eqb "tokens" k); auto.
  - intros n. pose proof (r_node R n) as X. destruct (dget name_eqb (node o) n); auto. destruct X as (X & Y). split; auto. intros j. rewrite last_one. cbn. auto.
  - apply (r_succ R).
  - apply (r_row R).
  - intros. rewrite last_one. cbn. eapply (r_edge R); eauto.
  - intros. rewrite last_one. cbn. now apply (r_fresh R).
  - intros. rewrite last_one. cbn. now apply (r_nofresh R).
  - apply (r_ends R).
Qed.

(** The key table. *)
Definition comps := ["graph"; "node"; "edge"; "all"].
Record KT (T : table char) (keys : list (key_elem char)) : Prop := {
  kt_in : forall c, In c comps -> exists t, dget String.eqb T c = Some t /\
     (forall i, option_map (@k_name char) (dget String.eqb t i) = declared keys c i) /\ (forall x, In x t -> k_dflt (snd x) = None);
  kt_out : forall c, ~ In c comps -> dget String.eqb T c = None }.

Lemma kt_name T keys c d : KT T keys -> In c comps ->
  match dget String.eqb T c, Some d with Some t, Some k => option_map (@k_name char) (dget String.eqb t k) | _, _ => None end = declared keys c d.
Proof. intros K H. destruct (kt_in K H) as (t & -> & E & _). apply E. Qed.

Lemma defaults_none T keys p c ctx : KT T keys -> key_table p = T -> context p = c :: ctx -> In c comps -> set_defaults space is_blank p = Ok p.
Proof.
  intros K HT HC Hc. unfold set_defaults, dread. rewrite HC, HT.
  destruct (@kt_in _ _ K "all") as (t1 & -> & _ & D1); [cbn; auto|]. cbn [bind].
  destruct (kt_in K Hc) as (t2 & -> & _ & D2). cbn [bind].
  assert (D : forall x, In x (t1 ++ t2) -> k_dflt (snd x) = None) by (intros x X; apply in_app_iff in X as [X|X]; auto).
  revert D. generalize (t1 ++ t2). induction l as [|x l IH]; intros D; cbn; auto. rewrite (D x) by (cbn; auto). cbn. apply IH. intros; apply D; cbn; auto.
Qed.

(** The parser within the graph that is being built. *)
Definition cref (g : nat) (ow : option owner) : comp_ref :=
  match ow with None => NoneRef | Some OGraph => GraphRef g | Some (ONode n) => NodeRef g n | Some (OEdge u v) => EdgeRef g (Some u) (Some v) end.
Record At p (T : table char) ctx ids gs o ow nd : Prop := {
  a_ready : ready p = true; a_ctx : context p = ctx; a_tab : key_table p = T; a_ids : id2graph p = ids;
  a_graphs : graphs p = gs ++ [o]; a_graph : graph p = Some (length gs); a_comp : comp_attrs p = cref (length gs) ow; a_node : node_ p = nd }.

Lemma nth_mid X (l m : list X) x : nth_error (l ++ x :: m) (length l) = Some x.
Proof. rewrite nth_error_app2, Nat.sub_diag; auto. Qed.
Lemma set_nth_mid X (l m : list X) x y : set_nth (l ++ x :: m) (length l) y = l ++ y :: m.
Proof. induction l; cbn; congruence. Qed.
Lemma on_graph_at p (gs : list dgraph) o f : graphs p = gs ++ [o] ->
  on_graph p (length gs) f = (o' <- f o ;; Ok (with_graphs p (gs ++ [o']))).
Proof. intros H. unfold on_graph. rewrite H, nth_mid. destruct (f o); cbn; auto. now rewrite set_nth_mid. Qed.

Definition eff (comp : string) (ow : option owner) (nd : option (option string)) (name : string) (t : text) o : res dgraph :=
  if String.eqb name "tokens" && String.eqb comp "graph" then Ok (set_tokens o (words t))
  else if String.eqb name "tokens" && String.eqb comp "node" then
    match nd with None => Err AttributeError | Some n => set_node_token_string is_blank o n t end
  else match ow with None => Err TypeError | Some ow => put o ow name (VText t) end.

Lemma set_attr_at p T ctx ids gs o ow nd comp name t : At p T ctx ids gs o ow nd ->
  set_attr space is_blank p comp name t = (o' <- eff comp ow nd name t o ;; Ok (with_graphs p (gs ++ [o']))).
Proof.
  intros [H1 H2 H3 H4 H5 H6 H7 H8]. unfold set_attr, eff. rewrite H6.
  destruct (String.eqb name "tokens" && String.eqb comp "graph"); [now rewrite (@on_graph_at p _ _ _ H5)|].
  destruct (String.eqb name "tokens" && String.eqb comp "node"). { rewrite H8. destruct nd; [now rewrite (@on_graph_at p _ _ _ H5)|auto]. }
  unfold set_comp. rewrite H7. destruct ow as [[|n|u v]|]; cbn [cref]; try (rewrite (@on_graph_at p _ _ _ H5)); auto.
Qed.

Notation data_name := (data_name (char := char)).
Lemma data_step sparse p T ctx ids gs o ow nd keys comp d : At p T (comp :: ctx) ids gs o ow nd -> KT T keys -> In comp ["graph"; "node"; "edge"] ->
  match data_name keys comp d with
  | None => exists e, foldM (step sparse) p (data_events d) = Err e /\ In e [KeyError; DaesoError]
  | Some name => match eff comp ow nd name (snd d) o with
                 | Ok o' => exists p', foldM (step sparse) p (data_events d) = Ok p' /\ At p' T (comp :: ctx) ids gs o' ow nd
                 | Err e => foldM (step sparse) p (data_events d) = Err e
                 end
  end.
Proof.
  intros AT K HC. destruct AT as [H1 H2 H3 H4 H5 H6 H7 H8].
  unfold Graphml_spec.data_name, data_events. cbn [foldM Graphml_model.step]. unfold start_element.
  cbn [String.eqb Ascii.eqb Bool.eqb]. cbn [ready with_buf with_context]. rewrite H1. cbn [negb]. cbn [graph with_buf with_context]. rewrite H6.
  unfold start_data, dread. change (dget String.eqb (fst d) "key") with (attribute (fst d) "key").
  destruct (attribute (fst d) "key") as [id|]; cbn [bind]; [|eexists; split; [reflexivity|cbn; auto]].
  unfold char_data, graph_wanted. cbn [graph with_data with_buf with_context]. rewrite H6. cbn [bind].
  unfold end_element. cbn [String.eqb Ascii.eqb Bool.eqb]. unfold graph_wanted. cbn [graph with_data with_buf with_context]. rewrite H6.
  cbn [in_node existsb String.eqb Ascii.eqb Bool.eqb orb].
  unfold end_data. cbn [context with_data with_buf with_context]. rewrite H2.
  assert (HC' : In comp comps) by (cbn in HC |- *; tauto).
  unfold lookup_attr_name. cbn [key_table data_key with_data with_buf with_context]. rewrite H3.
  pose proof (kt_name id K HC') as N1. pose proof (kt_name id K (c := "all")) as N2.
  assert (In "all" comps) as HA by (cbn; auto). specialize (N2 HA).
  destruct (kt_in K HC') as (t1 & E1 & _). destruct (kt_in K HA) as (t2 & E2 & _). rewrite E1, E2 in *. unfold key_name.
  rewrite <- N1, <- N2. clear N1 N2. 
  set (q := with_buf _ (_ ++ snd d)).
  assert (AQ : At q T ("data" :: comp :: ctx) ids gs o ow nd) by (unfold q; constructor; cbn; auto; now rewrite H2).
  assert (BQ : buf q = snd d) by reflexivity. rewrite BQ.
  assert (FIN : forall name, match eff comp ow nd name (snd d) o with
      | Ok o' => exists p', (p0 <- (p0 <- (p1 <- set_attr space is_blank q comp name (snd d) ;; Ok (with_data p1 None)) ;; Ok (with_context p0 (tl (context p0)))) ;; Ok p0) = Ok p' /\ At p' T (comp :: ctx) ids gs o' ow nd
      | Err e => (p0 <- (p0 <- (p1 <- set_attr space is_blank q comp name (snd d) ;; Ok (with_data p1 None)) ;; Ok (with_context p0 (tl (context p0)))) ;; Ok p0) = Err e end).
  { intros name. rewrite (set_attr_at comp name (snd d) AQ). destruct (eff comp ow nd name (snd d) o) as [o'|e]; cbn; auto.
    eexists; split; [reflexivity|]. constructor; cbn; auto. }
  destruct (dget String.eqb t1 id) as [k|]; cbn [option_map bind]; [apply FIN|].
  destruct (dget String.eqb t2 id) as [k|]; cbn [option_map bind]; [apply FIN|].
  eexists; split; [reflexivity|cbn; auto].
Qed.

Definition errs := [KeyError; DaesoError; TypeError; ValueError].
Definition okd keys (comp : string) (ow : option owner) (d : data char) : Prop :=
  data_name keys comp d <> None /\ (ow = None -> data_name keys comp d = Some "tokens").
Notation assign := (assign (char := char)).

Lemma data_rep sparse p T ctx ids gs o ow nd keys comp d A names ends n : At p T (comp :: ctx) ids gs o ow nd -> KT T keys -> Rep o A names ends ->
  match ow with Some w => here names ends w | None => True end ->
  (comp = "graph" /\ ow <> Some (ONode n) \/ comp = "node" /\ nd = Some n /\ ow = Some (ONode n) \/ comp = "edge" /\ exists u v, ow = Some (OEdge u v)) ->
  match foldM (step sparse) p (data_events d) with
  | Ok p' => okd keys comp ow d /\ exists o', At p' T (comp :: ctx) ids gs o' ow nd /\
               Rep o' (A ++ assign keys words pieces comp ow n d) names ends /\ id_ o' = id_ o /\ root o' = root o
  | Err e => ~ okd keys comp ow d /\ In e errs
  end.
Proof.
  intros AT K R H HC.
  assert (HCI : In comp ["graph"; "node"; "edge"]) by (cbn; destruct HC as [[-> _]|[[-> _]|[-> _]]]; auto).
  pose proof (data_step sparse d AT K HCI) as DS. unfold Graphml_spec.assign, okd.
  destruct (data_name keys comp d) as [name|].
  2: { destruct DS as (e & -> & E). split; [intros (X & _); auto|]. unfold errs. cbn in E |- *. tauto. }
  unfold eff in DS. destruct (String.eqb name "tokens" && String.eqb comp "graph") eqn:E1.
  - destruct DS as (p' & -> & AT'). split; [split; [discriminate|]; intros _; apply andb_true_iff in E1 as (E1 & _); apply String.eqb_eq in E1; congruence|].
    eexists; split; [exact AT'|]. split; [now apply rep_tokens|]. auto.
  - destruct (String.eqb name "tokens" && String.eqb comp "node") eqn:E2.
    + apply andb_true_iff in E2 as (E2 & E3). apply String.eqb_eq in E2, E3. subst name comp.
      destruct HC as [[X _]|[(_ & -> & ->)|[X _]]]; try discriminate.
      destruct (@rep_put o A names ends (ONode n) "tokens" (VToks (pieces (snd d))) R H) as (o' & P1 & P2 & P3 & P4); [discriminate|].
      assert (Q : set_node_token_string is_blank o n (snd d) = Ok o') by exact P1. rewrite Q in DS.
      destruct DS as (p' & -> & AT'). split; [split; discriminate|]. exists o'. auto.
    + destruct ow as [w|].
      * destruct (@rep_put o A names ends w name (VText (snd d)) R H) as (o' & P1 & P2 & P3 & P4).
        { intros -> ->. rewrite String.eqb_refl in E1. cbn in E1. destruct HC as [[-> _]|[(_ & _ & X)|[_ (u & v & X)]]]; try discriminate. }
        rewrite P1 in DS. destruct DS as (p' & -> & AT'). split; [split; discriminate|]. exists o'. auto.
      * rewrite DS. split; [|unfold errs; cbn; auto]. intros (_ & X). specialize (X eq_refl). injection X as ->.
        destruct HC as [[-> _]|[(_ & _ & X)|[_ (u & v & X)]]]; discriminate.
Qed.

Lemma datas_rep sparse T ctx ids gs ow nd keys comp names ends n ds :
  forall p o A, At p T (comp :: ctx) ids gs o ow nd -> KT T keys -> Rep o A names ends ->
  match ow with Some w => here names ends w | None => True end ->
  (comp = "node" /\ nd = Some n /\ ow = Some (ONode n) \/ comp = "edge" /\ exists u v, ow = Some (OEdge u v)) ->
  match foldM (step sparse) p (flat_map (@data_events char) ds) with
  | Ok p' => Forall (data_ok keys comp) ds /\ exists o', At p' T (comp :: ctx) ids gs o' ow nd /\
               Rep o' (A ++ flat_map (assign keys words pieces comp ow n) ds) names ends /\ id_ o' = id_ o /\ root o' = root o
  | Err e => ~ Forall (data_ok keys comp) ds /\ In e errs
  end.
Proof.
  induction ds as [|d ds IH]; intros p o A AT K R H HC; cbn [flat_map].
  - cbn [foldM]. split; auto. exists o. rewrite app_nil_r. auto.
  - rewrite foldM_app. pose proof (@data_rep sparse p T ctx ids gs o ow nd keys comp d A names ends n AT K R H) as DR.
    assert (HS : ow <> None) by (destruct HC as [(_ & _ & ->)|[_ (u & v & ->)]]; discriminate).
    match type of DR with ?P -> _ => assert (HP : P) by tauto end. specialize (DR HP).
    destruct (foldM (step sparse) p (data_events d)) as [p1|e]; cbn [bind].
    + destruct DR as ((D1 & _) & o1 & D2 & D3 & D4 & D5). specialize (IH p1 o1 _ D2 K D3 H HC).
      destruct (foldM (step sparse) p1 _) as [p2|e].
      * destruct IH as (I1 & o2 & I2 & I3 & I4 & I5). split; [constructor; auto|]. exists o2. split; auto. rewrite <- app_assoc in I3. split; auto. split; congruence.
      * destruct IH as (I1 & I2). split; auto. intros F. inversion F; subst. auto.
    + destruct DR as (D1 & D2). split; auto. intros F. inversion F as [|? ? F1 F2]; subst. apply D1. split; auto. intros; contradiction.
Qed.

(** Reading one item. *)
Definition after (ow : option owner) (i : item) : option owner :=
  match i with Data _ => ow | Node _ _ => None | Edge a _ => Some (OEdge (attribute_or a "source" "") (attribute_or a "target" "")) end.
Definition last_label keys (ds : list (data char)) : option text :=
  fold_left (fun acc d => match data_name keys "node" d with Some m => if String.eqb m "label" then Some (snd d) else acc | None => acc end) ds None.
Definition ok_item keys (ow : option owner) (names : list (option string)) (i : item) : Prop :=
  match i with
  | Data d => okd keys "graph" ow d
  | Node a ds => Forall (data_ok keys "node") ds /\ (exists d, In d ds /\ data_name keys "node" d = Some "tokens") /\
      exists t, last_label keys ds = Some t /\ t <> []
  | Edge a ds => Forall (data_ok keys "edge") ds /\ exists u v, attribute a "source" = Some u /\ attribute a "target" = Some v /\
      In (Some u) names /\ In (Some v) names
  end.

Lemma label_value keys n ds : Forall (data_ok keys "node") ds ->
  last_value (flat_map (assign keys words pieces "node" (Some (ONode n)) n) ds) (ONode n) "label" = option_map (@VText char) (last_label keys ds).
Proof.
  unfold last_label. induction ds as [|d ds IH] using rev_ind; auto. intros F. apply Forall_app in F as (F1 & F2).
  rewrite flat_map_app, last_app, IH, fold_left_app by auto. cbn [flat_map fold_left]. rewrite app_nil_r. unfold Graphml_spec.assign.
  destruct (data_name keys "node" d) as [m|]; [|reflexivity].
  destruct (String.eqb m "tokens") eqn:E1; cbn [andb String.eqb Ascii.eqb Bool.eqb].
  - apply String.eqb_eq in E1. subst m. cbn [last_value]. rewrite owner_refl. cbn. reflexivity.
  - cbn [last_value]. rewrite owner_refl. cbn [andb]. destruct (String.eqb m "label"); reflexivity.
Qed.
Lemma tokens_value keys n ds :
  match last_value (flat_map (assign keys words pieces "node" (Some (ONode n)) n) ds) (ONode n) "tokens" with
  | Some v => truth (Some v) = true /\ exists d, In d ds /\ data_name keys "node" d = Some "tokens"
  | None => forall d, In d ds -> data_name keys "node" d <> Some "tokens"
  end.
Proof.
  induction ds as [|d ds IH] using rev_ind; cbn; [tauto|].
  rewrite flat_map_app, last_app. cbn [flat_map]. rewrite app_nil_r.
  assert (HD : match last_value (assign keys words pieces "node" (Some (ONode n)) n d) (ONode n) "tokens" with
     | Some v => truth (Some v) = true /\ data_name keys "node" d = Some "tokens" | None => data_name keys "node" d <> Some "tokens" end).
  { unfold Graphml_spec.assign. destruct (data_name keys "node" d) as [m|]; [|discriminate].
    destruct (String.eqb m "tokens") eqn:E1; cbn [andb String.eqb Ascii.eqb Bool.eqb last_value]; rewrite owner_refl; cbn [andb].
    - apply String.eqb_eq in E1. subst m. split; auto. cbn. destruct (pieces (snd d)) eqn:E; auto. now apply pieces_nonempty in E.
    - rewrite E1. intros X. injection X as ->. discriminate. }
  destruct (last_value (assign keys words pieces "node" (Some (ONode n)) n d) (ONode n) "tokens").
  - destruct HD as (H1 & H2). split; auto. exists d. split; auto. apply in_app_iff. cbn; auto.
  - destruct (last_value (flat_map _ ds) _ _).
    + destruct IH as (H1 & d' & H2 & H3). split; auto. exists d'. split; auto. apply in_app_iff; auto.
    + intros d' X. apply in_app_iff in X as [X|[<-|[]]]; auto.
Qed.

Ltac fields := cbn [ready context buf key_table current_key data_key graphs graph comp_attrs node_ id2graph
  with_context with_buf with_keys with_data with_graphs with_graph with_comp with_node with_id2graph].
Ltac eqbs := cbn [String.eqb Ascii.eqb Bool.eqb in_node existsb orb andb negb].

Lemma start_node_at sparse p T ctx ids gs o ow nd keys a : At p T ctx ids gs o ow nd -> KT T keys ->
  exists p', step sparse p (Start "node" a) = Ok p' /\
    At p' T ("node" :: ctx) ids gs (add_node o (attribute a "id")) (Some (ONode (attribute a "id"))) (Some (attribute a "id")).
Proof.
  intros [H1 H2 H3 H4 H5 H6 H7 H8] K. cbn [Graphml_model.step]. unfold start_element. eqbs. fields. rewrite H1. eqbs. fields. rewrite H6. eqbs.
  unfold start_node. erewrite on_graph_at by (fields; exact H5). cbn [bind]. fields.
  erewrite defaults_none; [|exact K|fields; exact H3|fields; reflexivity|cbn; auto]. cbn [bind].
  eexists; split; [reflexivity|]. constructor; fields; auto. now rewrite H2.
Qed.
Lemma start_edge_at sparse p T ctx ids gs o ow nd keys a : At p T ctx ids gs o ow nd -> KT T keys ->
  match attribute a "source", attribute a "target" with
  | Some u, Some v => match add_edge o (Some u) (Some v) with
      | Ok o' => exists p', step sparse p (Start "edge" a) = Ok p' /\ At p' T ("edge" :: ctx) ids gs o' (Some (OEdge u v)) nd
      | Err e => step sparse p (Start "edge" a) = Err e
      end
  | _, _ => step sparse p (Start "edge" a) = Err KeyError
  end.
Proof.
  intros [H1 H2 H3 H4 H5 H6 H7 H8] K. cbn [Graphml_model.step]. unfold start_element. eqbs. fields. rewrite H1. eqbs. fields. rewrite H6. eqbs.
  unfold start_edge, dread, attribute. destruct (dget String.eqb a "source") as [u|]; cbn [bind]; auto.
  destruct (dget String.eqb a "target") as [v|]; cbn [bind]; auto.
  erewrite on_graph_at by (fields; exact H5). destruct (add_edge o (Some u) (Some v)) as [o'|e]; cbn [bind]; auto.
  erewrite defaults_none; [|exact K|fields; exact H3|fields; reflexivity|cbn; auto].
  eexists; split; [reflexivity|]. constructor; fields; auto. now rewrite H2.
Qed.
Lemma end_edge_at sparse p T ctx ids gs o ow nd t : At p T (t :: ctx) ids gs o ow nd ->
  exists p', step sparse p (End_ "edge") = Ok p' /\ At p' T ctx ids gs o ow nd.
Proof.
  intros [H1 H2 H3 H4 H5 H6 H7 H8]. cbn [Graphml_model.step]. unfold end_element, graph_wanted. eqbs. rewrite H6. eqbs. cbn [bind].
  eexists; split; [reflexivity|]. constructor; fields; auto. now rewrite H2.
Qed.
Lemma end_node_at sparse p T t ctx ids gs o n nd d : At p T (t :: ctx) ids gs o (Some (ONode n)) nd -> dget name_eqb (node o) n = Some d ->
  if truth (dget String.eqb d "label") && truth (dget String.eqb d "tokens")
  then exists p', step sparse p (End_ "node") = Ok p' /\ At p' T ctx ids gs o None (Some None)
  else step sparse p (End_ "node") = Err DaesoError.
Proof.
  intros [H1 H2 H3 H4 H5 H6 H7 H8] E. cbn [Graphml_model.step]. unfold end_element, graph_wanted. eqbs. rewrite H6. eqbs.
  unfold end_node, comp_dict. rewrite H7. cbn [cref]. rewrite H5, nth_mid. unfold dread. rewrite E. cbn [bind].
  destruct (truth (dget String.eqb d "label")); cbn [negb andb bind]; auto.
  destruct (truth (dget String.eqb d "tokens")); cbn [negb andb bind]; auto.
  eexists; split; [reflexivity|]. constructor; fields; auto. now rewrite H2.
Qed.

Lemma add_node_id o n : id_ (add_node o n) = id_ o /\ root (add_node o n) = root o.
Proof. unfold add_node. destruct (dget name_eqb (succ o) n); auto. Qed.
Lemma add_edge_id o u v o' : add_edge o u v = Ok o' -> id_ o' = id_ o /\ root o' = root o.
Proof. unfold add_edge. destruct (dget name_eqb (succ o) u); [|discriminate]. destruct (dget name_eqb (succ o) v); [|discriminate]. intros E; injection E as <-. auto. Qed.
Notation assigns := (assigns (char := char)).
Lemma item_rep sparse p T ctx ids gs o ow nd keys A names ends i : At p T ("graph" :: ctx) ids gs o ow nd -> KT T keys -> Rep o A names ends ->
  match ow with Some w => here names ends w | None => True end -> (forall n, ow <> Some (ONode n)) ->
  match foldM (step sparse) p (item_events i) with
  | Ok p' => ok_item keys ow names i /\ exists o' nd', At p' T ("graph" :: ctx) ids gs o' (after ow i) nd' /\
               Rep o' (A ++ assigns keys words pieces ow [i]) (names ++ node_names [i]) (ends ++ edge_ends [i]) /\ id_ o' = id_ o /\ root o' = root o /\
               match after ow i with Some w => here (names ++ node_names [i]) (ends ++ edge_ends [i]) w | None => True end
  | Err e => ~ ok_item keys ow names i /\ In e errs
  end.
Proof.
  intros AT K R H HN. destruct i as [d|a ds|a ds]; cbn [item_events].
  - cbn [node_names edge_ends flat_map Graphml_spec.assigns after]. rewrite !app_nil_r.
    pose proof (@data_rep sparse p T ctx ids gs o ow nd keys "graph" d A names ends None AT K R H) as DR.
    specialize (DR (or_introl (conj eq_refl (HN None)))). destruct (foldM _ p _) as [p'|e]; [|exact DR].
    destruct DR as (D1 & o' & D2 & D3 & D4 & D5). split; [exact D1|]. exists o', nd. repeat (split; [assumption|]). assumption.
  - cbn [foldM]. set (n := attribute a "id").
    destruct (start_node_at sparse a AT K) as (p1 & -> & AT1). cbn [bind]. fold n in AT1.
    pose proof (rep_node n R) as R1. rewrite foldM_app.
    assert (HH : here (names ++ [n]) ends (ONode n)) by (cbn; apply in_app_iff; cbn; auto).
    pose proof (@datas_rep sparse T ("graph" :: ctx) ids gs (Some (ONode n)) (Some n) keys "node" (names ++ [n]) ends n ds p1 _ _ AT1 K R1 HH) as DR.
    specialize (DR (or_introl (conj eq_refl (conj eq_refl eq_refl)))).
    destruct (foldM (step sparse) p1 _) as [p2|e]; cbn [bind].
    2: { destruct DR as (D1 & D2). split; auto. intros (X & _). auto. }
    destruct DR as (D1 & o2 & AT2 & R2 & D4 & D5). cbn [foldM].
    pose proof (r_node R2 n) as RN. destruct (dget name_eqb (node o2) n) as [dd|] eqn:EN; [|destruct RN; apply in_app_iff; cbn; auto].
    destruct RN as (_ & RN).
    assert (LB : truth (dget String.eqb dd "label") = true <-> exists t, last_label keys ds = Some t /\ t <> []).
    { rewrite RN, last_app, label_value by auto. destruct (last_label keys ds) as [t|]; cbn [option_map].
      - cbn. destruct t; split; try congruence; eauto; [intros (t & X & Y); congruence|intros _; eexists; split; [reflexivity|discriminate]].
      - rewrite last_app. cbn [last_value]. rewrite owner_refl. cbn. split; [discriminate|]. intros (t & X & _); discriminate. }
    assert (TB : truth (dget String.eqb dd "tokens") = true <-> exists d, In d ds /\ data_name keys "node" d = Some "tokens").
    { rewrite RN, last_app. pose proof (tokens_value keys n ds) as TV. destruct (last_value (flat_map _ ds) (ONode n) "tokens") as [v|].
      - tauto.
      - rewrite last_app. cbn [last_value]. rewrite owner_refl. cbn. split; [discriminate|]. intros (d & X & Y). exfalso. apply (TV d X Y). }
    pose proof (end_node_at sparse AT2 EN) as EA.
    destruct (truth (dget String.eqb dd "label")) eqn:TL; cbn [andb] in EA.
    2: { rewrite EA. cbn. split; [|auto]. intros (_ & _ & X). apply LB in X. discriminate. }
    destruct (truth (dget String.eqb dd "tokens")) eqn:TT.
    2: { rewrite EA. cbn. split; [|auto]. intros (_ & X & _). apply TB in X. discriminate. }
    destruct EA as (p3 & -> & AT3). cbn [bind]. split.
    { split; auto. split; [now apply TB|now apply LB]. }
    exists o2, (Some None). split; auto. cbn [node_names edge_ends flat_map Graphml_spec.assigns app after]. fold n. rewrite !app_nil_r.
    split; [rewrite <- app_assoc in R2; exact R2|]. destruct (add_node_id o n) as (X & Y). split; [congruence|]. split; [congruence|auto].
  - cbn [foldM]. pose proof (start_edge_at sparse a AT K) as SE. unfold ok_item, after, attribute_or.
    destruct (attribute a "source") as [u|] eqn:Eu.
    2: { rewrite SE. cbn. split; auto. intros (_ & u & v & X & _). discriminate. }
    destruct (attribute a "target") as [v|] eqn:Ev.
    2: { rewrite SE. cbn. split; auto. intros (_ & u' & v & _ & X & _). discriminate. }
    pose proof (rep_edge u v R) as RE. destruct (add_edge o (Some u) (Some v)) as [o1|e] eqn:EO.
    2: { rewrite SE. cbn. destruct RE as (-> & RE). split; auto. intros (_ & u' & v' & X & Y & Z). injection X as <-. injection Y as <-. auto. }
    destruct SE as (p1 & -> & AT1). destruct RE as (Iu & Iv & R1). cbn [bind]. rewrite foldM_app.
    assert (HH : here names (ends ++ [(u, v)]) (OEdge u v)) by (cbn; apply in_app_iff; cbn; auto).
    pose proof (@datas_rep sparse T ("graph" :: ctx) ids gs (Some (OEdge u v)) nd keys "edge" names (ends ++ [(u, v)]) None ds p1 _ _ AT1 K R1 HH) as DR.
    assert (X : "edge" = "edge" /\ exists u' v', Some (OEdge u v) = Some (OEdge u' v')) by eauto. specialize (DR (or_intror X)).
    destruct (foldM (step sparse) p1 _) as [p2|e]; cbn [bind].
    2: { destruct DR as (D1 & D2). split; auto. intros (Y & _). auto. }
    destruct DR as (D1 & o2 & AT2 & R2 & D4 & D5). cbn [foldM].
    destruct (end_edge_at sparse AT2) as (p3 & -> & AT3). cbn [bind].
    split; [split; eauto 10|]. exists o2, nd. split; auto.
    cbn [node_names edge_ends flat_map Graphml_spec.assigns app after]. unfold attribute_or. rewrite Eu, Ev, !app_nil_r.
    rewrite <- app_assoc in R2. split; [exact R2|].
    pose proof (add_edge_id _ _ _ EO) as IE.
    destruct IE as (IE1 & IE2). split; [congruence|]. split; [congruence|]. exact HH.
Qed.

Fixpoint ok_items keys ow names (l : list item) : Prop :=
  match l with [] => True | i :: l' => ok_item keys ow names i /\ ok_items keys (after ow i) (names ++ node_names [i]) l' end.
Lemma assigns_cons keys ow i l : assigns keys words pieces ow (i :: l) = assigns keys words pieces ow [i] ++ assigns keys words pieces (after ow i) l.
Proof. destruct i; cbn [Graphml_spec.assigns after]; rewrite ?app_nil_r; auto; cbn [app]; now rewrite <- ?app_assoc. Qed.
Lemma names_cons (i : item) l : node_names (i :: l) = node_names [i] ++ node_names l.
Proof. unfold node_names. cbn. now rewrite app_nil_r. Qed.
Lemma ends_cons (i : item) l : edge_ends (i :: l) = edge_ends [i] ++ edge_ends l.
Proof. unfold edge_ends. cbn. now rewrite app_nil_r. Qed.

Lemma items_rep sparse T ctx ids gs keys l : KT T keys -> forall p o ow nd A names ends,
  At p T ("graph" :: ctx) ids gs o ow nd -> Rep o A names ends ->
  match ow with Some w => here names ends w | None => True end -> (forall n, ow <> Some (ONode n)) ->
  match foldM (step sparse) p (flat_map (@item_events char) l) with
  | Ok p' => ok_items keys ow names l /\ exists o' ow' nd', At p' T ("graph" :: ctx) ids gs o' ow' nd' /\
               Rep o' (A ++ assigns keys words pieces ow l) (names ++ node_names l) (ends ++ edge_ends l) /\ id_ o' = id_ o /\ root o' = root o
  | Err e => ~ ok_items keys ow names l /\ In e errs
  end.
Proof.
  intros K. induction l as [|i l IH]; intros p o ow nd A names ends AT R H HN; cbn [flat_map].
  - cbn [foldM]. split; [cbn; auto|]. exists o, ow, nd. cbn. rewrite !app_nil_r. auto.
  - rewrite foldM_app. pose proof (item_rep sparse i AT K R H HN) as IR.
    destruct (foldM (step sparse) p (item_events i)) as [p1|e]; cbn [bind ok_items].
    2: { destruct IR as (I1 & I2). split; auto. tauto. }
    destruct IR as (I1 & o1 & nd1 & I2 & I3 & I4 & I5 & I6).
    assert (HN' : forall n, after ow i <> Some (ONode n)) by (intros n; destruct i; cbn; auto; discriminate).
    specialize (IH _ _ _ _ _ _ _ I2 I3 I6 HN'). destruct (foldM (step sparse) p1 _) as [p2|e].
    + destruct IH as (J1 & o2 & ow2 & nd2 & J2 & J3 & J4 & J5). split; auto. exists o2, ow2, nd2. split; auto.
      rewrite assigns_cons, names_cons, ends_cons, !app_assoc. split; [exact J3|]. split; congruence.
    + destruct IH as (J1 & J2). split; auto. tauto.
Qed.

(** The conditions of the specification. *)
Lemma ok_items_all keys l : forall ow names, ok_items keys ow names l <->
  forall pre i post, l = pre ++ i :: post -> ok_item keys (fold_left after pre ow) (names ++ node_names pre) i.
Proof.
  induction l as [|x l IH]; intros ow names; cbn [ok_items].
  - split; auto. intros _ pre i post E. destruct pre; discriminate.
  - rewrite IH. split.
    + intros (H1 & H2) [|y pre] i post E; cbn in E; injection E as <- E.
      * cbn. now rewrite app_nil_r.
      * rewrite names_cons, app_assoc. cbn [fold_left]. eapply H2; eauto.
    + intros H. split.
      * specialize (H [] x l eq_refl). cbn in H. now rewrite app_nil_r in H.
      * intros pre i post E. rewrite <- app_assoc, <- names_cons. apply (H (x :: pre) i post). cbn. now rewrite E.
Qed.
Lemma after_comp pre : forall x ow, match x with None => ow = Some OGraph | Some i => ow = after None i /\ (forall d, i <> Data d) end ->
  match last_comp pre x with None => fold_left after pre ow = Some OGraph | Some i => fold_left after pre ow = after None i /\ (forall d, i <> Data d) end.
Proof.
  induction pre as [|i pre IH]; intros x ow H; cbn [last_comp fold_left].
  - destruct x; auto.
  - destruct i as [d|a ds|a ds].
    + apply IH. exact H.
    + apply IH. split; [reflexivity|discriminate].
    + apply IH. split; [reflexivity|discriminate].
Qed.
Lemma after_node_spec pre : fold_left after pre (Some OGraph) = None <-> after_node pre.
Proof.
  unfold after_node. pose proof (@after_comp pre None (Some OGraph) eq_refl) as H. destruct (last_comp pre None) as [i|].
  - destruct H as (-> & H). destruct i as [d|a ds|a ds]; cbn.
    + now destruct (H d).
    + split; eauto.
    + split; [discriminate|]. intros (b & e & X). discriminate.
  - rewrite H. split; [discriminate|]. intros (b & e & X). discriminate.
Qed.
Lemma label_split keys ds t : last_label keys ds = Some t <-> exists ds1 d ds2, ds = ds1 ++ d :: ds2 /\ data_name keys "node" d = Some "label" /\ snd d = t /\
         Forall (fun d' => data_name keys "node" d' <> Some "label") ds2.
Proof.
  unfold last_label. induction ds as [|d ds IH] using rev_ind.
  - cbn. split; [discriminate|]. intros (ds1 & d & ds2 & E & _). destruct ds1; discriminate.
  - rewrite fold_left_app. cbn [fold_left]. 
    destruct (data_name keys "node" d) as [m|] eqn:EN; [destruct (String.eqb m "label") eqn:E|].
    + split.
      * intros X. injection X as <-. apply String.eqb_eq in E. subst m. exists ds, d, []. auto.
      * intros (ds1 & d' & ds2 & E1 & E2 & E3 & E4). destruct ds2 as [|x ds2 _] using rev_ind.
        -- apply app_inj_tail in E1 as (_ & ->). now subst.
        -- exfalso. rewrite app_comm_cons, app_assoc in E1. apply app_inj_tail in E1 as (_ & ->).
           apply Forall_app in E4 as (_ & E4). inversion E4; subst. apply String.eqb_eq in E. congruence.
    + rewrite IH. assert (NL : Some m <> Some "label") by (intros X; injection X as ->; discriminate).
      split; intros (ds1 & d' & ds2 & E1 & E2 & E3 & E4).
      * exists ds1, d', (ds2 ++ [d]). rewrite E1, <- app_assoc. split; auto. split; auto. split; auto. apply Forall_app. split; auto. constructor; auto. now rewrite EN.
      * destruct ds2 as [|x ds2 _] using rev_ind.
        -- apply app_inj_tail in E1 as (_ & ->). congruence.
        -- rewrite app_comm_cons, app_assoc in E1. apply app_inj_tail in E1 as (E1 & ->). apply Forall_app in E4 as (E4 & _). exists ds1, d', ds2. auto.
    + rewrite IH. split; intros (ds1 & d' & ds2 & E1 & E2 & E3 & E4).
      * exists ds1, d', (ds2 ++ [d]). rewrite E1, <- app_assoc. split; auto. split; auto. split; auto. apply Forall_app. split; auto. constructor; auto. rewrite EN. discriminate.
      * destruct ds2 as [|x ds2 _] using rev_ind.
        -- apply app_inj_tail in E1 as (_ & ->). congruence.
        -- rewrite app_comm_cons, app_assoc in E1. apply app_inj_tail in E1 as (E1 & ->). apply Forall_app in E4 as (E4 & _). exists ds1, d', ds2. auto.
Qed.
Lemma item_ok_spec keys pre i : ok_item keys (fold_left after pre (Some OGraph)) (node_names pre) i <-> item_ok keys pre i.
Proof.
  destruct i as [d|a ds|a ds]; cbn [ok_item item_ok]; [| |tauto].
  - unfold okd, data_ok. rewrite <- after_node_spec. split; intros (H1 & H2); split; auto. 
    intros X. destruct (data_name keys "graph" d) as [m|] eqn:E; [|congruence]. destruct (string_dec m "tokens") as [->|N]; auto. exfalso. apply H2; auto. congruence.
  - assert (L : (exists t, last_label keys ds = Some t /\ t <> []) <-> exists ds1 d ds2, ds = ds1 ++ d :: ds2 /\ data_name keys "node" d = Some "label" /\ snd d <> [] /\
         Forall (fun d' => data_name keys "node" d' <> Some "label") ds2).
    { split.
      - intros (t & H & N). apply label_split in H as (ds1 & d & ds2 & H1 & H2 & H3 & H4). exists ds1, d, ds2. subst t. auto.
      - intros (ds1 & d & ds2 & H1 & H2 & H3 & H4). exists (snd d). split; auto. apply label_split. exists ds1, d, ds2. auto. }
    rewrite L. tauto.
Qed.
Lemma items_ok_spec keys l : ok_items keys (Some OGraph) [] l <-> forall pre i post, l = pre ++ i :: post -> item_ok keys pre i.
Proof.
  rewrite ok_items_all. split; intros H pre i post E; [apply item_ok_spec|cbn [app]; apply item_ok_spec]; eapply H; eauto.
Qed.

(** Outside of any wanted graph. *)
Record Out p (T : table char) ctx ids (gs : list dgraph) : Prop := {
  u_ready : ready p = true; u_ctx : context p = ctx; u_tab : key_table p = T; u_ids : id2graph p = ids; u_graphs : graphs p = gs; u_graph : graph p = None }.

Lemma graph_tokens keys g : (exists l, last_value (assigns keys words pieces (Some OGraph) (g_items g)) OGraph "tokens" = Some (VToks l)) <->
  exists d, In (Data d) (g_items g) /\ data_name keys "graph" d = Some "tokens".
Proof.
  assert (G : forall l ow, (forall n, ow <> Some (ONode n)) -> match last_value (assigns keys words pieces ow l) OGraph "tokens" with
    | Some v => (exists x, v = VToks x) /\ exists d, In (Data d) l /\ data_name keys "graph" d = Some "tokens"
    | None => forall d, In (Data d) l -> data_name keys "graph" d <> Some "tokens" end).
  { induction l as [|i l IH]; intros ow HN; [cbn; tauto|]. rewrite assigns_cons, last_app.
    assert (HN' : forall n, after ow i <> Some (ONode n)) by (intros n; destruct i; cbn; auto; discriminate).
    specialize (IH _ HN'). destruct (last_value (assigns keys words pieces (after ow i) l) OGraph "tokens") as [v|].
    { destruct IH as (X & d & Y & Z). split; auto. exists d. cbn; auto. }
    assert (ONE : match last_value (assigns keys words pieces ow [i]) OGraph "tokens" with
      | Some v => (exists x, v = VToks x) /\ exists d, i = Data d /\ data_name keys "graph" d = Some "tokens"
      | None => forall d, i = Data d -> data_name keys "graph" d <> Some "tokens" end).
    { destruct i as [d|a ds|a ds]; cbn [Graphml_spec.assigns].
      - rewrite app_nil_r. unfold Graphml_spec.assign. destruct (data_name keys "graph" d) as [m|] eqn:E; [|cbn; intros d' X; injection X as <-; rewrite E; discriminate].
        destruct (String.eqb m "tokens") eqn:F.
        + apply String.eqb_eq in F. subst m. cbn. split; eauto.
        + assert (m <> "tokens") by now apply String.eqb_neq.
          cbn [andb]. destruct ow as [w|].
          * cbn [last_value]. rewrite F, andb_false_r. intros d' X. injection X as <-. congruence.
          * cbn. intros d' X. injection X as <-. congruence.
      - rewrite app_nil_r. cbn [last_value]. replace (last_value (flat_map _ ds) OGraph "tokens") with (@None value); [cbn; discriminate|].
        symmetry. clear HN'. induction ds as [|d ds IHd]; auto. cbn [flat_map]. rewrite last_app, IHd. unfold Graphml_spec.assign. destruct (data_name keys "node" d) as [m|]; auto.
        destruct (String.eqb m "tokens"); cbn; auto.
      - rewrite app_nil_r. cbn [last_value]. replace (last_value (flat_map _ ds) OGraph "tokens") with (@None value); [cbn; discriminate|].
        symmetry. clear HN'. induction ds as [|d ds IHd]; auto. cbn [flat_map]. rewrite last_app, IHd. unfold Graphml_spec.assign. destruct (data_name keys "edge" d) as [m|]; auto.
        destruct (String.eqb m "tokens"); cbn; auto. }
    destruct (last_value (assigns keys words pieces ow [i]) OGraph "tokens") as [v|].
    - destruct ONE as (X & d & -> & Y). split; auto. exists d. cbn; auto.
    - intros d [->|X]; auto. }
  specialize (G (g_items g) (Some OGraph)). destruct (last_value _ OGraph "tokens") as [v|].
  - destruct G as ((x & ->) & Y); [discriminate|]. split; eauto.
  - split; [intros (x & X); discriminate|]. intros (d & X & Y). exfalso. eapply G; eauto. discriminate.
Qed.

Notation depicts keys := (depicts keys words pieces).
Lemma graph_rep sparse p T ctx ids gs keys g : Out p T ctx ids gs -> KT T keys -> wanted sparse (dkeys ids) g = true ->
  match foldM (step sparse) p (graph_events g) with
  | Ok p' => graph_ok keys g /\ exists o, depicts keys g o /\ Out p' T ctx (dset String.eqb ids (id_ o) (Some (length gs))) (gs ++ [o])
  | Err e => ~ (attribute (g_attrs g) "id" <> None /\ graph_ok keys g) /\ In e errs
  end.
Proof.
  intros [H1 H2 H3 H4 H5 H6] K W. unfold graph_events. cbn [foldM Graphml_model.step]. unfold start_element. eqbs. fields. rewrite H1. eqbs.
  unfold start_graph. fields.
  assert (W' : negb sparse || match attribute (g_attrs g) "id" with Some i => dhas String.eqb (id2graph p) i | None => false end = true).
  { transitivity (wanted sparse (dkeys ids) g); [|exact W]. rewrite H4. unfold wanted. f_equal. destruct (attribute (g_attrs g) "id") as [i|]; auto. apply Bool.eq_true_iff_eq.
    rewrite (mem_spec _ seqb_spec), <- (dget_some_in _ seqb_spec). unfold dhas. destruct (dget String.eqb ids i) as [v|]; [split; eauto|]. split; [discriminate|]. intros (v & X). discriminate X. }
  rewrite W'. unfold dread. change (dget String.eqb (g_attrs g) "id") with (attribute (g_attrs g) "id").
  destruct (attribute (g_attrs g) "id") as [i|] eqn:EI; cbn [bind].
  2: { split; [tauto|]. cbn; auto. }
  erewrite defaults_none; [|exact K|fields; exact H3|fields; reflexivity|cbn; auto]. cbn [bind].
  set (q := with_comp _ _).
  assert (AT : At q T ("graph" :: ctx) (dset String.eqb ids i (Some (length gs))) gs (new_graph char i) (Some OGraph) (node_ p)).
  { unfold q. constructor; fields; auto; rewrite ?H2, ?H4, ?H5; auto. }
  rewrite foldM_app.
  pose proof (@items_rep sparse T ctx (dset String.eqb ids i (Some (length gs))) gs keys (g_items g) K q _ _ _ _ [] [] AT (rep_new i) I) as IR.
  assert (HN : forall n, Some OGraph <> Some (ONode n)) by discriminate. specialize (IR HN).
  destruct (foldM (step sparse) q _) as [p1|e]; cbn [bind].
  2: { destruct IR as (I1 & I2). split; auto. intros (_ & X & _). apply I1, items_ok_spec, X. }
  destruct IR as (I1 & o & ow & nd & [A1 A2 A3 A4 A5 A6 A7 A8] & I3 & I4 & I5).
  cbn [foldM Graphml_model.step]. unfold end_element. eqbs. unfold end_graph. rewrite A6. erewrite on_graph_at by exact A5.
  cbn [app] in I3. change ((OGraph, "name", VText []) :: assigns keys words pieces (Some OGraph) (g_items g)) with (assignments keys words pieces g) in I3.
  pose proof (graph_tokens keys g) as GT.
  assert (AG : last_value (assignments keys words pieces g) OGraph "tokens" = last_value (assigns keys words pieces (Some OGraph) (g_items g)) OGraph "tokens").
  { unfold assignments. cbn [last_value]. destruct (last_value (assigns keys words pieces (Some OGraph) (g_items g)) OGraph "tokens"); reflexivity. }
  pose proof (r_tok I3) as RT. destruct (tokens o) as [l|] eqn:ET; cbn [bind].
  2: { split; [|cbn; auto]. intros (_ & _ & X). apply GT in X as (l & X). rewrite AG, X in RT. discriminate. }
  split.
  - split; [now apply items_ok_spec|]. apply GT. exists l. now rewrite <- AG.
  - exists (set_root o (dget String.eqb (attrs o) "graph")). split.
    + constructor; cbn [id_ tokens root attrs node succ set_root].
      * rewrite I4. exact EI.
      * exists l. auto.
      * rewrite (r_attrs I3). reflexivity.
      * apply (r_attrs I3).
      * apply (r_succ I3).
      * apply (r_node I3).
      * apply (r_row I3).
      * apply (r_edge I3).
    + constructor; fields; auto. now rewrite A2. cbn [id_ set_root]. rewrite I4. auto.
Qed.

(** Content of unwanted graphs. *)
Lemma skip sparse evs : enclosed evs -> forall p, ready p = true -> graph p = None -> exists b, foldM (step sparse) p evs = Ok (with_buf p b).
Proof.
  induction 1 as [|t l E IH|tag a b l N Eb IHb El IHl]; intros p R G.
  - exists (buf p). cbn. f_equal. destruct p; reflexivity.
  - cbn [foldM Graphml_model.step]. unfold char_data, graph_wanted. rewrite G. cbn [bind]. auto.
  - cbn [foldM Graphml_model.step]. unfold start_element. fields.
    assert (N1 : String.eqb tag "graphml" = false) by (apply String.eqb_neq; intros ->; apply N; cbn; auto).
    assert (N2 : String.eqb tag "key" = false) by (apply String.eqb_neq; intros ->; apply N; cbn; auto).
    assert (N3 : String.eqb tag "graph" = false) by (apply String.eqb_neq; intros ->; apply N; cbn; auto).
    rewrite N1, R. cbn [negb]. rewrite N2, N3, G. cbn [bind]. rewrite foldM_app.
    destruct (IHb (with_buf (with_context p (tag :: context p)) [])) as (b1 & ->); [exact R|exact G|]. cbn [bind foldM Graphml_model.step].
    unfold end_element. rewrite N3. unfold graph_wanted. fields. rewrite G. cbn [bind]. fields. cbn [tl].
    match goal with |- exists b, foldM _ ?q _ = _ => destruct (IHl q) as (b2 & E2); [exact R|exact G|]; exists b2; rewrite E2 end. reflexivity.
Qed.
Lemma enclosed_app l m : enclosed (char := char) l -> enclosed m -> enclosed (l ++ m).
Proof.
  induction 1 as [|t l E IH|tag a b l N Eb IHb El IHl]; intros M; auto.
  - constructor. auto.
  - cbn [app]. rewrite <- app_assoc. cbn [app]. constructor; auto.
Qed.
Lemma enclosed_flat X (f : X -> list event) l : (forall x, In x l -> enclosed (f x)) -> enclosed (flat_map f l).
Proof.
  induction l as [|x l IH]; intros H; cbn; [constructor|]. apply enclosed_app; [apply H; cbn; auto|]. apply IH. intros; apply H; cbn; auto.
Qed.
Lemma enclosed_elem tag a b : ~ In tag ["graphml"; "key"; "graph"] -> enclosed (char := char) b -> enclosed (Start tag a :: b ++ [End_ tag]).
Proof. intros. constructor; auto. constructor. Qed.
Lemma enclosed_data (d : data char) : enclosed (data_events d).
Proof. apply (@enclosed_elem "data" (fst d) [Chars (snd d)]); [cbn; intuition discriminate|]. repeat constructor. Qed.
Lemma enclosed_item (i : item) : enclosed (item_events i).
Proof.
  destruct i as [d|a ds|a ds]; cbn [item_events]; [apply enclosed_data| |];
    (apply enclosed_elem; [cbn; intuition discriminate|]); apply enclosed_flat; intros; apply enclosed_data.
Qed.
Lemma unwanted_graph p a evs : ready p = true -> graph p = None ->
  match attribute a "id" with Some i => dget String.eqb (id2graph p) i = None | None => True end ->
  enclosed evs -> exists b, foldM (step true) p (Start "graph" a :: evs ++ [End_ "graph"]) = Ok (with_buf p b).
Proof.
  intros R G W E. cbn [foldM Graphml_model.step]. unfold start_element. eqbs. fields. rewrite R. eqbs. unfold start_graph. eqbs. fields.
  replace (match attribute a "id" with Some i => dhas String.eqb (id2graph p) i | None => false end) with false.
  2: { destruct (attribute a "id"); auto. unfold dhas. now rewrite W. }
  cbn [bind]. rewrite foldM_app.
  destruct (skip true E (with_buf (with_context p ("graph" :: context p)) [])) as (b & ->); [exact R|exact G|]. cbn [bind foldM Graphml_model.step].
  unfold end_element. eqbs. unfold end_graph. fields. rewrite G. cbn [bind]. fields. cbn [tl]. exists b. reflexivity.
Qed.

(** Keys. *)
Definition key_ok (k : key_elem char) : Prop := attribute (k_attrs k) "id" <> None /\ attribute (k_attrs k) "attr.name" <> None /\ In (attribute_or (k_attrs k) "for" "all") comps.
Lemma declared_snoc keys (k : key_elem char) c i : key_ok k -> declared (keys ++ [k]) c i =
  if String.eqb (attribute_or (k_attrs k) "for" "all") c && String.eqb (attribute_or (k_attrs k) "id" "") i then attribute (k_attrs k) "attr.name" else declared keys c i.
Proof.
  intros (_ & H & _). induction keys as [|x keys IH]; cbn [app declared].
  - reflexivity.
  - rewrite IH. destruct (String.eqb (attribute_or (k_attrs k) "for" "all") c && String.eqb (attribute_or (k_attrs k) "id" "") i); auto.
    destruct (attribute (k_attrs k) "attr.name"); congruence.
Qed.
Lemma in_dset X (d : list (string * X)) k v x : In x (dset String.eqb d k v) -> In x d \/ snd x = v.
Proof.
  induction d as [|(k', v') d IH]; cbn; [intros [<-|[]]; auto|]. destruct (String.eqb k k'); cbn.
  - intros [<-|H]; auto.
  - intros [H|H]; auto. destruct (IH H); auto.
Qed.
Lemma key_step sparse p T ctx ids gs keys k : Out p T ctx ids gs -> KT T keys ->
  match foldM (step sparse) p (key_events k) with
  | Ok p' => key_ok k /\ exists T', Out p' T' ctx ids gs /\ KT T' (keys ++ [k])
  | Err e => ~ key_ok k /\ e = KeyError
  end.
Proof.
  intros [H1 H2 H3 H4 H5 H6] K. unfold key_events. cbn [foldM Graphml_model.step]. unfold start_element. eqbs. fields. rewrite H1. eqbs.
  unfold start_key, dread. fields. unfold key_ok. change (dget String.eqb (k_attrs k) "attr.name") with (attribute (k_attrs k) "attr.name").
  change (dget String.eqb (k_attrs k) "id") with (attribute (k_attrs k) "id").
  destruct (attribute (k_attrs k) "attr.name") as [n|] eqn:EN; cbn [bind]; [|split; tauto].
  rewrite H3. set (c := attribute_or (k_attrs k) "for" "all") in *.
  destruct (in_dec string_dec c comps) as [Ic|Nc].
  2: { rewrite (kt_out K Nc). cbn [bind]. split; [|reflexivity]. intros (_ & _ & X). exact (Nc X). }
  destruct (kt_in K Ic) as (t & Et & Ht & Hd). rewrite Et. cbn [bind].
  destruct (attribute (k_attrs k) "id") as [i|] eqn:EI; cbn [bind]; [|split; tauto].
  set (T' := dset String.eqb T c _). set (q := with_keys _ T' _).
  assert (OQ : Out q T' ("key" :: ctx) ids gs) by (unfold q; constructor; fields; auto; now rewrite H2).
  assert (KT' : KT T' (keys ++ [k])).
  { assert (OK : key_ok k) by (unfold key_ok; fold c; rewrite EN, EI; repeat split; auto; discriminate).
    constructor.
    - intros c' Hc'. unfold T'. rewrite (dget_set _ seqb_spec). destruct (String.eqb c c') eqn:EC.
      + apply String.eqb_eq in EC. subst c'. eexists; split; [reflexivity|]. split.
        * intros j. rewrite (dget_set _ seqb_spec), declared_snoc by auto. fold c. rewrite String.eqb_refl. cbn [andb]. unfold attribute_or at 1. rewrite EI.
          destruct (String.eqb i j); cbn; auto.
        * intros x X. apply in_dset in X as [X|X]; [auto|now rewrite X].
      + destruct (kt_in K Hc') as (t' & Et' & Ht' & Hd'). exists t'. split; auto. split; auto. intros j. rewrite declared_snoc by auto. fold c. rewrite EC. cbn. auto.
    - intros c' Hc'. unfold T'. rewrite (dget_set _ seqb_spec). destruct (String.eqb c c') eqn:EC; [|now apply (kt_out K)]. apply String.eqb_eq in EC. now subst c'. }
  assert (END : forall q', Out q' T' ("key" :: ctx) ids gs -> exists p', foldM (step sparse) q' [End_ "key"] = Ok p' /\ Out p' T' ctx ids gs).
  { intros q' [G1 G2 G3 G4 G5 G6]. cbn [foldM Graphml_model.step]. unfold end_element. eqbs. unfold graph_wanted. rewrite G6. cbn [bind].
    eexists; split; [reflexivity|]. constructor; fields; auto. now rewrite G2. }
  rewrite foldM_app.
  assert (DEF : exists q', foldM (step sparse) q match k_default k with Some t => [Start "default" []; Chars t; End_ "default"] | None => [] end = Ok q' /\ Out q' T' ("key" :: ctx) ids gs).
  { destruct (k_default k) as [dt|]; [|exists q; auto].
    assert (EN' : enclosed [Start "default" []; Chars dt; End_ "default"]).
    { apply (@enclosed_elem "default" [] [Chars dt]); [cbn; intuition discriminate|]. repeat constructor. }
    destruct OQ as [G1 G2 G3 G4 G5 G6]. destruct (skip sparse EN' q G1 G6) as (b & ->). eexists; split; [reflexivity|]. constructor; fields; auto. }
  destruct DEF as (q' & -> & OQ'). cbn [bind]. destruct (END q' OQ') as (p' & -> & OP).
  split; [repeat split; auto; discriminate|]. exists T'. auto.
Qed.
Lemma keys_step sparse ctx ids gs ks : forall p T keys, Out p T ctx ids gs -> KT T keys ->
  match foldM (step sparse) p (flat_map (@key_events char) ks) with
  | Ok p' => Forall key_ok ks /\ exists T', Out p' T' ctx ids gs /\ KT T' (keys ++ ks)
  | Err e => ~ Forall key_ok ks /\ e = KeyError
  end.
Proof.
  induction ks as [|k ks IH]; intros p T keys O K; cbn [flat_map].
  - cbn. split; auto. exists T. rewrite app_nil_r. auto.
  - rewrite foldM_app. pose proof (key_step sparse k O K) as KS. destruct (foldM (step sparse) p (key_events k)) as [p1|e]; cbn [bind].
    2: { destruct KS as (X & Y). split; auto. intros F. inversion F; auto. }
    destruct KS as (OK & T1 & O1 & K1). specialize (IH p1 T1 _ O1 K1). destruct (foldM (step sparse) p1 _) as [p2|e].
    + destruct IH as (F & T2 & O2 & K2). split; auto. exists T2. rewrite <- app_assoc in K2. auto.
    + destruct IH as (F & X). split; auto. intros G. inversion G; auto.
Qed.
Lemma kt_empty : KT [("graph", []); ("node", []); ("edge", []); ("all", [])] [].
Proof.
  constructor.
  - intros c H. exists []. split; [|cbn; tauto]. cbn in H. destruct H as [<-|[<-|[<-|[<-|[]]]]]; reflexivity.
  - intros c H. apply (dget_none _ seqb_spec). cbn. cbn in H. tauto.
Qed.

(** All the graphs of a document. *)
Fixpoint register (ids : list (string * option nat)) (n : nat) (os : list dgraph) : list (string * option nat) :=
  match os with [] => ids | o :: os' => register (dset String.eqb ids (id_ o) (Some n)) (S n) os' end.
Lemma filter_ext' X (f g : X -> bool) l : (forall x, f x = g x) -> filter f l = filter g l.
Proof. intros H. induction l; cbn; auto. rewrite H, IHl. auto. Qed.
Definition ok_graph (keys : list (key_elem char)) (g : graph_elem char) : Prop := attribute (g_attrs g) "id" <> None /\ graph_ok keys g.
Lemma graphs_step sparse ctx T keys l : KT T keys -> forall p ids gs, Out p T ctx ids gs ->
  match foldM (step sparse) p (flat_map (@graph_events char) l) with
  | Ok p' => (forall g, In g l -> wanted sparse (dkeys ids) g = true -> ok_graph keys g) /\
      exists os, Forall2 (depicts keys) (filter (wanted sparse (dkeys ids)) l) os /\ Out p' T ctx (register ids (length gs) os) (gs ++ os)
  | Err e => In e errs /\ ~ (forall g, In g l -> wanted sparse (dkeys ids) g = true -> ok_graph keys g)
  end.
Proof.
  intros K. induction l as [|g l IH]; intros p ids gs O; cbn [flat_map].
  - cbn. split; [tauto|]. exists []. cbn. rewrite app_nil_r. auto.
  - rewrite foldM_app. cbn [filter]. destruct (wanted sparse (dkeys ids) g) eqn:W.
    + pose proof (graph_rep sparse g O K W) as GR. destruct (foldM (step sparse) p (graph_events g)) as [p1|e]; cbn [bind].
      2: { destruct GR as (X & Y). split; auto. intros F. apply X. apply F; cbn; auto. }
      destruct GR as (GK & o & D & O1). specialize (IH _ _ _ O1).
      assert (WE : forall h : graph_elem char, wanted sparse (dkeys (dset String.eqb ids (id_ o) (Some (length gs)))) h = wanted sparse (dkeys ids) h).
      { destruct sparse; [|reflexivity]. intros h. unfold wanted in *. cbn [negb orb] in *. rewrite (d_id D) in W. apply (mem_spec _ seqb_spec) in W.
        rewrite (dkeys_set _ seqb_spec). apply (mem_spec _ seqb_spec) in W. now rewrite W. }
      destruct (foldM (step sparse) p1 _) as [p2|e].
      * destruct IH as (F & os & F2 & O2). split.
        { intros h [<-|X] Wh; [split; auto; rewrite (d_id D); discriminate|]. apply F; auto. now rewrite WE. }
        exists (o :: os). split.
        -- constructor; auto. erewrite filter_ext'; [exact F2|]. intros; now rewrite WE.
        -- rewrite app_length, Nat.add_1_r, <- app_assoc in O2. exact O2.
      * destruct IH as (E & F). split; auto. intros X. apply F. intros h Hh Wh. rewrite WE in Wh. apply X; cbn; auto.
    + assert (SK : exists b, foldM (step sparse) p (graph_events g) = Ok (with_buf p b)).
      { unfold wanted in W. apply orb_false_iff in W as (W1 & W2). destruct sparse; [|discriminate]. destruct O as [G1 G2 G3 G4 G5 G6].
        apply unwanted_graph; auto.
        - destruct (attribute (g_attrs g) "id") as [i|]; auto. rewrite G4. apply (dget_none _ seqb_spec). intros X. apply (mem_spec _ seqb_spec) in X. congruence.
        - apply enclosed_flat. intros; apply enclosed_item. }
      destruct SK as (b & ->). cbn [bind].
      assert (O1 : Out (with_buf p b) T ctx ids gs) by (destruct O as [G1 G2 G3 G4 G5 G6]; constructor; fields; auto).
      specialize (IH _ _ _ O1). destruct (foldM (step sparse) (with_buf p b) _) as [p2|e].
      * destruct IH as (F & os & F2 & O2). split; eauto. intros h [<-|X] Wh; [congruence|auto].
      * destruct IH as (E & F). split; auto. intros X. apply F. intros h Hh Wh. apply X; cbn; auto.
Qed.

Lemma document_step sparse ids gs d :
  match foldM (step sparse) (new_parser ids gs) (events d) with
  | Ok p => keys_ok (doc_keys d) /\ (forall g, In g (doc_graphs d) -> wanted sparse (dkeys ids) g = true -> ok_graph (doc_keys d) g) /\
      exists os, Forall2 (depicts (doc_keys d)) (filter (wanted sparse (dkeys ids)) (doc_graphs d)) os /\ graphs p = gs ++ os /\ id2graph p = register ids (length gs) os
  | Err e => In e errs /\ ~ (keys_ok (doc_keys d) /\ (forall g, In g (doc_graphs d) -> wanted sparse (dkeys ids) g = true -> ok_graph (doc_keys d) g))
  end.
Proof.
  unfold events, body_events. cbn [foldM Graphml_model.step]. unfold start_element. eqbs. cbn [bind]. rewrite !foldM_app.
  set (p0 := start_graphml _). set (T0 := [("graph", []); ("node", []); ("edge", []); ("all", [])] : table char).
  assert (O0 : Out p0 T0 ["graphml"] ids gs) by (constructor; reflexivity).
  pose proof (@keys_step sparse ["graphml"] ids gs (doc_keys d) p0 T0 [] O0 kt_empty) as KS.
  destruct (foldM (step sparse) p0 _) as [p1|e]; cbn [bind].
  2: { destruct KS as (X & ->). split; [cbn; auto|]. intros (Y & _). apply X. exact Y. }
  destruct KS as (KO & T1 & O1 & K1). cbn [app] in K1.
  pose proof (graphs_step sparse (doc_graphs d) K1 O1) as GS. destruct (foldM (step sparse) p1 _) as [p2|e]; cbn [bind].
  2: { destruct GS as (X & Y). split; auto. tauto. }
  destruct GS as (F & os & F2 & [G1 G2 G3 G4 G5 G6]).
  cbn [foldM Graphml_model.step]. unfold end_element. eqbs. unfold graph_wanted. rewrite G6. cbn [bind]. fields.
  split; [exact KO|]. split; auto. exists os. auto.
Qed.

(** Layout. *)
Definition buf_eq p q : Prop := q = with_buf p (buf q).
Lemma buf_eq_refl p : buf_eq p p.
Proof. destruct p; reflexivity. Qed.
Lemma buf_eq_with p b : buf_eq p (with_buf p b).
Proof. reflexivity. Qed.
Lemma buf_eq_trans p q r : buf_eq p q -> buf_eq q r -> buf_eq p r.
Proof. unfold buf_eq. intros E1 E2. rewrite E2. rewrite E1. reflexivity. Qed.
Definition sim (b : bool) p q : Prop := if b then p = q else buf_eq p q.
Lemma sim_weak b p q : sim b p q -> buf_eq p q.
Proof. destruct b; cbn; auto. intros <-. apply buf_eq_refl. Qed.
Lemma start_buf sparse p q tag a : buf_eq p q -> start_element space is_blank sparse q tag a = start_element space is_blank sparse p tag a.
Proof. unfold buf_eq. intros ->. reflexivity. Qed.
Lemma char_sim b p q t : sim b p q -> sim b (char_data p t) (char_data q t).
Proof.
  destruct b; cbn [sim]; [intros ->; reflexivity|]. unfold buf_eq, char_data, graph_wanted. intros ->. cbn [with_buf graph]. destruct (graph p); reflexivity.
Qed.
Lemma end_buf p q tag : buf_eq p q -> tag <> "data" -> tag <> "default" ->
  match end_element space is_blank p tag, end_element space is_blank q tag with Ok p', Ok q' => buf_eq p' q' | Err e, Err e' => e = e' | _, _ => False end.
Proof.
  unfold buf_eq. intros -> N1 N2. unfold end_element. apply String.eqb_neq in N1, N2. rewrite N1, N2.
  destruct (String.eqb tag "graph").
  - unfold end_graph, on_graph. cbn [with_buf graph graphs]. destruct (graph p) as [g|]; cbn [bind]; [|reflexivity].
    destruct (nth_error (graphs p) g) as [o|]; cbn [bind]; [|reflexivity]. destruct (tokens o); cbn [bind]; reflexivity.
  - unfold graph_wanted. cbn [with_buf graph]. destruct (graph p) as [g|]; cbn [bind]; [|reflexivity].
    destruct (in_node tag); cbn [bind]; [|reflexivity]. unfold end_node, comp_dict. cbn [with_buf comp_attrs graphs].
    destruct (comp_attrs p) as [| |x|x n|x u v]; cbn [bind]; try reflexivity;
      (destruct (nth_error (graphs p) x) as [o|]; cbn [bind]; [|reflexivity]).
    + destruct (negb (truth (dget String.eqb (attrs o) "label"))); cbn [bind]; [reflexivity|]. destruct (negb (truth (dget String.eqb (attrs o) "tokens"))); reflexivity.
    + destruct (dread name_eqb (node o) n) as [d|]; cbn [bind]; [|reflexivity].
      destruct (negb (truth (dget String.eqb d "label"))); cbn [bind]; [reflexivity|]. destruct (negb (truth (dget String.eqb d "tokens"))); reflexivity.
    + destruct (dread name_eqb (succ o) u) as [r|]; cbn [bind]; [|reflexivity]. destruct (dread name_eqb r v) as [d|]; cbn [bind]; [|reflexivity].
      destruct (negb (truth (dget String.eqb d "label"))); cbn [bind]; [reflexivity|]. destruct (negb (truth (dget String.eqb d "tokens"))); reflexivity.
Qed.

Lemma on_graph_ready p g f p' : on_graph p g f = Ok p' -> ready p' = ready p.
Proof. unfold on_graph. destruct (nth_error (graphs p) g); [|discriminate]. destruct (f _); cbn [bind]; [|discriminate]. intros E; injection E as <-. reflexivity. Qed.
Lemma set_attr_ready p c k t p' : set_attr space is_blank p c k t = Ok p' -> ready p' = ready p.
Proof.
  unfold set_attr. destruct (graph p); [|discriminate]. destruct (_ && _); [apply on_graph_ready|]. destruct (_ && _).
  - destruct (node_ p); [apply on_graph_ready|discriminate].
  - unfold set_comp. destruct (comp_attrs p); try discriminate; apply on_graph_ready.
Qed.
Lemma set_defaults_ready p p' : set_defaults space is_blank p = Ok p' -> ready p' = ready p.
Proof.
  unfold set_defaults. destruct (context p); [discriminate|]. destruct (dread _ _ "all") as [l1|]; cbn [bind]; [|discriminate].
  destruct (dread _ _ s) as [l2|]; cbn [bind]; [|discriminate]. generalize (l1 ++ l2) as ks. intros ks. revert p. induction ks as [|k ks IH]; intros p; cbn [foldM].
  - intros E; injection E as <-; reflexivity.
  - destruct (k_dflt (snd k)) as [t|]; cbn [bind]; [|apply IH]. destruct (set_attr _ _ p s _ t) as [q|] eqn:Q; cbn [bind]; [|discriminate].
    intros E. apply IH in E. rewrite E. eapply set_attr_ready; eauto.
Qed.
Lemma step_ready sparse p e p' : step sparse p e = Ok p' -> ready p = true -> ready p' = true.
Proof.
  destruct e as [tag a|tag|t]; cbn [Graphml_model.step].
  - unfold start_element. set (q := with_buf _ _). intros H R. assert (RQ : ready q = true) by exact R. clearbody q.
    destruct (String.eqb tag "graphml"); [injection H as <-; reflexivity|]. rewrite RQ in H. cbn [negb] in H.
    destruct (String.eqb tag "key").
    { unfold start_key in H. destruct (dread _ a "attr.name"); cbn [bind] in H; [|discriminate]. destruct (dread _ (key_table q) _); cbn [bind] in H; [|discriminate].
      destruct (dread _ a "id"); cbn [bind] in H; [|discriminate]. injection H as <-. exact RQ. }
    destruct (String.eqb tag "graph").
    { unfold start_graph in H. destruct (negb sparse || _); [|injection H as <-; exact RQ]. destruct (dread _ a "id"); cbn [bind] in H; [|discriminate].
      apply set_defaults_ready in H. rewrite H. exact RQ. }
    destruct (graph q) as [g|]; [|injection H as <-; exact RQ].
    destruct (String.eqb tag "node").
    { unfold start_node in H. destruct (on_graph _ _ _) as [r|] eqn:ER; cbn [bind] in H; [|discriminate]. apply on_graph_ready in ER.
      destruct (set_defaults _ _ _) as [r'|] eqn:ES; cbn [bind] in H; [|discriminate]. apply set_defaults_ready in ES. injection H as <-. cbn in *. congruence. }
    destruct (String.eqb tag "edge").
    { unfold start_edge in H. destruct (dread _ a "source"); cbn [bind] in H; [|discriminate]. destruct (dread _ a "target"); cbn [bind] in H; [|discriminate].
      destruct (on_graph _ _ _) as [r|] eqn:ER; cbn [bind] in H; [|discriminate]. apply on_graph_ready in ER. apply set_defaults_ready in H. cbn in *. congruence. }
    destruct (String.eqb tag "data"); [|injection H as <-; exact RQ]. unfold start_data in H. destruct (dread _ a "key"); cbn [bind] in H; [|discriminate]. injection H as <-. exact RQ.
  - unfold end_element. intros H R.
    match type of H with context [bind ?X _] => destruct X as [q|] eqn:E; cbn [bind] in H; [|discriminate] end. injection H as <-. cbn [with_context ready].
    destruct (String.eqb tag "graph").
    { unfold end_graph in E. destruct (graph p); [|injection E as <-; exact R]. destruct (on_graph _ _ _) as [r|] eqn:ER; cbn [bind] in E; [|discriminate]. apply on_graph_ready in ER. injection E as <-. cbn. congruence. }
    destruct (graph_wanted p); [|injection E as <-; exact R]. destruct (in_node tag).
    { unfold end_node in E. destruct (comp_dict p); cbn [bind] in E; [|discriminate]. destruct (negb _); [discriminate|]. destruct (negb _); [discriminate|]. injection E as <-. exact R. }
    destruct (String.eqb tag "data").
    { unfold end_data in E. destruct (context p) as [|? [|c ?]]; try discriminate. destruct (lookup_attr_name p c); cbn [bind] in E; [|discriminate].
      destruct (set_attr _ _ _ _ _ _) as [r|] eqn:ES; cbn [bind] in E; [|discriminate]. apply set_attr_ready in ES. injection E as <-. cbn. congruence. }
    destruct (String.eqb tag "default"); [|injection E as <-; exact R].
    unfold end_default in E. destruct (current_key p) as [(c, i)|]; [|discriminate]. destruct (dread _ _ c); cbn [bind] in E; [|discriminate]. destruct (dread _ _ i); cbn [bind] in E; [|discriminate]. injection E as <-. exact R.
  - intros E; injection E as <-. unfold char_data. destruct (graph_wanted p); auto.
Qed.

Lemma in_node_sub tag : in_node tag = true -> exists a b, ("node" = a ++ tag ++ b)%string.
Proof.
  unfold in_node. rewrite existsb_exists. intros (x & H & E). apply String.eqb_eq in E. subst x. cbn in H.
  repeat (destruct H as [<-|H]; [|]); try contradiction.
  - now exists "node"%string, ""%string.
  - now exists ""%string, "ode"%string.
  - now exists "n"%string, "de"%string.
  - now exists "no"%string, "e"%string.
  - now exists "nod"%string, ""%string.
  - now exists ""%string, "de"%string.
  - now exists "n"%string, "e"%string.
  - now exists "no"%string, ""%string.
  - now exists ""%string, "e"%string.
  - now exists "n"%string, ""%string.
  - now exists ""%string, ""%string.
Qed.
Lemma meaningless_step sparse b : meaningless b -> forall p, ready p = true -> exists u, foldM (step sparse) p b = Ok (with_buf p u).
Proof.
  induction 1 as [|t l M IH|tag a b l N S Mb IHb Ml IHl]; intros p R.
  - exists (buf p). cbn. f_equal. destruct p; reflexivity.
  - cbn [foldM Graphml_model.step bind]. destruct (IH (char_data p t)) as (u & ->).
    { unfold char_data. destruct (graph_wanted p); exact R. }
    exists u. f_equal. unfold char_data. destruct (graph_wanted p); reflexivity.
  - cbn [foldM Graphml_model.step]. unfold start_element. fields.
    assert (NE : forall x, In x ["graphml"; "key"; "graph"; "node"; "edge"; "data"; "default"] -> String.eqb tag x = false) by (intros x Hx; apply String.eqb_neq; intros ->; auto).
    rewrite !NE by (cbn; auto 10). rewrite R. cbn [negb].
    assert (ST : match graph p with Some _ | None => Ok (with_buf (with_context p (tag :: context p)) []) end = Ok (with_buf (with_context p (tag :: context p)) [])) by (destruct (graph p); reflexivity).
    match goal with |- exists u, bind ?X _ = _ => replace X with (Ok (with_buf (with_context p (tag :: context p)) [])) by (destruct (graph p); reflexivity) end.
    cbn [bind]. rewrite foldM_app. destruct (IHb (with_buf (with_context p (tag :: context p)) [])) as (u1 & ->); [exact R|].
    cbn [bind foldM Graphml_model.step]. unfold end_element. rewrite !NE by (cbn; auto 10).
    assert (IN : in_node tag = false). { destruct (in_node tag) eqn:E; auto. destruct (in_node_sub _ E) as (x & y & X). now destruct (S x y). }
    rewrite IN. match goal with |- context [if graph_wanted ?q then _ else _] => destruct (graph_wanted q) end; cbn [bind]; fields; cbn [tl];
      match goal with |- exists b, foldM _ ?q _ = _ => destruct (IHl q) as (u2 & ->); [exact R|]; exists u2; reflexivity end.
Qed.

(** Documents in which the text of <data> and <default> comes directly. *)
Fixpoint tidy (s : bool) (l : list event) : Prop :=
  match l with
  | [] => True
  | Start _ _ :: l' => tidy true l'
  | Chars _ :: l' => tidy s l'
  | End_ tag :: l' => (s = true \/ (tag <> "data" /\ tag <> "default")) /\ tidy false l'
  end.
Definition same_result (r r' : res parser) : Prop := match r, r' with Ok p, Ok q => buf_eq p q | Err e, Err e' => e = e' | _, _ => False end.
Lemma same_refl r : same_result r r.
Proof. destruct r; cbn; auto using buf_eq_refl. Qed.
Lemma layout_step sparse l m : same_file l m -> forall s p q, tidy s l -> sim s p q -> ready p = true ->
  same_result (foldM (step sparse) p l) (foldM (step sparse) q m).
Proof.
  assert (END : forall tag l m s p q, (forall s p q, tidy s l -> sim s p q -> ready p = true -> same_result (foldM (step sparse) p l) (foldM (step sparse) q m)) ->
     tidy s (End_ tag :: l) -> sim s p q -> ready p = true -> same_result (foldM (step sparse) p (End_ tag :: l)) (foldM (step sparse) q (End_ tag :: m))).
  { intros tag l' m' s p q IH (T1 & T2) S R. cbn [foldM]. pose proof (@step_ready sparse p (End_ tag)) as SR. cbn [Graphml_model.step] in *.
    assert (X : match end_element space is_blank p tag, end_element space is_blank q tag with Ok p', Ok q' => buf_eq p' q' | Err e, Err e' => e = e' | _, _ => False end).
    { destruct T1 as [->|(N1 & N2)]; [|apply end_buf; auto; eapply sim_weak; eauto]. cbn in S. subst q. apply same_refl. }
    destruct (end_element space is_blank p tag) as [p'|], (end_element space is_blank q tag) as [q'|]; try contradiction; cbn [bind]; [|exact X].
    eapply IH; eauto. }
  assert (START : forall tag a l m p q, (forall s p q, tidy s l -> sim s p q -> ready p = true -> same_result (foldM (step sparse) p l) (foldM (step sparse) q m)) ->
     tidy true l -> buf_eq p q -> ready p = true -> same_result (foldM (step sparse) p (Start tag a :: l)) (foldM (step sparse) q (Start tag a :: m))).
  { intros tag a l' m' p q IH T S R. cbn [foldM]. pose proof (@step_ready sparse p (Start tag a)) as SR. cbn [Graphml_model.step] in *.
    rewrite (start_buf sparse tag a S). destruct (start_element space is_blank sparse p tag a) as [p'|]; cbn [bind]; [|reflexivity]. apply (IH true); auto. reflexivity. }
  induction 1 as [|e l m S IH|b tag a l m M S IH|b tag l m M N1 N2 S IH|l m S IH|t u l m S IH]; intros s p q T SIM R.
  - cbn. eapply sim_weak; eauto.
  - destruct e as [tag a|tag|t].
    + eapply START; eauto. eapply sim_weak; eauto.
    + eapply END; eauto.
    + cbn [foldM Graphml_model.step bind]. apply (IH s); auto using char_sim. unfold char_data. destruct (graph_wanted p); exact R.
  - rewrite foldM_app. apply sim_weak in SIM. assert (RQ : ready q = true) by (rewrite SIM; exact R). destruct (meaningless_step sparse M q RQ) as (v & ->). cbn [bind].
    eapply START; eauto. eapply buf_eq_trans; eauto using buf_eq_with.
  - rewrite foldM_app. apply sim_weak in SIM. assert (RQ : ready q = true) by (rewrite SIM; exact R). destruct (meaningless_step sparse M q RQ) as (v & ->). cbn [bind].
    eapply (END tag l m false); eauto.
    + destruct T as (_ & T). cbn. split; auto.
    + cbn. eapply buf_eq_trans; eauto using buf_eq_with.
  - cbn [foldM Graphml_model.step bind]. apply (IH s); auto.
    + replace (char_data p []) with p; auto. unfold char_data. rewrite app_nil_r. destruct (graph_wanted p); destruct p; reflexivity.
    + unfold char_data. destruct (graph_wanted p); exact R.
  - cbn [foldM Graphml_model.step bind]. replace (char_data p (t ++ u)) with (char_data (char_data p t) u).
    + specialize (IH s (char_data p t) (char_data q t)). cbn [foldM Graphml_model.step bind] in IH. apply IH; auto using char_sim. unfold char_data. destruct (graph_wanted p); exact R.
    + unfold char_data, graph_wanted. destruct (graph p) eqn:G; cbn [with_buf graph buf]; rewrite G; [|reflexivity]. rewrite <- app_assoc. reflexivity.
Qed.
Lemma tidy_elem s tag a b l : tag <> "data" -> tag <> "default" -> (forall l s, tidy false l -> tidy s (b ++ l)) -> tidy false l -> tidy s (Start tag a :: (b ++ [End_ tag]) ++ l).
Proof. intros N1 N2 H T. rewrite <- app_assoc. cbn [tidy app]. apply H. cbn [tidy]. auto. Qed.
Lemma tidy_weak l : forall s, tidy false l -> tidy s l.
Proof. induction l as [|[tag a|tag|t] l IH]; intros s; cbn [tidy]; auto. intros ([X|X] & Y); [discriminate|auto]. Qed.
Lemma tidy_flat X (f : X -> list event) xs : (forall x l s, tidy false l -> tidy s (f x ++ l)) -> forall l s, tidy false l -> tidy s (flat_map f xs ++ l).
Proof.
  intros H. induction xs as [|x xs IH]; intros l s T; cbn [flat_map app]; [now apply tidy_weak|]. rewrite <- app_assoc. apply H, IH, T.
Qed.
Lemma tidy_data (d : data char) l s : tidy false l -> tidy s (data_events d ++ l).
Proof. cbn. auto. Qed.
Lemma tidy_item (i : item) l s : tidy false l -> tidy s (item_events i ++ l).
Proof.
  destruct i as [d|a ds|a ds]; cbn [item_events]; [apply tidy_data| |]; intros T; apply tidy_elem; try discriminate; auto; intros; apply tidy_flat; auto; intros; now apply tidy_data.
Qed.
Lemma tidy_body (d : document char) : tidy false (body_events d ++ [End_ "graphml"]).
Proof.
  unfold body_events. rewrite <- app_assoc. apply tidy_flat.
  - intros k l s T. unfold key_events. apply tidy_elem; try discriminate; auto. intros l' s' T'. destruct (k_default k); cbn; auto using tidy_weak.
  - apply tidy_flat.
    + intros g l s T. unfold graph_events. apply tidy_elem; try discriminate; auto. intros l' s' T'. apply tidy_flat; auto. intros; now apply tidy_item.
    + cbn. split; auto. right. split; discriminate.
Qed.

Lemma layout sparse ids gs (d : document char) evs : same_file (body_events d ++ [End_ "graphml"]) evs ->
  match parse_file space is_blank sparse ids gs (events d), parse_file space is_blank sparse ids gs (Start "graphml" (doc_attrs d) :: evs) with
  | Ok p, Ok q => graphs q = graphs p /\ id2graph q = id2graph p
  | Err e, Err e' => e = e'
  | _, _ => False
  end.
Proof.
  intros S. unfold parse_file, events. cbn [foldM Graphml_model.step]. unfold start_element. eqbs. cbn [bind]. set (p0 := start_graphml _).
  pose proof (@layout_step sparse _ _ S false p0 p0 (tidy_body d) (buf_eq_refl _) eq_refl) as L. unfold same_result in L.
  destruct (foldM (step sparse) p0 (body_events d ++ _)) as [p|], (foldM (step sparse) p0 evs) as [q|]; try contradiction; cbn [bind]; [|exact L].
  assert (I2 : id2graph q = id2graph p) by (rewrite L; reflexivity). assert (G2 : graphs q = graphs p) by (rewrite L; reflexivity). rewrite I2.
  destruct (sparse && _); auto.
Qed.

(** The graph registered for an id is the last one. *)
Lemma register_keep os : forall ids n i, ~ In i (map (@id_ char) os) -> dget String.eqb (register ids n os) i = dget String.eqb ids i.
Proof.
  induction os as [|o os IH]; intros ids n i H; cbn [register]; auto. cbn in H. rewrite IH by tauto. rewrite (dget_set _ seqb_spec).
  destruct (String.eqb (id_ o) i) eqn:E; auto. apply String.eqb_eq in E. tauto.
Qed.
Lemma register_get keys os gl : Forall2 (depicts keys) gl os -> forall ids gs i,
  match last_elem gl i with
  | Some g => exists n o, dget String.eqb (register ids (length gs) os) i = Some (Some n) /\ nth_error (gs ++ os) n = Some o /\ length gs <= n /\ depicts keys g o
  | None => dget String.eqb (register ids (length gs) os) i = dget String.eqb ids i
  end.
Proof.
  induction 1 as [|g o gl os D F IH]; intros ids gs i; cbn [last_elem register]; auto.
  specialize (IH (dset String.eqb ids (id_ o) (Some (length gs))) (gs ++ [o]) i). rewrite app_length, Nat.add_1_r in IH.
  destruct (last_elem gl i) as [h|].
  - destruct IH as (n & o' & H1 & H2 & H3 & H4). exists n, o'. rewrite <- app_assoc in H2. cbn in H2. split; auto. split; auto. split; auto. lia.
  - rewrite (d_id D). rewrite IH, (dget_set _ seqb_spec). destruct (String.eqb (id_ o) i); auto.
    exists (length gs), o. split; auto. split; [apply nth_mid|]. auto.
Qed.
Lemma last_elem_none (gl : list (graph_elem char)) i : last_elem gl i = None <-> forall g, In g gl -> attribute (g_attrs g) "id" <> Some i.
Proof.
  induction gl as [|g gl IH]; cbn [last_elem].
  - split; auto.
  - destruct (last_elem gl i) as [h|].
    + split; [discriminate|]. intros H. destruct IH as (_ & IH). assert (X : Some h = None) by (apply IH; intros; apply H; cbn; auto). discriminate.
    + destruct IH as (IH & _). specialize (IH eq_refl). destruct (attribute (g_attrs g) "id") as [j|] eqn:E.
      * destruct (String.eqb j i) eqn:EJ.
        -- apply String.eqb_eq in EJ. subst j. split; [discriminate|]. intros H. exfalso. apply (H g); cbn; auto.
        -- split; auto. intros _ h [<-|H]; auto. rewrite E. intros X; injection X as ->. rewrite String.eqb_refl in EJ. discriminate.
      * split; auto. intros _ h [<-|H]; auto. rewrite E. discriminate.
Qed.
Lemma register_nodup os : forall ids n, NoDup (dkeys ids) -> NoDup (dkeys (register ids n os)).
Proof.
  induction os as [|o os IH]; intros ids n H; cbn [register]; auto. apply IH. rewrite (dkeys_set _ seqb_spec). destruct (mem String.eqb (id_ o) (dkeys ids)) eqn:E; auto.
  apply nodup_app; auto; [constructor; [cbn; auto|constructor]|]. intros x Hx [<-|[]]. apply (mem_spec _ seqb_spec) in Hx. congruence.
Qed.
Lemma unresolved (d : list (string * option nat)) : NoDup (dkeys d) -> existsb (fun x => match snd x with None => true | Some _ => false end) d = true <-> exists i, dget String.eqb d i = Some None.
Proof.
  intros N. rewrite existsb_exists. split.
  - intros ((i, v) & H & E). cbn in E. destruct v; [discriminate|]. exists i. now apply (in_dget _ seqb_spec).
  - intros (i & H). exists (i, None). split; auto. now apply (dget_in _ seqb_spec).
Qed.

Definition resolved (ids : list (string * option nat)) (d : document char) : Prop :=
  forall i, dget String.eqb ids i = Some None -> exists g, In g (doc_graphs d) /\ attribute (g_attrs g) "id" = Some i.
Lemma parse_ok sparse ids gs d : NoDup (dkeys ids) ->
  match parse_file space is_blank sparse ids gs (events d) with
  | Ok p => (keys_ok (doc_keys d) /\ (forall g, In g (doc_graphs d) -> wanted sparse (dkeys ids) g = true -> ok_graph (doc_keys d) g) /\ (sparse = true -> resolved ids d)) /\
      exists os, Forall2 (depicts (doc_keys d)) (filter (wanted sparse (dkeys ids)) (doc_graphs d)) os /\ graphs p = gs ++ os /\ id2graph p = register ids (length gs) os
  | Err e => In e errs /\ ~ (keys_ok (doc_keys d) /\ (forall g, In g (doc_graphs d) -> wanted sparse (dkeys ids) g = true -> ok_graph (doc_keys d) g) /\ (sparse = true -> resolved ids d))
  end.
Proof.
  intros N. unfold parse_file. pose proof (document_step sparse ids gs d) as DS. destruct (foldM (step sparse) (new_parser ids gs) (events d)) as [p|e]; cbn [bind].
  2: { destruct DS as (X & Y). split; auto. tauto. }
  destruct DS as (K & W & os & F & G & I2). rewrite I2.
  destruct sparse; cbn [andb].
  2: { split; [split; [exact K|split; [exact W|discriminate]]|eauto]. }
  pose proof (@unresolved _ (register_nodup os ids (length gs) N)) as U.
  assert (RES : (exists i, dget String.eqb (register ids (length gs) os) i = Some None) <-> ~ resolved ids d).
  { split.
    - intros (i & E) R. pose proof (register_get F ids gs i) as RG. destruct (last_elem _ i) as [h|] eqn:LE.
      + destruct RG as (n & o & X & _). congruence.
      + rewrite E in RG. symmetry in RG. destruct (R i RG) as (g & Hg & Eg). apply last_elem_none with (g := g) in LE; auto.
        apply filter_In. split; auto. unfold wanted. rewrite Eg. cbn. apply (mem_spec _ seqb_spec), (dget_some_in _ seqb_spec). eauto.
    - intros R. destruct (existsb (fun x => match snd x with None => true | Some _ => false end) (register ids (length gs) os)) eqn:E; [now apply U|].
      exfalso. apply R. intros i Hi. pose proof (register_get F ids gs i) as RG. destruct (last_elem (filter (wanted true (dkeys ids)) (doc_graphs d)) i) as [h|] eqn:LE.
      + destruct (in_dec string_dec i (flat_map (fun g => match attribute (g_attrs g) "id" with Some j => [j] | None => [] end) (doc_graphs d))) as [Hin|Hn].
        * apply in_flat_map in Hin as (g & Hg & Y). exists g. split; auto. destruct (attribute (g_attrs g) "id"); [|destruct Y]. destruct Y as [->|[]]; auto.
        * exfalso. assert (X : last_elem (filter (wanted true (dkeys ids)) (doc_graphs d)) i = None); [|congruence].
          apply last_elem_none. intros g Hg Eg. apply filter_In in Hg as (Hg & _). apply Hn. apply in_flat_map. exists g. split; auto. rewrite Eg. cbn; auto.
      + assert (X : false = true); [|discriminate]. apply U. exists i. congruence. }
  destruct (existsb _ _).
  - split; [cbn; auto|]. intros (_ & _ & R). apply RES; [now apply U|auto].
  - split; [|eauto]. split; [exact K|split; [exact W|]]. intros _. intros i Hi. destruct (in_dec string_dec i (flat_map (fun g => match attribute (g_attrs g) "id" with Some j => [j] | None => [] end) (doc_graphs d))) as [Hin|Hn].
    + apply in_flat_map in Hin as (g & Hg & Y). exists g. split; auto. destruct (attribute (g_attrs g) "id"); [|destruct Y]. destruct Y as [->|[]]; auto.
    + exfalso. assert (NR : ~ resolved ids d). { intros R. destruct (R i Hi) as (g & Hg & Eg). apply Hn. apply in_flat_map. exists g. split; auto. rewrite Eg. cbn; auto. }
      apply RES in NR. apply U in NR. discriminate.
Qed.

(** Continuing after something that changed the buffer only. *)
Lemma same_file_refl (l : list event) : same_file l l.
Proof. induction l; constructor; auto. Qed.
Lemma finish_same sparse r r' : same_result r r' ->
  match (p <- r ;; if sparse && existsb (fun x : string * option nat => match snd x with None => true | Some _ => false end) (id2graph p) then Err DaesoError else Ok p),
        (p <- r' ;; if sparse && existsb (fun x : string * option nat => match snd x with None => true | Some _ => false end) (id2graph p) then Err DaesoError else Ok p) with
  | Ok p, Ok q => graphs q = graphs p /\ id2graph q = id2graph p
  | Err e, Err e' => e = e'
  | _, _ => False
  end.
Proof.
  destruct r as [p|], r' as [q|]; cbn [same_result bind]; intros L; try contradiction; [|exact L].
  assert (I2 : id2graph q = id2graph p) by (rewrite L; reflexivity). assert (G2 : graphs q = graphs p) by (rewrite L; reflexivity). rewrite I2.
  destruct (sparse && _); auto.
Qed.
Lemma bind_same r r' f f' : same_result r r' -> (forall p q, buf_eq p q -> r = Ok p -> same_result (f p) (f' q)) -> same_result (bind r f) (bind r' f').
Proof. destruct r, r'; cbn; intros H F; try contradiction; auto. Qed.

Lemma key_same sparse (k k' : key_elem char) p q : k_attrs k = k_attrs k' -> buf_eq p q -> ready p = true -> graph p = None ->
  same_result (foldM (step sparse) p (key_events k)) (foldM (step sparse) q (key_events k')).
Proof.
  intros E B R G. unfold key_events. rewrite <- E. cbn [foldM Graphml_model.step]. rewrite (start_buf sparse "key" (k_attrs k) B).
  destruct (start_element space is_blank sparse p "key" (k_attrs k)) as [p1|e] eqn:ES; cbn [bind]; [|reflexivity].
  assert (R1 : ready p1 = true) by (eapply (@step_ready sparse p (Start "key" (k_attrs k))); eauto).
  assert (G1 : graph p1 = None).
  { unfold start_element in ES. revert ES. eqbs. fields. rewrite R. eqbs. unfold start_key. destruct (dread _ _ "attr.name"); cbn [bind]; [|discriminate].
    destruct (dread _ (key_table _) _); cbn [bind]; [|discriminate]. destruct (dread _ _ "id"); cbn [bind]; [|discriminate]. intros X; injection X as <-. exact G. }
  assert (D : forall o : option (Graphml_spec.text char), exists b, foldM (step sparse) p1 match o with Some t => [Start "default" []; Chars t; End_ "default"] | None => [] end = Ok (with_buf p1 b)).
  { intros [t|]; [|exists (buf p1); cbn; f_equal; destruct p1; reflexivity]. apply skip; auto. apply (@enclosed_elem "default" [] [Chars t]); [cbn; intuition discriminate|]. repeat constructor. }
  rewrite !foldM_app. destruct (D (k_default k)) as (b & ->). destruct (D (k_default k')) as (b' & ->). cbn [bind foldM Graphml_model.step].
  pose proof (@end_buf (with_buf p1 b) (with_buf p1 b') "key" eq_refl ltac:(discriminate) ltac:(discriminate)) as EB.
  destruct (end_element space is_blank (with_buf p1 b) "key"), (end_element space is_blank (with_buf p1 b') "key"); auto.
Qed.
Lemma key_none sparse (k : key_elem char) p p' : ready p = true -> graph p = None -> foldM (step sparse) p (key_events k) = Ok p' -> ready p' = true /\ graph p' = None.
Proof.
  intros R G. unfold key_events. cbn [foldM Graphml_model.step]. destruct (start_element space is_blank sparse p "key" (k_attrs k)) as [p1|e] eqn:ES; cbn [bind]; [|discriminate].
  assert (R1 : ready p1 = true) by (eapply (@step_ready sparse p (Start "key" (k_attrs k))); eauto).
  assert (G1 : graph p1 = None).
  { unfold start_element in ES. revert ES. eqbs. fields. rewrite R. eqbs. unfold start_key. destruct (dread _ _ "attr.name"); cbn [bind]; [|discriminate].
    destruct (dread _ (key_table _) _); cbn [bind]; [|discriminate]. destruct (dread _ _ "id"); cbn [bind]; [|discriminate]. intros X; injection X as <-. exact G. }
  rewrite foldM_app.
  assert (D : forall o : option (Graphml_spec.text char), exists b, foldM (step sparse) p1 match o with Some t => [Start "default" []; Chars t; End_ "default"] | None => [] end = Ok (with_buf p1 b)).
  { intros [t|]; [|exists (buf p1); cbn; f_equal; destruct p1; reflexivity]. apply skip; auto. apply (@enclosed_elem "default" [] [Chars t]); [cbn; intuition discriminate|]. repeat constructor. }
  destruct (D (k_default k)) as (b & ->). cbn [bind foldM Graphml_model.step]. unfold end_element. eqbs. unfold graph_wanted. fields. rewrite G1. cbn [bind]. intros X. injection X as <-. auto.
Qed.
Lemma keys_same sparse (ks ks' : list (key_elem char)) : Forall2 (fun k k' => k_attrs k = k_attrs k') ks ks' -> forall p q, buf_eq p q -> ready p = true -> graph p = None ->
  same_result (foldM (step sparse) p (flat_map (@key_events char) ks)) (foldM (step sparse) q (flat_map (@key_events char) ks')) /\
  forall p', foldM (step sparse) p (flat_map (@key_events char) ks) = Ok p' -> ready p' = true.
Proof.
  induction 1 as [|k k' ks ks' E F IH]; intros p q B R G; cbn [flat_map].
  - cbn. split; auto. intros p' X; injection X as <-; auto.
  - rewrite !foldM_app. pose proof (@key_same sparse k k' p q E B R G) as KS. pose proof (@key_none sparse k p) as KN.
    destruct (foldM (step sparse) p (key_events k)) as [p1|], (foldM (step sparse) q (key_events k')) as [q1|]; try contradiction; cbn [bind].
    + destruct (KN p1 R G eq_refl) as (R1 & G1). now apply IH.
    + split; [exact KS|discriminate].
Qed.
Lemma defaults_unused sparse ids gs d ks' : Forall2 (fun k k' => k_attrs k = k_attrs k') (doc_keys d) ks' ->
  match parse_file space is_blank sparse ids gs (events d), parse_file space is_blank sparse ids gs (events {| doc_attrs := doc_attrs d; doc_keys := ks'; doc_graphs := doc_graphs d |}) with
  | Ok p, Ok q => graphs q = graphs p /\ id2graph q = id2graph p
  | Err e, Err e' => e = e'
  | _, _ => False
  end.
Proof.
  intros F. unfold parse_file. apply finish_same. unfold events, body_events. cbn [doc_attrs doc_keys doc_graphs foldM Graphml_model.step].
  unfold start_element. eqbs. cbn [bind]. set (p0 := start_graphml _). rewrite <- !app_assoc, !(foldM_app (step sparse) p0).
  destruct (@keys_same sparse _ _ F p0 p0 (buf_eq_refl _) eq_refl eq_refl) as (S & R).
  apply bind_same; auto. intros p q B E. apply (layout_step sparse (same_file_refl _)) with (s := false); auto.
  apply tidy_flat; [|cbn; split; auto; right; split; discriminate].
  intros g l s T. unfold graph_events. apply tidy_elem; try discriminate; auto. intros l' s' T'. apply tidy_flat; auto. intros; now apply tidy_item.
Qed.

(** An unwanted graph can be left out. *)
Lemma unwanted_out ids gs a0 ks gl a evs gl' :
  match attribute a "id" with Some i => ~ In i (dkeys ids) | None => True end -> enclosed evs ->
  match parse_file space is_blank true ids gs (Start "graphml" a0 :: flat_map (@key_events char) ks ++ flat_map (@graph_events char) gl ++ flat_map (@graph_events char) gl' ++ [End_ "graphml"]),
        parse_file space is_blank true ids gs (Start "graphml" a0 :: flat_map (@key_events char) ks ++ flat_map (@graph_events char) gl ++ (Start "graph" a :: evs ++ [End_ "graph"]) ++ flat_map (@graph_events char) gl' ++ [End_ "graphml"]) with
  | Ok p, Ok q => graphs q = graphs p /\ id2graph q = id2graph p
  | Err e, Err e' => e = e'
  | _, _ => False
  end.
Proof.
  intros W E. unfold parse_file. apply finish_same. cbn [foldM Graphml_model.step]. unfold start_element. eqbs. cbn [bind]. set (p0 := start_graphml _).
  set (T0 := [("graph", []); ("node", []); ("edge", []); ("all", [])] : table char).
  assert (O0 : Out p0 T0 ["graphml"] ids gs) by (constructor; reflexivity).
  rewrite !(foldM_app (step true) p0). pose proof (@keys_step true ["graphml"] ids gs ks p0 T0 [] O0 kt_empty) as KS.
  destruct (foldM (step true) p0 _) as [p1|e]; cbn [bind]; [|reflexivity]. destruct KS as (KO & T1 & O1 & K1). cbn [app] in K1.
  rewrite !(foldM_app (step true) p1). pose proof (graphs_step true gl K1 O1) as GS. destruct (foldM (step true) p1 _) as [p2|e]; cbn [bind]; [|reflexivity].
  destruct GS as (F & os & F2 & [G1 G2 G3 G4 G5 G6]).
  assert (W' : match attribute a "id" with Some i => dget String.eqb (id2graph p2) i = None | None => True end).
  { destruct (attribute a "id") as [i|]; auto. rewrite G4. rewrite register_keep; [now apply (dget_none _ seqb_spec)|].
    intros X. apply in_map_iff in X as (o & Eo & Ho). apply W. clear - F2 Eo Ho.
    assert (H : forall l, Forall2 (depicts ks) l os -> (forall g, In g l -> wanted true (dkeys ids) g = true) -> In i (dkeys ids)).
    { clear F2. intros l F. induction F as [|g o' l os' D F IH]; intros W; [destruct Ho|]. destruct Ho as [->|Ho].
      - specialize (W g (or_introl eq_refl)). unfold wanted in W. cbn in W. rewrite (d_id D), Eo in W. now apply (mem_spec _ seqb_spec) in W.
      - apply IH; auto. intros; apply W; cbn; auto. }
    eapply H; [exact F2|]. intros g Hg. apply filter_In in Hg. tauto. }
  rewrite (foldM_app (step true) p2 (Start "graph" a :: evs ++ [End_ "graph"])). destruct (unwanted_graph p2 a G1 G6 W' E) as (b & ->). cbn [bind].
  apply (layout_step true (same_file_refl _)) with (s := false); auto; [|apply buf_eq_with].
  apply tidy_flat; [|cbn; split; auto; right; split; discriminate].
  intros g l s T. unfold graph_events. apply tidy_elem; try discriminate; auto. intros l' s' T'. apply tidy_flat; auto. intros; now apply tidy_item.
Qed.

(** The root. *)
Lemma graph_names keys name l : (forall id, key_name keys "graph" id <> Some name) -> name <> "tokens" -> forall ow, (forall n, ow <> Some (ONode n)) ->
  last_value (assigns keys words pieces ow l) OGraph name = None.
Proof.
  intros N NT. induction l as [|i l IH]; intros ow HN; [reflexivity|]. rewrite assigns_cons, last_app.
  rewrite IH by (intros n; destruct i; cbn; auto; discriminate).
  assert (X : forall A, (forall v, ~ In (OGraph, name, v) A) -> last_value A OGraph name = None).
  { clear. induction A as [|((q, m), v) A IH]; intros H; cbn; auto. rewrite IH by (intros w Y; apply (H w); cbn; auto).
    destruct (owner_eqb q OGraph && String.eqb m name) eqn:E; auto. apply andb_true_iff in E as (E1 & E2). apply owner_eqb_spec in E1. apply String.eqb_eq in E2. subst. exfalso. apply (H v). cbn; auto. }
  apply X. intros v Hv. destruct i as [d|a ds|a ds]; cbn [Graphml_spec.assigns] in Hv.
  - rewrite app_nil_r in Hv. unfold Graphml_spec.assign in Hv. destruct (data_name keys "graph" d) as [m|] eqn:E; [|destruct Hv].
    assert (NM : m <> name) by (intros ->; unfold Graphml_spec.data_name in E; destruct (attribute (fst d) "key"); [eapply N; eauto|discriminate]).
    destruct (String.eqb m "tokens" && String.eqb "graph" "graph"); [destruct Hv as [Hv|[]]; congruence|].
    destruct (String.eqb m "tokens" && String.eqb "graph" "node"); [destruct Hv as [Hv|[]]; congruence|].
    destruct ow; [|destruct Hv]. destruct Hv as [Hv|[]]. congruence.
  - rewrite app_nil_r in Hv. destruct Hv as [Hv|[Hv|Hv]]; try discriminate. apply in_flat_map in Hv as (d & _ & Hv). unfold Graphml_spec.assign in Hv.
    destruct (data_name keys "node" d) as [m|]; [|destruct Hv]. destruct (String.eqb m "tokens" && String.eqb "node" "graph") eqn:Y; [apply andb_true_iff in Y as (_ & Y); discriminate|].
    destruct (String.eqb m "tokens" && String.eqb "node" "node"); destruct Hv as [Hv|[]]; discriminate.
  - rewrite app_nil_r in Hv. destruct Hv as [Hv|Hv]; try discriminate. apply in_flat_map in Hv as (d & _ & Hv). unfold Graphml_spec.assign in Hv.
    destruct (data_name keys "edge" d) as [m|]; [|destruct Hv]. destruct (String.eqb m "tokens" && String.eqb "edge" "graph") eqn:Y; [apply andb_true_iff in Y as (_ & Y); discriminate|].
    destruct (String.eqb m "tokens" && String.eqb "edge" "node") eqn:Y2; [apply andb_true_iff in Y2 as (_ & Y2); discriminate|]. destruct Hv as [Hv|[]]; discriminate.
Qed.
Lemma no_root keys g o : (forall id, key_name keys "graph" id <> Some "graph") -> depicts keys g o -> root o = None.
Proof.
  intros N D. rewrite (d_root D). unfold assignments. cbn [last_value]. rewrite graph_names; auto; discriminate.
Qed.
Lemma last_elem_wanted (gl : list (graph_elem char)) ids i : In i ids -> last_elem (filter (wanted true ids) gl) i = last_elem gl i.
Proof.
  intros H. induction gl as [|g gl IH]; cbn [filter]; auto. destruct (wanted true ids g) eqn:W; cbn [last_elem]; rewrite IH; auto.
  destruct (last_elem gl i); auto. unfold wanted in W. cbn in W. destruct (attribute (g_attrs g) "id") as [j|]; auto. destruct (String.eqb j i) eqn:E; auto.
  apply String.eqb_eq in E. subst j. apply (mem_spec _ seqb_spec) in H. congruence.
Qed.
End P.

Section Pieces2.
Variable char : Type.
Variable is_blank : char -> bool.
Lemma pieces_loop_ok s : forall w, Forall (fun c => is_blank c = false) w -> has_pieces is_blank (rev w ++ s) (pieces_loop is_blank w s).
Proof.
  induction s as [|c s IH]; intros w W; cbn [pieces_loop].
  - rewrite app_nil_r. constructor. now apply Forall_rev.
  - destruct (is_blank c) eqn:E.
    + constructor; auto; [now apply Forall_rev|]. apply (IH []). constructor.
    + specialize (IH (c :: w)). cbn [rev] in IH. rewrite <- app_assoc in IH. apply IH. now constructor.
Qed.
Lemma pieces_ok s : has_pieces is_blank s (pieces is_blank s).
Proof. apply (@pieces_loop_ok s []). constructor. Qed.
End Pieces2.
