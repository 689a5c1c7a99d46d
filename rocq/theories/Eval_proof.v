From Coq Require Import QArith Lqa.
From Verif Require Import Py PyLemmas Align_model Align_proof Eval_model Eval_spec.
Open Scope nat_scope.
Set Implicit Arguments.

Section P.
Variables N R : Type.
Variable neqb : N -> N -> bool.
Variable reqb : R -> R -> bool.
Variable truthy : R -> bool.
Hypothesis neqb_spec : forall x y, neqb x y = true <-> x = y.
Hypothesis reqb_spec : forall x y, reqb x y = true <-> x = y.
Notation kq := (keqb reqb).
Notation digraph := (digraph N R).

Lemma keqb_spec : forall a b, kq a b = true <-> a = b.
Proof. intros [a|] [b|]; cbn; rewrite ?reqb_spec; intuition congruence. Qed.
Lemma reqb_refl r : reqb r r = true. Proof. now apply reqb_spec. Qed.

Lemma upd_ok (w : row R) k f c : dget kq w k = Some c -> exists w', upd reqb w k f = Ok w' /\
  forall k', dget kq w' k' = if kq k' k then Some (f c) else dget kq w k'.
Proof.
  intros H. unfold upd, dread. rewrite H; cbn [bind]. eexists; split; [reflexivity|].
  intros k'. destruct (kq k' k) eqn:E.
  - apply keqb_spec in E as ->. apply dget_dset_same, keqb_spec.
  - apply dget_dset_other; [apply keqb_spec|]. intros ->.
    rewrite (proj2 (keqb_spec k' k') eq_refl) in E. discriminate.
Qed.

Variable relations : list R.
Hypothesis truthy_ok : forall r, In r relations -> truthy r = true.

(* rows with the right key set, contents given by F *)
Definition known (k : key R) : bool :=
  match k with None => true | Some r => mem reqb r relations end.
Definition rowis (w : row R) (F : key R -> counts) :=
  forall k, dget kq w k = if known k then Some (F k) else None.

Lemma zero_row_is : rowis (zero_row reqb relations) (fun _ => zero_counts).
Proof.
  unfold zero_row.
  assert (G : forall l d, (forall k c, dget kq d k = Some c -> c = zero_counts) ->
    forall k, dget kq (fold_left (fun d r => dset kq d (Some r) zero_counts) l d) k =
     if match k with None => false | Some r => mem reqb r l end then Some zero_counts else dget kq d k).
  { induction l as [|r l IH]; intros d Hd k; cbn.
    - destruct k; auto.
    - rewrite IH.
      + destruct k as [r'|]; cbn.
        * destruct (mem reqb r' l) eqn:M; [now rewrite orb_true_r|]. rewrite orb_false_r.
          destruct (reqb r' r) eqn:E.
          -- apply reqb_spec in E as ->. apply dget_dset_same, keqb_spec.
          -- apply dget_dset_other; [apply keqb_spec|]. intros [= ->]. rewrite reqb_refl in E. discriminate.
        * apply dget_dset_other; [apply keqb_spec|]. discriminate.
      + intros k' c. destruct (kq (Some r) k') eqn:E.
        * apply keqb_spec in E as <-. rewrite dget_dset_same by apply keqb_spec. congruence.
        * rewrite dget_dset_other; [apply Hd|apply keqb_spec|].
          intros <-. rewrite (proj2 (keqb_spec _ _) eq_refl) in E. discriminate. }
  intros k. rewrite G.
  - destruct k; cbn; auto.
  - intros k' c. cbn. destruct k'; [discriminate|]. now intros [= <-].
Qed.

Lemma upd_is w F k f : rowis w F -> known k = true -> exists w', upd reqb w k f = Ok w' /\
  rowis w' (fun k' => if kq k' k then f (F k') else F k').
Proof.
  intros H Hk. destruct (@upd_ok w k f (F k)) as (w' & E & H').
  { rewrite H, Hk. auto. }
  exists w'; split; auto. intros k'. rewrite H', (H k').
  destruct (kq k' k) eqn:E'; auto. apply keqb_spec in E' as ->. now rewrite Hk.
Qed.
Lemma rowis_ext w F G : rowis w F -> (forall k, known k = true -> F k = G k) -> rowis w G.
Proof. intros H E k. rewrite H. destruct (known k) eqn:K; auto. now rewrite E. Qed.
Lemma upd_err (w : row R) F k f : rowis w F -> known k = false -> upd reqb w k f = Err KeyError.
Proof. intros H Hk. unfold upd, dread. now rewrite H, Hk. Qed.

Definition known_rels (l : list ((N * N) * R)) := forall e, In e l -> In (snd e) relations.

Lemma known_in r : In r relations -> known (Some r) = true.
Proof. intros H. cbn. now apply mem_spec. Qed.

(* counting functions in terms of get_align of the other graph pair *)
Definition ct_true (l : list ((N*N)*R)) (k : key R) : nat :=
  match k with None => 0 | Some r => n_rel reqb r l end.
Definition ct_common (p : digraph) (l : list ((N*N)*R)) (k : key R) : nat :=
  length (filter (fun e => match get_align neqb p (fst (fst e)) (snd (fst e)) with
                           | Some pr => match k with None => true | Some r => reqb (snd e) r && reqb pr (snd e) end
                           | None => false end) l).

Lemma true_loop (p : digraph) l n w F :
  known_rels l -> (forall s t r, get_align neqb p s t = Some r -> truthy r = true) -> rowis w F ->
  exists w', foldM (true_step neqb reqb truthy p) (n, w) l = Ok (n + length l, w') /\
   rowis w' (fun k => {| c_true := c_true (F k) + ct_true l k; c_pred := c_pred (F k);
                         c_common := c_common (F k) + ct_common p l k |}).
Proof.
  intros Hk Hp. revert n w F Hk. induction l as [|[[s t] r] l IH]; intros n w F Hk HF; cbn [foldM].
  - exists w. rewrite Nat.add_0_r. split; auto. eapply rowis_ext; eauto. intros [k|] _; cbn;
      destruct (F _); cbn; f_equal; lia.
  - assert (Kr : In r relations) by (apply (Hk ((s,t),r)); cbn; auto).
    unfold true_step at 1. cbn [fst snd].
    destruct (@upd_is w F (Some r) (add_true 1) HF (known_in _ Kr)) as (w1 & E1 & H1).
    rewrite E1; cbn [bind].
    assert (Hk' : known_rels l) by (intros e He; apply Hk; cbn; auto).
    assert (FIN : forall w2 G, rowis w2 G ->
       (forall k, known k = true ->
          c_true (G k) = c_true (F k) + (match k with Some r' => if reqb r r' then 1 else 0 | None => 0 end) /\
          c_pred (G k) = c_pred (F k) /\
          c_common (G k) = c_common (F k) + ct_common p [((s,t),r)] k) ->
       exists w', foldM (true_step neqb reqb truthy p) (n + 1, w2) l = Ok (n + length (((s,t),r) :: l), w') /\
         rowis w' (fun k => {| c_true := c_true (F k) + ct_true (((s,t),r) :: l) k; c_pred := c_pred (F k);
                         c_common := c_common (F k) + ct_common p (((s,t),r) :: l) k |})).
    { intros w2 G HG HC. destruct (IH (n + 1) w2 G Hk' HG) as (w' & E' & H').
      exists w'. rewrite E'. split; [cbn [length]; do 2 f_equal; lia|].
      eapply rowis_ext; eauto. intros k Kk. destruct (HC k Kk) as (C1 & C2 & C3). cbn beta.
      rewrite C1, C2, C3. f_equal.
      - destruct k as [r'|]; cbn; [|lia]. unfold n_rel. cbn. destruct (reqb r r'); cbn; lia.
      - unfold ct_common. cbn. destruct (get_align neqb p s t) as [pr|]; cbn; [|lia].
        destruct k as [r'|]; cbn; [|lia]. destruct (reqb r r' && reqb pr r); cbn; lia. }
    destruct (get_align neqb p s t) as [pr|] eqn:G.
    + rewrite (Hp _ _ _ G).
      destruct (@upd_is w1 _ None (add_common 1) H1 eq_refl) as (w2 & E2 & H2). rewrite E2; cbn [bind].
      destruct (reqb pr r) eqn:Epr.
      * destruct (@upd_is w2 _ (Some r) (add_common 1) H2 (known_in _ Kr)) as (w3 & E3 & H3).
        rewrite E3; cbn [bind]. eapply FIN; [exact H3|].
        intros [r'|] _; cbn; unfold ct_common; cbn; rewrite G; cbn.
        -- assert (ES : reqb r' r = reqb r r').
           { apply eq_true_iff_eq. rewrite !reqb_spec. intuition. }
           rewrite Epr, andb_true_r, <- ES. destruct (reqb r' r); cbn; lia.
        -- lia.
      * cbn [bind]. eapply FIN; [exact H2|].
        intros [r'|] _; cbn; unfold ct_common; cbn; rewrite G; cbn.
        -- assert (ES : reqb r' r = reqb r r').
           { apply eq_true_iff_eq. rewrite !reqb_spec. intuition. }
           rewrite Epr, andb_false_r, <- ES. destruct (reqb r' r); cbn; lia.
        -- lia.
    + cbn [bind]. eapply FIN; [exact H1|].
      intros [r'|] _; cbn; unfold ct_common; cbn; rewrite G; cbn.
      * assert (ES : reqb r' r = reqb r r').
        { apply eq_true_iff_eq. rewrite !reqb_spec. intuition. }
        rewrite <- ES. destruct (reqb r' r); cbn; lia.
      * lia.
Qed.

Lemma pred_loop l n w F : known_rels l -> rowis w F ->
  exists w', foldM (@pred_step N R reqb) (n, w) l = Ok (n + length l, w') /\
   rowis w' (fun k => add_pred (ct_true l k) (F k)).
Proof.
  revert n w F. induction l as [|[[s t] r] l IH]; intros n w F Hk HF; cbn [foldM].
  - exists w. rewrite Nat.add_0_r. split; auto. eapply rowis_ext; eauto. intros [k|] _; unfold add_pred; cbn;
      destruct (F _); cbn; f_equal; lia.
  - assert (Kr : In r relations) by (apply (Hk ((s,t),r)); cbn; auto).
    unfold pred_step at 1. cbn [fst snd].
    destruct (@upd_is w F (Some r) (add_pred 1) HF (known_in _ Kr)) as (w1 & E1 & H1).
    rewrite E1; cbn [bind].
    destruct (IH (n + 1) w1 _ ltac:(intros e He; apply Hk; cbn; auto) H1) as (w' & E' & H').
    exists w'. rewrite E'. split; [cbn [length]; do 2 f_equal; lia|].
    eapply rowis_ext; eauto. intros [r'|] _; unfold add_pred; cbn; [|reflexivity].
    assert (ES : reqb r' r = reqb r r').
    { apply eq_true_iff_eq. rewrite !reqb_spec. intuition. }
    unfold n_rel. cbn. rewrite <- ES. destruct (reqb r' r); cbn; f_equal; lia.
Qed.

Definition pair_counts (t p : digraph) (k : key R) : counts :=
  {| c_true := match k with None => length (edges t) | Some r => n_rel reqb r (edges t) end;
     c_pred := match k with None => length (edges p) | Some r => n_rel reqb r (edges p) end;
     c_common := ct_common p (edges t) k |}.
Definition plus_counts (a b : counts) : counts :=
  {| c_true := c_true a + c_true b; c_pred := c_pred a + c_pred b; c_common := c_common a + c_common b |}.

Lemma get_align_truthy (p : digraph) : known_rels (edges p) ->
  forall s t r, get_align neqb p s t = Some r -> truthy r = true.
Proof.
  intros H s t r G. apply truthy_ok. apply (H ((s,t),r)). unfold get_align in G.
  eapply dget_in; [|exact G]. now apply pair_eqb_spec.
Qed.

Lemma pair_step_ok w F t p : known_rels (edges t) -> known_rels (edges p) -> rowis w F ->
  exists w', pair_step neqb reqb truthy w (t, p) = Ok w' /\
    rowis w' (fun k => plus_counts (F k) (pair_counts t p k)).
Proof.
  intros Kt Kp HF. unfold pair_step. cbn [fst snd alignments].
  destruct (true_loop p 0 Kt (get_align_truthy p Kp) HF) as (w1 & E1 & H1). rewrite E1; cbn [bind fst snd].
  destruct (@upd_is w1 _ None (add_true (0 + length (edges t))) H1 eq_refl) as (w2 & E2 & H2).
  rewrite E2; cbn [bind].
  destruct (pred_loop 0 Kp H2) as (w3 & E3 & H3). rewrite E3; cbn [bind fst snd].
  destruct (@upd_is w3 _ None (add_pred (0 + length (edges p))) H3 eq_refl) as (w4 & E4 & H4).
  rewrite E4. exists w4; split; auto. eapply rowis_ext; eauto.
  intros [r|] _; cbn; unfold plus_counts, pair_counts, add_pred, add_true; cbn; f_equal; lia.
Qed.

Definition total_counts (tp : list (digraph * digraph)) (k : key R) : counts :=
  fold_right (fun q acc => plus_counts (pair_counts (fst q) (snd q) k) acc) zero_counts tp.

Lemma pairs_ok tp w F :
  (forall q, In q tp -> known_rels (edges (fst q)) /\ known_rels (edges (snd q))) -> rowis w F ->
  exists w', foldM (pair_step neqb reqb truthy) w tp = Ok w' /\
    rowis w' (fun k => plus_counts (F k) (total_counts tp k)).
Proof.
  revert w F; induction tp as [|[t p] tp IH]; intros w F HK HF; cbn [foldM].
  - exists w; split; auto. eapply rowis_ext; eauto. intros k _. unfold plus_counts; cbn.
    destruct (F k); cbn; f_equal; lia.
  - destruct (HK (t,p)) as [Kt Kp]; [cbn; auto|].
    destruct (pair_step_ok t p Kt Kp HF) as (w1 & E1 & H1). rewrite E1; cbn [bind].
    destruct (IH w1 _ ltac:(intros; apply HK; cbn; auto) H1) as (w2 & E2 & H2).
    exists w2; split; auto. eapply rowis_ext; eauto. intros k _.
    change (total_counts ((t, p) :: tp) k) with (plus_counts (pair_counts t p k) (total_counts tp k)).
    cbv beta. generalize (total_counts tp k), (pair_counts t p k). intros a b. unfold plus_counts; cbn. f_equal; lia.
Qed.

Notation teq := (teqb neqb reqb).
Lemma teqb_spec : forall x y, teq x y = true <-> x = y.
Proof. apply pair_eqb_spec; auto. now apply pair_eqb_spec. Qed.

Lemma filter_ext_len {X} (f g : X -> bool) l : (forall x, In x l -> f x = g x) ->
  length (filter f l) = length (filter g l).
Proof. intros H. now rewrite (filter_ext_in f g l H). Qed.

Lemma ct_common_rel (t p : digraph) r : wf p ->
  ct_common p (edges t) (Some r) = n_both_rel neqb reqb r (edges t) (edges p).
Proof.
  intros W. unfold ct_common, n_both_rel. apply filter_ext_len. intros [[s u] r'] _. cbn.
  destruct (get_align neqb p s u) as [pr|] eqn:G.
  - f_equal. apply ga_in in G; auto. apply eq_true_iff_eq. rewrite reqb_spec, (mem_spec teq teqb_spec).
    split.
    + now intros ->.
    + intros H. apply (ga_in neqb neqb_spec _ _ _ W) in G. apply (ga_in neqb neqb_spec _ _ _ W) in H. congruence.
  - destruct (mem teq (s, u, r') (edges p)) eqn:M; [|now rewrite andb_false_r].
    apply (mem_spec teq teqb_spec) in M. apply (ga_in neqb neqb_spec _ _ _ W) in M. congruence.
Qed.
Lemma ct_common_any (t p : digraph) : wf p ->
  ct_common p (edges t) None = n_both_any neqb (edges t) (edges p).
Proof.
  intros W. unfold ct_common, n_both_any. apply filter_ext_len. intros [[s u] r'] _. cbn.
  assert (S := @pair_eqb_spec N N neqb neqb neqb_spec neqb_spec).
  destruct (get_align neqb p s u) as [pr|] eqn:G.
  - symmetry. apply (mem_spec _ S). apply ga_in in G; auto. now apply (in_map fst) in G.
  - symmetry. destruct (mem _ _ _) eqn:M; auto. apply (mem_spec _ S) in M.
    apply in_map_iff in M as ([[s' u'] r''] & [= <- <-] & M).
    apply (ga_in neqb neqb_spec _ _ _ W) in M. congruence.
Qed.

Lemma total_over (tp : list (digraph * digraph)) k f :
  forall proj, (forall a b, proj (plus_counts a b) = proj a + proj b) -> proj zero_counts = 0 ->
  (forall t p, In (t, p) tp -> proj (pair_counts t p k) = f (edges t) (edges p)) ->
  proj (total_counts tp k) = list_sum (map (fun q => f (edges (fst q)) (edges (snd q))) tp).
Proof.
  intros proj Hp H0 Hf. induction tp as [|[t p] tp IH]; [exact H0|].
  change (total_counts ((t, p) :: tp) k) with (plus_counts (pair_counts t p k) (total_counts tp k)).
  rewrite Hp, IH by (intros; apply Hf; cbn; auto). rewrite Hf by (cbn; auto). reflexivity.
Qed.

Definition goodg (g : digraph) := wf g /\ known_rels (edges g).

Lemma eval_row_ok ts ps : Forall goodg ts -> Forall goodg ps -> length ts = length ps ->
  exists w, eval_row neqb reqb truthy relations ts ps = Ok w /\
   (forall k, known k = false -> dget kq w k = None) /\
   (forall r, In r relations -> exists c, dget kq w (Some r) = Some c /\
      c_true c = over_pairs (fun t _ => n_rel reqb r t) (map (@edges N R) ts) (map (@edges N R) ps) /\
      c_pred c = over_pairs (fun _ p => n_rel reqb r p) (map (@edges N R) ts) (map (@edges N R) ps) /\
      c_common c = over_pairs (n_both_rel neqb reqb r) (map (@edges N R) ts) (map (@edges N R) ps)) /\
   (exists c, dget kq w None = Some c /\
      c_true c = over_pairs (fun t _ => length t) (map (@edges N R) ts) (map (@edges N R) ps) /\
      c_pred c = over_pairs (fun _ p => length p) (map (@edges N R) ts) (map (@edges N R) ps) /\
      c_common c = over_pairs (n_both_any neqb) (map (@edges N R) ts) (map (@edges N R) ps)).
Proof.
  intros Gt Gp L. unfold eval_row. rewrite (proj2 (Nat.eqb_eq _ _) L). cbn [negb].
  rewrite Forall_forall in Gt, Gp.
  assert (GC : forall t p, In (t, p) (combine ts ps) -> goodg t /\ goodg p).
  { intros t p H. split; [apply Gt; eapply in_combine_l; eauto|apply Gp; eapply in_combine_r; eauto]. }
  destruct (@pairs_ok (combine ts ps) _ _ ltac:(intros [t p] H; destruct (GC _ _ H) as [[_ A] [_ B]]; cbn; auto) zero_row_is)
    as (w & E & H). rewrite E. exists w; split; auto.
  assert (OV : forall (f : list ((N*N)*R) -> list ((N*N)*R) -> nat),
     over_pairs f (map (@edges N R) ts) (map (@edges N R) ps) =
     list_sum (map (fun q => f (edges (fst q)) (edges (snd q))) (combine ts ps))).
  { intros f. unfold over_pairs. clear. revert ps; induction ts as [|t ts IH]; intros [|p ps]; cbn; auto. }
  split; [intros k K; now rewrite H, K|]. split.
  - intros r Hr. rewrite H, (known_in _ Hr). eexists; split; [reflexivity|]. cbv beta; cbn [plus_counts c_true c_pred c_common zero_counts Nat.add]. rewrite !OV.
    repeat split.
    + apply (@total_over (combine ts ps) _ (fun t _ => n_rel reqb r t) c_true); auto.
    + apply (@total_over (combine ts ps) _ (fun _ p => n_rel reqb r p) c_pred); auto.
    + apply (@total_over (combine ts ps) _ (n_both_rel neqb reqb r) c_common); auto.
      intros t p Hin. cbn. apply ct_common_rel. apply (GC _ _ Hin).
  - rewrite H. cbn [known]. eexists; split; [reflexivity|]. cbv beta; cbn [plus_counts c_true c_pred c_common zero_counts Nat.add]. rewrite !OV.
    repeat split.
    + apply (@total_over (combine ts ps) _ (fun t _ => length t) c_true); auto.
    + apply (@total_over (combine ts ps) _ (fun _ p => length p) c_pred); auto.
    + apply (@total_over (combine ts ps) _ (n_both_any neqb) c_common); auto.
      intros t p Hin. cbn. apply ct_common_any. apply (GC _ _ Hin).
Qed.

(** Laws of the counts *)
Lemma filter_len_le {X} (f : X -> bool) l : length (filter f l) <= length l.
Proof. induction l as [|x l IH]; cbn; auto. destruct (f x); cbn; lia. Qed.

Lemma filter_and_le {X} (f g : X -> bool) l : length (filter (fun x => f x && g x) l) <= length (filter f l).
Proof. induction l as [|x l IH]; cbn; auto. destruct (f x); cbn; auto. destruct (g x); cbn; lia. Qed.

Lemma nodup_filter_swap {X} (e : X -> X -> bool) (He : forall x y, e x y = true <-> x = y)
  (f : X -> bool) (a b : list X) : NoDup a -> NoDup b ->
  length (filter (fun x => f x && mem e x b) a) = length (filter (fun x => f x && mem e x a) b).
Proof.
  intros Na Nb. apply Nat.le_antisymm; apply NoDup_incl_length; try (apply NoDup_filter; auto);
    intros x; rewrite !filter_In, !andb_true_iff, !(mem_spec e He); tauto.
Qed.
Lemma n_both_rel_sym r (a b : list ((N*N)*R)) : NoDup (map fst a) -> NoDup (map fst b) ->
  n_both_rel neqb reqb r a b = n_both_rel neqb reqb r b a.
Proof.
  intros Ha Hb. unfold n_both_rel.
  apply (nodup_filter_swap teq teqb_spec (fun e => reqb (snd e) r)); eapply NoDup_map_inv; eauto.
Qed.
Lemma filter_map_len {X Y} (f : X -> Y) (g : Y -> bool) l :
  length (filter (fun x => g (f x)) l) = length (filter g (map f l)).
Proof. induction l as [|x l IH]; cbn; auto. destruct (g (f x)); cbn; lia. Qed.
Lemma n_both_any_sym (a b : list ((N*N)*R)) : NoDup (map fst a) -> NoDup (map fst b) ->
  n_both_any neqb a b = n_both_any neqb b a.
Proof.
  intros Ha Hb. unfold n_both_any.
  rewrite (filter_map_len fst (fun e => mem (pair_eqb neqb neqb) e (map fst b))).
  rewrite (filter_map_len fst (fun e => mem (pair_eqb neqb neqb) e (map fst a))).
  apply (@nodup_filter_swap _ (pair_eqb neqb neqb) (pair_eqb_spec neqb neqb neqb_spec neqb_spec) (fun _ => true)); auto.
Qed.

Lemma over_pairs_swap {X} (f g : X -> X -> nat) ts ps :
  (forall t p, In t ts -> In p ps -> f t p = g p t) ->
  over_pairs f ts ps = over_pairs g ps ts.
Proof.
  unfold over_pairs. revert ps; induction ts as [|t ts IH]; intros [|p ps] H; cbn; auto.
  rewrite H by (cbn; auto). rewrite IH; auto. intros; apply H; cbn; auto.
Qed.
Lemma over_pairs_le {X} (f g : X -> X -> nat) ts ps :
  (forall t p, In t ts -> In p ps -> f t p <= g t p) -> over_pairs f ts ps <= over_pairs g ts ps.
Proof.
  unfold over_pairs. revert ps; induction ts as [|t ts IH]; intros [|p ps] H; cbn; auto.
  specialize (IH ps ltac:(intros; apply H; cbn; auto)).
  specialize (H t p ltac:(cbn; auto) ltac:(cbn; auto)). unfold list_sum in *. lia.
Qed.

Lemma good_nodup g : goodg g -> NoDup (map fst (edges g)).
Proof. intros [W _]. apply W. Qed.

(** swapping the corpora *)
Lemma eval_row_swap ts ps w w' : Forall goodg ts -> Forall goodg ps ->
  eval_row neqb reqb truthy relations ts ps = Ok w ->
  eval_row neqb reqb truthy relations ps ts = Ok w' ->
  forall k, dget kq w' k = option_map (fun c => {| c_true := c_pred c; c_pred := c_true c; c_common := c_common c |})
                                     (dget kq w k).
Proof.
  intros Gt Gp E E' k.
  assert (L : length ts = length ps).
  { unfold eval_row in E. destruct (Nat.eqb_spec (length ts) (length ps)); auto. discriminate. }
  destruct (eval_row_ok Gt Gp L) as (v & Ev & V0 & V1 & V2). rewrite E in Ev. injection Ev as <-.
  destruct (eval_row_ok Gp Gt (eq_sym L)) as (v' & Ev' & V0' & V1' & V2'). rewrite E' in Ev'. injection Ev' as <-.
  assert (ND : forall gs x, Forall goodg gs -> In x (map (@edges N R) gs) -> NoDup (map fst x)).
  { intros gs x G H. apply in_map_iff in H as (g & <- & H). rewrite Forall_forall in G. now apply good_nodup, G. }
  assert (CE : forall c d, c_true c = c_true d -> c_pred c = c_pred d -> c_common c = c_common d -> c = d).
  { intros [] []; cbn; congruence. }
  destruct k as [r|].
  - destruct (mem reqb r relations) eqn:M.
    + apply mem_spec in M; auto. destruct (V1 _ M) as (c & Ec & C1 & C2 & C3).
      destruct (V1' _ M) as (c' & Ec' & C1' & C2' & C3'). rewrite Ec, Ec'. cbn. f_equal.
      apply CE; cbn.
      * rewrite C1', C2. apply over_pairs_swap; auto.
      * rewrite C2', C1. apply over_pairs_swap; auto.
      * rewrite C3', C3. apply over_pairs_swap. intros. apply n_both_rel_sym; eauto.
    + rewrite V0, V0'; auto.
  - destruct V2 as (c & Ec & C1 & C2 & C3). destruct V2' as (c' & Ec' & C1' & C2' & C3').
    rewrite Ec, Ec'. cbn. f_equal. apply CE; cbn.
    + rewrite C1', C2. apply over_pairs_swap; auto.
    + rewrite C2', C1. apply over_pairs_swap; auto.
    + rewrite C3', C3. apply over_pairs_swap. intros. apply n_both_any_sym; eauto.
Qed.

Lemma eval_row_common ts ps w k c : Forall goodg ts -> Forall goodg ps ->
  eval_row neqb reqb truthy relations ts ps = Ok w -> dget kq w k = Some c ->
  c_common c <= c_true c /\ c_common c <= c_pred c.
Proof.
  intros Gt Gp E Hc.
  assert (L : length ts = length ps).
  { unfold eval_row in E. destruct (Nat.eqb_spec (length ts) (length ps)); auto. discriminate. }
  assert (ONE : forall ts ps w c, Forall goodg ts -> Forall goodg ps -> length ts = length ps ->
    eval_row neqb reqb truthy relations ts ps = Ok w -> dget kq w k = Some c -> c_common c <= c_true c).
  { clear - neqb_spec reqb_spec truthy_ok. intros ts ps w c Gt Gp L E Hc.
    destruct (eval_row_ok Gt Gp L) as (v & Ev & V0 & V1 & V2). rewrite E in Ev. injection Ev as <-.
    destruct k as [r|].
    - destruct (mem reqb r relations) eqn:M; [|rewrite V0 in Hc; [discriminate|auto]].
      apply mem_spec in M; auto. destruct (V1 _ M) as (c' & Ec & C1 & C2 & C3).
      rewrite Hc in Ec; injection Ec as <-. rewrite C1, C3. apply over_pairs_le. intros t p _ _.
      apply filter_and_le.
    - destruct V2 as (c' & Ec & C1 & C2 & C3). rewrite Hc in Ec. injection Ec as <-.
      rewrite C1, C3. apply over_pairs_le. intros. apply filter_len_le. }
  split; [exact (ONE ts ps w c Gt Gp L E Hc)|].
  destruct (eval_row_ok Gp Gt (eq_sym L)) as (v' & Ev' & _).
  pose proof (eval_row_swap Gt Gp E Ev' k) as S. rewrite Hc in S. cbn in S.
  pose proof (ONE ps ts v' _ Gp Gt (eq_sym L) Ev' S) as X. cbn in X. exact X.
Qed.

Lemma n_both_rel_self r (a : list ((N*N)*R)) : n_both_rel neqb reqb r a a = n_rel reqb r a.
Proof.
  unfold n_both_rel, n_rel. apply filter_ext_len. intros e He.
  rewrite (proj2 (mem_spec teq teqb_spec e a) He). apply andb_true_r.
Qed.
Lemma n_both_any_self (a : list ((N*N)*R)) : n_both_any neqb a a = length a.
Proof.
  unfold n_both_any. rewrite (filter_ext_len _ (fun _ => true)).
  - clear. induction a; cbn; auto.
  - intros e He. apply (mem_spec _ (pair_eqb_spec neqb neqb neqb_spec neqb_spec)). now apply in_map.
Qed.
Lemma over_self {X} (f g : X -> X -> nat) ts : (forall t, In t ts -> f t t = g t t) -> over_pairs f ts ts = over_pairs g ts ts.
Proof.
  intros H. unfold over_pairs. induction ts as [|t ts IH]; cbn; auto.
  rewrite H by (cbn; auto). f_equal. apply IH. intros; apply H; cbn; auto.
Qed.
Lemma eval_row_self ts w k c : Forall goodg ts ->
  eval_row neqb reqb truthy relations ts ts = Ok w -> dget kq w k = Some c ->
  c_common c = c_true c /\ c_common c = c_pred c.
Proof.
  intros G E Hc. destruct (eval_row_ok G G eq_refl) as (v & Ev & V0 & V1 & V2). rewrite E in Ev. injection Ev as <-.
  destruct k as [r|].
  - destruct (mem reqb r relations) eqn:M; [|rewrite V0 in Hc; [discriminate|auto]].
    apply mem_spec in M; auto. destruct (V1 _ M) as (c' & Ec & C1 & C2 & C3).
    rewrite Hc in Ec; injection Ec as <-. rewrite C1, C2, C3.
    split; apply over_self; intros; apply n_both_rel_self.
  - destruct V2 as (c' & Ec & C1 & C2 & C3). rewrite Hc in Ec. injection Ec as <-. rewrite C1, C2, C3.
    split; apply over_self; intros; apply n_both_any_self.
Qed.

(** any-relation totals *)
Lemma list_sum_map_add {X} (f g : X -> nat) l :
  list_sum (map (fun x => f x + g x) l) = list_sum (map f l) + list_sum (map g l).
Proof. induction l as [|x l IH]; cbn; auto. unfold list_sum in *. lia. Qed.
Lemma sum_one r : NoDup relations -> In r relations ->
  list_sum (map (fun r' => if reqb r r' then 1 else 0) relations) = 1.
Proof.
  clear truthy_ok. induction relations as [|x l IH]; cbn; [tauto|]. intros ND H. inversion ND; subst.
  destruct (reqb r x) eqn:E.
  - apply reqb_spec in E as ->. enough (list_sum (map (fun r' => if reqb x r' then 1 else 0) l) = 0) by (unfold list_sum in *; lia).
    clear - H2 reqb_spec. induction l as [|y l IH]; cbn; auto.
    destruct (reqb x y) eqn:E; [apply reqb_spec in E as ->; cbn in H2; tauto|].
    apply IH. cbn in H2; tauto.
  - destruct H as [->|H]; [rewrite reqb_refl in E; discriminate|]. unfold list_sum in *. rewrite IH; auto.
Qed.
Lemma sum_rel (l : list ((N*N)*R)) : NoDup relations -> known_rels l ->
  list_sum (map (fun r => n_rel reqb r l) relations) = length l.
Proof.
  intros ND. induction l as [|e l IH]; intros HK.
  - unfold n_rel. cbn. clear. induction relations; cbn; auto.
  - rewrite (map_ext _ (fun r => (if reqb (snd e) r then 1 else 0) + n_rel reqb r l)).
    + rewrite list_sum_map_add, sum_one, IH; auto.
      * intros x Hx; apply HK; cbn; auto.
      * apply HK; cbn; auto.
    + intros r. unfold n_rel. cbn. destruct (reqb (snd e) r); cbn; lia.
Qed.
Lemma sum_both (t p : list ((N*N)*R)) : NoDup relations -> known_rels t ->
  list_sum (map (fun r => n_both_rel neqb reqb r t p) relations) <= n_both_any neqb t p.
Proof.
  intros ND. induction t as [|e t IH]; intros HK.
  - unfold n_both_rel. cbn. clear. induction relations; cbn; auto.
  - rewrite (map_ext _ (fun r => (if reqb (snd e) r then (if mem teq e p then 1 else 0) else 0) + n_both_rel neqb reqb r t p)).
    + rewrite list_sum_map_add.
      assert (IH' := IH ltac:(intros x Hx; apply HK; cbn; auto)).
      unfold n_both_any in *. cbn.
      assert (X : list_sum (map (fun r => if reqb (snd e) r then (if mem teq e p then 1 else 0) else 0) relations)
         = if mem teq e p then 1 else 0).
      { destruct (mem teq e p).
        - apply sum_one; auto. apply HK; cbn; auto.
        - clear. induction relations as [|x l IHl]; cbn; auto. unfold list_sum in *. destruct (reqb (snd e) x); auto. }
      rewrite X. destruct (mem teq e p) eqn:M.
      * apply (mem_spec teq teqb_spec) in M.
        rewrite (proj2 (mem_spec _ (pair_eqb_spec neqb neqb neqb_spec neqb_spec) (fst e) (map fst p))) by now apply in_map.
        cbn. lia.
      * destruct (mem (pair_eqb neqb neqb) (fst e) (map fst p)); cbn; lia.
    + intros r. unfold n_both_rel. cbn. destruct (reqb (snd e) r); cbn; auto. destruct (mem teq e p); cbn; lia.
Qed.
Lemma sum_over_pairs {X} (f : R -> X -> X -> nat) ts ps :
  list_sum (map (fun r => over_pairs (f r) ts ps) relations) =
  over_pairs (fun t p => list_sum (map (fun r => f r t p) relations)) ts ps.
Proof.
  unfold over_pairs. generalize (combine ts ps). induction l as [|q l IH].
  - clear. induction relations; cbn; auto.
  - rewrite (map_ext _ (fun r => f r (fst q) (snd q) + list_sum (map (fun q => f r (fst q) (snd q)) l))) by reflexivity.
    rewrite list_sum_map_add, IH. reflexivity.
Qed.

Definition cnt (w : row R) (proj : counts -> nat) (k : key R) : nat :=
  match dget kq w k with Some c => proj c | None => 0 end.
Lemma eval_row_totals ts ps w : NoDup relations -> Forall goodg ts -> Forall goodg ps ->
  eval_row neqb reqb truthy relations ts ps = Ok w ->
  cnt w c_true None = list_sum (map (fun r => cnt w c_true (Some r)) relations) /\
  cnt w c_pred None = list_sum (map (fun r => cnt w c_pred (Some r)) relations) /\
  list_sum (map (fun r => cnt w c_common (Some r)) relations) <= cnt w c_common None.
Proof.
  intros ND Gt Gp E.
  assert (L : length ts = length ps).
  { unfold eval_row in E. destruct (Nat.eqb_spec (length ts) (length ps)); auto. discriminate. }
  destruct (eval_row_ok Gt Gp L) as (v & Ev & V0 & V1 & V2). rewrite E in Ev. injection Ev as <-.
  destruct V2 as (c & Ec & C1 & C2 & C3). unfold cnt. rewrite Ec, C1, C2, C3.
  assert (GE : forall gs x, Forall goodg gs -> In x (map (@edges N R) gs) -> known_rels x).
  { intros gs x G H. apply in_map_iff in H as (g & <- & H). rewrite Forall_forall in G. now apply G. }
  assert (X : forall proj f, (forall r, In r relations -> exists c, dget kq w (Some r) = Some c /\
       proj c = over_pairs (f r) (map (@edges N R) ts) (map (@edges N R) ps)) ->
     map (fun r => match dget kq w (Some r) with Some c => proj c | None => 0 end) relations =
     map (fun r => over_pairs (f r) (map (@edges N R) ts) (map (@edges N R) ps)) relations).
  { intros proj f H. apply map_ext_in. intros r Hr. destruct (H r Hr) as (c' & -> & ->). auto. }
  rewrite (X c_true (fun r t _ => n_rel reqb r t)).
  2:{ intros r Hr. destruct (V1 r Hr) as (c' & ? & ? & ? & ?). eauto. }
  rewrite (X c_pred (fun r _ p => n_rel reqb r p)).
  2:{ intros r Hr. destruct (V1 r Hr) as (c' & ? & ? & ? & ?). eauto. }
  rewrite (X c_common (fun r => n_both_rel neqb reqb r)).
  2:{ intros r Hr. destruct (V1 r Hr) as (c' & ? & ? & ? & ?). eauto. }
  rewrite !sum_over_pairs.
  assert (EQ : forall f g : list ((N*N)*R) -> list ((N*N)*R) -> nat, forall ts ps,
    (forall t p, In t ts -> In p ps -> f t p = g t p) -> over_pairs f ts ps = over_pairs g ts ps).
  { clear. intros f g ts. unfold over_pairs. induction ts as [|t ts IH]; intros [|p ps] H; auto.
    assert (X := IH ps ltac:(intros; apply H; cbn; auto)).
    specialize (H t p ltac:(cbn; auto) ltac:(cbn; auto)). cbn. unfold list_sum in *. lia. }
  split; [|split].
  - apply EQ. intros t p Ht Hp. symmetry. apply sum_rel; auto. exact (GE _ _ Gt Ht).
  - apply EQ. intros t p Ht Hp. symmetry. apply sum_rel; auto. exact (GE _ _ Gp Hp).
  - apply over_pairs_le. intros t p Ht Hp. apply sum_both; auto. exact (GE _ _ Gt Ht).
Qed.

Lemma eval_row_length_err ts ps : length ts <> length ps ->
  eval_row neqb reqb truthy relations ts ps = Err AssertionError.
Proof. intros L. unfold eval_row. destruct (Nat.eqb_spec (length ts) (length ps)); [congruence|auto]. Qed.
End P.

(** Measures *)
Lemma qnat_nonneg n : (0 <= qnat n)%Q.
Proof. unfold qnat, Qle; cbn; lia. Qed.
Lemma qnat_le a b : a <= b -> (qnat a <= qnat b)%Q.
Proof. unfold qnat, Qle; cbn; lia. Qed.
Lemma safe_div_range a b : (0 <= a)%Q -> (a <= b)%Q -> (0 <= safe_div a b /\ safe_div a b <= 1)%Q.
Proof.
  intros H1 H2. unfold safe_div. destruct (Qeq_bool b 0) eqn:E; [split; lra|].
  assert (B : ~ (b == 0)%Q) by (intros C; apply Qeq_bool_iff in C; congruence).
  assert (0 < b)%Q by lra. split.
  - apply Qle_shift_div_l; lra.
  - apply Qle_shift_div_r; lra.
Qed.
Lemma measures_range c : c_common c <= c_true c -> c_common c <= c_pred c ->
  (0 <= prec c /\ prec c <= 1)%Q /\ (0 <= rec c /\ rec c <= 1)%Q.
Proof.
  intros H1 H2. split; apply safe_div_range; auto using qnat_nonneg, qnat_le.
Qed.
Lemma f_between P Rr b : (0 <= P)%Q -> (0 <= Rr)%Q -> (0 <= b)%Q ->
  let F := safe_div ((b * b + 1) * P * Rr)%Q (b * b * P + Rr)%Q in
  (0 <= F)%Q /\ (P <= Rr -> P <= F \/ Rr == 0 -> F <= Rr)%Q /\
  ((P <= Rr)%Q -> (~ Rr == 0)%Q -> (P <= F /\ F <= Rr)%Q) /\
  ((Rr <= P)%Q -> (~ b * b * P + Rr == 0)%Q -> (Rr <= F /\ F <= P)%Q).
Proof.
  intros HP HR Hb F. unfold F, safe_div.
  assert (0 <= b * b)%Q by nra.
  assert (0 <= b * b * P)%Q by nra.
  destruct (Qeq_bool (b * b * P + Rr) 0) eqn:E.
  - apply Qeq_bool_iff in E. repeat split; try lra.
  - assert (B : ~ (b * b * P + Rr == 0)%Q) by (intros C; apply Qeq_bool_iff in C; congruence).
    assert (0 < b * b * P + Rr)%Q by lra.
    assert (0 <= P * Rr)%Q by nra.
    assert (0 <= (b * b) * (P * Rr))%Q by nra.
    repeat split; intros.
    + apply Qle_shift_div_l; auto. nra.
    + apply Qle_shift_div_r; auto. nra.
    + apply Qle_shift_div_l; auto. nra.
    + apply Qle_shift_div_r; auto. nra.
    + apply Qle_shift_div_l; auto. nra.
    + apply Qle_shift_div_r; auto. nra.
Qed.

Lemma common_zero c : c_common c = 0 -> (prec c == 0 /\ rec c == 0)%Q.
Proof.
  intros H. unfold prec, rec, safe_div. rewrite H. split.
  - destruct (Qeq_bool _ _) eqn:E; [reflexivity|].
    assert (B : ~ (qnat (c_pred c) == 0)%Q) by (intros C; apply Qeq_bool_iff in C; congruence).
    change (qnat 0) with 0%Q. field. auto.
  - destruct (Qeq_bool _ _) eqn:E; [reflexivity|].
    assert (B : ~ (qnat (c_true c) == 0)%Q) by (intros C; apply Qeq_bool_iff in C; congruence).
    change (qnat 0) with 0%Q. field. auto.
Qed.
Lemma qnat_pos n : 0 < n -> (0 < qnat n)%Q.
Proof. unfold qnat, Qlt; cbn; lia. Qed.
Lemma safe_div_pos a b : (0 < a)%Q -> (0 < b)%Q -> (0 < safe_div a b)%Q.
Proof.
  intros Ha Hb. unfold safe_div. destruct (Qeq_bool b 0) eqn:E.
  - apply Qeq_bool_iff in E. lra.
  - apply Qlt_shift_div_l; lra.
Qed.
Lemma f_score_spec beta c : c_common c <= c_true c -> c_common c <= c_pred c ->
  (0 <= beta)%Q -> (beta <= 1)%Q ->
  exists F, f_score beta c = Ok F /\ (0 <= F /\ F <= 1)%Q /\
    ((prec c <= F /\ F <= rec c) \/ (rec c <= F /\ F <= prec c))%Q.
Proof.
  intros H1 H2 Hb Hb1. unfold f_score.
  rewrite (proj2 (Qle_bool_iff 0 beta) Hb), (proj2 (Qle_bool_iff beta 1) Hb1). cbn [andb].
  eexists; split; [reflexivity|].
  destruct (@measures_range c H1 H2) as [[P0 P1] [R0 R1]].
  destruct (f_between P0 R0 Hb) as (F0 & _ & FA & FB).
  destruct (Nat.eq_dec (c_common c) 0) as [Z|Z].
  - destruct (common_zero c Z) as [PZ RZ].
    assert (FZ : (safe_div ((beta * beta + 1) * prec c * rec c) (beta * beta * prec c + rec c) == 0)%Q).
    { unfold safe_div. destruct (Qeq_bool _ _) eqn:E; [reflexivity|].
      assert (B : ~ (beta * beta * prec c + rec c == 0)%Q) by (intros C; apply Qeq_bool_iff in C; congruence).
      exfalso. apply B. rewrite PZ, RZ. ring. }
    rewrite FZ, PZ, RZ. split; [lra|left; lra].
  - assert (RP : (0 < rec c)%Q) by (apply safe_div_pos; apply qnat_pos; lia).
    assert (PP : (0 < prec c)%Q) by (apply safe_div_pos; apply qnat_pos; lia).
    assert (BB : (0 <= beta * beta * prec c)%Q) by nra.
    destruct (Qlt_le_dec (prec c) (rec c)) as [C|C].
    + destruct (FA ltac:(lra) ltac:(lra)). split; [lra|]. left; auto.
    + destruct (FB C ltac:(lra)). split; [lra|]. right; auto.
Qed.
Lemma f_score_err beta c : (beta < 0 \/ 1 < beta)%Q -> f_score beta c = Err AssertionError.
Proof.
  intros H. unfold f_score. destruct (Qle_bool 0 beta) eqn:E1; cbn; auto.
  destruct (Qle_bool beta 1) eqn:E2; auto.
  apply Qle_bool_iff in E1. apply Qle_bool_iff in E2. lra.
Qed.
Lemma perfect c : c_common c = c_true c -> c_common c = c_pred c -> 0 < c_common c ->
  (prec c == 1 /\ rec c == 1)%Q.
Proof.
  intros H1 H2 H3. unfold prec, rec. rewrite <- H1, <- H2.
  assert (A := qnat_pos H3). unfold safe_div. destruct (Qeq_bool _ _) eqn:E.
  - apply Qeq_bool_iff in E. lra.
  - split; field; lra.
Qed.
Lemma macro_mean_range m rows : rows <> [] -> (forall c, In c rows -> 0 <= m c /\ m c <= 1)%Q ->
  exists x, macro_mean m rows = Ok x /\ (0 <= x /\ x <= 1)%Q.
Proof.
  intros NE H. destruct rows as [|c0 rows]; [congruence|].
  unfold macro_mean. eexists; split; [reflexivity|].
  assert (G : (0 <= qsum (map m (c0 :: rows)) /\ qsum (map m (c0 :: rows)) <= qnat (length (c0 :: rows)))%Q).
  { clear NE. induction (c0 :: rows) as [|c l IH]; [cbn; split; apply Qle_refl|].
    destruct (IH ltac:(intros; apply H; cbn; auto)). destruct (H c ltac:(cbn; auto)).
    cbn [map qsum fold_right length]. unfold qsum in *.
    assert (qnat (S (length l)) == 1 + qnat (length l))%Q.
    { unfold qnat. rewrite Nat2Z.inj_succ. unfold Z.succ. rewrite inject_Z_plus. ring. }
    lra. }
  assert (0 < qnat (length (c0 :: rows)))%Q by (apply qnat_pos; cbn; lia).
  split; [apply Qle_shift_div_l|apply Qle_shift_div_r]; lra.
Qed.
Lemma list_sum_le {X} (f g : X -> nat) l : (forall x, In x l -> f x <= g x) -> list_sum (map f l) <= list_sum (map g l).
Proof.
  induction l as [|x l IH]; intros H; auto. specialize (IH ltac:(intros; apply H; cbn; auto)).
  specialize (H x ltac:(cbn; auto)). cbn. unfold list_sum in *. lia.
Qed.
Lemma sum_counts_ok rows : (forall c, In c rows -> c_common c <= c_true c /\ c_common c <= c_pred c) ->
  c_common (sum_counts rows) <= c_true (sum_counts rows) /\ c_common (sum_counts rows) <= c_pred (sum_counts rows).
Proof. intros H. split; apply list_sum_le; intros; apply H; auto. Qed.

Lemma measures_all : forall (beta : Q) (c : counts),
  c_common c <= c_true c -> c_common c <= c_pred c ->
  (0 <= prec c /\ prec c <= 1)%Q /\ (0 <= rec c /\ rec c <= 1)%Q /\
  ((0 <= beta)%Q -> (beta <= 1)%Q ->
    exists F, f_score beta c = Ok F /\ (0 <= F /\ F <= 1)%Q /\
    ((prec c <= F /\ F <= rec c) \/ (rec c <= F /\ F <= prec c))%Q) /\
  ((beta < 0 \/ 1 < beta)%Q -> f_score beta c = Err AssertionError).
Proof.
  intros beta c H1 H2. destruct (@measures_range c H1 H2). split; auto. split; auto. split.
  - now apply f_score_spec.
  - apply f_score_err.
Qed.
Lemma means_all : forall rows : list counts,
  (forall c, In c rows -> c_common c <= c_true c /\ c_common c <= c_pred c) ->
  (rows = [] -> forall m, macro_mean m rows = Err ZeroDivisionError) /\
  (rows <> [] -> (exists x, macro_mean prec rows = Ok x /\ (0 <= x /\ x <= 1)%Q) /\
                 (exists x, macro_mean rec rows = Ok x /\ (0 <= x /\ x <= 1)%Q)) /\
  (0 <= prec (sum_counts rows) /\ prec (sum_counts rows) <= 1)%Q /\
  (0 <= rec (sum_counts rows) /\ rec (sum_counts rows) <= 1)%Q.
Proof.
  intros rows H. split; [now intros ->|]. split.
  - intros NE. split; apply macro_mean_range; auto; intros c Hc; destruct (H c Hc) as [A B];
      destruct (@measures_range c A B); auto.
  - destruct (@sum_counts_ok rows H) as [A B]. apply measures_range; auto.
Qed.
Lemma eval_exchange :
  forall (N R : Type) (neqb : N -> N -> bool) (reqb : R -> R -> bool) (truthy : R -> bool),
  (forall x y, neqb x y = true <-> x = y) -> (forall x y, reqb x y = true <-> x = y) ->
  forall relations : list R, (forall r, In r relations -> truthy r = true) ->
  forall (ts ps : list (digraph N R)) w w',
  Forall (goodg relations) ts -> Forall (goodg relations) ps ->
  eval_row neqb reqb truthy relations ts ps = Ok w ->
  eval_row neqb reqb truthy relations ps ts = Ok w' ->
  forall k c, dget (keqb reqb) w k = Some c ->
  exists c', dget (keqb reqb) w' k = Some c' /\
    c_true c' = c_pred c /\ c_pred c' = c_true c /\ c_common c' = c_common c /\
    prec c' = rec c /\ rec c' = prec c.
Proof.
  intros N R neqb reqb truthy Hn Hr relations Ht ts ps w w' Gt Gp E E' k c Hc.
  pose proof (eval_row_swap neqb reqb truthy Hn Hr Ht Gt Gp E E' k) as S.
  rewrite Hc in S. cbn in S. eexists; split; [exact S|]. cbn. repeat split.
Qed.
Lemma eval_self :
  forall (N R : Type) (neqb : N -> N -> bool) (reqb : R -> R -> bool) (truthy : R -> bool),
  (forall x y, neqb x y = true <-> x = y) -> (forall x y, reqb x y = true <-> x = y) ->
  forall relations : list R, (forall r, In r relations -> truthy r = true) ->
  forall (ts : list (digraph N R)) w k c,
  Forall (goodg relations) ts ->
  eval_row neqb reqb truthy relations ts ts = Ok w -> dget (keqb reqb) w k = Some c ->
  c_common c = c_true c /\ c_common c = c_pred c /\
  (0 < c_true c -> (prec c == 1 /\ rec c == 1)%Q).
Proof.
  intros N R neqb reqb truthy Hn Hr relations Ht ts w k c G E Hc.
  destruct (eval_row_self neqb reqb truthy Hn Hr Ht _ G E Hc) as [A B].
  split; auto. split; auto. intros. apply perfect; auto. lia.
Qed.
From Verif Require Import Align_spec.
Lemma goodg_reachable :
  forall (N R : Type) (neqb : N -> N -> bool), (forall x y, neqb x y = true <-> x = y) ->
  forall (relations : list R) (ops : list (op N R)),
  (forall s t r, In (Add s t r) ops -> In r relations) ->
  goodg relations (run_matching neqb (empty_digraph N R) ops).
Proof.
  intros N R neqb Hn relations ops H.
  destruct (run_good Hn ops (good_empty N R) (@rep_empty N R neqb)) as [(W & _ & _) _].
  split; auto. intros [[s t] r] Hin. apply (ga_in neqb Hn _ _ _ W) in Hin.
  rewrite matching_refines in Hin by auto. cbn.
  assert (G : forall ops m, (forall s t r, In (Add s t r) ops -> In r relations) ->
     (forall s t r, m s t = Some r -> In r relations) ->
     forall s t r, fold_left (matching_spec neqb) ops m s t = Some r -> In r relations).
  { clear. induction ops as [|o ops IH]; intros m Ho Hm; cbn; auto.
    apply IH; [intros; eapply Ho; cbn; eauto|].
    intros s t r. destruct o as [s' t' r'|s' t']; cbn; unfold realign, unalign.
    - destruct (_ && _); [intros [= <-]; eapply Ho; cbn; eauto|]. destruct (_ || _); [discriminate|apply Hm].
    - destruct (_ && _); [discriminate|apply Hm]. }
  eapply G; eauto. unfold no_alignment. discriminate.
Qed.

Section Unknown.
Variables N R : Type.
Variable neqb : N -> N -> bool.
Variable reqb : R -> R -> bool.
Variable truthy : R -> bool.
Hypothesis reqb_spec : forall x y, reqb x y = true <-> x = y.
Notation kq := (keqb reqb).
Definition samedom (w w' : row R) := forall k, dget kq w' k = None <-> dget kq w k = None.
Lemma upd_dom w k f : match upd reqb w k f with
  | Ok w' => samedom w w' /\ dget kq w k <> None
  | Err e => e = KeyError /\ dget kq w k = None end.
Proof.
  destruct (dget kq w k) as [c|] eqn:E.
  - destruct (@upd_ok R reqb truthy reqb_spec w k f c E) as (w' & -> & H). split; [|discriminate].
    intros k'. rewrite H. destruct (kq k' k) eqn:E'; [|tauto].
    apply (@keqb_spec R reqb truthy) in E'; auto. subst. rewrite E. split; discriminate.
  - unfold upd, dread. rewrite E. cbn. auto.
Qed.
Lemma samedom_trans w1 w2 w3 : samedom w1 w2 -> samedom w2 w3 -> samedom w1 w3.
Proof. intros A B k. now rewrite (B k), (A k). Qed.
Lemma samedom_refl w : samedom w w. Proof. intros k; tauto. Qed.

Definition stepdom (l : list ((N*N)*R)) (w : row R) (r : res (nat * row R)) :=
  match r with
  | Ok st => samedom w (snd st) /\ forall e, In e l -> dget kq w (Some (snd e)) <> None
  | Err x => x = KeyError end.
Lemma loop_dom (step : nat * row R -> (N*N)*R -> res (nat * row R)) l st :
  (forall st e, stepdom [e] (snd st) (step st e)) -> stepdom l (snd st) (foldM step st l).
Proof.
  intros HS. revert st; induction l as [|e l IH]; intros st; cbn [foldM].
  - cbn. split; [apply samedom_refl|tauto].
  - specialize (HS st e). destruct (step st e) as [st'|x]; cbn [bind stepdom] in *; [|auto].
    destruct HS as [D K]. specialize (IH st'). destruct (foldM step st' l) as [st''|x]; cbn in *; auto.
    destruct IH as [D' K']. split; [eapply samedom_trans; eauto|].
    intros e' [<-|H]; [apply K; auto|]. specialize (K' e' H). now rewrite (D _) in K'.
Qed.
Lemma true_step_dom p st e : stepdom [e] (snd st) (true_step neqb reqb truthy p st e).
Proof.
  unfold true_step. destruct st as [n w]; cbn [fst snd].
  pose proof (upd_dom w (Some (snd e)) (add_true 1)) as A.
  destruct (upd reqb w (Some (snd e)) (add_true 1)) as [w1|x]; cbn [bind]; [|cbn; tauto].
  destruct A as [A1 A2].
  assert (FIN : forall w2, samedom w w2 -> stepdom [e] w (Ok (n + 1, w2))).
  { intros w2 D. split; auto. intros e' [<-|[]]. auto. }
  destruct (get_align neqb p _ _) as [pr|]; [|auto].
  destruct (truthy pr); [|auto].
  pose proof (upd_dom w1 None (add_common 1)) as B.
  destruct (upd reqb w1 None (add_common 1)) as [w2|x]; cbn [bind]; [|cbn; tauto]. destruct B as [B1 _].
  assert (samedom w w2) by (eapply samedom_trans; eauto).
  destruct (reqb pr (snd e)); [|auto].
  pose proof (upd_dom w2 (Some (snd e)) (add_common 1)) as C.
  destruct (upd reqb w2 (Some (snd e)) (add_common 1)) as [w3|x]; cbn [bind]; [|cbn; tauto]. destruct C as [C1 _].
  apply FIN. eapply samedom_trans; eauto.
Qed.
Lemma pred_step_dom st e : stepdom [e] (snd st) (@pred_step N R reqb st e).
Proof.
  unfold pred_step. destruct st as [n w]; cbn [fst snd].
  pose proof (upd_dom w (Some (snd e)) (add_pred 1)) as A.
  destruct (upd reqb w (Some (snd e)) (add_pred 1)) as [w1|x]; cbn [bind]; [|cbn; tauto].
  destruct A as [A1 A2]. cbn. split; auto. intros e' [<-|[]]. auto.
Qed.
Lemma pair_step_dom w q : match pair_step neqb reqb truthy w q with
  | Ok w' => samedom w w' /\ forall e, In e (edges (fst q) ++ edges (snd q)) -> dget kq w (Some (snd e)) <> None
  | Err x => x = KeyError end.
Proof.
  destruct q as [t p]. unfold pair_step. cbn [fst snd alignments].
  pose proof (loop_dom (true_step neqb reqb truthy p) (edges t) (0, w) (true_step_dom p)) as A.
  destruct (foldM _ (0, w) (edges t)) as [[n1 w1]|x]; cbn [bind stepdom fst snd] in *; auto.
  destruct A as [A1 A2]. pose proof (upd_dom w1 None (add_true n1)) as B.
  destruct (upd reqb w1 None _) as [w2|x]; cbn [bind]; [|tauto]. destruct B as [B1 _].
  pose proof (loop_dom (@pred_step N R reqb) (edges p) (0, w2) pred_step_dom) as C.
  destruct (foldM _ (0, w2) (edges p)) as [[n3 w3]|x]; cbn [bind stepdom fst snd] in *; auto.
  destruct C as [C1 C2]. pose proof (upd_dom w3 None (add_pred n3)) as D.
  destruct (upd reqb w3 None _) as [w4|x]; [|tauto]. destruct D as [D1 _].
  split; [eauto using samedom_trans|].
  intros e H. apply in_app_or in H as [H|H]; auto. specialize (C2 e H).
  now rewrite (B1 _), (A1 _) in C2.
Qed.
Lemma pairs_dom tp w : match foldM (pair_step neqb reqb truthy) w tp with
  | Ok w' => samedom w w' /\ forall q e, In q tp -> In e (edges (fst q) ++ edges (snd q)) -> dget kq w (Some (snd e)) <> None
  | Err x => x = KeyError end.
Proof.
  revert w; induction tp as [|q tp IH]; intros w; cbn [foldM].
  - split; [apply samedom_refl|cbn; tauto].
  - pose proof (pair_step_dom w q) as A. destruct (pair_step neqb reqb truthy w q) as [w1|x]; cbn [bind]; auto.
    destruct A as [A1 A2]. specialize (IH w1). destruct (foldM _ w1 tp) as [w2|x]; auto. destruct IH as [B1 B2].
    split; [eauto using samedom_trans|]. intros q' e [<-|H] He; [auto|]. specialize (B2 q' e H He).
    now rewrite (A1 _) in B2.
Qed.
Lemma eval_unknown relations ts ps q e : length ts = length ps -> In q (combine ts ps) ->
  In e (edges (fst q)) \/ In e (edges (snd q)) -> ~ In (snd e) relations ->
  eval_row neqb reqb truthy relations ts ps = Err KeyError.
Proof.
  intros L Hq He Hn. unfold eval_row. rewrite (proj2 (Nat.eqb_eq _ _) L). cbn [negb].
  pose proof (pairs_dom (combine ts ps) (zero_row reqb relations)) as A.
  destruct (foldM _ _ _) as [w|x]; [|now subst].
  destruct A as [_ A]. exfalso. apply (A q e Hq).
  - apply in_or_app; auto.
  - rewrite (@zero_row_is R reqb truthy reqb_spec relations). cbn.
    destruct (mem reqb (snd e) relations) eqn:M; auto. apply mem_spec in M; tauto.
Qed.
End Unknown.

(** Values of the measures. *)
Open Scope Q_scope.
Lemma ratio_div a b : safe_div (qnat a) (qnat b) == ratio a b.
Proof.
  unfold safe_div, qnat, ratio. destruct (Qeq_bool (inject_Z (Z.of_nat b)) 0) eqn:E.
  - apply Qeq_bool_iff in E. unfold Qeq in E. cbn in E. destruct b; [reflexivity|lia].
  - apply Qeq_bool_neq in E. destruct b; [exfalso; apply E; reflexivity|].
    unfold Qdiv, Qinv, inject_Z, Qeq, Qmult. cbn [Qnum Qden]. 
    destruct (Z.of_nat (S b)) eqn:Z; [lia| |lia]. cbn [Qnum Qden].
    assert (Pos.of_nat (S b) = p) by lia. rewrite H. lia.
Qed.
Lemma measure_values beta c :
  (prec c == ratio (c_common c) (c_pred c)) /\ (rec c == ratio (c_common c) (c_true c)) /\
  (0 <= beta -> beta <= 1 -> exists F, f_score beta c = Ok F /\
     (F * (beta * beta * prec c + rec c) == (beta * beta + 1) * prec c * rec c) /\
     (beta * beta * prec c + rec c == 0 -> F == 0)).
Proof.
  split; [apply ratio_div|]. split; [apply ratio_div|]. intros A B.
  unfold f_score. rewrite (proj2 (Qle_bool_iff _ _) A), (proj2 (Qle_bool_iff _ _) B). cbn [andb].
  eexists. split; [reflexivity|]. unfold safe_div. destruct (Qeq_bool _ 0) eqn:E.
  - apply Qeq_bool_iff in E. split; [|intros; reflexivity]. rewrite E, Qmult_0_l.
    (* both summands are 0 *)
    assert (P0 : 0 <= prec c) by (unfold prec, rec; rewrite ratio_div; unfold ratio; destruct (c_pred c); [apply Qle_refl|unfold Qle; cbn; lia]).
    assert (R0 : 0 <= rec c) by (unfold prec, rec; rewrite ratio_div; unfold ratio; destruct (c_true c); [apply Qle_refl|unfold Qle; cbn; lia]).
    assert (S0 : 0 <= beta * beta * prec c) by (apply Qmult_le_0_compat; [apply Qmult_le_0_compat; assumption|assumption]).
    assert (R1 : rec c == 0) by (apply Qle_antisym; [|assumption]; rewrite <- E; rewrite <- (Qplus_0_l (rec c)) at 1; apply Qplus_le_compat; [assumption|apply Qle_refl]).
    rewrite R1. ring.
  - apply Qeq_bool_neq in E. split; [field; exact E|]. intros; contradiction.
Qed.
Lemma qsum_total X (f : X -> Q) l : qsum (map f l) = q_total f l.
Proof. induction l as [|x l IH]; [reflexivity|]. cbn [map qsum fold_right q_total]. unfold qsum in IH. now rewrite IH. Qed.
Lemma mean_values (m : counts -> Q) rows : rows <> [] ->
  exists x, macro_mean m rows = Ok x /\ x * q_of (length rows) == q_total m rows.
Proof.
  intros H. unfold macro_mean. destruct rows as [|c rows]; [contradiction|]. eexists. split; [reflexivity|].
  rewrite qsum_total. change (q_of (length (c :: rows))) with (qnat (length (c :: rows))).
  field. unfold qnat, Qeq. cbn [inject_Z Qnum Qden length]. lia.
Qed.
Lemma variance_values values mean :
  (length values = 1%nat -> variance values mean == 0) /\
  ((2 <= length values)%nat -> variance values mean * q_of (length values - 1) == q_total (fun v => (v - mean) * (v - mean)) values).
Proof.
  unfold variance, safe_div. split; intros H.
  - rewrite H. reflexivity.
  - assert (E : qnat (length values) - 1 == q_of (length values - 1)).
    { unfold qnat, q_of, Qminus, Qopp, Qplus, Qeq, inject_Z. cbn [Qnum Qden]. lia. }
    assert (Z : ~ q_of (length values - 1) == 0) by (unfold q_of, Qeq; cbn [inject_Z Qnum Qden]; lia).
    destruct (Qeq_bool _ 0) eqn:F.
    + apply Qeq_bool_iff in F. rewrite E in F. contradiction.
    + rewrite E. rewrite <- qsum_total. field. exact Z.
Qed.
