From Coq Require Import String Ascii DecimalString DecimalNat Permutation Sorted.
From Verif Require Import Py PyLemmas Purge_spec Purge_model Purge_proof Corpus_spec Corpus_model Corpus_proof Align_model Align_spec Align_proof PgcXml_model PgcXml_spec.
Import ListNotations.
Set Implicit Arguments.
Open Scope list_scope.
Local Notation "x +++ y" := (String.append x y) (at level 60, right associativity).

(** ** Strings and paths *)
Lemma str_inj n m : str n = str m -> n = m.
Proof.
  unfold str. intros H. apply Unsigned.to_uint_inj.
  pose proof (NilEmpty.usu (Nat.to_uint n)) as A. pose proof (NilEmpty.usu (Nat.to_uint m)) as B. rewrite H in A. congruence.
Qed.
Definition slashfree (x : string) : Prop := forall a b, x <> (a +++ "/" +++ b)%string.
Lemma slashfree_cons c x : slashfree (String c x) -> (c =? "/")%char = false /\ slashfree x.
Proof.
  intros H. split.
  - apply Ascii.eqb_neq. intros ->. apply (H EmptyString x). reflexivity.
  - intros a b ->. apply (H (String c a) b). reflexivity.
Qed.
Lemma split_single x : slashfree x -> split_path x = [x].
Proof.
  induction x as [|c x IH]; intros H; auto. apply slashfree_cons in H as [E H]. cbn [split_path]. now rewrite E, IH.
Qed.
Lemma split_app x s : slashfree x -> split_path (x +++ "/" +++ s) = x :: split_path s.
Proof.
  induction x as [|c x IH]; intros H; auto. apply slashfree_cons in H as [E H].
  change (split_path (String c (x +++ "/" +++ s)) = String c x :: split_path s). cbn [split_path]. now rewrite E, IH.
Qed.
Lemma split_slashed p : p <> [] -> Forall slashfree p -> split_path (slashed p) = p.
Proof.
  unfold slashed. induction p as [|x p IH]; [congruence|]. intros _ H. inversion H as [|? ? Hx Hp]; subst.
  destruct p as [|y p]; [now apply split_single|].
  change (String.concat "/" (x :: y :: p)) with (x +++ "/" +++ String.concat "/" (y :: p)).
  rewrite split_app, IH by (auto; discriminate). auto.
Qed.
Lemma comp_slashfree x : component x -> slashfree x.
Proof. intros (_ & _ & _ & H). exact H. Qed.
Lemma dots_slashfree : slashfree "..".
Proof.
  intros a b H. destruct a as [|c1 [|c2 [|c3 a]]]; discriminate H.
Qed.
Lemma normal_comps st p : Forall component p -> normal st p = rev st ++ p.
Proof.
  revert st. induction p as [|x p IH]; intros st H; cbn [normal]; [now rewrite app_nil_r|].
  inversion H as [|? ? (H1 & H2 & H3 & _) Hp]; subst.
  destruct (String.eqb_spec x ""), (String.eqb_spec x "."), (String.eqb_spec x ".."); try congruence. cbn [orb].
  rewrite IH by auto. cbn [rev]. now rewrite <- app_assoc.
Qed.
Lemma normal_up d st p : normal (rev d ++ st) (map (fun _ => ".."%string) d ++ p) = normal st p.
Proof.
  rewrite <- (rev_involutive d) at 2. induction (rev d) as [|x l IH]; auto.
  cbn [rev]. rewrite map_app. cbn [map]. rewrite <- app_assoc.
  assert (map (fun _ : string => ".."%string) (rev l) ++ [".."%string] ++ p = ".."%string :: map (fun _ : string => ".."%string) (rev l) ++ p) as ->.
  { clear. induction (rev l) as [|y k IH]; auto. cbn [map app] in *. now rewrite IH. }
  cbn [app normal]. cbn [tl]. exact IH.
Qed.
Lemma normal_rel p : forall dir pre, Forall component p -> normal (rev dir ++ rev pre) (relpath p dir) = pre ++ p.
Proof.
  assert (forall p dir pre, Forall component p -> normal (rev dir ++ rev pre) (map (fun _ => ".."%string) dir ++ p) = pre ++ p) as B.
  { intros. rewrite normal_up, normal_comps, rev_involutive by auto. auto. }
  induction p as [|x p IH]; intros [|y dir] pre H; try (apply B; assumption). cbn [relpath].
  destruct (String.eqb_spec x y) as [<-|]; [|apply B; assumption].
  inversion H; subst. cbn [rev]. rewrite <- app_assoc.
  change ([x] ++ rev pre) with (rev [x] ++ rev pre). rewrite <- rev_app_distr, IH by auto. now rewrite <- app_assoc.
Qed.
Lemma relpath_slashfree p : forall dir, Forall component p -> Forall (fun x => slashfree x /\ x <> ""%string) (relpath p dir).
Proof.
  assert (forall p dir, Forall component p -> Forall (fun x => slashfree x /\ x <> ""%string) (map (fun _ : string => ".."%string) dir ++ p)) as B.
  { intros q dir H. apply Forall_app. split.
    - apply Forall_forall. intros x Hx. apply in_map_iff in Hx as (_ & <- & _). split; [apply dots_slashfree|discriminate].
    - eapply Forall_impl; [|exact H]. intros x Hx. split; [now apply comp_slashfree|apply Hx]. }
  induction p as [|x p IH]; intros [|y dir] H; try (apply B; assumption). cbn [relpath].
  destruct (String.eqb x y); [|apply B; assumption]. inversion H; subst; auto.
Qed.
Lemma isabs_slashed x l : slashfree x -> x <> ""%string -> isabs (slashed (x :: l)) = false.
Proof.
  intros H N. destruct x as [|c x]; [congruence|]. apply slashfree_cons in H as [E _].
  unfold slashed. destruct l as [|y l]; exact E.
Qed.
Lemma resolve_text ap dir p : Forall component p -> resolve dir (file_text ap dir p) = p.
Proof.
  intros H. unfold file_text, resolve. destruct ap.
  - change (isabs ("/" +++ slashed p)) with true. cbn [String.append split_path].
    change (("/" =? "/")%char) with true. cbn [normal String.eqb orb].
    destruct p as [|x p]; [reflexivity|]. rewrite split_slashed, normal_comps; auto; [discriminate|].
    eapply Forall_impl; [|exact H]. intros; now apply comp_slashfree.
  - pose proof (relpath_slashfree dir H) as F. pose proof (normal_rel dir [] H) as N. cbn [rev app] in N. rewrite app_nil_r in N.
    destruct (relpath p dir) as [|x r] eqn:E; [exact N|].
    inversion F as [|? ? [F1 F2] F3]; subst. rewrite isabs_slashed by auto. rewrite split_slashed; auto; [discriminate|].
    eapply Forall_impl; [|exact F]. cbn. tauto.
Qed.
Lemma file_text_nonempty ap dir p : stripped (file_text ap dir p) -> file_text ap dir p <> ""%string.
Proof. intros [_ H]. exact H. Qed.
Lemma path_eqb_eq p q : path_eqb p q = true <-> p = q.
Proof.
  revert q. induction p as [|x p IH]; intros [|y q]; cbn [path_eqb]; try (split; [discriminate|discriminate]); [tauto|].
  rewrite andb_true_iff, String.eqb_eq, IH. split; [intros [-> ->]; auto|intros [= -> ->]; auto].
Qed.

(** ** Elements *)
Lemma elem_rect' (P : elem -> Prop) : (forall t a x k, Forall P k -> P (Elem t a x k)) -> forall e, P e.
Proof.
  intros H. fix IH 1. intros [t a x k]. apply H. induction k as [|y k IHk]; constructor; [apply IH|exact IHk].
Qed.
Lemma plain_unfold t a x k : plain (Elem t a x k) <-> ~ In t reserved /\ Forall plain k.
Proof.
  cbn [plain]. assert (forall l, (fix all (l : list elem) : Prop := match l with [] => True | x :: l' => plain x /\ all l' end) l <-> Forall plain l) as E.
  { induction l as [|y l IH]; [split; auto|]. rewrite IH. split; [intros [A B]; auto|intros A; inversion A; auto]. }
  now rewrite E.
Qed.
Lemma reread_tag e : tag (reread e) = tag e. Proof. destruct e; reflexivity. Qed.
Lemma reread_attr e n : attr (reread e) n = attr e n. Proof. destruct e; reflexivity. Qed.
Lemma reread_kids e : kids (reread e) = map reread (kids e). Proof. destruct e; reflexivity. Qed.
Lemma reread_truth e : truth (reread e) = truth e. Proof. destruct e as [t a x [|y k]]; reflexivity. Qed.
Lemma reread_plain e : plain e -> plain (reread e).
Proof.
  induction e as [t a x k IH] using elem_rect'. cbn [reread]. rewrite !plain_unfold. intros [A B]. split; auto.
  apply Forall_forall. intros y Hy. apply in_map_iff in Hy as (z & <- & Hz). rewrite Forall_forall in *. auto.
Qed.
Lemma reread_leaf t a x : x <> ""%string -> reread (Elem t a (Some x) []) = Elem t a (Some x) [].
Proof. intros H. destruct x; [congruence|reflexivity]. Qed.
Section Parse.
Variable rleb : string -> string -> bool.
Variable dir : path.
Notation events := (events rleb (resolve dir)).
Notation on_end := (on_end rleb (resolve dir)).
Definition events_list : list elem -> pstate -> res pstate := fix go (l : list elem) (s : pstate) : res pstate :=
   match l with [] => Ok s | k :: l' => s' <- events k s ;; go l' s' end.
Lemma events_unfold e s : events e s = (s1 <- on_start s e ;; s2 <- events_list (kids e) s1 ;; on_end s2 e).
Proof. destruct e as [t a x k]. reflexivity. Qed.
Lemma events_list_app l l' s : events_list (l ++ l') s = (s1 <- events_list l s ;; events_list l' s1).
Proof. revert s. induction l as [|e l IH]; intros s; auto. cbn. destruct (events e s); cbn; auto. Qed.
Lemma not_reserved t : ~ In t reserved -> forall r, In r reserved -> String.eqb t r = false.
Proof. intros H r Hr. apply String.eqb_neq. intros ->. auto. Qed.
Ltac nr H := repeat rewrite (not_reserved H) by (cbn; tauto).
Lemma plain_start e s : ~ In (tag e) reserved -> in_meta s = true -> on_start s e = Ok s.
Proof. intros H M. unfold on_start. cbn [mem]. nr H. cbn [orb]. now rewrite M. Qed.
Lemma plain_end e s : ~ In (tag e) reserved -> on_end s e = Ok s.
Proof. intros H. unfold PgcXml_model.on_end. nr H. auto. Qed.
Lemma plain_events e : plain e -> forall s, in_meta s = true -> events e s = Ok s.
Proof.
  induction e as [t a x k IH] using elem_rect'. rewrite plain_unfold. intros [A B] s M.
  rewrite events_unfold, plain_start by auto. cbn [bind kids].
  assert (events_list k s = Ok s) as ->.
  { clear A. induction k as [|y k IHk]; auto. inversion IH; inversion B; subst. cbn. rewrite H1 by auto. cbn. apply IHk; auto. }
  cbn [bind]. now apply plain_end.
Qed.
Lemma plain_list l s : Forall plain l -> in_meta s = true -> events_list l s = Ok s.
Proof. intros H M. induction H as [|e l He H IH]; auto. cbn. rewrite plain_events by auto. exact IH. Qed.
Lemma corpus_meta_events m s : meta_ok "corpus_meta_data" m ->
  events (reread m) s = Ok (with_meta (with_result s {| c_pairs := c_pairs (result s); c_rels := c_rels (result s); c_meta := Some (reread m) |}) false).
Proof.
  intros [T K]. rewrite events_unfold. unfold on_start. rewrite reread_tag, T. cbn [String.eqb Ascii.eqb Bool.eqb orb bind].
  rewrite plain_list; [|rewrite reread_kids; apply Forall_forall; intros y Hy; apply in_map_iff in Hy as (z & <- & Hz); rewrite Forall_forall in K; now apply reread_plain, K|reflexivity].
  cbn [bind]. unfold PgcXml_model.on_end. rewrite reread_tag, T. reflexivity.
Qed.
Lemma rev_rev_app A (l : list A) x : rev (l ++ [x]) = x :: rev l.
Proof. rewrite rev_app_distr. reflexivity. Qed.
Lemma update_last_app s l p f p' : c_pairs (result s) = l ++ [p] -> f p = Ok p' ->
  update_last s f = Ok (with_result s (with_pairs (result s) (l ++ [p']))).
Proof. intros E F. unfold update_last. rewrite E, rev_rev_app, F. cbn [bind]. now rewrite rev_involutive. Qed.
Lemma pair_meta_events m s l p : meta_ok "graph_meta_data" m -> c_pairs (result s) = l ++ [p] ->
  events (reread m) s = Ok (with_meta (with_result s (with_pairs (result s)
     (l ++ [{| p_banks := p_banks p; p_graphs := p_graphs p; p_meta := reread m; p_align := p_align p |}]))) false).
Proof.
  intros [T K] E. rewrite events_unfold. unfold on_start. rewrite reread_tag, T. cbn [String.eqb Ascii.eqb Bool.eqb orb bind].
  rewrite plain_list; [|rewrite reread_kids; apply Forall_forall; intros y Hy; apply in_map_iff in Hy as (z & <- & Hz); rewrite Forall_forall in K; now apply reread_plain, K|reflexivity].
  cbn [bind]. unfold PgcXml_model.on_end. rewrite reread_tag, T. cbn [String.eqb Ascii.eqb Bool.eqb].
  rewrite update_last_app with (l := l) (p := p) (p' := {| p_banks := p_banks p; p_graphs := p_graphs p; p_meta := reread m; p_align := p_align p |}); auto.
Qed.

(** *** Files *)
Section Files.
Variable bank_path : nat -> path.
Variable bank_format : nat -> string.
Variable ap : bool.
Notation bank_ok := (bank_ok bank_path bank_format ap dir).
Definition file_elem (k gb : nat) : elem :=
  Elem "file" [("id", str (S k)); ("format", bank_format gb)]%string (Some (file_text ap dir (bank_path gb))) [].
Definition file_elems (k : nat) (gbs : list nat) : list elem := map (fun x => file_elem (fst x) (snd x)) (combine (seq k (length gbs)) gbs).
Definition bank_entries (k : nat) (gbs : list nat) : list (option string * (path * option string)) :=
  map (fun x => (Some (str (S (fst x))), (bank_path (snd x), Some (bank_format (snd x))))) (combine (seq k (length gbs)) gbs).
Definition with_banks (s : pstate) b := {| in_meta := in_meta s; default_format := default_format s; relations := relations s; banks := b; result := result s; warned := warned s |}.
Lemma file_events k gb s : bank_ok gb -> (forall b, In b (banks s) -> fst b <> Some (str (S k))) ->
  events (reread (file_elem k gb)) s = Ok (with_banks s (banks s ++ [(Some (str (S k)), (bank_path gb, Some (bank_format gb)))])).
Proof.
  intros (B1 & [B2 B2'] & B3) H. rewrite events_unfold. unfold file_elem. rewrite reread_leaf by auto.
  unfold on_start. cbn [tag kids String.eqb Ascii.eqb Bool.eqb orb bind mem events_list].
  unfold PgcXml_model.on_end. cbn [tag String.eqb Ascii.eqb Bool.eqb].
  change (attr (Elem "file" [("id", str (S k)); ("format", bank_format gb)]%string (Some (file_text ap dir (bank_path gb))) []) "id") with (Some (str (S k))).
  change (attr (Elem "file" [("id", str (S k)); ("format", bank_format gb)]%string (Some (file_text ap dir (bank_path gb))) []) "format") with (Some (bank_format gb)).
  cbn [text need bind].
  assert (existsb (fun b : option string * (path * option string) => opt_eqb (Some (str (S k))) (fst b)) (banks s) = false) as ->.
  { apply not_true_is_false. intros E. apply existsb_exists in E as (b & Hb & E). apply (H b Hb).
    destruct (fst b) as [t|]; [|discriminate E]. cbn [opt_eqb] in E. apply String.eqb_eq in E. congruence. }
  rewrite B2, resolve_text by auto. destruct (bank_format gb); [congruence|]. reflexivity.
Qed.
Lemma file_list gbs : forall k s, Forall bank_ok gbs -> (forall b j, In b (banks s) -> k <= j -> fst b <> Some (str (S j))) ->
  events_list (map reread (file_elems k gbs)) s = Ok (with_banks s (banks s ++ bank_entries k gbs)).
Proof.
  induction gbs as [|gb gbs IH]; intros k s H F; cbn [file_elems bank_entries length seq combine map events_list].
  { rewrite app_nil_r. destruct s; reflexivity. }
  inversion H; subst. cbn [fst snd]. rewrite file_events by (auto). cbn [bind].
  change (map (fun x : nat * nat => file_elem (fst x) (snd x)) (combine (seq (S k) (length gbs)) gbs)) with (file_elems (S k) gbs).
  rewrite IH; auto.
  - f_equal. unfold with_banks. cbn [in_meta default_format relations banks result warned]. now rewrite <- app_assoc.
  - cbn [with_banks banks]. intros b j Hb Hj. apply in_app_or in Hb as [Hb|[<-|[]]]; [apply F; auto; lia|].
    cbn [fst]. intros [= E]. apply str_inj in E. lia.
Qed.
Lemma bank_no_entries gbs : forall k j b, nth_error gbs j = Some b -> bank_no (bank_entries k gbs) (str (S (k + j))) = Some j.
Proof.
  induction gbs as [|gb gbs IH]; intros k j b; [destruct j; discriminate|].
  cbn [bank_entries length seq combine map bank_no fst snd opt_eqb]. destruct j as [|j].
  - intros _. rewrite Nat.add_0_r, String.eqb_refl. auto.
  - intros H. cbn [nth_error] in H.
    assert (String.eqb (str (S (k + S j))) (str (S k)) = false) as -> by (apply String.eqb_neq; intros E; apply str_inj in E; lia).
    specialize (IH (S k) j b H). replace (S k + j) with (k + S j) in IH by lia. unfold bank_entries in IH. now rewrite IH.
Qed.
Lemma nth_entries gbs : forall k j b, nth_error gbs j = Some b ->
  nth_error (bank_entries k gbs) j = Some (Some (str (S (k + j))), (bank_path b, Some (bank_format b))).
Proof.
  induction gbs as [|gb gbs IH]; intros k j b; [destruct j; discriminate|].
  cbn [bank_entries length seq combine map fst snd]. destruct j as [|j]; cbn [nth_error].
  - intros [= ->]. now rewrite Nat.add_0_r.
  - intros H. specialize (IH (S k) j b H). unfold bank_entries in IH. rewrite IH. now replace (S k + j) with (k + S j) by lia.
Qed.
End Files.
(** *** Relations *)
Definition with_rels (s : pstate) r := {| in_meta := in_meta s; default_format := default_format s; relations := r; banks := banks s; result := result s; warned := warned s |}.
Lemma relation_list rs : forall s, Forall stripped rs ->
  events_list (map reread (map (fun r => Elem "relation" [] (Some r) []) rs)) s = Ok (with_rels s (relations s ++ rs)).
Proof.
  induction rs as [|r rs IH]; intros s H; cbn [map events_list].
  { rewrite app_nil_r. destruct s; reflexivity. }
  inversion H as [|? ? [H1 H2] H3]; subst.
  assert (events (reread (Elem "relation" [] (Some r) [])) s = Ok (with_rels s (relations s ++ [r]))) as ->.
  { rewrite reread_leaf, events_unfold by auto. unfold on_start. cbn [tag kids String.eqb Ascii.eqb Bool.eqb orb bind mem events_list].
    unfold PgcXml_model.on_end. cbn [tag text need bind String.eqb Ascii.eqb Bool.eqb]. now rewrite H1. }
  cbn [bind]. rewrite IH by auto. unfold with_rels. cbn [in_meta default_format relations banks result warned]. now rewrite <- app_assoc.
Qed.
(** *** Alignments *)
Definition add_all (g : digraph string string) (l : list ((string * string) * string)) : res (digraph string string) :=
  foldM (fun g a => matching_add_align String.eqb g (fst (fst a)) (snd (fst a)) (snd a)) g l.
Lemma node_pair_list es : forall s l p g, c_pairs (result s) = l ++ [p] -> add_all (p_align p) es = Ok g ->
  events_list (map reread (map gen_node_pair es)) s =
  Ok (with_result s (with_pairs (result s) (l ++ [{| p_banks := p_banks p; p_graphs := p_graphs p; p_meta := p_meta p; p_align := g |}]))).
Proof.
  induction es as [|e es IH]; intros s l p g E A; cbn [map events_list].
  { cbn in A. injection A as <-. destruct s as [? ? ? ? [pp rr mm] ?], p. cbn in *. subst pp. reflexivity. }
  unfold add_all in A. cbn [foldM] in A. destruct (matching_add_align String.eqb (p_align p) (fst (fst e)) (snd (fst e)) (snd e)) as [g1|] eqn:A1; [|discriminate A].
  cbn [bind] in A.
  assert (events (reread (gen_node_pair e)) s = Ok (with_result s (with_pairs (result s) (l ++ [{| p_banks := p_banks p; p_graphs := p_graphs p; p_meta := p_meta p; p_align := g1 |}])))) as ->.
  { rewrite events_unfold. unfold gen_node_pair. cbn [reread map]. unfold on_start. cbn [tag kids String.eqb Ascii.eqb Bool.eqb orb].
    unfold attr. cbn [attrib dget String.eqb Ascii.eqb Bool.eqb need bind].
    rewrite update_last_app with (l := l) (p := p) (p' := {| p_banks := p_banks p; p_graphs := p_graphs p; p_meta := p_meta p; p_align := g1 |}); auto.
    now rewrite A1. }
  cbn [bind]. rewrite IH with (l := l) (p := {| p_banks := p_banks p; p_graphs := p_graphs p; p_meta := p_meta p; p_align := g1 |}) (g := g); auto.
Qed.
End Parse.

(** ** Alignments survive *)
Lemma seqb : forall x y, String.eqb x y = true <-> x = y.
Proof. intros. apply String.eqb_eq. Qed.
Notation good := (@good string string).
Lemma add_all_ok l : forall g, good g ->
  NoDup (map fst (map fst l)) -> NoDup (map snd (map fst l)) ->
  (forall e a, In e (edges g) -> In a l -> fst (fst e) <> fst (fst a) /\ snd (fst e) <> snd (fst a)) ->
  exists g', add_all g l = Ok g' /\ good g' /\ forall e, In e (edges g') <-> In e (edges g) \/ In e l.
Proof.
  induction l as [|[[s t] r] l IH]; intros g G N1 N2 D; cbn [map] in *.
  { exists g. split; [reflexivity|]. split; auto. intros e. split; [auto|intros [H|[]]; auto]. }
  inversion N1 as [|? ? A1 B1]; inversion N2 as [|? ? A2 B2]; subst. destruct G as (W & T & I).
  destruct (@add_ok string string String.eqb seqb g s t r W T I) as (g1 & E1 & W1 & T1 & I1 & X1).
  destruct (IH g1) as (g2 & E2 & G2 & X2); auto.
  { split; [|split]; auto. }
  { intros e a He Ha. apply X1 in He as [->|(He & _ & _)].
    - cbn [fst snd] in *. split; intros E.
      + apply A1. rewrite E. apply in_map, in_map, Ha.
      + apply A2. rewrite E. apply in_map, in_map, Ha.
    - apply D; auto. right; auto. }
  exists g2. split; [|split; auto].
  - unfold add_all. cbn [foldM fst snd]. rewrite E1. exact E2.
  - intros e. rewrite X2, X1. split.
    + intros [[->|(H & _)]|H]; auto; right; [left|right]; auto.
    + intros [H|[<-|H]]; auto. left. right. split; auto. destruct (D e ((s, t), r) H (or_introl eq_refl)). auto.
Qed.
Lemma good_lists g : good g -> NoDup (map fst (map fst (edges g))) /\ NoDup (map snd (map fst (edges g))).
Proof.
  intros (W & _ & I1 & I2). destruct W as [W _ _]. unfold dkeys in W. revert W I1 I2. generalize (edges g). clear.
  induction l as [|[[s t] r] l IH]; intros W I1 I2; cbn [map]; [split; constructor|]. cbn [map] in W. inversion W as [|? ? A B]; subst.
  destruct IH as [N1 N2]; auto; [intros; eapply I1; right; eauto|intros; eapply I2; right; eauto|].
  split; constructor; auto; intros H; apply in_map_iff in H as ([s' t'] & E & H); apply in_map_iff in H as ([[s2 t2] r2] & E2 & H);
    cbn [fst snd] in *; injection E2 as -> ->; subst.
  - apply A. assert (t = t') as -> by (eapply I1; [left; eauto|right; eauto]). change (s, t') with (fst ((s, t'), r2)). now apply in_map.
  - apply A. assert (s = s') as -> by (eapply I2; [left; eauto|right; eauto]). change (s', t) with (fst ((s', t), r2)). now apply in_map.
Qed.
Lemma rebuild g : good g -> exists g', add_all (empty_digraph string string) (alignments String.eqb g []) = Ok g' /\ good g' /\
  forall s t, get_align String.eqb g' s t = get_align String.eqb g s t.
Proof.
  intros G. destruct (good_lists G) as [N1 N2].
  destruct (add_all_ok (alignments String.eqb g []) (good_empty string string) N1 N2) as (g' & E & G' & X).
  { intros e a []. }
  exists g'. split; [|split]; auto. intros s t. apply (@ext_ga string string String.eqb seqb); [apply G'|apply G|].
  intros e. rewrite X. cbn. tauto.
Qed.
Definition rebuilt (p : gpair) : digraph string string :=
  match add_all (empty_digraph string string) (alignments String.eqb (p_align p) []) with Ok g => g | Err _ => empty_digraph _ _ end.
Lemma rebuilt_ok p : good (p_align p) ->
  add_all (empty_digraph string string) (alignments String.eqb (p_align p) []) = Ok (rebuilt p) /\
  forall s t, get_align String.eqb (rebuilt p) s t = get_align String.eqb (p_align p) s t.
Proof. intros G. destruct (rebuild G) as (g & E & _ & X). unfold rebuilt. rewrite E. auto. Qed.

(** ** Graph pairs *)
Definition pair_elem (n : nat) (p : gpair) (k : nat * nat) : elem :=
  Elem "graph_pair"
    [("n", str (n + 1)); ("from_graph_id", fst (p_graphs p)); ("to_graph_id", snd (p_graphs p));
     ("from_bank_id", str (S (fst k))); ("to_bank_id", str (S (snd k)))]%string None
    ((if truth (p_meta p) then [p_meta p] else []) ++ map gen_node_pair (alignments String.eqb (p_align p) [])).
Definition read_pair (p : gpair) (k : nat * nat) : gpair :=
  {| p_banks := k; p_graphs := p_graphs p; p_meta := (if truth (p_meta p) then reread (p_meta p) else empty_meta); p_align := rebuilt p |}.
Section Pairs.
Variable rleb : string -> string -> bool.
Variable dir : path.
Notation events := (events rleb (resolve dir)).
Notation events_list := (events_list rleb dir).
Definition append_pair (s : pstate) (l : list gpair) : pstate := with_result s (with_pairs (result s) (c_pairs (result s) ++ l)).
Lemma pair_events n p k s : in_meta s = false -> good (p_align p) -> meta_ok "graph_meta_data" (p_meta p) ->
  bank_no (banks s) (str (S (fst k))) = Some (fst k) -> bank_no (banks s) (str (S (snd k))) = Some (snd k) ->
  events (reread (pair_elem n p k)) s = Ok (append_pair s [read_pair p k]).
Proof.
  intros M G MO B1 B2. destruct (rebuilt_ok p G) as [A _]. rewrite events_unfold. unfold on_start.
  rewrite reread_tag, reread_kids. rewrite !reread_attr. cbn [pair_elem tag kids].
  cbn [String.eqb Ascii.eqb Bool.eqb orb]. unfold attr. cbn [pair_elem attrib dget String.eqb Ascii.eqb Bool.eqb need bind]. rewrite B1. cbn [need bind]. rewrite B2. cbn [need bind].
  set (p0 := {| p_banks := _; p_graphs := _; p_meta := empty_meta; p_align := _ |}).
  set (s1 := with_result s _). rewrite map_app, events_list_app.
  assert (events_list (map reread (if truth (p_meta p) then [p_meta p] else [])) s1 =
    Ok (with_result s1 (with_pairs (result s1) (c_pairs (result s) ++ [{| p_banks := p_banks p0; p_graphs := p_graphs p0; p_meta := p_meta (read_pair p k); p_align := empty_digraph string string |}])))) as ->.
  { destruct (truth (p_meta p)) eqn:ET.
    - cbn [map PgcXml_proof.events_list].
      rewrite pair_meta_events with (l := c_pairs (result s)) (p := p0) by (auto; unfold s1, p0; reflexivity). cbn [bind].
      unfold read_pair. cbn [p_meta]. rewrite ET. unfold s1, with_meta, with_result. cbn. now rewrite M.
    - cbn [map PgcXml_proof.events_list]. unfold read_pair. cbn [p_meta]. rewrite ET. unfold s1, with_result, with_pairs, p0. cbn. reflexivity. }
  cbn [bind].
  erewrite node_pair_list; [|reflexivity|cbn [p_align]; exact A].
  cbn [bind]. unfold PgcXml_model.on_end. rewrite reread_tag. cbn [tag pair_elem String.eqb Ascii.eqb Bool.eqb].
  unfold append_pair, s1, with_result, with_pairs, read_pair, p0. cbn. destruct p as [? [? ?] ? ?], k. reflexivity.
Qed.
Fixpoint pair_elems (n : nat) (l : list (gpair * (nat * nat))) : list elem :=
  match l with [] => [] | (p, k) :: l' => pair_elem n p k :: pair_elems (S n) l' end.
Lemma pair_list l : forall n s, in_meta s = false ->
  (forall p k, In (p, k) l -> good (p_align p) /\ meta_ok "graph_meta_data" (p_meta p) /\
     bank_no (banks s) (str (S (fst k))) = Some (fst k) /\ bank_no (banks s) (str (S (snd k))) = Some (snd k)) ->
  events_list (map reread (pair_elems n l)) s = Ok (append_pair s (map (fun x => read_pair (fst x) (snd x)) l)).
Proof.
  induction l as [|[p k] l IH]; intros n s M H; cbn [pair_elems map PgcXml_proof.events_list].
  { unfold append_pair, with_result, with_pairs. rewrite app_nil_r. destruct s as [? ? ? ? [? ? ?] ?]; reflexivity. }
  destruct (H p k) as (H1 & H2 & H3 & H4); [left; auto|]. rewrite pair_events by auto. cbn [bind].
  rewrite IH; auto; [|intros; apply H; right; auto]. cbn [fst snd]. unfold append_pair, with_result, with_pairs. cbn. now rewrite <- app_assoc.
Qed.
End Pairs.

(** ** The generator *)
Section Gen.
Variable bank_path : nat -> path.
Variable bank_format : nat -> string.
Variable inode : path -> option nat.
Variable order : list nat -> list nat.
Hypothesis Horder : forall l, Permutation l (order l).
Variable ap : bool.
Variable dir : path.
Notation first_same := (first_same path_eqb bank_path inode).
Notation undecidable := (undecidable path_eqb bank_path inode).
Notation same := (same path_eqb bank_path inode).
Notation table_ok := (table_ok path_eqb bank_path inode).
Notation gen_bank := (gen_bank bank_path inode order).
Record ginv (st : gstate) (seen : list nat) : Prop := {
  g_table : table_ok (old2new st) seen;
  g_nodup : NoDup (graphbanks st);
  g_in : forall b, In b (graphbanks st) <-> In b seen /\ first_same seen b = Some b;
  g_ids : forall k b, nth_error (graphbanks st) k = Some b -> ids st b = Some (str (S k))
}.
Definition prefix (l l' : list nat) : Prop := exists r, l' = l ++ r.
Lemma prefix_refl l : prefix l l. Proof. exists []. now rewrite app_nil_r. Qed.
Lemma prefix_trans a b c : prefix a b -> prefix b c -> prefix a c.
Proof. intros [r ->] [q ->]. exists (r ++ q). now rewrite app_assoc. Qed.
Lemma prefix_nth l l' k b : prefix l l' -> nth_error l k = Some b -> nth_error l' k = Some b.
Proof. intros [r ->] H. rewrite nth_error_app1; auto. apply nth_error_Some. congruence. Qed.
(** bank object b is written as number k, standing for the first same bank *)
Definition written (gbs seen : list nat) (b k : nat) : Prop :=
  exists n, nth_error gbs k = Some n /\ first_same seen b = Some n.
Lemma written_mono gbs gbs' seen r b k : prefix gbs gbs' -> written gbs seen b k -> written gbs' (seen ++ r) b k.
Proof. intros P (n & H1 & H2). exists n. split; [eapply prefix_nth; eauto|now apply find_app_some]. Qed.
Lemma gen_bank_spec st seen b : ginv st seen ->
  match gen_bank st b with
  | Ok (st', i) => ginv st' (seen ++ [b]) /\ prefix (graphbanks st) (graphbanks st') /\
      (exists k, i = str (S k) /\ written (graphbanks st') (seen ++ [b]) b k) /\ (forall c, In c seen -> undecidable b c = false)
  | Err e => e = OSError /\ exists c, In c seen /\ undecidable b c = true
  end.
Proof.
  intros [T ND IN ID]. unfold PgcXml_model.gen_bank.
  pose proof (@remap_spec path path_eqb path_eqb_eq bank_path inode order Horder (old2new st) seen b T) as R.
  destruct (remap path_eqb bank_path inode order (old2new st) b) as [[[o n] fresh]|e]; cbn [bind]; [|exact R].
  destruct R as (T' & F & FR & FN & D). destruct fresh.
  - (* a new bank *)
    specialize (FN eq_refl). subst n. rewrite Nat.eqb_refl. destruct FR as [FR _]. specialize (FR eq_refl).
    assert (~ In b (graphbanks st)) as NB.
    { intros H. apply IN in H as [H _]. destruct (@first_same_in path path_eqb path_eqb_eq bank_path inode seen b H) as (m & E & _). congruence. }
    cbn [graphbanks]. split; [|split; [|split]].
    + constructor; cbn [old2new graphbanks ids]; auto.
      * now apply nodup_snoc.
      * intros c. rewrite !in_app_iff. rewrite IN. split.
        -- intros [[H1 H2]|[<-|[]]]; [split; [auto|now apply find_app_some]|]. split; [right; left; auto|auto].
        -- intros [[H1|[<-|[]]] H2]; [|right; left; auto].
           destruct (@first_same_in path path_eqb path_eqb_eq bank_path inode seen c H1) as (m & E & _).
           left. split; auto. rewrite E. unfold Purge_spec.first_same in H2. rewrite (find_app_some _ _ _ E) in H2. congruence.
      * intros k c H. destruct (Nat.eqb c b) eqn:E.
        -- apply Nat.eqb_eq in E as ->. f_equal. f_equal. rewrite app_length. cbn [length].
           destruct (lt_dec k (length (graphbanks st))) as [L|L].
           ++ rewrite nth_error_app1 in H by auto. apply nth_error_In in H. contradiction.
           ++ rewrite nth_error_app2 in H by lia. destruct (k - length (graphbanks st)) as [|j] eqn:E; [lia|destruct j; discriminate].
        -- apply Nat.eqb_neq in E. destruct (lt_dec k (length (graphbanks st))) as [L|L].
           ++ rewrite nth_error_app1 in H by auto. auto.
           ++ rewrite nth_error_app2 in H by lia. destruct (k - length (graphbanks st)) as [|j]; [injection H as <-; congruence|destruct j; discriminate].
    + exists [b]. reflexivity.
    + exists (length (graphbanks st)). split.
      * f_equal. rewrite app_length. cbn. lia.
      * exists b. split; auto. rewrite nth_error_app2, Nat.sub_diag by lia. reflexivity.
    + exact D.
  - assert (exists m, first_same seen b = Some m) as [m Em].
    { destruct (first_same seen b) eqn:E; [eauto|]. destruct FR as [_ FR]. discriminate (FR eq_refl). }
    assert (m = n) as ->. { unfold Purge_spec.first_same in F, Em. rewrite (find_app_some _ _ _ Em) in F. congruence. }
    destruct (@first_same_idem path path_eqb path_eqb_eq bank_path inode seen b n Em) as (N1 & N2 & N3).
    assert (In n (graphbanks st)) as NI by (apply IN; auto).
    apply In_nth_error in NI as [k Hk]. rewrite (ID k n Hk). cbn [graphbanks].
    split; [|split; [|split]]; auto.
    + constructor; cbn [old2new graphbanks ids]; auto. intros c. rewrite in_app_iff. rewrite IN. split.
      * intros [H1 H2]. split; auto. now apply find_app_some.
      * intros [[H1|[<-|[]]] H2].
        -- destruct (@first_same_in path path_eqb path_eqb_eq bank_path inode seen c H1) as (q & E & _).
           split; auto. rewrite E. unfold Purge_spec.first_same in H2. rewrite (find_app_some _ _ _ E) in H2. congruence.
        -- unfold Purge_spec.first_same in H2, Em. rewrite (find_app_some _ _ _ Em) in H2. injection H2 as ->. auto.
    + apply prefix_refl.
    + exists k. split; auto. exists n. auto.
Qed.
Notation gen_graph_pair := (gen_graph_pair bank_path inode order).
Notation gen_aligned_graphs := (gen_aligned_graphs bank_path inode order).
Lemma undec_conflict seen r b : (exists c, In c seen /\ undecidable b c = true) -> In b (seen ++ r) ->
  exists x y, In x (seen ++ r) /\ In y (seen ++ r) /\ undecidable x y = true.
Proof. intros (c & H1 & H2) Hb. exists b, c. split; [|split]; auto. apply in_or_app; auto. Qed.
Lemma gen_aligned_spec ps : forall st n seen, ginv st seen ->
  match gen_aligned_graphs st n ps with
  | Ok (st', es) => ginv st' (seen ++ used ps) /\ prefix (graphbanks st) (graphbanks st') /\
      exists ks, length ks = length ps /\ es = pair_elems n (combine ps ks) /\
        Forall (fun x => written (graphbanks st') (seen ++ used ps) (fst (p_banks (fst x))) (fst (snd x)) /\
                         written (graphbanks st') (seen ++ used ps) (snd (p_banks (fst x))) (snd (snd x))) (combine ps ks)
  | Err e => e = OSError /\ exists x y, In x (seen ++ used ps) /\ In y (seen ++ used ps) /\ undecidable x y = true
  end.
Proof.
  induction ps as [|p ps IH]; intros st n seen G; cbn [PgcXml_model.gen_aligned_graphs used flat_map].
  { rewrite app_nil_r. split; [|split]; auto; [apply prefix_refl|]. exists []. split; [|split]; auto; constructor. }
  unfold PgcXml_model.gen_graph_pair. pose proof (gen_bank_spec (fst (p_banks p)) G) as R1.
  assert (forall x, In x (seen ++ [fst (p_banks p)] ++ [snd (p_banks p)] ++ used ps) <-> In x (seen ++ [fst (p_banks p); snd (p_banks p)] ++ flat_map (fun p0 : gpair => [fst (p_banks p0); snd (p_banks p0)]) ps)) as EU by reflexivity.
  destruct (gen_bank st (fst (p_banks p))) as [[st1 i1]|e]; cbn [bind fst snd].
  2:{ destruct R1 as [-> R1]. split; auto. eapply undec_conflict; [exact R1|]. apply in_or_app. right. left. auto. }
  destruct R1 as (G1 & P1 & (k1 & -> & W1) & _).
  pose proof (gen_bank_spec (snd (p_banks p)) G1) as R2.
  destruct (gen_bank st1 (snd (p_banks p))) as [[st2 i2]|e]; cbn [bind fst snd].
  2:{ destruct R2 as [-> (c & H1 & H2)]. split; auto. exists (snd (p_banks p)), c. split; [|split]; auto.
      - apply in_or_app. right. right. left. auto.
      - apply in_app_or in H1 as [H1|[<-|[]]]; apply in_or_app; [auto|right; left; auto]. }
  destruct R2 as (G2 & P2 & (k2 & -> & W2) & _).
  specialize (IH st2 (S n) _ G2). rewrite <- !app_assoc in IH. cbn [app] in IH.
  destruct (gen_aligned_graphs st2 (S n) ps) as [[st3 es]|e]; cbn [bind fst snd]; [|exact IH].
  destruct IH as (G3 & P3 & ks & L & -> & W). split; [exact G3|]. split; [eapply prefix_trans; [exact P1|eapply prefix_trans; eauto]|].
  exists ((k1, k2) :: ks). split; [cbn [length]; auto|]. split; [reflexivity|]. cbn [combine]. constructor; [|exact W]. cbn [fst snd]. split.
  - pose proof (@written_mono _ _ _ ([snd (p_banks p)] ++ used ps) _ _ (prefix_trans P2 P3) W1) as Q.
    rewrite <- app_assoc in Q. exact Q.
  - pose proof (@written_mono _ _ _ (used ps) _ _ P3 W2) as Q. rewrite <- !app_assoc in Q. exact Q.
Qed.
Lemma files_spec st seen : ginv st seen ->
  mapM (gen_file bank_path bank_format ap dir (ids st)) (graphbanks st) = Ok (file_elems dir bank_path bank_format ap 0 (graphbanks st)).
Proof.
  intros [_ _ _ ID]. unfold file_elems. revert ID. generalize (graphbanks st). intros gbs.
  assert (forall k, (forall j b, nth_error gbs j = Some b -> ids st b = Some (str (S (k + j)))) ->
    mapM (gen_file bank_path bank_format ap dir (ids st)) gbs = Ok (map (fun x => file_elem dir bank_path bank_format ap (fst x) (snd x)) (combine (seq k (length gbs)) gbs))) as H.
  2:{ intros ID. apply H. exact ID. }
  induction gbs as [|b gbs IH]; intros k ID; auto. cbn [mapM length seq combine map fst snd].
  unfold gen_file at 1. rewrite (ID 0 b eq_refl), Nat.add_0_r. cbn [bind].
  rewrite (IH (S k)); [reflexivity|]. intros j c H. rewrite (ID (S j) c H). do 2 f_equal. lia.
Qed.
End Gen.

(** ** Round trip *)
Lemma nth_combine A B (l : list A) (l' : list B) i x : length l' = length l -> nth_error l i = Some x ->
  exists y, nth_error (combine l l') i = Some (x, y).
Proof.
  revert l' i. induction l as [|a l IH]; intros [|b l'] i; try discriminate; [destruct i; discriminate|].
  cbn [length]. intros L. destruct i as [|i]; cbn [nth_error combine].
  - intros [= ->]. eauto.
  - intros H. apply IH; auto.
Qed.
Section Round.
Variable bank_path : nat -> path.
Variable bank_format : nat -> string.
Variable inode : path -> option nat.
Variable order : list nat -> list nat.
Hypothesis Horder : forall l, Permutation l (order l).
Variable ap : bool.
Variable dir : path.
Variable rleb : string -> string -> bool.
Hypothesis total : forall x y, rleb x y = true \/ rleb y x = true.
Notation first_same := (first_same path_eqb bank_path inode).
Notation undecidable := (undecidable path_eqb bank_path inode).
Notation same := (same path_eqb bank_path inode).
Notation gen := (gen bank_path bank_format inode order ap dir).
Notation gen_aligned_graphs := (gen_aligned_graphs bank_path inode order).
Notation written := (written bank_path inode).
Notation ginv := (ginv bank_path inode).
Lemma ginv_init stale : ginv {| old2new := []; graphbanks := []; ids := stale |} [].
Proof.
  constructor; cbn [old2new graphbanks ids].
  - apply table_init.
  - constructor.
  - intros b. split; [intros []|intros [[] _]].
  - intros [|k] b H; discriminate.
Qed.
Lemma gen_raises stale c :
  match gen stale c with
  | Ok _ => forall x y, In x (used (c_pairs c)) -> In y (used (c_pairs c)) -> undecidable x y = false
  | Err e => e = OSError /\ exists x y, In x (used (c_pairs c)) /\ In y (used (c_pairs c)) /\ undecidable x y = true
  end.
Proof.
  unfold PgcXml_model.gen. pose proof (@gen_aligned_spec bank_path inode order Horder (c_pairs c) _ 0 _ (ginv_init stale)) as R. cbn [app] in R.
  destruct (gen_aligned_graphs {| old2new := []; graphbanks := []; ids := stale |} 0 (c_pairs c)) as [[st es]|e]; cbn [bind]; [|exact R].
  destruct R as (G & _). cbn [fst snd]. rewrite (files_spec bank_format ap dir G). cbn [bind]. intros x y Hx Hy. destruct G as [T _ _ _].
  now apply T.
Qed.
Lemma round_trip stale c : writable bank_path bank_format ap dir rleb c ->
  (forall x y, In x (used (c_pairs c)) -> In y (used (c_pairs c)) -> undecidable x y = false) ->
  exists tree st gbs ks, gen stale c = Ok tree /\ parse rleb dir (reread tree) = Ok st /\
    warned st = [] /\ c_rels (result st) = c_rels c /\ c_meta (result st) = kept_meta (c_meta c) /\
    length ks = length (c_pairs c) /\ c_pairs (result st) = map (fun x => read_pair (fst x) (snd x)) (combine (c_pairs c) ks) /\
    NoDup gbs /\ banks st = bank_entries bank_path bank_format 0 gbs /\
    Forall (fun x => written gbs (used (c_pairs c)) (fst (p_banks (fst x))) (fst (snd x)) /\
                     written gbs (used (c_pairs c)) (snd (p_banks (fst x))) (snd (snd x))) (combine (c_pairs c) ks) /\
    Forall (fun p => good (p_align p)) (c_pairs c).
Proof.
  intros W D. pose proof (gen_raises stale c) as GR. unfold PgcXml_model.gen in *.
  pose proof (@gen_aligned_spec bank_path inode order Horder (c_pairs c) _ 0 _ (ginv_init stale)) as R. cbn [app] in R.
  destruct (gen_aligned_graphs {| old2new := []; graphbanks := []; ids := stale |} 0 (c_pairs c)) as [[st es]|e]; cbn [bind] in *.
  2:{ destruct R as (_ & x & y & Hx & Hy & E). rewrite D in E by auto. discriminate. }
  destruct R as (G & _ & ks & L & -> & WR). cbn [fst snd] in *. rewrite (files_spec bank_format ap dir G) in *. cbn [bind] in *.
  assert (Forall (fun p => good (p_align p)) (c_pairs c)) as GD.
  { apply Forall_forall. intros p Hp. destruct (w_align W p Hp) as [ops ->].
    apply (@run_good string string String.eqb seqb ops _ (@no_alignment string string)); [apply good_empty|apply rep_empty]. }
  assert (Forall (bank_ok bank_path bank_format ap dir) (graphbanks st)) as BO.
  { apply Forall_forall. intros b Hb. apply (g_in G) in Hb as [Hb _]. apply in_flat_map in Hb as (p & Hp & Hb).
    destruct (w_banks W p Hp). destruct Hb as [<-|[<-|[]]]; auto. }
  set (tree := Elem _ _ _ _).
  pose (s2 := {| in_meta := false; default_format := None; relations := c_rels c; banks := bank_entries bank_path bank_format 0 (graphbanks st);
                result := {| c_pairs := []; c_rels := c_rels c; c_meta := kept_meta (c_meta c) |}; warned := [] |}).
  exists tree, (append_pair s2 (map (fun x => read_pair (fst x) (snd x)) (combine (c_pairs c) ks))), (graphbanks st), ks.
  split; [reflexivity|]. split.
  2:{ cbn. repeat (split; auto). apply G. }
  unfold parse, parse_at. rewrite events_unfold. unfold tree, on_start. rewrite reread_tag, reread_kids.
  cbn [tag kids String.eqb Ascii.eqb Bool.eqb orb mem bind]. rewrite map_app, events_list_app.
  pose (s0 := {| in_meta := false; default_format := None; relations := []; banks := []; result := {| c_pairs := []; c_rels := []; c_meta := kept_meta (c_meta c) |}; warned := [] |}).
  assert (events_list rleb dir (map reread match c_meta c with Some m => if truth m then [m] else [] | None => [] end) parser_init = Ok s0) as ->.
  { unfold s0, kept_meta. pose proof (w_meta W) as WM. destruct (c_meta c) as [m|]; [|reflexivity]. destruct (truth m); [|reflexivity].
    cbn [map events_list]. rewrite corpus_meta_events by auto. reflexivity. }
  cbn [bind map events_list].
  (* graphbanks *)
  assert (events rleb (resolve dir) (reread (Elem "graphbanks" [] None (file_elems dir bank_path bank_format ap 0 (graphbanks st)))) s0 =
    Ok (with_banks s0 (bank_entries bank_path bank_format 0 (graphbanks st)))) as ->.
  { rewrite events_unfold. unfold on_start. rewrite reread_tag, reread_kids. cbn [tag kids String.eqb Ascii.eqb Bool.eqb orb bind].
    rewrite file_list; auto. }
  cbn [bind].
  (* relations *)
  assert (events rleb (resolve dir) (reread (Elem "node_relations" [] None (map (fun r : string => Elem "relation" [] (Some r) []) (c_rels c))))
            (with_banks s0 (bank_entries bank_path bank_format 0 (graphbanks st))) = Ok s2) as ->.
  { rewrite events_unfold. unfold on_start. rewrite reread_tag, reread_kids. cbn [tag kids String.eqb Ascii.eqb Bool.eqb orb mem bind].
    rewrite relation_list by apply W. cbn [bind]. unfold PgcXml_model.on_end. rewrite reread_tag. cbn [tag String.eqb Ascii.eqb Bool.eqb].
    unfold s2. cbn [with_rels relations with_banks app result c_pairs c_meta with_result]. rewrite sort_isort, isort_id by apply W. reflexivity. }
  cbn [bind].
  (* pairs *)
  assert (events rleb (resolve dir) (reread (Elem "aligned_graphs" [] None (pair_elems 0 (combine (c_pairs c) ks)))) s2 =
    Ok (append_pair s2 (map (fun x => read_pair (fst x) (snd x)) (combine (c_pairs c) ks)))) as ->.
  { rewrite events_unfold. unfold on_start. rewrite reread_tag, reread_kids. cbn [tag kids String.eqb Ascii.eqb Bool.eqb orb mem bind].
    rewrite pair_list; auto.
    - intros p k Hpk. rewrite Forall_forall in WR. destruct (WR (p, k) Hpk) as ((n1 & N1 & _) & (n2 & N2 & _)). cbn [fst snd] in *.
      apply in_combine_l in Hpk. rewrite Forall_forall in GD. split; [auto|]. split; [apply (w_pair_meta W p Hpk)|].
      unfold s2. cbn [banks]. split; [exact (bank_no_entries bank_path bank_format _ 0 _ N1)|exact (bank_no_entries bank_path bank_format _ 0 _ N2)]. }
  cbn [bind]. unfold PgcXml_model.on_end. rewrite reread_tag. reflexivity.
Qed.
Lemma written_inj gbs U b b' k k' : NoDup gbs -> In b U -> In b' U -> written gbs U b k -> written gbs U b' k' ->
  (k = k' <-> same b b' = true).
Proof.
  intros N Hb Hb' (n & E & F) (m & E' & F'). split.
  - intros <-. rewrite E in E'. injection E' as <-. apply find_some in F as [_ F], F' as [_ F'].
    eapply (@same_trans path path_eqb path_eqb_eq); [exact F|]. now apply (@same_sym path path_eqb path_eqb_eq).
  - intros S. rewrite (@first_same_ext path path_eqb path_eqb_eq bank_path inode U b b' S) in F. rewrite F in F'. injection F' as <-.
    eapply NoDup_nth_error; eauto; [|congruence]. apply nth_error_Some. congruence.
Qed.
End Round.
