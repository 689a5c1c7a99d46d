(** Proofs about the statistics. *)
From Coq Require Import String Ascii QArith Lqa Permutation.
From Verif Require Import Py PyLemmas Stats_spec Stats_model.
Open Scope nat_scope.
Set Implicit Arguments.

Lemma prefix_spec t : forall s, String.prefix t s = true <-> exists q, s = (t ++ q)%string.
Proof.
  induction t as [|c t IH]; intros s; cbn [String.prefix append].
  - split; eauto. intros _. destruct s; reflexivity.
  - destruct s as [|d s]; [split; [discriminate|intros (q & X); discriminate]|].
    cbn [String.prefix]. destruct (ascii_dec c d) as [->|E].
    + rewrite IH. split; intros (q & X); exists q; [now rewrite X|now injection X].
    + split; [discriminate|]. intros (q & X). injection X as X _. congruence.
Qed.
Lemma contains_spec s t : contains s t = true <-> part_of s t.
Proof.
  unfold part_of. induction s as [|c s IH]; cbn [contains]; rewrite orb_true_iff.
  - rewrite prefix_spec. split.
    + intros [(q & X)|X]; [|discriminate]. exists ""%string, q. exact X.
    + intros (p & q & X). left. destruct p; [|discriminate]. exists q. exact X.
  - rewrite prefix_spec, IH. split.
    + intros [(q & X)|(p & q & X)]; [exists ""%string, q; exact X|]. exists (String c p), q. cbn. now rewrite X.
    + intros ([|d p] & q & X); [left; exists q; exact X|]. right. cbn in X. injection X as _ X. eauto.
Qed.
Lemma punct_decides : decides (contains punctuation).
Proof. intros t. apply contains_spec. Qed.
Local Opaque contains punctuation.

Lemma count_snoc A (f : A -> bool) l x : count f (l ++ [x]) = count f l + (if f x then 1 else 0).
Proof. unfold count. rewrite filter_app, app_length. cbn. destruct (f x); reflexivity. Qed.
Lemma count_cons A (f : A -> bool) l x : count f (x :: l) = (if f x then 1 else 0) + count f l.
Proof. unfold count. cbn. destruct (f x); reflexivity. Qed.
Lemma count_ext A (f g : A -> bool) l : (forall x, In x l -> f x = g x) -> count f l = count g l.
Proof. intros H. induction l as [|x l IH]; [reflexivity|]. rewrite !count_cons, H by (cbn; auto). rewrite IH; auto. intros; apply H; cbn; auto. Qed.
Lemma count_le A (f g : A -> bool) l : (forall x, In x l -> f x = true -> g x = true) -> count f l <= count g l.
Proof.
  intros H. induction l as [|x l IH]; [auto|]. rewrite !count_cons. assert (count f l <= count g l) by (apply IH; intros; apply H; cbn; auto).
  specialize (H x (or_introl eq_refl)). destruct (f x); [rewrite H by auto; lia|]. destruct (g x); lia.
Qed.
Lemma count_split A (f g : A -> bool) l : count f l = count (fun x => f x && g x) l + count (fun x => f x && negb (g x)) l.
Proof. induction l as [|x l IH]; [reflexivity|]. rewrite !count_cons, IH. destruct (f x), (g x); cbn; lia. Qed.
Lemma count_zero A (f : A -> bool) l : (forall x, In x l -> f x = false) -> count f l = 0.
Proof. intros H. induction l as [|x l IH]; [reflexivity|]. rewrite count_cons, H by (cbn; auto). rewrite IH; auto. intros; apply H; cbn; auto. Qed.
Lemma count_pos A (f : A -> bool) l : 0 < count f l <-> exists x, In x l /\ f x = true.
Proof.
  induction l as [|x l IH]; [cbn; split; [lia|intros (x & [] & _)]|]. rewrite count_cons. destruct (f x) eqn:E.
  - split; [|lia]. intros _. exists x. cbn; auto.
  - rewrite Nat.add_0_l, IH. split; intros (y & H & F); exists y; cbn; auto. destruct H as [->|H]; [congruence|auto].
Qed.
Lemma list_sum_snoc l x : list_sum (l ++ [x]) = list_sum l + x.
Proof. rewrite list_sum_app. cbn. lia. Qed.

Section P.
Variable N : Type.
Variable neqb : N -> N -> bool.
Notation graph := (graph N).
Notation gpair := (gpair N).
Notation link := (link N).
Variable graph_of : nat -> graph.
Variable o : options.
Notation punct := (contains punctuation).
Notation node_pair_step := (node_pair_step neqb graph_of o).
Notation pair_step := (pair_step neqb graph_of o).
Notation link_counts := (link_counts neqb punct o graph_of).
Notation link_ok := (link_ok neqb punct o graph_of).
Notation links := (links neqb punct o graph_of).
Notation pair_counts := (pair_counts neqb o graph_of).
Notation pair_ok := (pair_ok neqb punct o graph_of).
Notation roots_aligned := (roots_aligned neqb graph_of).
Notation failed_pair := (failed_pair graph_of).
Implicit Types (p : gpair) (a : link) (m : marks N) (r : pgc_counts).

Definition errs := [KeyError; TypeError; AssertionError].
(** the effect of a link that counts *)
Definition rels (f : bool -> nat) r a : pgc_counts :=
  {| cgp := cgp r; cgpfu := cgpfu r; cgpfp := cgpfp r; cgpur := cgpur r; cnp := cnp r + 1;
     ceq := ceq r + f (has_relation "equals" a); cre := cre r + f (has_relation "restates" a); cgen := cgen r + f (has_relation "generalizes" a);
     cspec := cspec r + f (has_relation "specifies" a); cint := cint r + f (has_relation "intersects" a) |}.
Definition b2n (b : bool) : nat := if b then 1 else 0.
Definition mark_link p a m : marks N :=
  {| g_from := g_from m; g_to := g_to m; n_from := bump2 neqb (n_from m) (source p) (fst (fst a)); n_to := bump2 neqb (n_to m) (target p) (snd (fst a)); g_root := g_root m |}.

Lemma rel_cases r a : count_relation r (snd a) = Ok (rels b2n r a) /\ (exists x, snd a = Some x /\ In x five) \/
  exists e, count_relation r (snd a) = Err e /\ In e errs /\ ~ exists x, snd a = Some x /\ In x five.
Proof.
  unfold count_relation, rels, has_relation. destruct (snd a) as [x|].
  2: { right. exists TypeError. split; auto. split; [cbn; auto|]. intros (x & X & _). discriminate. }
  destruct (String.eqb x "equals") eqn:E1; [apply String.eqb_eq in E1; subst x; left; split; [reflexivity|exists "equals"%string; cbn; auto 10]|].
  destruct (String.eqb x "restates") eqn:E2; [apply String.eqb_eq in E2; subst x; left; split; [reflexivity|exists "restates"%string; cbn; auto 10]|].
  destruct (String.eqb x "specifies") eqn:E3; [apply String.eqb_eq in E3; subst x; left; split; [reflexivity|exists "specifies"%string; cbn; auto 10]|].
  destruct (String.eqb x "generalizes") eqn:E4; [apply String.eqb_eq in E4; subst x; left; split; [reflexivity|exists "generalizes"%string; cbn; auto 10]|].
  destruct (String.eqb x "intersects") eqn:E5; [apply String.eqb_eq in E5; subst x; left; split; [reflexivity|exists "intersects"%string; cbn; auto 10]|].
  right. exists AssertionError. split; auto. split; [cbn; auto|]. intros (y & X & H). injection X as <-.
  cbn in H. destruct H as [<-|[<-|[<-|[<-|[<-|[]]]]]]; discriminate.
Qed.

Lemma link_step p r m a : match node_pair_step p (r, m) a with
  | Ok st => link_ok p a /\ st = if link_counts p a then (rels b2n r a, mark_link p a m) else (r, m)
  | Err e => ~ link_ok p a /\ In e errs
  end.
Proof.
  unfold Stats_model.node_pair_step, Stats_spec.link_ok, Stats_spec.link_counts, node_tokens, node_is_empty, node_is_punct, dread.
  set (u := fst (fst a)). set (v := snd (fst a)).
  set (gs := graph_of (source p)). set (gt := graph_of (target p)).
  set (R := count_relation r (snd a)).
  assert (RC : R = Ok (rels b2n r a) /\ (exists x, snd a = Some x /\ In x five) \/ exists e, R = Err e /\ In e errs /\ ~ exists x, snd a = Some x /\ In x five) by apply rel_cases.
  clearbody R.
  destruct (dget neqb (nodes gs) u) as [ts|] eqn:ES.
  2: { assert (X : ~ exists ts : list string, @None (list string) = Some ts /\
      (skip_source punct o ts = true \/ exists ts', dget neqb (nodes gt) v = Some ts' /\
        (false = true -> exists x, snd a = Some x /\ In x five))) by (intros (x & X & _); discriminate).
       destruct (with_empty o); cbn [bind]; [|split; [exact X|cbn; auto]].
       destruct (with_punc o); cbn [bind]; [|split; [exact X|cbn; auto]].
       destruct RC as [(-> & _)|(e & -> & H & _)]; cbn [bind]; split; auto; cbn; auto. }
  unfold skip_source, node_counts, punct_node.
  destruct (dget neqb (nodes gt) v) as [ts'|] eqn:ET.
  - (* both exist *)
    assert (OKC : forall b, (b = true -> exists x, snd a = Some x /\ In x five) ->
       exists ts0, Some ts = Some ts0 /\ ((if with_empty o then negb (with_punc o) && (negb (no_tokens ts0) && forallb punct ts0) else no_tokens ts0) = true \/
          exists ts'0, Some ts' = Some ts'0 /\ (b = true -> exists x, snd a = Some x /\ In x five))).
    { intros b H. exists ts. split; auto. right. exists ts'. auto. }
    assert (BAD : (~ exists x, snd a = Some x /\ In x five) -> (if with_empty o then negb (with_punc o) && (negb (no_tokens ts) && forallb punct ts) else no_tokens ts) = false ->
      ~ exists ts0, Some ts = Some ts0 /\ ((if with_empty o then negb (with_punc o) && (negb (no_tokens ts0) && forallb punct ts0) else no_tokens ts0) = true \/
          exists ts'0, Some ts' = Some ts'0 /\ (true = true -> exists x, snd a = Some x /\ In x five))).
    { intros H1 H2 (x & X & [Y|(y & Y & Z)]); injection X as <-; [congruence|]. auto. }
    destruct (with_empty o), (with_punc o), ts as [|t ts], ts' as [|t' ts']; cbn [bind negb orb andb no_tokens] in *;
      repeat match goal with |- context [forallb punct ?l] => destruct (forallb punct l) eqn:?; cbn [bind negb orb andb] in * end;
      first [ split; [apply OKC; discriminate|reflexivity]
            | destruct RC as [(-> & H)|(e & -> & H & NX)]; cbn [bind]; [split; [apply OKC; auto|reflexivity]|split; [apply BAD; auto|exact H]] ].
  - (* no target *)
    assert (BAD : (if with_empty o then negb (with_punc o) && (negb (no_tokens ts) && forallb punct ts) else no_tokens ts) = false ->
      ~ exists ts0, Some ts = Some ts0 /\ ((if with_empty o then negb (with_punc o) && (negb (no_tokens ts0) && forallb punct ts0) else no_tokens ts0) = true \/
          exists ts'0 : list string, None = Some ts'0 /\ (false = true -> exists x, snd a = Some x /\ In x five))).
    { intros H2 (x & X & [Y|(y & Y & Z)]); [injection X as <-; congruence|discriminate]. }
    assert (GOOD : (if with_empty o then negb (with_punc o) && (negb (no_tokens ts) && forallb punct ts) else no_tokens ts) = true ->
      exists ts0, Some ts = Some ts0 /\ ((if with_empty o then negb (with_punc o) && (negb (no_tokens ts0) && forallb punct ts0) else no_tokens ts0) = true \/
          exists ts'0 : list string, None = Some ts'0 /\ (false = true -> exists x, snd a = Some x /\ In x five))) by eauto.
    destruct (with_empty o), (with_punc o), ts as [|t ts]; cbn [bind negb orb andb no_tokens] in *;
      repeat match goal with |- context [forallb punct ?l] => destruct (forallb punct l) eqn:?; cbn [bind negb orb andb] in * end;
      first [ split; [apply GOOD; reflexivity|reflexivity] | split; [apply BAD; reflexivity|cbn; auto]
            | destruct RC as [(-> & H)|(e & -> & H & NX)]; cbn [bind]; split; auto; cbn; auto ].
Qed.

(** All the links of a pair. *)
Definition add_links (c : (link -> bool) -> nat) r : pgc_counts :=
  {| cgp := cgp r; cgpfu := cgpfu r; cgpfp := cgpfp r; cgpur := cgpur r; cnp := cnp r + c (fun _ => true);
     ceq := ceq r + c (has_relation "equals"); cre := cre r + c (has_relation "restates"); cgen := cgen r + c (has_relation "generalizes");
     cspec := cspec r + c (has_relation "specifies"); cint := cint r + c (has_relation "intersects") |}.
Definition cl p l (f : link -> bool) : nat := count (fun a => link_counts p a && f a) l.
Lemma links_step p l : forall r m, match foldM (node_pair_step p) (r, m) l with
  | Ok (r', m') => Forall (link_ok p) l /\ r' = add_links (cl p l) r /\
      (forall g, g_from m' g = g_from m g) /\ (forall g, g_to m' g = g_to m g) /\ (forall g, g_root m' g = g_root m g) /\
      (forall g n, n_from m' g n = n_from m g n + cl p l (fun a => (source p =? g) && neqb (fst (fst a)) n)) /\
      (forall g n, n_to m' g n = n_to m g n + cl p l (fun a => (target p =? g) && neqb (snd (fst a)) n))
  | Err e => ~ Forall (link_ok p) l /\ In e errs
  end.
Proof.
  induction l as [|a l IH]; intros r m.
  - cbn. split; auto. split; [destruct r; unfold add_links, cl; cbn; f_equal; lia|]. unfold cl; cbn. repeat split; intros; lia.
  - cbn [foldM]. pose proof (link_step p r m a) as LS. destruct (node_pair_step p (r, m) a) as [st|e]; cbn [bind].
    2: { destruct LS as (X & Y). split; auto. intros F. inversion F; auto. }
    destruct LS as (LO & ->).
    assert (CL : forall f, cl p (a :: l) f = (if link_counts p a then b2n (f a) else 0) + cl p l f).
    { intros f. unfold cl. rewrite count_cons. destruct (link_counts p a); cbn; auto. }
    destruct (link_counts p a).
    + specialize (IH (rels b2n r a) (mark_link p a m)). destruct (foldM (node_pair_step p) _ l) as [(r', m')|e].
      * destruct IH as (F & -> & H1 & H2 & H3 & H4 & H5). split; auto. split.
        { unfold add_links, rels; cbn [cgp cgpfu cgpfp cgpur cnp ceq cre cgen cspec cint]. rewrite !CL. f_equal; unfold b2n; lia. }
        split; [exact H1|]. split; [exact H2|]. split; [exact H3|]. split; intros g n.
        -- rewrite H4, CL. cbn [mark_link n_from]. unfold bump2, b2n. destruct ((source p =? g) && neqb (fst (fst a)) n); lia.
        -- rewrite H5, CL. cbn [mark_link n_to]. unfold bump2, b2n. destruct ((target p =? g) && neqb (snd (fst a)) n); lia.
      * destruct IH as (X & Y). split; auto. intros F. inversion F; auto.
    + specialize (IH r m). destruct (foldM (node_pair_step p) _ l) as [(r', m')|e].
      * destruct IH as (F & -> & H1 & H2 & H3 & H4 & H5). split; auto. split; [unfold add_links; now rewrite !CL|].
        repeat split; auto; intros; rewrite ?CL; cbn [Nat.add]; auto.
      * destruct IH as (X & Y). split; auto. intros F. inversion F; auto.
Qed.

(** All the pairs of a corpus. *)
Definition same_marks m (ps : list gpair) : Prop :=
  (forall g, g_from m g = graph_from neqb o graph_of ps g) /\ (forall g, g_to m g = graph_to neqb o graph_of ps g) /\
  (forall g, g_root m g = negb (unaligned_root neqb o graph_of ps g)) /\
  (forall g n, n_from m g n = node_from neqb punct o graph_of ps g n) /\ (forall g n, n_to m g n = node_to neqb punct o graph_of ps g n).
Notation counts_of := (pgc_counts_of neqb punct o graph_of).
Lemma links_snoc f ps p : links f (ps ++ [p]) = links f ps + (if pair_counts p then cl p (alignment p) (f p) else 0).
Proof.
  unfold Stats_spec.links. rewrite filter_app, map_app, list_sum_app. f_equal. cbn. unfold cl. destruct (pair_counts p); cbn; lia.
Qed.
Lemma existsb_snoc A (f : A -> bool) l x : existsb f (l ++ [x]) = existsb f l || f x.
Proof. rewrite existsb_app. cbn. now rewrite orb_false_r. Qed.
Lemma marks_skip m ps p : pair_counts p = false -> same_marks m ps -> same_marks m (ps ++ [p]).
Proof.
  intros C (H1 & H2 & H3 & H4 & H5). unfold same_marks, graph_from, graph_to, node_from, node_to, unaligned_root in *.
  repeat split; intros; rewrite ?count_snoc, ?links_snoc, ?existsb_snoc, ?C; cbn [andb]; rewrite ?orb_false_r, ?Nat.add_0_r; auto.
Qed.
Definition counts_plus r full ff uu (c : (link -> bool) -> nat) : pgc_counts := add_links c (inc_gp r full ff uu).
Lemma counts_snoc ps p : counts_of (ps ++ [p]) =
  if pair_counts p then add_links (cl p (alignment p)) (inc_gp (counts_of ps) (negb (failed_pair p) && roots_aligned p) (failed_pair p) (negb (roots_aligned p))) else counts_of ps.
Proof.
  unfold pgc_counts_of. rewrite !count_snoc, !links_snoc. destruct (pair_counts p); cbn [andb]; [|rewrite !Nat.add_0_r; reflexivity].
  unfold add_links, inc_gp; cbn [cgp cgpfu cgpfp cgpur cnp ceq cre cgen cspec cint].
  destruct (failed_pair p), (roots_aligned p); cbn [negb andb]; rewrite ?Nat.add_0_r; reflexivity.
Qed.
Definition errs' := [KeyError; TypeError; AssertionError; NotImplementedError].
Lemma pair_step_ok ps r m p : r = counts_of ps -> same_marks m ps ->
  match pair_step (r, m) p with
  | Ok (r', m') => pair_ok p /\ r' = counts_of (ps ++ [p]) /\ same_marks m' (ps ++ [p])
  | Err e => ~ pair_ok p /\ In e errs'
  end.
Proof.
  intros -> M. unfold Stats_model.pair_step, Stats_spec.pair_ok.
  change (failed (graph_of (source p)) || failed (graph_of (target p))) with (failed_pair p).
  change (roots_are_aligned neqb graph_of p) with (roots_aligned p).
  assert (PC : pair_counts p = negb (failed_pair p && negb (with_failed o)) && negb (negb (roots_aligned p) && negb (with_unaligned_roots o))).
  { unfold Stats_spec.pair_counts. destruct (with_failed o), (failed_pair p), (with_unaligned_roots o), (roots_aligned p); reflexivity. }
  destruct (failed_pair p && negb (with_failed o)); cbn [negb andb] in PC.
  { rewrite counts_snoc, PC. split; [discriminate|]. split; auto. now apply marks_skip. }
  destruct (negb (roots_aligned p) && negb (with_unaligned_roots o)); cbn [negb andb] in PC.
  { rewrite counts_snoc, PC. split; [discriminate|]. split; auto. now apply marks_skip. }
  rewrite PC. destruct (threshold o).
  { split; [|cbn; auto]. intros X. destruct (X eq_refl) as (Y & _). discriminate. }
  set (m0 := if negb (roots_aligned p) then _ else m).
  rewrite negb_involutive.
  pose proof (links_step p (alignment p) (inc_gp (counts_of ps) (negb (failed_pair p) && roots_aligned p) (failed_pair p) (negb (roots_aligned p))) m0) as LS.
  destruct (foldM (node_pair_step p) _ (alignment p)) as [(r', m')|e]; cbn [bind].
  2: { destruct LS as (X & Y). split; [|destruct Y as [<-|[<-|[<-|[]]]]; cbn; auto]. intros F. destruct (F eq_refl). auto. }
  destruct LS as (F & -> & H1 & H2 & H3 & H4 & H5). split; [auto|]. split; [now rewrite counts_snoc, PC|].
  destruct M as (M1 & M2 & M3 & M4 & M5).
  assert (E1 : forall g, g_from m0 g = g_from m g) by (intros g; unfold m0; destruct (negb (roots_aligned p)); reflexivity).
  assert (E2 : forall g, g_to m0 g = g_to m g) by (intros g; unfold m0; destruct (negb (roots_aligned p)); reflexivity).
  assert (E4 : forall g n, n_from m0 g n = n_from m g n) by (intros g n; unfold m0; destruct (negb (roots_aligned p)); reflexivity).
  assert (E5 : forall g n, n_to m0 g n = n_to m g n) by (intros g n; unfold m0; destruct (negb (roots_aligned p)); reflexivity).
  unfold same_marks; cbn [g_from g_to n_from n_to g_root]. repeat split.
  - intros g. unfold bump, graph_from. rewrite H1, E1, M1, count_snoc, PC. cbn [andb]. unfold graph_from. destruct (source p =? g); lia.
  - intros g. unfold bump, graph_to. rewrite H2, E2, M2, count_snoc, PC. cbn [andb]. unfold graph_to. destruct (target p =? g); lia.
  - intros g. rewrite H3. unfold unaligned_root. rewrite existsb_snoc, PC. cbn [andb]. unfold m0.
    destruct (roots_aligned p); cbn [negb andb g_root]; [rewrite orb_false_r; apply M3|].
    unfold unset. rewrite M3. unfold unaligned_root. destruct (source p =? g), (target p =? g); cbn; rewrite ?orb_true_r, ?orb_false_r; reflexivity.
  - intros g n. rewrite H4, E4, M4. unfold node_from. rewrite links_snoc, PC. reflexivity.
  - intros g n. rewrite H5, E5, M5. unfold node_to. rewrite links_snoc, PC. reflexivity.
Qed.
Lemma pairs_step qs : forall ps r m, r = counts_of ps -> same_marks m ps ->
  match foldM pair_step (r, m) qs with
  | Ok (r', m') => Forall pair_ok qs /\ r' = counts_of (ps ++ qs) /\ same_marks m' (ps ++ qs)
  | Err e => ~ Forall pair_ok qs /\ In e errs'
  end.
Proof.
  induction qs as [|p qs IH]; intros ps r m E M; cbn [foldM].
  - rewrite app_nil_r. auto.
  - pose proof (pair_step_ok p E M) as PS. destruct (pair_step (r, m) p) as [(r1, m1)|e]; cbn [bind].
    2: { destruct PS as (X & Y). split; auto. intros F. inversion F; auto. }
    destruct PS as (OK & E1 & M1). specialize (IH _ _ _ E1 M1). rewrite <- app_assoc in IH. cbn [app] in IH.
    destruct (foldM pair_step (r1, m1) qs) as [(r2, m2)|e].
    + destruct IH as (F & X & Y). auto.
    + destruct IH as (X & Y). split; auto. intros F. inversion F; auto.
Qed.
Lemma corpus_ok ps : match graph_pair_stats neqb graph_of o ps with
  | Ok (r, m) => Forall pair_ok ps /\ r = counts_of ps /\ same_marks m ps
  | Err e => ~ Forall pair_ok ps /\ In e errs'
  end.
Proof.
  apply (@pairs_step ps []).
  - reflexivity.
  - repeat split.
Qed.

(** Banks. *)
Hypothesis neq : forall x y, neqb x y = true <-> x = y.
Section Bank.
Variable ps : list gpair.
Variable m : marks N.
Hypothesis M : same_marks m ps.
Notation graph_counts := (graph_counts neqb o graph_of ps).
Notation gb_of := (gb_counts_of neqb punct o graph_of ps).
Notation naligned := (node_aligned neqb punct o graph_of ps).
Notation counted_nodes := (counted_nodes punct o graph_of).
Lemma pos_eqb n : negb (n =? 0) = (0 <? n).
Proof. destruct n; reflexivity. Qed.
Lemma node_aligned_ok g n : node_is_aligned m g n = naligned g n.
Proof. destruct M as (_ & _ & _ & M4 & M5). unfold node_is_aligned, node_aligned. now rewrite M4, M5, !pos_eqb. Qed.
Lemma graph_aligned_ok g : graph_is_aligned m g = graph_aligned neqb o graph_of ps g.
Proof. destruct M as (M1 & M2 & _). unfold graph_is_aligned, graph_aligned. now rewrite M1, M2, !pos_eqb. Qed.
Lemma single_ok g : graph_is_single_aligned m g = single neqb o graph_of ps g.
Proof. destruct M as (M1 & M2 & _). unfold graph_is_single_aligned, single. now rewrite M1, M2. Qed.
Lemma root_ok g : g_root m g = negb (unaligned_root neqb o graph_of ps g).
Proof. apply M. Qed.
Definition add_nodes (r : gb_counts) (a b c : nat) : gb_counts :=
  {| cg := cg r; cga := cga r; cgu := cgu r; cgsa := cgsa r; cgma := cgma r; cgur := cgur r; cgfp := cgfp r; ct := ct r; cn := cn r + a; cna := cna r + b; cnu := cnu r + c |}.
Lemma nodes_step g l : (forall x, In x l -> dget neqb (nodes (graph_of g)) (fst x) = Some (snd x)) -> forall (r : gb_counts),
  foldM (node_step neqb graph_of o m g) r (map fst l) =
  Ok (add_nodes r (count (fun x => node_counts punct o (snd x) && true) l) (count (fun x => node_counts punct o (snd x) && naligned g (fst x)) l)
                  (count (fun x => node_counts punct o (snd x) && negb (naligned g (fst x))) l)).
Proof.
  induction l as [|x l IH]; intros H r; cbn [map foldM].
  - f_equal. destruct r; unfold add_nodes; cbn. f_equal; lia.
  - assert (NS : node_step neqb graph_of o m g r (fst x) = Ok (if node_counts punct o (snd x) then inc_cn r (naligned g (fst x)) else r)).
    { unfold node_step, node_is_punct, node_is_empty, dread. rewrite H by (cbn; auto). rewrite node_aligned_ok. unfold node_counts, punct_node.
      destruct (with_punc o), (with_empty o), (snd x) as [|t ts]; cbn [bind negb orb andb no_tokens]; auto; destruct (forallb punct (t :: ts)); cbn [bind negb orb andb]; auto. }
    rewrite NS. cbn [bind]. rewrite IH by (intros; apply H; cbn; auto). rewrite !count_cons. f_equal. destruct (node_counts punct o (snd x)); cbn [andb]; auto.
    unfold add_nodes, inc_cn; cbn [cg cga cgu cgsa cgma cgur cgfp ct cn cna cnu]. destruct (naligned g (fst x)); cbn [negb]; f_equal; lia.
Qed.
Lemma node_stats_ok g (r : gb_counts) : NoDup (dkeys (nodes (graph_of g))) ->
  node_stats neqb graph_of o m g r = Ok (add_nodes r (counted_nodes (fun _ => true) g) (counted_nodes (naligned g) g) (counted_nodes (fun n => negb (naligned g n)) g)).
Proof.
  intros ND. unfold node_stats. apply (@nodes_step g (nodes (graph_of g))). intros (n, ts) Hx. apply (in_dget _ neq); auto.
Qed.
Lemma count_tokens_ok g : count_tokens o (graph_of g) = count (fun t => with_punc o || negb (punct t)) (tokens (graph_of g)).
Proof.
  unfold count_tokens, count. destruct (with_punc o); cbn [orb]; [|reflexivity]. f_equal. induction (tokens (graph_of g)) as [|x l IH]; cbn; congruence.
Qed.
Lemma sum_over_snoc f gs g : sum_over neqb o graph_of ps f (gs ++ [g]) = sum_over neqb o graph_of ps f gs + (if graph_counts g then f g else 0).
Proof. unfold sum_over. rewrite filter_app, map_app, list_sum_app. cbn. destruct (graph_counts g); cbn; lia. Qed.
Notation reached := (reached neqb o graph_of ps).
Lemma graph_step_ok gs g : NoDup (dkeys (nodes (graph_of g))) ->
  match graph_step neqb graph_of o m (gb_of gs) g with
  | Ok r => (threshold o = true -> reached g = false) /\ r = gb_of (gs ++ [g])
  | Err e => threshold o = true /\ reached g = true /\ e = UserWarning
  end.
Proof.
  intros ND. unfold graph_step, Stats_spec.reached, not_failed. rewrite root_ok, graph_aligned_ok, single_ok, negb_involutive.
  unfold gb_counts_of. rewrite !count_snoc, !sum_over_snoc. unfold Stats_spec.graph_counts, not_failed.
  set (f := failed (graph_of g)). set (ur := unaligned_root neqb o graph_of ps g). set (al := graph_aligned neqb o graph_of ps g). set (si := single neqb o graph_of ps g).
  destruct (f && negb (with_failed o)) eqn:E1.
  { apply andb_true_iff in E1 as (-> & E1). apply negb_true_iff in E1. rewrite E1. cbn [orb negb andb]. split; [reflexivity|]. now rewrite !Nat.add_0_r. }
  assert (W1 : with_failed o || negb f = true) by (destruct (with_failed o), f; auto). rewrite W1. cbn [andb].
  assert (W2 : with_failed o && f = f) by (destruct (with_failed o), f; auto). rewrite W2.
  destruct (ur && negb (with_unaligned_roots o)) eqn:E2.
  { apply andb_true_iff in E2 as (-> & E2). apply negb_true_iff in E2. rewrite E2. cbn [orb negb andb]. split; [reflexivity|].
    rewrite !Nat.add_0_r. destruct f; cbn; rewrite ?Nat.add_0_r; reflexivity. }
  assert (W3 : with_unaligned_roots o || negb ur = true) by (destruct (with_unaligned_roots o), ur; auto). rewrite W3. cbn [andb].
  assert (W4 : with_unaligned_roots o && ur = ur) by (destruct (with_unaligned_roots o), ur; auto). rewrite W4.
  destruct (threshold o); [auto|].
  destruct (negb al && negb (with_unaligned_graphs o)) eqn:E3.
  { apply andb_true_iff in E3 as (E3 & E4). apply negb_true_iff in E3, E4. rewrite E3, E4. cbn [orb negb andb]. split; [discriminate|].
    rewrite !Nat.add_0_r. destruct f, ur; cbn; rewrite ?Nat.add_0_r; reflexivity. }
  assert (W5 : with_unaligned_graphs o || al = true) by (destruct (with_unaligned_graphs o), al; auto). rewrite W5. cbn [andb].
  rewrite node_stats_ok by auto. rewrite count_tokens_ok. split; [discriminate|].
  unfold add_nodes. destruct al, si, f, ur; cbn [inc_cga inc_cgu inc_cg inc_cgfp inc_cgur cg cga cgu cgsa cgma cgur cgfp ct cn cna cnu negb andb]; rewrite ?Nat.add_0_r; reflexivity.
Qed.
Lemma graphs_step hs : Forall (fun g => NoDup (dkeys (nodes (graph_of g)))) hs -> forall gs,
  match foldM (graph_step neqb graph_of o m) (gb_of gs) hs with
  | Ok r => (threshold o = true -> Forall (fun g => reached g = false) hs) /\ r = gb_of (gs ++ hs)
  | Err e => threshold o = true /\ ~ Forall (fun g => reached g = false) hs /\ e = UserWarning
  end.
Proof.
  induction 1 as [|g hs ND F IH]; intros gs; cbn [foldM].
  - rewrite app_nil_r. auto.
  - pose proof (@graph_step_ok gs g ND) as GS. destruct (graph_step neqb graph_of o m (gb_of gs) g) as [r|e]; cbn [bind].
    2: { destruct GS as (X & Y & Z). split; auto. split; auto. intros G. inversion G; congruence. }
    destruct GS as (X & ->). specialize (IH (gs ++ [g])). rewrite <- app_assoc in IH. cbn [app] in IH.
    destruct (foldM (graph_step neqb graph_of o m) _ hs) as [r|e].
    + destruct IH as (Y & ->). split; auto.
    + destruct IH as (Y & Z & W). split; auto. split; auto. intros G. inversion G; auto.
Qed.
Lemma bank_ok hs : Forall (fun g => NoDup (dkeys (nodes (graph_of g)))) hs ->
  match graph_stats neqb graph_of o m hs with
  | Ok r => (threshold o = true -> Forall (fun g => reached g = false) hs) /\ r = gb_of hs
  | Err e => threshold o = true /\ ~ Forall (fun g => reached g = false) hs /\ e = UserWarning
  end.
Proof. intros F. exact (@graphs_step hs F []). Qed.
End Bank.
End P.

Section Results.
Variable N : Type.
Variable neqb : N -> N -> bool.
Hypothesis neq : forall x y, neqb x y = true <-> x = y.
Notation punct := (contains punctuation).
Notation wf c := (Forall (Forall (fun g => NoDup (dkeys (nodes (c_graph c g))))) (c_banks c)).
Implicit Types (c : corpus N) (o : options).
Definition all_ok o c : Prop :=
  Forall (pair_ok neqb punct o (c_graph c)) (c_pairs c) /\
  (threshold o = true -> Forall (Forall (fun g => reached neqb o (c_graph c) (c_pairs c) g = false)) (c_banks c)).
Lemma banks_ok o c m : same_marks neqb (c_graph c) o m (c_pairs c) -> forall bs, Forall (Forall (fun g => NoDup (dkeys (nodes (c_graph c g))))) bs ->
  match mapM (graph_stats neqb (c_graph c) o m) bs with
  | Ok rs => (threshold o = true -> Forall (Forall (fun g => reached neqb o (c_graph c) (c_pairs c) g = false)) bs) /\
             rs = map (gb_counts_of neqb punct o (c_graph c) (c_pairs c)) bs
  | Err e => threshold o = true /\ ~ Forall (Forall (fun g => reached neqb o (c_graph c) (c_pairs c) g = false)) bs /\ e = UserWarning
  end.
Proof.
  intros M bs W. induction W as [|b bs Hb Hbs IH]; cbn [mapM map]; [auto|].
  pose proof (bank_ok neq M Hb) as B. destruct (graph_stats neqb (c_graph c) o m b) as [r|e]; cbn [bind].
  2: { destruct B as (X & Y & Z). split; auto. split; auto. intros F. inversion F; auto. }
  destruct B as (X & ->). destruct (mapM _ bs) as [rs|e]; cbn [bind].
  - destruct IH as (Y & ->). split; auto.
  - destruct IH as (Y & Z & T). split; auto. split; auto. intros F. inversion F; auto.
Qed.
Definition errs5 := [KeyError; TypeError; AssertionError; NotImplementedError; UserWarning].
Lemma corpus_all o c : wf c ->
  match corpus_stats neqb o c with
  | Ok (r, rs) => all_ok o c /\ r = pgc_counts_of neqb punct o (c_graph c) (c_pairs c) /\ rs = map (gb_counts_of neqb punct o (c_graph c) (c_pairs c)) (c_banks c)
  | Err e => ~ all_ok o c /\ In e errs5
  end.
Proof.
  intros W. unfold corpus_stats, all_ok. pose proof (corpus_ok neqb (c_graph c) o (c_pairs c)) as C.
  destruct (graph_pair_stats neqb (c_graph c) o (c_pairs c)) as [(r, m)|e]; cbn [bind].
  2: { destruct C as (X & Y). split; [tauto|]. destruct Y as [<-|[<-|[<-|[<-|[]]]]]; cbn; auto 10. }
  destruct C as (F & -> & M). cbn [snd fst]. pose proof (@banks_ok o c m M _ W) as B. destruct (mapM _ (c_banks c)) as [rs|e]; cbn [bind].
  - destruct B as (X & ->). auto.
  - destruct B as (X & Y & ->). split; [tauto|cbn; auto 10].
Qed.
Lemma all_ok_dec o c : wf c -> all_ok o c <-> exists x, corpus_stats neqb o c = Ok x.
Proof.
  intros W. pose proof (corpus_all o c W) as C. destruct (corpus_stats neqb o c) as [(r, rs)|e].
  - split; [eauto|]. intros _. apply C.
  - split; [tauto|]. intros (x & X). discriminate.
Qed.

(** Several corpora. *)
Lemma stats_all o cs rows banks : pgc_stats neqb o cs = Ok (rows, banks) ->
  exists rs, Forall2 (fun c x => corpus_stats neqb o c = Ok x) cs rs /\ rows = map fst rs /\ banks = concat (map snd rs).
Proof.
  unfold pgc_stats. destruct (mapM _ cs) as [rs|e] eqn:E; [|discriminate]. cbn. intros [= <- <-]. exists rs. split; auto.
  revert rs E. induction cs as [|c cs IH]; cbn [mapM]; intros rs E; [injection E as <-; constructor|].
  destruct (corpus_stats neqb o c) as [x|] eqn:X; [|discriminate]. cbn [bind] in E. destruct (mapM _ cs) as [xs|]; [|discriminate]. injection E as <-.
  constructor; auto.
Qed.

(** The relations add up. *)
Section One.
Variable graph_of : nat -> graph N.
Variable o : options.
Notation link_counts := (link_counts neqb punct o graph_of).
Notation links := (links neqb punct o graph_of).
Notation pair_counts := (pair_counts neqb o graph_of).
Notation counts_of := (pgc_counts_of neqb punct o graph_of).
Lemma links_cons f p ps : links f (p :: ps) = (if pair_counts p then count (fun a => link_counts p a && f p a) (alignment p) else 0) + links f ps.
Proof. unfold Stats_spec.links. cbn [filter]. destruct (pair_counts p); reflexivity. Qed.
Lemma five_sum (p : gpair N) l : Forall (link_ok neqb punct o graph_of p) l ->
  let c r := count (fun a => link_counts p a && has_relation r a) l in
  count (fun a => link_counts p a && true) l = c "equals"%string + c "restates"%string + c "generalizes"%string + c "specifies"%string + c "intersects"%string.
Proof.
  intros F. cbv zeta. induction F as [|a l (ts & E & H) F IH]; [reflexivity|]. rewrite !count_cons, IH.
  destruct (link_counts p a) eqn:LC; cbn [andb]; [|lia].
  assert (exists x, snd a = Some x /\ In x five) as (x & X & I).
  { destruct H as [H|(ts' & E' & H)]; [|auto]. exfalso. unfold Stats_spec.link_counts in LC. rewrite E in LC.
    destruct (node_tokens neqb graph_of (target p) (snd (fst a))); [|discriminate]. apply andb_true_iff in LC as (LC & _).
    unfold skip_source, node_counts in *. destruct (with_empty o), (with_punc o), (no_tokens ts), (punct_node punct ts); discriminate. }
  unfold has_relation. rewrite X. cbn in I. destruct I as [<-|[<-|[<-|[<-|[<-|[]]]]]]; cbn; lia.
Qed.
Lemma relations_sum ps : Forall (pair_ok neqb punct o graph_of) ps ->
  cnp (counts_of ps) = ceq (counts_of ps) + cre (counts_of ps) + cgen (counts_of ps) + cspec (counts_of ps) + cint (counts_of ps).
Proof.
  intros F. cbn [cnp ceq cre cgen cspec cint pgc_counts_of]. induction F as [|p ps H F IH]; [reflexivity|]. rewrite !links_cons.
  destruct (pair_counts p) eqn:PC; [|lia]. destruct (H PC) as (_ & G). rewrite (five_sum G). lia.
Qed.
Lemma row_bounds ps : let r := counts_of ps in cgpfu r <= cgp r /\ cgpfp r <= cgp r /\ cgpur r <= cgp r /\ cgp r <= cgpfu r + cgpfp r + cgpur r.
Proof.
  cbn. repeat split; try (apply count_le; intros x _ H; rewrite ?andb_true_iff in H; tauto).
  induction ps as [|p ps IH]; [auto|]. rewrite !count_cons. destruct (pair_counts p); cbn; [|lia]. destruct (failed_pair graph_of p), (roots_aligned neqb graph_of p); cbn; lia.
Qed.
Lemma row_strict ps : with_failed o = false -> with_unaligned_roots o = false -> let r := counts_of ps in cgpfu r = cgp r /\ cgpfp r = 0 /\ cgpur r = 0.
Proof.
  intros E1 E2. cbn. unfold Stats_spec.pair_counts. rewrite E1, E2. cbn. repeat split.
  - apply count_ext. intros p _. destruct (failed_pair graph_of p), (roots_aligned neqb graph_of p); reflexivity.
  - apply count_zero. intros p _. destruct (failed_pair graph_of p), (roots_aligned neqb graph_of p); reflexivity.
  - apply count_zero. intros p _. destruct (failed_pair graph_of p), (roots_aligned neqb graph_of p); reflexivity.
Qed.
(** Banks. *)
Variable ps : list (gpair N).
Notation graph_counts := (graph_counts neqb o graph_of ps).
Notation gb_of := (gb_counts_of neqb punct o graph_of ps).
Notation ur := (unaligned_root neqb o graph_of ps).
Notation al := (graph_aligned neqb o graph_of ps).
Lemma ur_opt g : ur g = true -> with_unaligned_roots o = true /\ al g = true.
Proof.
  unfold unaligned_root, graph_aligned, graph_from, graph_to. rewrite existsb_exists. intros (p & Hp & H).
  rewrite !andb_true_iff, orb_true_iff in H. destruct H as ((PC & NR) & ST). split.
  - unfold Stats_spec.pair_counts in PC. apply andb_true_iff in PC as (_ & PC). apply orb_true_iff in PC as [PC|PC]; auto. rewrite PC in NR. discriminate.
  - rewrite orb_true_iff, !Nat.ltb_lt, !count_pos. destruct ST as [ST|ST]; [left|right]; exists p; rewrite PC, ST; auto.
Qed.
Lemma sum_over_add f g gs : sum_over neqb o graph_of ps (fun x => f x + g x) gs = sum_over neqb o graph_of ps f gs + sum_over neqb o graph_of ps g gs.
Proof. unfold sum_over. induction (filter graph_counts gs) as [|x l IH]; [reflexivity|]. cbn [map]. change (list_sum (?a :: ?b)) with (a + list_sum b). lia. Qed.
Lemma sum_over_ext f g gs : (forall x, f x = g x) -> sum_over neqb o graph_of ps f gs = sum_over neqb o graph_of ps g gs.
Proof. intros H. unfold sum_over. f_equal. now apply map_ext. Qed.
Lemma bank_sums gs : let r := gb_of gs in cg r = cga r + cgu r /\ cga r = cgsa r + cgma r /\ cn r = cna r + cnu r /\ cgur r <= cg r /\ cgur r <= cga r.
Proof.
  cbv zeta. cbn [cg cga cgu cgsa cgma cgur cgfp ct cn cna cnu gb_counts_of]. repeat split.
  - apply count_split.
  - apply count_split.
  - rewrite <- sum_over_add. apply sum_over_ext. intros g. unfold counted_nodes.
    transitivity (count (fun x => node_counts punct o (snd x)) (nodes (graph_of g))); [apply count_ext; intros; now rewrite andb_true_r|].
    apply count_split.
  - apply count_le. intros g _ H. rewrite !andb_true_iff in H. destruct H as ((H1 & H2) & H3). destruct (ur_opt _ H3) as (_ & A).
    unfold Stats_spec.graph_counts. now rewrite H1, H2, A, orb_true_r.
  - apply count_le. intros g _ H. rewrite !andb_true_iff in H. destruct H as ((H1 & H2) & H3). destruct (ur_opt _ H3) as (_ & A).
    unfold Stats_spec.graph_counts. now rewrite H1, H2, A, orb_true_r.
Qed.
Lemma bank_failed gs : with_unaligned_graphs o = true -> cgfp (gb_of gs) <= cg (gb_of gs).
Proof.
  intros E. cbn. apply count_le. intros g _ H. rewrite andb_true_iff in H. destruct H as (H1 & H2).
  unfold Stats_spec.graph_counts, not_failed. rewrite H1, E. cbn [orb andb]. rewrite andb_true_r.
  destruct (ur g) eqn:U; [|apply orb_true_r]. destruct (ur_opt _ U) as (-> & _). reflexivity.
Qed.
Lemma bank_failed_aligned gs : (forall g, In g gs -> failed (graph_of g) = true -> al g = true) -> cgfp (gb_of gs) <= cg (gb_of gs).
Proof.
  intros E. cbn. apply count_le. intros g G H. rewrite andb_true_iff in H. destruct H as (H1 & H2).
  unfold Stats_spec.graph_counts, not_failed. rewrite H1, (E _ G H2), orb_true_r, andb_true_r. cbn [orb andb].
  destruct (ur g) eqn:U; [|apply orb_true_r]. destruct (ur_opt _ U) as (-> & _). reflexivity.
Qed.
End One.

(** Without pairs. *)
Lemma bank_alone o graph_of gs : let r := gb_counts_of neqb punct o graph_of [] gs in
  cga r = 0 /\ cgsa r = 0 /\ cgma r = 0 /\ cgur r = 0 /\ cna r = 0 /\ cnu r = cn r /\ cgu r = cg r.
Proof.
  cbv zeta. cbn [cg cga cgu cgsa cgma cgur cgfp ct cn cna cnu gb_counts_of].
  assert (Z : forall f, count f gs = 0 <-> (forall x, In x gs -> f x = false)).
  { intros f. split; [|apply count_zero]. intros H x Hx. destruct (f x) eqn:E; auto. assert (0 < count f gs) by (apply count_pos; eauto). lia. }
  repeat split; try (apply count_zero; intros; cbn; rewrite ?andb_false_r; reflexivity).
  - unfold sum_over, counted_nodes. induction (filter _ gs) as [|g l IH]; [reflexivity|]. cbn [map list_sum]. change (list_sum (?x :: ?l)) with (x + list_sum l). rewrite IH, count_zero; auto.
    intros. cbn. apply andb_false_r.
  - apply count_ext. intros g _. cbn. apply andb_true_r.
Qed.

(** Order does not matter. *)
Lemma count_perm A (f : A -> bool) l l' : Permutation l l' -> count f l = count f l'.
Proof. induction 1; rewrite ?count_cons; cbn in *; lia. Qed.
Lemma filter_perm A (f : A -> bool) l l' : Permutation l l' -> Permutation (filter f l) (filter f l').
Proof.
  induction 1; cbn; auto.
  - destruct (f x); auto.
  - destruct (f x), (f y); auto; constructor.
  - eapply perm_trans; eauto.
Qed.
Lemma list_sum_cons x l : list_sum (x :: l) = x + list_sum l.
Proof. reflexivity. Qed.
Lemma list_sum_perm l l' : Permutation l l' -> list_sum l = list_sum l'.
Proof. induction 1; rewrite ?list_sum_cons; lia. Qed.
Lemma existsb_perm A (f : A -> bool) l l' : Permutation l l' -> existsb f l = existsb f l'.
Proof. intros P. apply Bool.eq_true_iff_eq. rewrite !existsb_exists. split; intros (x & H & E); exists x; split; auto; [eapply Permutation_in; eauto|eapply Permutation_in; [symmetry|]; eauto]. Qed.
Lemma links_perm o G f ps ps' : Permutation ps ps' -> links neqb punct o G f ps = links neqb punct o G f ps'.
Proof. intros P. unfold links. apply list_sum_perm, Permutation_map, filter_perm, P. Qed.
Lemma counts_perm o G ps ps' : Permutation ps ps' -> pgc_counts_of neqb punct o G ps = pgc_counts_of neqb punct o G ps'.
Proof.
  intros P. unfold pgc_counts_of. f_equal; try (apply count_perm; exact P); apply links_perm; exact P.
Qed.
Section Perm.
Variables (o : options) (G : nat -> graph N) (ps ps' : list (gpair N)).
Hypothesis P : Permutation ps ps'.
Lemma al_perm g : graph_aligned neqb o G ps g = graph_aligned neqb o G ps' g.
Proof. unfold graph_aligned, graph_from, graph_to. now rewrite !(count_perm _ P). Qed.
Lemma single_perm g : single neqb o G ps g = single neqb o G ps' g.
Proof. unfold single, graph_from, graph_to. now rewrite !(count_perm _ P). Qed.
Lemma ur_perm g : unaligned_root neqb o G ps g = unaligned_root neqb o G ps' g.
Proof. apply existsb_perm, P. Qed.
Lemma nal_perm g n : node_aligned neqb punct o G ps g n = node_aligned neqb punct o G ps' g n.
Proof. unfold node_aligned, node_from, node_to. now rewrite !(links_perm _ _ _ P). Qed.
Lemma gc_perm g : graph_counts neqb o G ps g = graph_counts neqb o G ps' g.
Proof. unfold graph_counts. now rewrite al_perm, ur_perm. Qed.
Lemma sum_over_perm f f' gs gs' : Permutation gs gs' -> (forall g, f g = f' g) -> sum_over neqb o G ps f gs = sum_over neqb o G ps' f' gs'.
Proof.
  intros PG E. unfold sum_over. rewrite (list_sum_perm (Permutation_map f (filter_perm (graph_counts neqb o G ps) PG))).
  f_equal. rewrite (filter_ext _ _ gc_perm). now apply map_ext.
Qed.
Lemma gb_perm gs gs' : Permutation gs gs' -> gb_counts_of neqb punct o G ps gs = gb_counts_of neqb punct o G ps' gs'.
Proof.
  intros PG. unfold gb_counts_of. f_equal.
  1-7: rewrite (count_perm _ PG); apply count_ext; intros; rewrite ?gc_perm, ?al_perm, ?single_perm, ?ur_perm; reflexivity.
  all: apply sum_over_perm; auto.
  - intros g. apply count_ext. intros. now rewrite nal_perm.
  - intros g. apply count_ext. intros. now rewrite nal_perm.
Qed.
End Perm.

(** Weaker options count more. *)
Section Mono.
Variables (o o' : options) (G : nat -> graph N).
Hypothesis W : weaker o o'.
Lemma le_true a b : Bool.le a b -> a = true -> b = true.
Proof. destruct a, b; cbn; auto. Qed.
Lemma nc_mono ts : node_counts punct o ts = true -> node_counts punct o' ts = true.
Proof.
  destruct W as (W1 & W2 & W3 & W4 & W5). unfold node_counts. rewrite !andb_true_iff, !orb_true_iff. intros ([H|H] & [K|K]); split; auto; left; eapply le_true; eauto.
Qed.
Lemma pc_mono p : pair_counts neqb o G p = true -> pair_counts neqb o' G p = true.
Proof.
  destruct W as (W1 & W2 & W3 & W4 & W5). unfold pair_counts. rewrite !andb_true_iff, !orb_true_iff. intros ([H|H] & [K|K]); split; auto; left; eapply le_true; eauto.
Qed.
Lemma lc_mono p a : link_counts neqb punct o G p a = true -> link_counts neqb punct o' G p a = true.
Proof.
  unfold link_counts. destruct (node_tokens neqb G (source p) (fst (fst a))), (node_tokens neqb G (target p) (snd (fst a))); auto. rewrite !andb_true_iff. intros (H & K); split; now apply nc_mono.
Qed.
Lemma links_mono f ps : links neqb punct o G f ps <= links neqb punct o' G f ps.
Proof.
  induction ps as [|p ps IH]; [auto|]. rewrite !links_cons. destruct (pair_counts neqb o G p) eqn:E; [|lia]. rewrite (pc_mono _ E).
  apply Nat.add_le_mono; auto. apply count_le. intros a _. rewrite !andb_true_iff. intros (H & K). split; auto. now apply lc_mono.
Qed.
Lemma al_mono ps g : graph_aligned neqb o G ps g = true -> graph_aligned neqb o' G ps g = true.
Proof.
  unfold graph_aligned, graph_from, graph_to. rewrite !orb_true_iff, !Nat.ltb_lt, !count_pos.
  intros [(p & Hp & H)|(p & Hp & H)]; apply andb_true_iff in H as (H & K); [left|right]; exists p; rewrite (pc_mono _ H), K; auto.
Qed.
Lemma gc_mono ps g : graph_counts neqb o G ps g = true -> graph_counts neqb o' G ps g = true.
Proof.
  unfold graph_counts. rewrite !andb_true_iff. intros ((H1 & H2) & H3). destruct W as (W1 & W2 & W3 & W4 & W5). repeat split.
  - unfold not_failed in *. apply orb_true_iff. apply orb_true_iff in H1 as [H1|H1]; auto. left. eapply le_true; eauto.
  - destruct (unaligned_root neqb o' G ps g) eqn:U; [|apply orb_true_r]. destruct (ur_opt _ _ _ _ U) as (-> & _). reflexivity.
  - apply orb_true_iff. apply orb_true_iff in H3 as [H3|H3]; [left; eapply le_true; eauto|]. right. now apply al_mono.
Qed.
Lemma sum_mono f f' ps gs : (forall g, f g <= f' g) -> sum_over neqb o G ps f gs <= sum_over neqb o' G ps f' gs.
Proof.
  intros F. unfold sum_over. induction gs as [|g gs IH]; [auto|]. cbn [filter]. destruct (graph_counts neqb o G ps g) eqn:E.
  - rewrite (gc_mono _ _ E). cbn [map]. rewrite !list_sum_cons. specialize (F g). lia.
  - destruct (graph_counts neqb o' G ps g); cbn [map]; rewrite ?list_sum_cons; lia.
Qed.
Lemma rows_mono ps : let r := pgc_counts_of neqb punct o G ps in let r' := pgc_counts_of neqb punct o' G ps in
  cgp r <= cgp r' /\ cgpfu r <= cgpfu r' /\ cgpfp r <= cgpfp r' /\ cgpur r <= cgpur r' /\ cnp r <= cnp r' /\ ceq r <= ceq r' /\ cre r <= cre r' /\ cgen r <= cgen r' /\ cspec r <= cspec r' /\ cint r <= cint r'.
Proof.
  cbn. repeat split; try apply links_mono; apply count_le; intros p _; rewrite ?andb_true_iff; try apply pc_mono; intros H; repeat split; try tauto; apply pc_mono; tauto.
Qed.
Lemma banks_mono ps gs : let r := gb_counts_of neqb punct o G ps gs in let r' := gb_counts_of neqb punct o' G ps gs in
  cg r <= cg r' /\ cga r <= cga r' /\ ct r <= ct r' /\ cn r <= cn r' /\ cna r <= cna r'.
Proof.
  cbn. repeat split.
  - apply count_le. intros g _. apply gc_mono.
  - apply count_le. intros g _. rewrite !andb_true_iff. intros (H & K). split; [now apply gc_mono|now apply al_mono].
  - apply sum_mono. intros g. apply count_le. intros t _. rewrite !orb_true_iff. intros [H|H]; auto. left. destruct W as (_ & _ & W3 & _). eapply le_true; eauto.
  - apply sum_mono. intros g. apply count_le. intros x _. rewrite !andb_true_iff. intros (H & K). split; auto. now apply nc_mono.
  - apply sum_mono. intros g. apply count_le. intros x _. rewrite !andb_true_iff. intros (H & K). split; [now apply nc_mono|].
    unfold node_aligned, node_from, node_to in *. apply orb_true_iff in K as [K|K]; apply Nat.ltb_lt in K; apply orb_true_iff; [left|right]; apply Nat.ltb_lt.
    + eapply Nat.lt_le_trans; [exact K|]. apply links_mono.
    + eapply Nat.lt_le_trans; [exact K|]. apply links_mono.
Qed.
End Mono.
End Results.

(** Percentages. *)
Lemma percent_pct a b : ((if b =? 0 then 0 else percent a b) == pct a b)%Q.
Proof. unfold pct, ratio, percent. destruct b; cbn [Nat.eqb]; reflexivity. Qed.
Lemma pct_range a b : a <= b -> in_percent (pct a b).
Proof.
  intros L. unfold pct, ratio, in_percent. destruct b as [|b]; [split; cbn; lra|].
  assert (P : (0 < inject_Z (Z.of_nat (S b)))%Q) by (change 0%Q with (inject_Z 0); rewrite <- Zlt_Qlt; lia).
  assert (A : (0 <= inject_Z (Z.of_nat a))%Q) by (change 0%Q with (inject_Z 0); rewrite <- Zle_Qle; lia).
  assert (B : (inject_Z (Z.of_nat a) <= inject_Z (Z.of_nat (S b)))%Q) by (rewrite <- Zle_Qle; lia).
  assert (X : (0 <= inject_Z (Z.of_nat a) / inject_Z (Z.of_nat (S b)))%Q) by (apply Qle_shift_div_l; auto; lra).
  assert (Y : (inject_Z (Z.of_nat a) / inject_Z (Z.of_nat (S b)) <= 1)%Q) by (apply Qle_shift_div_r; auto; lra).
  split; lra.
Qed.
Lemma percent_range a b : a <= b -> in_percent (if b =? 0 then 0%Q else percent a b).
Proof. intros L. destruct (pct_range L) as (X & Y). unfold in_percent. now rewrite percent_pct. Qed.
