From Coq Require Import Reals Lra Permutation Sorted.
From Verif Require Import Py PyLemmas Corpus_model Corpus_spec Corpus_proof Tfidf_spec Tfidf_model.
Open Scope nat_scope.
Set Implicit Arguments.
Section P.
Variable T : Type.
Variables teqb tleb : T -> T -> bool.
Variable teq : forall x y, teqb x y = true <-> x = y.
Lemma t_refl x : teqb x x = true. Proof. now apply teq. Qed.
Lemma t_ne x y : x <> y -> teqb x y = false. Proof. intros; destruct (teqb x y) eqn:E; auto. apply teq in E; congruence. Qed.
Lemma t_dec (x y : T) : {x = y} + {x <> y}.
Proof. destruct (teqb x y) eqn:E; [left; now apply teq|right; intros ->; rewrite t_refl in E; discriminate]. Qed.
Definition cnt (d : list (T * nat)) (t : T) : nat := match dget teqb d t with Some n => n | None => 0 end.
(** dictionaries of positive counts *)
Definition isct (d : list (T * nat)) (f : T -> nat) : Prop :=
  NoDup (dkeys d) /\ forall t, dget teqb d t = if f t =? 0 then None else Some (f t).
Lemma isct_nil : isct [] (fun _ => 0). Proof. split; [constructor|auto]. Qed.
Lemma isct_ext d f g : isct d f -> (forall t, f t = g t) -> isct d g.
Proof. intros [N H] E. split; auto. intros t. now rewrite H, E. Qed.
Lemma bump_ok d f t : isct d f -> isct (bump teqb d t) (fun x => (if teqb x t then 1 else 0) + f x).
Proof.
  intros [N H]. unfold bump. rewrite H. destruct (f t =? 0) eqn:E.
  - split; [now apply (nodup_dset teqb teq)|]. intros x. destruct (t_dec t x) as [<-|Hx].
    + rewrite (dget_dset_same teqb teq), t_refl. apply Nat.eqb_eq in E. now rewrite E.
    + rewrite (dget_dset_other teqb teq) by auto. rewrite t_ne by auto. apply H.
  - split; [now apply (nodup_dset teqb teq)|]. intros x. destruct (t_dec t x) as [<-|Hx].
    + rewrite (dget_dset_same teqb teq), t_refl. cbn. f_equal. lia.
    + rewrite (dget_dset_other teqb teq) by auto. rewrite t_ne by auto. apply H.
Qed.
Lemma bumps_ok l d f : isct d f -> isct (fold_left (bump teqb) l d) (fun x => occurrences teqb x l + f x).
Proof.
  revert d f. induction l as [|t l IH]; intros d f H; cbn; auto.
  eapply isct_ext; [apply IH, bump_ok, H|]. intros x. cbn. unfold occurrences. cbn. destruct (teqb x t); cbn; lia.
Qed.
Lemma isct_in d f t : isct d f -> In t (dkeys d) <-> 0 < f t.
Proof.
  intros [N H]. specialize (H t). destruct (f t =? 0) eqn:E.
  - apply (dget_none teqb teq) in H. apply Nat.eqb_eq in E. split; [easy|lia].
  - apply Nat.eqb_neq in E. split; [lia|]. intros _. destruct (in_dec t_dec t (dkeys d)); auto. apply (dget_none teqb teq) in n. congruence.
Qed.
Lemma occ_pos t doc : 0 < occurrences teqb t doc <-> In t doc.
Proof.
  unfold occurrences. split.
  - intros H. destruct (filter (teqb t) doc) as [|x l] eqn:E; [cbn in H; lia|]. assert (In x (filter (teqb t) doc)) as I by (rewrite E; now left).
    apply filter_In in I as [I1 I2]. apply teq in I2. now subst.
  - intros H. assert (In t (filter (teqb t) doc)) as I by (apply filter_In; split; auto; apply t_refl). destruct (filter (teqb t) doc); [easy|cbn; lia].
Qed.
Lemma occ_nodup t l : NoDup l -> occurrences teqb t l = if mem teqb t l then 1 else 0.
Proof.
  intros N. unfold occurrences. induction N as [|x l Hx N IH]; cbn; auto. destruct (teqb t x) eqn:E; cbn.
  - apply teq in E as <-. assert (mem teqb t l = false) as M.
    { destruct (mem teqb t l) eqn:M; auto. apply (mem_spec teqb teq) in M. easy. }
    rewrite M in IH. now rewrite IH.
  - apply IH.
Qed.
(** term frequencies *)
Lemma doc_loop doc (s : list (T * bool) * list (T * nat)) :
  let s' := fold_left (fun s term => (dset teqb (fst s) term true, bump teqb (snd s) term)) doc s in
  snd s' = fold_left (bump teqb) doc (snd s) /\
  (NoDup (dkeys (fst s)) -> NoDup (dkeys (fst s'))) /\
  (forall t, In t (dkeys (fst s')) <-> In t (dkeys (fst s)) \/ In t doc).
Proof.
  revert s. induction doc as [|t doc IH]; intros s; cbn [fold_left]; [cbn; tauto|].
  destruct (IH (dset teqb (fst s) t true, bump teqb (snd s) t)) as (A & B & C). cbn [fst snd] in *. split; auto. split.
  - intros N. apply B. now apply (nodup_dset teqb teq).
  - intros x. rewrite C. cbn. assert (In x (dkeys (dset teqb (fst s) t true)) <-> In x (dkeys (fst s)) \/ t = x) as ->; [|tauto].
    destruct (in_dec t_dec t (dkeys (fst s))) as [I|I].
    + rewrite (dkeys_dset_in teqb teq) by auto. split; [tauto|]. intros [|<-]; auto.
    + rewrite (dkeys_dset_new teqb teq) by auto. unfold dkeys. rewrite map_app, in_app_iff. cbn. tauto.
Qed.
Lemma tf_ok docs : let r := calculate_term_frequencies teqb tleb docs in
  NoDup (fst r) /\ (forall t, In t (fst r) <-> exists d, In d docs /\ In t d) /\
  Forall2 (fun d m => isct m (fun t => occurrences teqb t d)) docs (snd r).
Proof.
  unfold calculate_term_frequencies. cbv zeta.
  set (step := fun st doc_terms => _).
  assert (forall st, NoDup (dkeys (fst st)) -> let st' := fold_left step docs st in
    NoDup (dkeys (fst st')) /\ (forall t, In t (dkeys (fst st')) <-> In t (dkeys (fst st)) \/ exists d, In d docs /\ In t d) /\
    exists ms, snd st' = snd st ++ ms /\ Forall2 (fun d m => isct m (fun t => occurrences teqb t d)) docs ms) as K.
  { induction docs as [|d docs IH]; intros st N; cbn [fold_left].
    - cbv zeta. split; auto. split; [firstorder|]. exists []. rewrite app_nil_r. auto.
    - destruct (doc_loop d (fst st, [])) as (A & B & C). cbn [fst snd] in *.
      destruct (IH (step st d)) as (A1 & A2 & ms & A3 & A4); [apply B, N|]. cbv zeta in *. split; auto. split.
      + intros t. rewrite A2. unfold step at 1. cbn [fst]. rewrite C. cbn. split.
        * intros [[H|H]|(d' & H & H')]; eauto.
        * intros [H|(d' & [<-|H] & H')]; eauto.
      + eexists. split; [rewrite A3; unfold step at 1; cbn [snd]; rewrite <- app_assoc; reflexivity|].
        constructor; auto. rewrite A. eapply isct_ext; [apply bumps_ok, isct_nil|]. intros t. cbn. lia. }
  destruct (K ([], []) (NoDup_nil _)) as (A & B & ms & C & D). cbn [fst snd] in *. rewrite sort_isort.
  assert (forall l y, In y (isort tleb l) <-> In y l) as KK.
  { intros l y. split; apply Permutation_in; [symmetry|]; apply isort_perm. }
  split; [eapply Permutation_NoDup; [apply isort_perm|exact A]|]. split.
  - intros t. rewrite KK, B. cbn. split; [intros [[]|]; auto|auto].
  - rewrite C. exact D.
Qed.
Lemma df_ok docs ms : Forall2 (fun d m => isct m (fun t => occurrences teqb t d)) docs ms ->
  isct (calculate_document_frequencies teqb ms) (fun t => containing teqb t docs).
Proof.
  intros F. unfold calculate_document_frequencies.
  assert (forall d f, isct d f -> isct (fold_left (fun df tf => fold_left (bump teqb) (dkeys tf) df) ms d) (fun t => containing teqb t docs + f t)) as K.
  { induction F as [|doc m docs ms Hm F IH]; intros d f H; cbn; auto.
    eapply isct_ext; [apply IH, bumps_ok, H|]. intros t. cbn. unfold containing. cbn.
    rewrite occ_nodup by apply Hm.
    assert (mem teqb t (dkeys m) = mem teqb t doc) as ->.
    { apply eq_true_iff_eq. rewrite !(mem_spec teqb teq), (isct_in t Hm). apply occ_pos. }
    destruct (mem teqb t doc); cbn; lia. }
  eapply isct_ext; [apply K, isct_nil|]. intros t. cbn. lia.
Qed.
(** weights *)
Lemma containing_le t docs : containing teqb t docs <= length docs.
Proof. unfold containing. induction docs as [|d docs IH]; cbn; [lia|]. destruct (mem teqb t d); cbn; lia. Qed.
Lemma containing_all t docs : containing teqb t docs = length docs <-> forall d, In d docs -> In t d.
Proof.
  pose proof (containing_le t) as L. unfold containing in *. induction docs as [|d docs IH]; cbn; [split; auto; intros _ ? []|].
  specialize (L docs). destruct (mem teqb t d) eqn:E; cbn.
  - apply (mem_spec teqb teq) in E. split.
    + intros H d' [<-|Hd]; auto. apply IH; auto; lia.
    + intros H. f_equal. apply IH. auto.
  - split; [lia|]. intros H. exfalso. assert (In t d) as I by auto. apply (mem_spec teqb teq) in I. congruence.
Qed.
Lemma containing_pos t docs : (exists d, In d docs /\ In t d) -> 0 < containing teqb t docs.
Proof.
  intros (d & Hd & Ht). unfold containing. assert (In d (filter (fun d => mem teqb t d) docs)) as I.
  { apply filter_In. split; auto. now apply (mem_spec teqb teq). }
  destruct (filter _ docs); [easy|cbn; lia].
Qed.
Lemma inr_pos n : 0 < n -> (0 < INR n)%R. Proof. intros. now apply lt_0_INR. Qed.
Lemma mlog_ok x : (0 < x)%R -> mlog x = Ok (ln x).
Proof. intros H. unfold mlog. destruct (Rle_dec x 0); auto. lra. Qed.
Lemma rdiv_ok a b : b <> 0%R -> rdiv a b = Ok (a / b)%R.
Proof. intros H. unfold rdiv. destruct (Req_EM_T b 0); easy. Qed.
Lemma ln_ge0 x : (1 <= x)%R -> (0 <= ln x)%R.
Proof. intros H. destruct (Req_EM_T x 1) as [->|N]; [rewrite ln_1; lra|]. rewrite <- ln_1. left. apply ln_increasing; lra. Qed.
Lemma idf_range n df : 1 <= df -> df <= n -> (0 <= idf_of n df /\ idf_of n df <= ln (INR n))%R /\ (idf_of n df = 0%R <-> df = n).
Proof.
  intros H1 H2. unfold idf_of. assert (0 < INR df)%R as Pd by (apply inr_pos; lia). assert (0 < INR n)%R as Pn by (apply inr_pos; lia).
  assert (1 <= INR df)%R as D1 by (apply (le_INR 1); lia). assert (INR df <= INR n)%R as Dn by now apply le_INR.
  assert (1 <= INR n / INR df)%R as Q1. { apply Rmult_le_reg_r with (INR df); auto. unfold Rdiv. rewrite Rmult_assoc, Rinv_l by lra. lra. }
  assert (INR n / INR df <= INR n)%R as Q2. { apply Rmult_le_reg_r with (INR df); auto. unfold Rdiv. rewrite Rmult_assoc, Rinv_l by lra. rewrite Rmult_1_r. rewrite <- (Rmult_1_r (INR n)) at 1. apply Rmult_le_compat_l; lra. }
  split; [split; [now apply ln_ge0|]|split].
  - destruct Q2 as [Q2| ->]; [|lra]. left. apply ln_increasing; lra.
  - intros E. destruct (Nat.eq_dec df n) as [|Hne]; auto. exfalso.
    assert (INR df < INR n)%R by (apply lt_INR; lia).
    assert (1 < INR n / INR df)%R as Q3. { apply Rmult_lt_reg_r with (INR df); auto. unfold Rdiv. rewrite Rmult_assoc, Rinv_l by lra. lra. }
    apply ln_increasing in Q3; [|lra]. rewrite ln_1 in Q3. lra.
  - intros ->. unfold Rdiv. rewrite Rinv_r by lra. apply ln_1.
Qed.
Lemma ln_pos n : 2 <= n -> (0 < ln (INR n))%R.
Proof. intros H. rewrite <- ln_1. apply ln_increasing; [lra|]. apply (lt_INR 1). lia. Qed.
Lemma mapM_ok X Y (f : X -> res Y) (g : X -> Y) l : (forall x, In x l -> f x = Ok (g x)) -> mapM f l = Ok (map g l).
Proof. induction l as [|x l IH]; intros H; cbn; auto. rewrite H by now left. cbn. rewrite IH by (intros; apply H; now right). reflexivity. Qed.
Definition the_norm (normalized : bool) (docs : list (list T)) : R := if normalized then ln (INR (length docs)) else 1%R.
Lemma norm_ok normalized docs : (normalized = true -> docs <> []) -> norm_of docs normalized = Ok (the_norm normalized docs).
Proof.
  unfold norm_of, the_norm. destruct normalized; auto. intros H. apply mlog_ok. apply inr_pos. destruct docs; [now destruct H|cbn; lia].
Qed.
Lemma norm_nz normalized docs : (normalized = true -> 2 <= length docs) -> the_norm normalized docs <> 0%R.
Proof. unfold the_norm. destruct normalized; [|intros; lra]. intros H. specialize (H eq_refl). pose proof (ln_pos H). lra. Qed.
Lemma term_idf_ok normalized docs df t : isct df (fun t => containing teqb t docs) -> (normalized = true -> 2 <= length docs) ->
  (exists d, In d docs /\ In t d) ->
  term_idf teqb docs df (the_norm normalized docs) t = Ok (idf_of (length docs) (containing teqb t docs) / the_norm normalized docs)%R.
Proof.
  intros [_ H] Hn Ht. unfold term_idf, dread. rewrite H. pose proof (containing_pos t docs Ht) as P. pose proof (containing_le t docs) as L.
  destruct (containing teqb t docs =? 0) eqn:E; [apply Nat.eqb_eq in E; lia|]. cbn [bind].
  assert (0 < INR (containing teqb t docs))%R as P1 by now apply inr_pos.
  assert (0 < INR (length docs))%R as P2 by (apply inr_pos; lia).
  rewrite rdiv_ok by lra. cbn [bind]. rewrite mlog_ok. 2:{ apply Rdiv_lt_0_compat; auto. }
  cbn [bind]. rewrite rdiv_ok by now apply norm_nz. reflexivity.
Qed.
Lemma idf_ok normalized docs : (normalized = true -> 2 <= length docs) ->
  let terms := fst (calculate_term_frequencies teqb tleb docs) in
  idf teqb tleb docs normalized = Ok (terms,
    map (fun _ => map (fun t => idf_of (length docs) (containing teqb t docs) / the_norm normalized docs)%R terms) docs).
Proof.
  intros Hn terms. unfold idf. destruct (tf_ok docs) as (N & I & F). pose proof (df_ok F) as D.
  rewrite norm_ok by (intros E; specialize (Hn E); destruct docs; cbn in Hn; [lia|discriminate]). cbn [bind].
  rewrite (mapM_ok _ (fun _ => map (fun t => idf_of (length docs) (containing teqb t docs) / the_norm normalized docs)%R terms)).
  - cbn [bind]. do 2 f_equal. generalize 0. generalize (map (fun t => idf_of (length docs) (containing teqb t docs) / the_norm normalized docs)%R terms). 
    clear. intros w. induction docs as [|d docs IH]; intros n; cbn; auto. now rewrite IH.
  - intros i _. apply mapM_ok. intros t Ht. apply term_idf_ok; auto. now apply I.
Qed.
Lemma tf_value ind doc m t : isct m (fun t => occurrences teqb t doc) ->
  term_tf teqb ind doc m t = (if ind then if mem teqb t doc then 1 else 0 else INR (occurrences teqb t doc) / INR (length doc))%R.
Proof.
  intros [_ H]. unfold term_tf. destruct ind; auto. rewrite H.
  assert ((match (if occurrences teqb t doc =? 0 then None else Some (occurrences teqb t doc)) with Some n => n | None => 0 end) = occurrences teqb t doc) as ->.
  { destruct (occurrences teqb t doc =? 0) eqn:E; auto. apply Nat.eqb_eq in E. auto. }
  unfold rdiv. destruct (Req_EM_T (INR (length doc)) 0) as [E|E]; auto.
  apply (INR_eq _ 0) in E. destruct doc; [|discriminate]. cbn. unfold Rdiv. lra.
Qed.
Lemma tf_idf_ok normalized indicator docs : (normalized = true -> 2 <= length docs) ->
  let terms := fst (calculate_term_frequencies teqb tleb docs) in
  tf_idf teqb tleb docs normalized indicator = Ok (terms,
    map (fun d => map (fun t => (if indicator then if mem teqb t d then 1 else 0 else INR (occurrences teqb t d) / INR (length d)) *
                                (idf_of (length docs) (containing teqb t docs) / the_norm normalized docs))%R terms) docs).
Proof.
  intros Hn terms. unfold tf_idf. destruct (tf_ok docs) as (N & I & F). pose proof (df_ok F) as D.
  rewrite norm_ok by (intros E; specialize (Hn E); destruct docs; cbn in Hn; [lia|discriminate]). cbn [bind].
  rewrite (mapM_ok _ (fun dm => map (fun t => (if indicator then if mem teqb t (fst dm) then 1 else 0 else INR (occurrences teqb t (fst dm)) / INR (length (fst dm))) *
                                (idf_of (length docs) (containing teqb t docs) / the_norm normalized docs))%R terms)).
  - cbn [bind]. do 2 f_equal. fold terms in F. revert F. generalize (snd (calculate_term_frequencies teqb tleb docs)).
    set (n := length docs). clearbody n. set (nn := the_norm normalized docs). clearbody nn. 
    assert (forall cd ms, Forall2 (fun d m => isct m (fun t => occurrences teqb t d)) docs ms ->
      map (fun dm : list T * list (T * nat) => map (fun t => (if indicator then if mem teqb t (fst dm) then 1 else 0 else INR (occurrences teqb t (fst dm)) / INR (length (fst dm))) *
                                (idf_of n (containing teqb t cd) / nn))%R terms) (combine docs ms) =
      map (fun d => map (fun t => (if indicator then if mem teqb t d then 1 else 0 else INR (occurrences teqb t d) / INR (length d)) *
                                (idf_of n (containing teqb t cd) / nn))%R terms) docs) as K; [|apply K].
    clearbody terms. clear. intros cd ms F. induction F; cbn; auto. now rewrite IHF.
  - intros [d m] Hdm. apply mapM_ok. intros t Ht. rewrite (@term_idf_ok normalized docs) by (auto; now apply I). cbn [bind fst snd].
    rewrite tf_value; auto. clear -F Hdm. revert Hdm. induction F; cbn; [easy|]. intros [[= <- <-]|H']; auto.
Qed.
(** the failing cases of the normalized variants *)
Lemma mapM_err X Y (f : X -> res Y) e x l : (forall y, In y l -> f y = Err e) -> In x l -> mapM f l = Err e.
Proof. intros H Hx. destruct l as [|y l]; [easy|]. cbn. rewrite H by now left. reflexivity. Qed.
Lemma term_idf_one docs df t : isct df (fun t => containing teqb t docs) -> length docs = 1 -> (exists d, In d docs /\ In t d) ->
  term_idf teqb docs df (the_norm true docs) t = Err ZeroDivisionError.
Proof.
  intros [_ H] L1 Ht. unfold term_idf, dread. rewrite H. pose proof (containing_pos t docs Ht) as P. pose proof (containing_le t docs) as L.
  destruct (containing teqb t docs =? 0) eqn:E; [apply Nat.eqb_eq in E; lia|]. cbn [bind].
  assert (0 < INR (containing teqb t docs))%R as P1 by now apply inr_pos.
  assert (0 < INR (length docs))%R as P2 by (apply inr_pos; lia).
  rewrite rdiv_ok by lra. cbn [bind]. rewrite mlog_ok. 2:{ apply Rdiv_lt_0_compat; auto. }
  cbn [bind]. unfold rdiv, the_norm. rewrite L1. cbn [INR]. rewrite ln_1. destruct (Req_EM_T 0 0); [auto|lra].
Qed.
Lemma normalized_failures docs indicator :
  (docs = [] -> idf teqb tleb docs true = Err ValueError /\ tf_idf teqb tleb docs true indicator = Err ValueError) /\
  (forall t d, docs = [t :: d] -> idf teqb tleb docs true = Err ZeroDivisionError /\ tf_idf teqb tleb docs true indicator = Err ZeroDivisionError) /\
  (docs = [[]] -> idf teqb tleb docs true = Ok ([], [[]]) /\ tf_idf teqb tleb docs true indicator = Ok ([], [[]])).
Proof.
  split; [|split].
  - intros ->. assert (mlog (INR 0) = Err ValueError) as E by (unfold mlog; cbn; destruct (Rle_dec 0 0); [auto|lra]).
    unfold idf, tf_idf, norm_of. cbn [length]. rewrite E. auto.
  - intros t d ->. destruct (tf_ok [t :: d]) as (N & I & F). pose proof (df_ok F) as D.
    assert (forall x, In x (fst (calculate_term_frequencies teqb tleb [t :: d])) ->
      term_idf teqb [t :: d] (calculate_document_frequencies teqb (snd (calculate_term_frequencies teqb tleb [t :: d]))) (the_norm true [t :: d]) x = Err ZeroDivisionError) as K.
    { intros x Hx. apply term_idf_one; auto. now apply I. }
    assert (In t (fst (calculate_term_frequencies teqb tleb [t :: d]))) as Ht by (apply I; exists (t :: d); cbn; auto).
    unfold idf, tf_idf. rewrite norm_ok by discriminate. cbn [bind]. split.
    + erewrite (mapM_err _ 0); [reflexivity| |now left]. intros i _. eapply mapM_err; [exact K|exact Ht].
    + revert K F. generalize (snd (calculate_term_frequencies teqb tleb [t :: d])). intros ms K F.
      destruct ms as [|m ms]; [now inversion F|]. cbn [combine].
      erewrite (mapM_err _ (t :: d, m)); [reflexivity| |now left]. intros dm _. eapply mapM_err; [|exact Ht].
      intros x Hx. rewrite K by auto. reflexivity.
  - intros ->. unfold idf, tf_idf. rewrite norm_ok by discriminate. cbn. auto.
Qed.

Lemma idf_scaled normalized docs t : (normalized = true -> 2 <= length docs) -> (exists d, In d docs /\ In t d) ->
  let w := (idf_of (length docs) (containing teqb t docs) / the_norm normalized docs)%R in
  (0 <= w <= if normalized then 1 else ln (INR (length docs)))%R /\ (w = 0%R <-> forall d, In d docs -> In t d).
Proof.
  intros Hn Ht w. pose proof (containing_pos t docs Ht) as P. pose proof (containing_le t docs) as L.
  destruct (@idf_range (length docs) (containing teqb t docs)) as ((R1 & R2) & R3); [lia|lia|]. rewrite <- containing_all, <- R3.
  unfold w, the_norm in *. clear w. destruct normalized.
  - pose proof (ln_pos (Hn eq_refl)) as LP. set (x := idf_of _ _) in *. set (y := ln _) in *. clearbody x y.
    pose proof (Rinv_0_lt_compat y LP) as IP. split; [split|split].
    + apply Rmult_le_pos; lra.
    + apply Rmult_le_reg_r with y; auto. unfold Rdiv. rewrite Rmult_assoc, Rinv_l by lra. lra.
    + unfold Rdiv. intros E. apply Rmult_integral in E as [|]; lra.
    + intros ->. unfold Rdiv. lra.
  - unfold Rdiv. rewrite Rinv_1, Rmult_1_r. split; auto. tauto.
Qed.
Lemma occ_le t doc : occurrences teqb t doc <= length doc.
Proof. unfold occurrences. induction doc as [|x d IH]; cbn; [lia|]. destruct (teqb t x); cbn; lia. Qed.
Lemma tf_range (ind : bool) t d : (0 <= (if ind then if mem teqb t d then 1 else 0 else INR (occurrences teqb t d) / INR (length d)) <= 1)%R.
Proof.
  destruct ind; [destruct (mem teqb t d); lra|]. destruct d as [|x d]; [cbn; unfold Rdiv; lra|].
  pose proof (le_INR _ _ (occ_le t (x :: d))) as O. pose proof (pos_INR (occurrences teqb t (x :: d))) as O2.
  assert (0 < INR (length (x :: d)))%R as P by (apply inr_pos; cbn; lia).
  set (a := INR (occurrences _ _ _)) in *. set (b := INR (length (x :: d))) in *. clearbody a b. pose proof (Rinv_0_lt_compat b P) as IP. split.
  - apply Rmult_le_pos; lra.
  - apply Rmult_le_reg_r with b; auto. unfold Rdiv. rewrite Rmult_assoc, Rinv_l by lra. lra.
Qed.
Lemma ranges docs normalized indicator : (normalized = true -> 2 <= length docs) ->
  let top := (if normalized then 1 else ln (INR (length docs)))%R in
  exists terms ws tws, idf teqb tleb docs normalized = Ok (terms, ws) /\ tf_idf teqb tleb docs normalized indicator = Ok (terms, tws) /\
  (forall row, In row ws -> length row = length terms /\
     forall i t w, nth_error terms i = Some t -> nth_error row i = Some w ->
       (0 <= w <= top)%R /\ (w = 0%R <-> forall d, In d docs -> In t d)) /\
  (forall row, In row tws -> length row = length terms /\ forall w, In w row -> (0 <= w <= top)%R).
Proof.
  intros Hn top. destruct (tf_ok docs) as (N & I & F). do 3 eexists. split; [now apply idf_ok|]. split; [now apply tf_idf_ok|].
  split; intros row Hrow; apply in_map_iff in Hrow as (d & <- & Hd); rewrite map_length; split; auto.
  - intros i t w Hi. rewrite nth_error_map, Hi. cbn. intros [= <-]. apply idf_scaled; auto. apply I. eapply nth_error_In; eauto.
  - intros w Hw. apply in_map_iff in Hw as (t & <- & Ht). apply I in Ht. destruct (@idf_scaled normalized docs t Hn Ht) as ((A & B) & _).
    pose proof (tf_range indicator t d) as [C D]. fold top in B. set (x := (if indicator then _ else _)%R) in *. set (y := (_ / _)%R) in *.
    clearbody x y top. split; [now apply Rmult_le_pos|]. apply Rle_trans with (1 * y)%R; [|lra]. apply Rmult_le_compat_r; lra.
Qed.
End P.
