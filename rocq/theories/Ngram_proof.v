From Coq Require Import Sorted.
From Verif Require Import Py PyLemmas Ngram_model Ngram_spec.
Set Implicit Arguments.

Section P.
Variable A : Type.

Lemma slice_window (l : list A) i n : i + n <= length l -> window l n i (slice l i (i + n)).
Proof.
  intros H. unfold slice. replace (i + n - i) with n by lia.
  exists (firstn i l), (skipn n (skipn i l)).
  rewrite !firstn_skipn, !firstn_length, skipn_length. repeat split; lia.
Qed.
Lemma window_fun (l : list A) n i w w' : window l n i w -> window l n i w' -> w = w'.
Proof.
  intros (u & v & E & U & W) (u' & v' & E' & U' & W').
  assert (firstn n (skipn i l) = w).
  { rewrite E, <- U, <- W. rewrite skipn_app, skipn_all, Nat.sub_diag; cbn.
    rewrite firstn_app, firstn_all, Nat.sub_diag; cbn. now rewrite app_nil_r. }
  assert (firstn n (skipn i l) = w').
  { rewrite E', <- U', <- W'. rewrite skipn_app, skipn_all, Nat.sub_diag; cbn.
    rewrite firstn_app, firstn_all, Nat.sub_diag; cbn. now rewrite app_nil_r. }
  congruence.
Qed.

Lemma n_gram_ok (tokens : list A) n ps p i w :
  nth_error (n_gram_slices tokens n ps p) i = Some w <->
  window (repeat p ps ++ tokens ++ repeat p ps) n i w.
Proof.
  unfold n_gram_slices. change (repeat p ps ++ tokens ++ repeat p ps) with (pad tokens ps p).
  set (l := pad tokens ps p). split.
  - intros H.
    assert (Hi : i < length l + 1 - n).
    { enough (i < length (map (fun i => slice l i (i + n)) (seq 0 (length l + 1 - n))))
        by (rewrite map_length, seq_length in *; lia).
      apply nth_error_Some. congruence. }
    rewrite nth_error_map in H.
    rewrite (nth_error_nth' _ 0) in H by (rewrite seq_length; auto).
    rewrite seq_nth in H by auto. cbn in H. injection H as <-. apply slice_window. lia.
  - intros H. assert (Hi : i + n <= length l).
    { destruct H as (u & v & E & U & W). rewrite E, !app_length. lia. }
    rewrite nth_error_map, (nth_error_nth' _ 0) by (rewrite seq_length; lia).
    rewrite seq_nth by lia. cbn. f_equal. eapply window_fun; eauto. now apply slice_window.
Qed.

Lemma n_gram_count (tokens : list A) n ps p :
  length (n_gram_slices tokens n ps p) = length tokens + 2 * ps + 1 - n.
Proof.
  unfold n_gram_slices, pad. rewrite map_length, seq_length, !app_length, !repeat_length. lia.
Qed.

Lemma fold_dict {V} (f : nat * nat -> V) ps d n :
  dget Nat.eqb (fold_left (fun d p => dset Nat.eqb d (fst p) (f p)) ps d) n =
  match find (fun p => n =? fst p) (rev ps) with Some p => Some (f p) | None => dget Nat.eqb d n end.
Proof.
  revert d; induction ps as [|q ps IH]; intros d; cbn; auto.
  rewrite IH. clear IH.
  assert (F : forall l, find (fun p : nat * nat => n =? fst p) (l ++ [q]) =
    match find (fun p => n =? fst p) l with Some p => Some p | None => if n =? fst q then Some q else None end).
  { induction l as [|x l IHl]; cbn; auto. destruct (n =? fst x); auto. }
  rewrite F. destruct (find _ (rev ps)); auto.
  destruct (Nat.eqb_spec n (fst q)) as [->|N].
  - apply dget_dset_same, Nat.eqb_eq.
  - apply dget_dset_other; auto using Nat.eqb_eq.
Qed.

Lemma combine_map_r {X Y} (f : X -> Y) l : combine l (map f l) = map (fun x => (x, f x)) l.
Proof. induction l; cbn; congruence. Qed.

Lemma n_gram_range_default (tokens : list A) nr (padding : bool) p :
  exists d, n_gram_slices_range tokens nr padding None p = Ok d /\
  forall n, dget Nat.eqb d n =
    if mem Nat.eqb n nr then Some (n_gram_slices tokens n (if padding then n - 1 else 0) p) else None.
Proof.
  unfold n_gram_slices_range.
  assert (E : (if padding then Ok (map (fun n => n - 1) nr) else Ok (repeat 0 (length nr)))
    = Ok (map (fun n => if padding then n - 1 else 0) nr)).
  { destruct padding; auto. f_equal. induction nr; cbn; congruence. }
  destruct padding.
  - cbn [bind]. eexists; split; [reflexivity|]. intros n. rewrite fold_dict, combine_map_r, <- map_rev.
    cbn [dget].
    assert (F : forall l, find (fun p0 : nat * nat => n =? fst p0) (map (fun x => (x, x - 1)) l)
       = if mem Nat.eqb n l then Some (n, n - 1) else None).
    { induction l as [|x l IHl]; cbn; auto. destruct (Nat.eqb_spec n x) as [->|]; cbn; auto. }
    rewrite F.
    assert (M : mem Nat.eqb n (rev nr) = mem Nat.eqb n nr).
    { apply eq_true_iff_eq. rewrite !(mem_spec Nat.eqb Nat.eqb_eq). symmetry; apply in_rev. }
    rewrite M. destruct (mem Nat.eqb n nr); auto.
  - injection E as E. rewrite E. cbn [bind]. eexists; split; [reflexivity|]. intros n.
    rewrite fold_dict, combine_map_r, <- map_rev.
    assert (F : forall l, find (fun p0 : nat * nat => n =? fst p0) (map (fun x => (x, 0)) l)
       = if mem Nat.eqb n l then Some (n, 0) else None).
    { induction l as [|x l IHl]; cbn; auto. destruct (Nat.eqb_spec n x) as [->|]; cbn; auto. }
    rewrite F.
    assert (M : mem Nat.eqb n (rev nr) = mem Nat.eqb n nr).
    { apply eq_true_iff_eq. rewrite !(mem_spec Nat.eqb Nat.eqb_eq). symmetry; apply in_rev. }
    rewrite M. destruct (mem Nat.eqb n nr); auto.
Qed.

Lemma n_gram_range_sizes (tokens : list A) nr ps p : ps <> [] -> NoDup nr ->
  (length nr = length ps ->
   exists d, n_gram_slices_range tokens nr true (Some ps) p = Ok d /\
   forall n s, dget Nat.eqb d n = Some s <->
      exists i k, nth_error nr i = Some n /\ nth_error ps i = Some k /\ s = n_gram_slices tokens n k p) /\
  (length nr <> length ps -> n_gram_slices_range tokens nr true (Some ps) p = Err AssertionError).
Proof.
  intros Hps Hnd. unfold n_gram_slices_range. destruct ps as [|k0 ps0]; [congruence|].
  remember (k0 :: ps0) as ps eqn:Eps. clear Eps Hps.
  split; intros L.
  2:{ destruct (Nat.eqb_spec (length nr) (length ps)); [congruence|reflexivity]. }
  rewrite (proj2 (Nat.eqb_eq _ _) L). cbn [bind]. eexists; split; [reflexivity|].
  intros n s. rewrite fold_dict. cbn [dget].
  assert (K : forall m, find (fun p0 : nat * nat => n =? fst p0) (rev (combine nr ps)) = Some m <->
     exists i, nth_error nr i = Some n /\ nth_error ps i = Some (snd m) /\ fst m = n).
  { assert (Hin : forall m, In m (rev (combine nr ps)) <-> exists i, nth_error nr i = Some (fst m) /\ nth_error ps i = Some (snd m)).
    { intros m. rewrite <- in_rev. clear Hnd. revert ps L. induction nr as [|x nr IH]; intros [|k ps] L; cbn in *; try discriminate.
      - split; [tauto|]. intros (i & H & _). destruct i; discriminate.
      - rewrite IH by lia. split.
        + intros [<-|(i & H1 & H2)]; [exists 0; auto|exists (S i); auto].
        + intros ([|i] & H1 & H2); cbn in *.
          * left. destruct m; cbn in *; congruence.
          * right; eauto. }
    intros m. split.
    - intros H. pose proof (find_some _ _ H) as [H1 H2]. apply Nat.eqb_eq in H2.
      apply Hin in H1 as (i & H1 & H3). exists i; subst; auto.
    - intros (i & H1 & H2 & <-).
      destruct (find (fun p0 : nat * nat => fst m =? fst p0) (rev (combine nr ps))) as [m'|] eqn:F.
      + pose proof (find_some _ _ F) as [F1 F2]. apply Nat.eqb_eq in F2. apply Hin in F1 as (i' & F3 & F4).
        f_equal. assert (i = i').
        { rewrite NoDup_nth_error in Hnd. apply Hnd.
          - apply nth_error_Some. congruence.
          - congruence. }
        subst i'. destruct m, m'; cbn in *; congruence.
      + exfalso. assert (In m (rev (combine nr ps))) by (apply Hin; eauto).
        apply (find_none _ _ F) in H. cbn in H. rewrite Nat.eqb_refl in H. discriminate. }
  destruct (find _ (rev (combine nr ps))) as [m|] eqn:F.
  - destruct (proj1 (K m) eq_refl) as (i & H1 & H2 & H3). split.
    + intros [= <-]. rewrite H3. eauto.
    + intros (i' & k & H4 & H5 & ->). assert (i = i').
      { rewrite NoDup_nth_error in Hnd. apply Hnd; [apply nth_error_Some|]; congruence. }
      subst i'. rewrite H2 in H5. injection H5 as <-. now rewrite H3.
  - split; [discriminate|]. intros (i & k & H1 & H2 & ->).
    enough (None = Some (n, k)) by discriminate. apply K. eauto.
Qed.

(** skip bigrams *)
Fixpoint pos (len : nat) (limit : option nat) : list (nat * nat) :=
  match len with
  | O => []
  | S l => map (fun k => (0, S k)) (seq 0 (match limit with Some d => Nat.min (1 + d) l | None => l end))
           ++ map (fun q => (S (fst q), S (snd q))) (pos l limit)
  end.

Lemma pos_in len limit i j : In (i, j) (pos len limit) <-> skip_ok len limit i j.
Proof.
  unfold skip_ok. revert i j; induction len as [|l IH]; intros i j; cbn [pos].
  - cbn. lia.
  - rewrite in_app_iff, !in_map_iff. split.
    + intros [(k & E & H)|((a, b) & E & H)].
      * injection E as <- <-. apply in_seq in H. destruct limit; lia.
      * cbn in E. injection E as <- <-. apply IH in H. destruct limit; lia.
    + intros [H1 H2]. destruct i as [|i].
      * left. exists (j - 1). split; [f_equal; lia|]. apply in_seq. destruct limit; lia.
      * right. exists (i, j - 1). cbn. split; [f_equal; lia|]. apply IH. destruct limit; lia.
Qed.

Lemma ss_app {X} (R : X -> X -> Prop) l1 l2 : StronglySorted R l1 -> StronglySorted R l2 ->
  (forall x y, In x l1 -> In y l2 -> R x y) -> StronglySorted R (l1 ++ l2).
Proof.
  induction 1 as [|x l1 H1 IH H]; intros H2 HC; cbn; auto. constructor.
  - apply IH; auto. intros; apply HC; cbn; auto.
  - apply Forall_app; split; auto. apply Forall_forall. intros y Hy. apply HC; cbn; auto.
Qed.
Lemma ss_map {X Y} (R : X -> X -> Prop) (R' : Y -> Y -> Prop) (f : X -> Y) l :
  (forall x y, R x y -> R' (f x) (f y)) -> StronglySorted R l -> StronglySorted R' (map f l).
Proof.
  intros H; induction 1 as [|x l H1 IH H2]; cbn; constructor; auto.
  rewrite Forall_map. eapply Forall_impl; [|exact H2]. cbn; auto.
Qed.
Lemma ss_seq a n : StronglySorted lt (seq a n).
Proof.
  revert a; induction n as [|n IH]; intros a; cbn; constructor; auto.
  apply Forall_forall. intros x Hx. apply in_seq in Hx. lia.
Qed.
Lemma pos_sorted len limit : StronglySorted lexlt (pos len limit).
Proof.
  induction len as [|l IH]; cbn [pos]; [constructor|].
  apply ss_app.
  - eapply ss_map; [|apply ss_seq]. intros x y H. right; cbn; lia.
  - eapply ss_map; [|exact IH]. intros x y [H|[H H']]; [left|right]; cbn; lia.
  - intros x y Hx Hy. apply in_map_iff in Hx as (k & <- & _). apply in_map_iff in Hy as (q & <- & _).
    left; cbn; lia.
Qed.

Lemma map_nth_seq {X} (l : list X) d n : map (fun k => nth k l d) (seq 0 (Nat.min n (length l))) = firstn n l.
Proof.
  revert n; induction l as [|x l IH]; intros [|n]; cbn; auto.
  f_equal. rewrite <- IH. rewrite <- seq_shift, map_map. reflexivity.
Qed.

Lemma skip_eq (tokens : list A) limit d :
  skip_bigram_slices tokens limit =
  map (fun q => (nth (fst q) tokens d, nth (snd q) tokens d)) (pos (length tokens) limit).
Proof.
  induction tokens as [|x rest IH]; cbn [skip_bigram_slices length pos]; auto.
  rewrite map_app, !map_map. cbn [fst snd nth]. rewrite IH. f_equal.
  destruct limit as [k|].
  - unfold slice. cbn [skipn]. replace (2 + k - 1) with (1 + k) by lia.
    rewrite <- (map_nth_seq rest d (1 + k)), map_map. reflexivity.
  - rewrite <- (firstn_all rest) at 1. rewrite <- (map_nth_seq rest d (length rest)), map_map.
    rewrite Nat.min_id. reflexivity.
Qed.

Lemma skip_ok_lemma (tokens : list A) limit : exists ps, enumerates ps (length tokens) limit /\
  map Some (skip_bigram_slices tokens limit) =
  map (fun q => match nth_error tokens (fst q), nth_error tokens (snd q) with
                | Some a, Some b => Some (a, b) | _, _ => None end) ps.
Proof.
  exists (pos (length tokens) limit). split.
  - split; [apply pos_sorted|]. intros; apply pos_in.
  - destruct tokens as [|d rest]; [reflexivity|]. rewrite (skip_eq _ limit d), map_map.
    apply map_ext_in. intros [i j] H. apply pos_in in H as [H _]. cbn [fst snd].
    rewrite !(nth_error_nth' _ d) by lia. reflexivity.
Qed.

Lemma pos_count len : 2 * length (pos len None) = len * (len - 1).
Proof.
  induction len as [|l IH]; auto. cbn [pos]. rewrite app_length, !map_length, seq_length.
  destruct l; cbn in *; nia.
Qed.
Lemma skip_count (tokens : list A) :
  2 * length (skip_bigram_slices tokens None) = length tokens * (length tokens - 1).
Proof.
  destruct tokens as [|d r]; auto. rewrite (skip_eq _ None d), map_length. apply pos_count.
Qed.
End P.

Lemma n_gram_strings_ok C (tokens : list (list C)) n ps p sep :
  n_gram_strings tokens n ps p sep = map (join sep) (n_gram_slices tokens n ps p).
Proof. unfold n_gram_strings, n_gram_slices. now rewrite map_map. Qed.

Lemma join_joined C (sep : list C) l : joined sep l (join sep l).
Proof.
  induction l as [|x l IH]; [constructor|]. destruct l as [|y l]; [constructor|]. cbn [join] in *. constructor. exact IH.
Qed.
Lemma n_gram_strings_joined C (tokens : list (list C)) n ps p sep :
  Forall2 (joined sep) (n_gram_slices tokens n ps p) (n_gram_strings tokens n ps p sep).
Proof. rewrite n_gram_strings_ok. induction (n_gram_slices tokens n ps p); constructor; [apply join_joined|trivial]. Qed.
Lemma windows_fun A n (t : list A) ws ws' : windows n t ws -> windows n t ws' -> ws = ws'.
Proof.
  intros H H'. assert (E : forall i, nth_error ws i = nth_error ws' i).
  { intros i. destruct (nth_error ws i) as [w|] eqn:E.
    - symmetry. apply H', H, E.
    - destruct (nth_error ws' i) as [w|] eqn:E'; [|reflexivity]. apply H', H in E'. congruence. }
  clear H H'. revert ws' E. induction ws as [|x ws IH]; intros [|y ws'] E; trivial.
  - specialize (E 0). discriminate.
  - specialize (E 0). discriminate.
  - f_equal; [specialize (E 0); now injection E|]. apply IH. intros i. apply (E (S i)).
Qed.
Lemma n_gram_windows A (t : list A) n p : windows n t (n_gram_slices t n 0 p).
Proof. intros i w. rewrite n_gram_ok. cbn [repeat app]. now rewrite app_nil_r. Qed.
