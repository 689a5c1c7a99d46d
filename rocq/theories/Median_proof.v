From Coq Require Import QArith Lqa.
From Verif Require Import Py PyLemmas Median_model Median_spec.
Open Scope nat_scope.
Set Implicit Arguments.

Section P.
Variable A : Type.
Variable dist : A -> A -> Q.
Hypothesis dist_sym : forall x y, (dist x y == dist y x)%Q.
Hypothesis dist_refl : forall x, (dist x x == 0)%Q.

Variable strings : list A.
Variable d0 : A.
Notation s k := (nth k strings d0).
(* sum of distances from k to the first n strings *)
Fixpoint psum (k n : nat) : Q :=
  match n with O => 0%Q | S m => (psum k m + dist (s k) (s m))%Q end.

Definition Inv (i j : nat) (sod : list Q) : Prop :=
  length sod = length strings /\
  forall k, k < length strings ->
   ( (k < j -> (nth k sod 0 == psum k (S i))%Q) /\
     (j <= k < i -> (nth k sod 0 == psum k i)%Q) /\
     (k = i -> (nth k sod 0 == psum k j)%Q) /\
     (i < k -> (nth k sod 0 == 0)%Q) ).

Lemma step_inv i j sod : i < length strings -> j < i -> Inv i j sod ->
  exists sod', sod_step dist strings i sod j = Ok sod' /\ Inv i (S j) sod'.
Proof.
  intros Hi Hj [L H]. unfold sod_step.
  rewrite (@get_ok _ strings i d0), (@get_ok _ strings j d0) by lia. cbn [bind].
  rewrite (@get_ok _ sod i 0%Q) by lia. cbn [bind].
  unfold set. rewrite L. destruct (Nat.ltb_spec i (length strings)) as [_|]; [|lia]. cbn [bind].
  rewrite (@get_ok _ _ j 0%Q) by (rewrite set_nth_length; lia). cbn [bind].
  rewrite set_nth_length, L. destruct (Nat.ltb_spec j (length strings)) as [_|]; [|lia].
  eexists; split; [reflexivity|]. rewrite set_nth_other by lia.
  split; [now rewrite !set_nth_length|]. intros k Hk.
  destruct (H k Hk) as (H1 & H2 & H3 & H4).
  destruct (Nat.eq_dec k j) as [->|Nj]; [|destruct (Nat.eq_dec k i) as [->|Ni]].
  - rewrite set_nth_same by (rewrite set_nth_length; lia).
    repeat split; intros; try lia. cbn [psum]. rewrite H2 by lia.
    rewrite (dist_sym (s i) (s j)). reflexivity.
  - rewrite set_nth_other by lia. rewrite set_nth_same by lia.
    repeat split; intros; try lia. cbn [psum]. rewrite H3 by auto. reflexivity.
  - rewrite !set_nth_other by lia. repeat split; intros; try lia; auto.
    + apply H1; lia.
    + apply H2; lia.
Qed.

Lemma sod_ok : exists sod, sod_all dist strings = Ok sod /\ length sod = length strings /\
  forall k, k < length strings -> (nth k sod 0 == psum k (length strings))%Q.
Proof.
  unfold sod_all.
  destruct (@foldM_seq_inv (list Q) (fun sod i => foldM (sod_step dist strings i) sod (seq 0 i))
     (fun i sod => Inv i 0 sod) 0 (length strings) (repeat 0%Q (length strings))) as (sod & E & L & H).
  - split; [apply repeat_length|]. intros k Hk. rewrite nth_repeat. repeat split; intros; try lia; try reflexivity.
  - intros i sod Hi HI.
    destruct (@foldM_seq_inv (list Q) (sod_step dist strings i) (fun j sod => Inv i j sod) 0 i sod)
      as (sod' & E & L & H); auto.
    { intros j sd Hj HI'. apply step_inv; auto; lia. }
    exists sod'; split; auto. split; auto. intros k Hk.
    destruct (H k Hk) as (H1 & H2 & H3 & H4). cbn [Nat.add] in *.
    repeat split; intros; try lia.
    + destruct (Nat.eq_dec k i) as [->|N].
      * rewrite H3 by auto. cbn [psum]. rewrite dist_refl. ring.
      * apply H1; lia.
    + apply H4; lia.
    + apply H4; lia.
  - exists sod; repeat split; auto. intros k Hk.
    destruct (H k Hk) as (H1 & H2 & H3 & H4). apply H2. lia.
Qed.

Lemma psum_total k : (psum k (length strings) == total dist strings (s k))%Q.
Proof.
  unfold total.
  assert (G : forall n, n <= length strings ->
     (psum k n == fold_right Qplus 0 (map (dist (s k)) (firstn n strings)))%Q).
  { induction n as [|n IH]; intros Hn; [reflexivity|].
    rewrite (@firstn_snoc _ strings n d0) by lia. rewrite map_app. cbn [psum map].
    rewrite IH by lia.
    assert (F : forall l x, (fold_right Qplus 0 (l ++ [x]) == fold_right Qplus 0 l + x)%Q).
    { induction l as [|y l IHl]; intros x; cbn; [ring|]. rewrite IHl. ring. }
    rewrite F. reflexivity. }
  rewrite G by auto. now rewrite firstn_all.
Qed.

Lemma search_ok sod m0 : nth_error sod 0 = Some m0 ->
  exists i m, foldM (min_step sod) (0, m0) (seq 1 (length sod - 1)) = Ok (i, m) /\
   i < length sod /\ (forall k, k < length sod -> (nth i sod 0 <= nth k sod 0)%Q /\
      (k < i -> (nth i sod 0 < nth k sod 0)%Q)).
Proof.
  intros H0. assert (0 < length sod) by (apply nth_error_Some; congruence).
  destruct (@foldM_seq_inv (nat * Q) (min_step sod)
    (fun j st => fst st < j /\ snd st = nth (fst st) sod 0%Q /\
       forall k, k < j -> (snd st <= nth k sod 0)%Q /\ (k < fst st -> (snd st < nth k sod 0)%Q))
    1 (length sod - 1) (0, m0)) as ([i m] & E & Hi & Hm & H1).
  - cbn. repeat split; auto.
    + symmetry. now apply nth_error_nth.
    + replace k with 0 by lia. rewrite (nth_error_nth _ _ _ H0). apply Qle_refl.
    + lia.
  - intros j [i m] Hj (Hi & Hm & Hk). cbn [fst snd] in *. unfold min_step.
    rewrite (@get_ok _ sod j 0%Q) by lia. cbn [bind snd].
    destruct (Qle_bool m (nth j sod 0%Q)) eqn:Eq; cbn [negb].
    + apply Qle_bool_iff in Eq. eexists; split; [reflexivity|]. cbn [fst snd]. split; [lia|split;auto].
      intros k Hk'. destruct (Nat.eq_dec k j) as [->|N]; [split; auto; lia|apply Hk; lia].
    + assert (nth j sod 0 < m)%Q.
      { apply Qnot_le_lt. intros C. apply Qle_bool_iff in C. congruence. }
      eexists; split; [reflexivity|]. cbn [fst snd]. split; [lia|split;auto].
      intros k Hk'. destruct (Nat.eq_dec k j) as [->|N]; [split; [apply Qle_refl|lia]|].
      destruct (Hk k) as [K1 K2]; [lia|]. split.
      * apply Qlt_le_weak. eapply Qlt_le_trans; eauto.
      * intros _. eapply Qlt_le_trans; eauto.
  - exists i, m. cbn [fst snd] in *. split; auto. split; [lia|]. intros k Hk. subst m.
    apply H1. lia.
Qed.
End P.

Lemma median_ok A (dist : A -> A -> Q) (strings : list A) :
  (forall x y, (dist x y == dist y x)%Q) -> (forall x, (dist x x == 0)%Q) -> strings <> [] ->
  exists i r, set_median_string dist strings = Ok r /\ nth_error strings i = Some r /\
  forall k x, nth_error strings k = Some x ->
    (total dist strings r <= total dist strings x)%Q /\
    (k < i -> (total dist strings r < total dist strings x)%Q).
Proof.
  intros Hs Hr Hne. destruct strings as [|d0 l]; [congruence|].
  remember (d0 :: l) as strings eqn:Es. unfold set_median_string.
  destruct (@sod_ok A dist Hs Hr strings d0) as (sod & E & L & H). rewrite E; cbn [bind].
  assert (0 < length sod) by (rewrite L, Es; cbn; lia).
  rewrite (@get_ok _ sod 0 0%Q) by auto. cbn [bind].
  destruct (@search_ok sod (nth 0 sod 0%Q)) as (i & m & F & Hi & Hm).
  { apply nth_error_nth'; auto. }
  rewrite F; cbn [bind fst]. rewrite (@get_ok _ strings i d0) by lia.
  exists i, (nth i strings d0). split; auto. split; [apply nth_error_nth'; lia|].
  intros k x Hx. assert (k < length strings) by (apply nth_error_Some; congruence).
  rewrite <- (nth_error_nth _ _ d0 Hx).
  destruct (Hm k) as [M1 M2]; [lia|].
  rewrite !H, !psum_total in M1, M2 by lia. auto.
Qed.

Lemma median_empty A (dist : A -> A -> Q) : set_median_string dist [] = Err IndexError.
Proof. reflexivity. Qed.
