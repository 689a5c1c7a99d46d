(** Proofs about levenshtein.py *)
From Coq Require Import QArith.
From Verif Require Import Py PyLemmas Lev_model Lev_spec.
Open Scope nat_scope.
Set Implicit Arguments.

Section P.
Variable A : Type.
Variable eqb : A -> A -> bool.
Hypothesis eqb_spec : forall x y, eqb x y = true <-> x = y.

(** Alignments built from the right end. *)
Inductive al : nat -> list A -> list A -> Prop :=
| al_nil : al 0 [] []
| al_ins : forall k s t y, al k s t -> al (S k) s (t ++ [y])
| al_del : forall k s t x, al k s t -> al (S k) (s ++ [x]) t
| al_mat : forall k s t x, al k s t -> al k (s ++ [x]) (t ++ [x])
| al_sub : forall k s t x y, al k s t -> al (S k) (s ++ [x]) (t ++ [y]).

Lemma snoc_inj (s t : list A) x y : s ++ [x] = t ++ [y] -> s = t /\ x = y.
Proof. apply app_inj_tail. Qed.

Lemma nil_snoc (s : list A) x : [] = s ++ [x] -> False.
Proof. intros H. symmetry in H. apply app_eq_nil in H as [_ H]. discriminate. Qed.

Lemma al_nil_r s : al (length s) s [].
Proof.
  induction s as [|x s IH] using rev_ind; [constructor|].
  rewrite app_length, Nat.add_comm. cbn. now constructor.
Qed.
Lemma al_nil_l t : al (length t) [] t.
Proof.
  induction t as [|x s IH] using rev_ind; [constructor|].
  rewrite app_length, Nat.add_comm. cbn. now constructor.
Qed.
Lemma al_nil_r_inv k s t : al k s t -> length s <= length t + k /\ length t <= length s + k.
Proof.
  induction 1 as [|k s t y H IH|k s t x H IH|k s t x H IH|k s t x y H IH]; cbn;
    rewrite ?app_length; cbn; lia.
Qed.

Lemma al_refl s : al 0 s s.
Proof. induction s as [|x s IH] using rev_ind; constructor; auto. Qed.

Lemma al_app k1 s1 t1 k2 s2 t2 : al k1 s1 t1 -> al k2 s2 t2 -> al (k2 + k1) (s1 ++ s2) (t1 ++ t2).
Proof.
  intros H1 H2. induction H2; rewrite ?app_nil_r, ?app_assoc; cbn; auto;
    [apply al_ins|apply al_del|apply al_mat|apply al_sub]; auto.
Qed.

Lemma al_split_aux k s t : al k s t -> forall u v, s = u ++ v ->
  exists k1 k2 t1 t2, t = t1 ++ t2 /\ k = k2 + k1 /\ al k1 u t1 /\ al k2 v t2.
Proof.
  induction 1 as [|k s t y H IH|k s t x H IH|k s t x H IH|k s t x y H IH]; intros u v E.
  - symmetry in E. apply app_eq_nil in E as [-> ->].
    exists 0, 0, [], []; repeat split; constructor.
  - destruct (IH _ _ E) as (k1 & k2 & t1 & t2 & -> & -> & H1 & H2).
    exists k1, (S k2), t1, (t2 ++ [y]). rewrite app_assoc. repeat split; auto. now constructor.
  - destruct v as [|z v _] using rev_ind.
    + rewrite app_nil_r in E. subst u. exists (S k), 0, t, []. rewrite app_nil_r.
      repeat split; auto; now constructor.
    + rewrite app_assoc in E. apply snoc_inj in E as [E <-].
      destruct (IH _ _ E) as (k1 & k2 & t1 & t2 & -> & -> & H1 & H2).
      exists k1, (S k2), t1, t2. repeat split; auto. now constructor.
  - destruct v as [|z v _] using rev_ind.
    + rewrite app_nil_r in E. subst u. exists k, 0, (t ++ [x]), []. rewrite app_nil_r.
      repeat split; auto; now constructor.
    + rewrite app_assoc in E. apply snoc_inj in E as [E <-].
      destruct (IH _ _ E) as (k1 & k2 & t1 & t2 & -> & -> & H1 & H2).
      exists k1, k2, t1, (t2 ++ [x]). rewrite app_assoc. repeat split; auto. now constructor.
  - destruct v as [|z v _] using rev_ind.
    + rewrite app_nil_r in E. subst u. exists (S k), 0, (t ++ [y]), []. rewrite app_nil_r.
      repeat split; auto; now constructor.
    + rewrite app_assoc in E. apply snoc_inj in E as [E <-].
      destruct (IH _ _ E) as (k1 & k2 & t1 & t2 & -> & -> & H1 & H2).
      exists k1, (S k2), t1, (t2 ++ [y]). rewrite app_assoc. repeat split; auto. now constructor.
Qed.

Lemma al_split k u v t : al k (u ++ v) t ->
  exists k1 k2 t1 t2, t = t1 ++ t2 /\ k = k2 + k1 /\ al k1 u t1 /\ al k2 v t2.
Proof. intros H. eapply al_split_aux; eauto. Qed.

Lemma al_single x t : t <> [] -> exists k, k <= length t /\ al k [x] t.
Proof.
  destruct t as [|y t _] using rev_ind; [congruence|]. intros _.
  exists (S (length t)). rewrite app_length; cbn. split; [lia|].
  apply al_sub with (s := []). apply al_nil_l.
Qed.

Lemma edit1_al s t : edit1 s t -> forall k u, al k t u -> exists k', k' <= S k /\ al k' s u.
Proof.
  intros [a b x|a b x|a b x y] k u H.
  - change (x :: b) with ([x] ++ b) in H.
    apply al_split in H as (k1 & k2 & t1 & t2 & -> & -> & H1 & H2).
    apply al_split in H2 as (k3 & k4 & t3 & t4 & -> & -> & H3 & H4).
    assert (L := al_nil_r_inv H3); cbn in L.
    exists (k4 + length t3 + k1). split; [lia|].
    apply al_app; auto. change b with ([] ++ b). apply al_app; auto using al_nil_l.
  - apply al_split in H as (k1 & k2 & t1 & t2 & -> & -> & H1 & H2).
    exists (k2 + 1 + k1). split; [lia|]. apply al_app; auto.
    change (x :: b) with ([x] ++ b). change t2 with ([] ++ t2). apply al_app; auto.
    apply (al_nil_r [x]).
  - change (y :: b) with ([y] ++ b) in H. change (x :: b) with ([x] ++ b).
    apply al_split in H as (k1 & k2 & t1 & t2 & -> & -> & H1 & H2).
    apply al_split in H2 as (k3 & k4 & t3 & t4 & -> & -> & H3 & H4).
    assert (L := al_nil_r_inv H3); cbn in L.
    assert (exists k', k' <= S k3 /\ al k' [x] t3) as (k' & Lk & Hk).
    { destruct t3 as [|z t3].
      - exists 1. cbn in L. split; [lia|]. apply (al_nil_r [x]).
      - destruct (@al_single x (z :: t3)) as (k' & Lk & Hk); [discriminate|].
        exists k'; split; auto. lia. }
    exists (k4 + k' + k1). split; [lia|]. apply al_app; auto. apply al_app; auto.
Qed.

Lemma script_al k s t : edit_script k s t -> exists k', k' <= k /\ al k' s t.
Proof.
  induction 1 as [s|k s t u H1 H2 (k' & L & H)].
  - exists 0; split; auto using al_refl.
  - destruct (edit1_al H1 H) as (k'' & L' & H'). exists k''; split; auto. lia.
Qed.

Lemma edit1_snoc (s t : list A) x : edit1 s t -> edit1 (s ++ [x]) (t ++ [x]).
Proof.
  intros [u v y|u v y|u v y z]; rewrite <- !app_assoc; cbn; constructor.
Qed.
Lemma script_snoc k (s t : list A) x : edit_script k s t -> edit_script k (s ++ [x]) (t ++ [x]).
Proof. induction 1; econstructor; eauto using edit1_snoc. Qed.
Lemma script_trans k (s t : list A) l u : edit_script k s t -> edit_script l t u -> edit_script (k + l) s u.
Proof. induction 1; cbn; auto. econstructor; eauto. Qed.
Lemma edit1_sym (s t : list A) : edit1 s t -> edit1 t s.
Proof. intros []; constructor. Qed.
Lemma script_sym k (s t : list A) : edit_script k s t -> edit_script k t s.
Proof.
  induction 1 as [s|k s t u H1 H2 IH]; [constructor|].
  rewrite <- Nat.add_1_r. eapply script_trans; eauto.
  econstructor; [apply edit1_sym; eauto|constructor].
Qed.

Lemma al_script k s t : al k s t -> edit_script k s t.
Proof.
  induction 1 as [|k s t y H IH|k s t x H IH|k s t x H IH|k s t x y H IH].
  - constructor.
  - rewrite <- Nat.add_1_r. eapply script_trans; [exact IH|]. econstructor; [|constructor].
    rewrite <- (app_nil_r t) at 1. constructor.
  - rewrite <- Nat.add_1_r. rewrite Nat.add_comm. eapply script_trans; [|exact IH].
    econstructor; [|constructor]. rewrite <- (app_nil_r s) at 2. constructor.
  - now apply script_snoc.
  - rewrite <- Nat.add_1_r. eapply script_trans; [apply script_snoc; exact IH|].
    econstructor; [|constructor]. constructor.
Qed.

Definition mind (d : nat) s t := al d s t /\ forall k, al k s t -> d <= k.

Lemma mind_dist d s t : mind d s t <-> is_edit_distance d s t.
Proof.
  split; intros [H1 H2]; split.
  - now apply al_script.
  - intros k H. apply script_al in H as (k' & L & H). apply H2 in H. lia.
  - destruct (script_al H1) as (k' & L & H). assert (d <= k') by (apply H2; now apply al_script).
    replace d with k' by lia. auto.
  - intros k H. apply H2. now apply al_script.
Qed.

Lemma mind_fun d d' s t : mind d s t -> mind d' s t -> d = d'.
Proof. intros [H1 H2] [H3 H4]. apply H2 in H3. apply H4 in H1. lia. Qed.

Lemma mind_nil_r s : mind (length s) s [].
Proof. split; auto using al_nil_r. intros k H. apply al_nil_r_inv in H. cbn in H; lia. Qed.
Lemma mind_nil_l s : mind (length s) [] s.
Proof. split; auto using al_nil_l. intros k H. apply al_nil_r_inv in H. cbn in H; lia. Qed.

Lemma al_snoc_inv k a b : al k a b -> forall s t x y, a = s ++ [x] -> b = t ++ [y] ->
  (exists k', k = S k' /\ al k' (s ++ [x]) t) \/ (exists k', k = S k' /\ al k' s (t ++ [y])) \/
  (x = y /\ al k s t) \/ (exists k', k = S k' /\ al k' s t).
Proof.
  intros H; destruct H as [|k s' t' y' H|k s' t' x' H|k s' t' x' H|k s' t' x' y' H];
    intros s t x y E1 E2.
  - now apply nil_snoc in E1.
  - apply snoc_inj in E2 as [-> ->]. subst s'. left; eauto.
  - apply snoc_inj in E1 as [-> ->]. subst t'. right; left; eauto.
  - apply snoc_inj in E2 as [-> ->]. apply snoc_inj in E1 as [-> ->]. auto.
  - apply snoc_inj in E2 as [-> ->]. apply snoc_inj in E1 as [-> ->]. right; right; right; eauto.
Qed.

Lemma mind_snoc s t x y da dd dc :
  mind da (s ++ [x]) t -> mind dd s (t ++ [y]) -> mind dc s t ->
  mind (Nat.min (da + 1) (Nat.min (dd + 1) (if negb (eqb x y) then dc + 1 else dc)))
       (s ++ [x]) (t ++ [y]).
Proof.
  intros [A1 A2] [D1 D2] [C1 C2].
  assert (Ha : al (S da) (s ++ [x]) (t ++ [y])) by (now constructor).
  assert (Hd : al (S dd) (s ++ [x]) (t ++ [y])) by (now constructor).
  assert (Hc : al (if negb (eqb x y) then dc + 1 else dc) (s ++ [x]) (t ++ [y])).
  { destruct (eqb x y) eqn:E; cbn.
    - apply eqb_spec in E as ->. now constructor.
    - rewrite Nat.add_1_r. now constructor. }
  split.
  - destruct (Nat.min_spec (dd + 1) (if negb (eqb x y) then dc + 1 else dc)) as [[_ ->]|[_ ->]];
      [destruct (Nat.min_spec (da + 1) (dd + 1)) as [[_ ->]|[_ ->]]|
       destruct (Nat.min_spec (da + 1) (if negb (eqb x y) then dc + 1 else dc)) as [[_ ->]|[_ ->]]];
      rewrite ?Nat.add_1_r in *; auto.
  - intros k H. destruct (al_snoc_inv H _ _ _ _ eq_refl eq_refl) as [(k' & -> & H')|[(k' & -> & H')|[[E H']|(k' & -> & H')]]].
    + apply A2 in H'. lia.
    + apply D2 in H'. lia.
    + apply C2 in H'. apply eqb_spec in E. rewrite E. cbn. lia.
    + apply C2 in H'. destruct (eqb x y); cbn; lia.
Qed.

(** Row invariant. *)
Definition row_ok (s1 s2 : list A) (i : nat) (row : list nat) : Prop :=
  length row = S (length s1) /\
  forall j, j <= length s1 -> mind (nth j row 0) (firstn j s1) (firstn i s2).

Lemma lev_row_ok s1 s2 i prev :
  1 <= i <= length s2 -> row_ok s1 s2 (i - 1) prev ->
  exists row, lev_row eqb s1 s2 (length s1) prev i = Ok row /\ row_ok s1 s2 i row.
Proof.
  intros Hi [Lp Hp]. unfold lev_row.
  destruct (@foldM_seq_inv (list nat) (lev_cell eqb s1 s2 i prev)
     (fun k cur => length cur = S (length s1) /\
        forall j, j < k -> mind (nth j cur 0) (firstn j s1) (firstn i s2))
     1 (length s1) (i :: repeat 0 (length s1))) as (row & E & [L H]).
  - cbn. rewrite repeat_length. split; auto. intros j Hj. replace j with 0 by lia. cbn.
    replace i with (length (firstn i s2)) at 1 by (rewrite firstn_length; lia).
    apply mind_nil_l.
  - intros j cur Hj [Lc Hc]. unfold lev_cell.
    destruct s1 as [|d1 s1'] eqn:Es1; [cbn in *; lia|]. rewrite <- Es1 in *.
    destruct s2 as [|d2 s2'] eqn:Es2; [cbn in *; lia|]. rewrite <- Es2 in *.
    rewrite (@get_ok _ prev j 0) by lia. cbn [bind].
    rewrite (@get_ok _ cur (j - 1) 0) by lia. cbn [bind].
    rewrite (@get_ok _ prev (j - 1) 0) by lia. cbn [bind].
    rewrite (@get_ok _ s1 (j - 1) d1) by lia. cbn [bind].
    rewrite (@get_ok _ s2 (i - 1) d2) by lia. cbn [bind].
    unfold set. destruct (Nat.ltb_spec j (length cur)); [|lia].
    eexists; split; [reflexivity|]. rewrite set_nth_length. split; auto.
    intros j' Hj'. destruct (Nat.eq_dec j' j) as [->|Hne].
    + rewrite set_nth_same by lia.
      assert (E1 : firstn j s1 = firstn (j - 1) s1 ++ [nth (j - 1) s1 d1]).
      { rewrite <- firstn_snoc by lia. f_equal; lia. }
      assert (E2 : firstn i s2 = firstn (i - 1) s2 ++ [nth (i - 1) s2 d2]).
      { rewrite <- firstn_snoc by lia. f_equal; lia. }
      rewrite E1, E2. apply mind_snoc.
      * rewrite <- E1. apply Hp. lia.
      * rewrite <- E2. apply Hc. lia.
      * apply Hp. lia.
    + rewrite set_nth_other by auto. apply Hc. lia.
  - exists row; split; auto. split; auto. intros j Hj. apply H. lia.
Qed.

Lemma lev_main_ok s1 s2 : exists d, lev_main eqb s1 s2 = Ok d /\ mind d s1 s2.
Proof.
  unfold lev_main.
  destruct (@foldM_seq_inv (list nat) (lev_row eqb s1 s2 (length s1))
     (fun i row => row_ok s1 s2 (i - 1) row) 1 (length s2) (seq 0 (length s1 + 1)))
    as (row & E & [L H]).
  - split; [rewrite seq_length; lia|]. cbn. intros j Hj.
    rewrite seq_nth by lia. replace (0 + j) with (length (firstn j s1)) by (rewrite firstn_length; lia).
    apply mind_nil_r.
  - intros i s Hi HP. replace (S i - 1) with i by lia. apply lev_row_ok; auto; lia.
  - rewrite E; cbn [bind]. rewrite (@get_ok _ row (length s1) 0) by lia.
    eexists; split; [reflexivity|]. specialize (H (length s1) (le_n _)).
    rewrite !firstn_all2 in H by lia. exact H.
Qed.

Lemma mind_sym d s t : mind d s t -> mind d t s.
Proof.
  rewrite !mind_dist. intros [H1 H2]; split.
  - now apply script_sym.
  - intros k H. apply H2. now apply script_sym.
Qed.

Lemma levenshtein_mind s1 s2 : exists d, levenshtein eqb s1 s2 = Ok d /\ mind d s1 s2.
Proof.
  unfold levenshtein. destruct (_ <? _).
  - destruct (lev_main_ok s2 s1) as (d & E & H). exists d; split; auto. now apply mind_sym.
  - apply lev_main_ok.
Qed.

Lemma levenshtein_is_distance s1 s2 :
  exists d, levenshtein eqb s1 s2 = Ok d /\ is_edit_distance d s1 s2.
Proof.
  destruct (levenshtein_mind s1 s2) as (d & E & H). exists d; split; auto. now apply mind_dist.
Qed.

Lemma lev_dist_ok s1 s2 d : levenshtein eqb s1 s2 = Ok d -> mind d s1 s2.
Proof. destruct (levenshtein_mind s1 s2) as (d' & E & H). rewrite E. now intros [= <-]. Qed.

Lemma lev_zero s1 s2 : levenshtein eqb s1 s2 = Ok 0 <-> s1 = s2.
Proof.
  split.
  - intros H. apply lev_dist_ok in H as [H _]. apply al_script in H. now inversion H.
  - intros <-. destruct (levenshtein_mind s1 s1) as (d & E & H & Hm). rewrite E.
    assert (d <= 0) by (apply Hm, al_refl). f_equal; lia.
Qed.

Lemma lev_sym s1 s2 : levenshtein eqb s1 s2 = levenshtein eqb s2 s1.
Proof.
  destruct (levenshtein_mind s1 s2) as (d & E & H). destruct (levenshtein_mind s2 s1) as (d' & E' & H').
  rewrite E, E'. f_equal. eapply mind_fun; [exact H|now apply mind_sym].
Qed.

Lemma lev_triangle s1 s2 s3 a b c :
  levenshtein eqb s1 s2 = Ok a -> levenshtein eqb s2 s3 = Ok b -> levenshtein eqb s1 s3 = Ok c ->
  c <= a + b.
Proof.
  intros Ha Hb Hc. apply lev_dist_ok, mind_dist in Ha, Hb, Hc.
  apply Hc. eapply script_trans; [apply Ha|apply Hb].
Qed.

Lemma al_max s t : exists k, k <= Nat.max (length s) (length t) /\ al k s t.
Proof.
  revert t; induction s as [|x s IH] using rev_ind; intros t.
  - exists (length t); split; [lia|apply al_nil_l].
  - destruct t as [|y t _] using rev_ind.
    + exists (length (s ++ [x])). split; [lia|apply al_nil_r].
    + destruct (IH t) as (k & L & H). exists (S k). rewrite !app_length; cbn. split; [lia|].
      now constructor.
Qed.

Lemma lev_bounds s1 s2 d : levenshtein eqb s1 s2 = Ok d ->
  length s1 - length s2 <= d /\ length s2 - length s1 <= d /\ d <= Nat.max (length s1) (length s2).
Proof.
  intros H. apply lev_dist_ok in H as [H Hm].
  destruct (al_max s1 s2) as (k & L & Hk). apply Hm in Hk. apply al_nil_r_inv in H. lia.
Qed.

Lemma nlev_ok s1 s2 : exists q, normalized_levenshtein eqb s1 s2 = Ok q /\
  (0 <= q /\ q <= 1)%Q /\ ((q == 0)%Q <-> s1 = s2) /\
  normalized_levenshtein eqb s2 s1 = Ok q /\
  (exists d, levenshtein eqb s1 s2 = Ok d /\
     (inject_Z (Z.of_nat d) == q * inject_Z (Z.of_nat (Nat.max (length s1) (length s2))))%Q).
Proof.
  destruct (levenshtein_mind s1 s2) as (d & E & H).
  pose proof (lev_bounds _ _ E) as B. pose proof (lev_zero s1 s2) as Z0.
  unfold normalized_levenshtein. rewrite (lev_sym s2 s1), E. cbn [bind].
  rewrite (Nat.max_comm (length s2)).
  destruct (Nat.max (length s1) (length s2)) as [|k] eqn:M.
  - exists 0%Q. assert (d = 0) by lia; subst d. repeat split; auto.
    + apply Qle_refl.
    + unfold Qle; cbn; lia.
    + intros _. apply Z0. auto.
    + exists 0; split; auto. reflexivity.
  - exists (Z.of_nat d # Pos.of_succ_nat k). repeat split; auto.
    + unfold Qle; cbn. lia.
    + unfold Qle; cbn. lia.
    + intros Hq. unfold Qeq in Hq; cbn in Hq. assert (d = 0) by lia; subst. now apply Z0.
    + intros ->. destruct Z0 as [_ Z0]. specialize (Z0 eq_refl). rewrite Z0 in E.
      injection E as <-. reflexivity.
    + exists d; split; auto. unfold Qeq; cbn. lia.
Qed.
End P.
