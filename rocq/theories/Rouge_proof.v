From Coq Require Import QArith Lqa.
From Verif Require Import Py PyLemmas Lcs_spec Lcs_model Lcs_proof Ngram_spec Ngram_model Ngram_proof Sim_spec Sim_model Sim_proof Rouge_spec Rouge_model.
Open Scope nat_scope.
Set Implicit Arguments.
Lemma list_eqb_spec A (eqb : A -> A -> bool) : (forall x y, eqb x y = true <-> x = y) -> forall l l', list_eqb eqb l l' = true <-> l = l'.
Proof.
  intros H. induction l as [|x l IH]; intros [|y l']; cbn; try (split; congruence).
  rewrite andb_true_iff, H, IH. split; [intros [-> ->]; auto|intros [= -> ->]; auto].
Qed.
Section G.
Variable G : Type.
Variable geqb : G -> G -> bool.
Variable geq : forall x y, geqb x y = true <-> x = y.
Lemma count_match_hits cs rs n : hits rs cs n <-> count_match geqb cs rs = n.
Proof.
  unfold count_match. split.
  - induction 1; cbn; auto.
    + apply (mem_spec geqb geq) in H. rewrite H. cbn. auto.
    + destruct (mem geqb x rs) eqn:E; auto. apply (mem_spec geqb geq) in E. easy.
  - intros <-. induction cs as [|x cs IH]; cbn; [constructor|]. destruct (mem geqb x rs) eqn:E; cbn; constructor; auto.
    + now apply (mem_spec geqb geq).
    + intros C. apply (mem_spec geqb geq) in C. congruence.
Qed.
Lemma count_le cs rs : count_match geqb cs rs <= length cs.
Proof. unfold count_match. induction cs as [|x cs IH]; cbn; [lia|]. destruct (mem geqb x rs); cbn; lia. Qed.
Lemma rouge_ngram_all cs rs n : hits rs cs n ->
  rouge_ngram geqb cs rs = frac n (length rs) /\ (0 <= rouge_ngram geqb cs rs)%Q /\
  (length cs <= length rs -> (rouge_ngram geqb cs rs <= 1)%Q) /\
  ((rouge_ngram geqb cs rs == 0)%Q <-> n = 0).
Proof.
  intros H. apply count_match_hits in H. unfold rouge_ngram. rewrite frac_quot, H. pose proof (count_le cs rs) as L. rewrite H in L.
  split; auto. split; [|split].
  - unfold frac. destruct (length rs) as [|k]; [apply Qle_refl|]. apply Qle_shift_div_l; [apply qn_pos; lia|]. rewrite Qmult_0_l. unfold Qle, inject_Z; cbn; lia.
  - intros. apply frac_range. lia.
  - rewrite frac_zero. split; auto. intros [|E]; auto. destruct rs; [|discriminate]. rewrite <- H. unfold count_match. clear. induction cs; cbn; auto.
Qed.
End G.
Lemma fquot_ok a b : 0 < b -> fquot a b = Ok (frac a b).
Proof. intros H. unfold fquot, frac. destruct b; [lia|]. reflexivity. Qed.
Lemma fmeasure_ok b p r : is_fmeasure b p r (fmeasure b p r).
Proof.
  unfold is_fmeasure, fmeasure. destruct (Qeq_bool (b * b * p + r) 0) eqn:E.
  - apply Qeq_bool_iff in E. split; [reflexivity|]. intros C. easy.
  - assert (~ (b * b * p + r == 0)%Q) as N by (intros C; apply Qeq_bool_iff in C; congruence).
    split; [easy|]. intros _. field. exact N.
Qed.
Lemma fm_unique b p r F F' : is_fmeasure b p r F -> is_fmeasure b p r F' -> (F == F')%Q.
Proof.
  intros [A1 A2] [B1 B2]. destruct (Qeq_dec (b * b * p + r) 0) as [Z|Z]; [rewrite A1, B1 by auto; reflexivity|].
  specialize (A2 Z). specialize (B2 Z). apply (Qmult_inj_r _ _ _ Z). rewrite A2, B2. reflexivity.
Qed.
Lemma fm_facts b p r F : is_fmeasure b p r F -> (0 <= p /\ p <= 1)%Q -> (0 <= r /\ r <= 1)%Q -> ((p == 0)%Q <-> (r == 0)%Q) ->
  (0 <= F /\ F <= 1)%Q /\ ((p <= F /\ F <= r) \/ (r <= F /\ F <= p))%Q /\
  ((F == 0)%Q <-> (p == 0)%Q) /\ ((b == 0)%Q -> (F == p)%Q) /\
  (~ (b == 0)%Q -> ((F == 1)%Q <-> (p == 1 /\ r == 1)%Q)).
Proof.
  intros [H1 H2] [P0 P1] [R0 R1] Hz.
  assert (0 <= b * b)%Q as B by nra.
  destruct (Qeq_dec p 0) as [Z|Z].
  - assert (r == 0)%Q as Zr by now apply Hz. assert (F == 0)%Q as ZF by (apply H1; rewrite Z, Zr; ring).
    rewrite ZF, Z, Zr. split; [lra|]. split; [left; lra|]. split; [split; intros; reflexivity|]. split; [intros; reflexivity|]. intros _. split; intros; exfalso; lra.
  - assert (~ r == 0)%Q as Zr by (rewrite <- Hz; exact Z). assert (0 < p)%Q as Pp by lra. assert (0 < r)%Q as Rp by lra.
    assert (0 <= b * b * p)%Q as BP by nra. assert (0 < b * b * p + r)%Q as D by lra.
    specialize (H2 ltac:(lra)). clear H1.
    assert (forall x y, (0 < y)%Q -> (x * y <= 0)%Q -> (x <= 0)%Q) as K.
    { intros x y Hy Hx. destruct (Qlt_le_dec 0 x) as [L|L]; auto. exfalso. assert (0 < x * y)%Q by nra. lra. }
    set (den := (b * b * p + r)%Q) in *.
    assert ((p - F) * den == b * b * p * (p - r))%Q as E1.
    { transitivity (p * den - F * den)%Q; [ring|]. rewrite H2. unfold den. ring. }
    assert ((r - F) * den == r * (r - p))%Q as E2.
    { transitivity (r * den - F * den)%Q; [ring|]. rewrite H2. unfold den. ring. }
    assert ((1 - F) * den == b * b * p * (1 - r) + r * (1 - p))%Q as E3.
    { transitivity (den - F * den)%Q; [ring|]. rewrite H2. unfold den. ring. }
    assert (0 <= F)%Q as F0. { assert (- F <= 0)%Q; [|lra]. apply (K _ den D). setoid_replace (- F * den)%Q with (- (F * den))%Q by ring. rewrite H2. assert (0 <= p * r)%Q by nra. assert (0 <= (b * b) * (p * r))%Q by nra. lra. }
    assert (F <= 1)%Q as F1. { assert (F - 1 <= 0)%Q; [|lra]. apply (K _ den D). setoid_replace ((F - 1) * den)%Q with (- ((1 - F) * den))%Q by ring. rewrite E3. assert (0 <= b * b * p * (1 - r))%Q by nra. assert (0 <= r * (1 - p))%Q by nra. lra. }
    split; [auto|]. split; [|split; [|split]].
    + destruct (Qlt_le_dec r p) as [L|L]; [right|left]; split.
      * assert (r - F <= 0)%Q; [|lra]. apply (K _ den D). rewrite E2. assert (0 <= r * (p - r))%Q by nra. lra.
      * assert (F - p <= 0)%Q; [|lra]. apply (K _ den D). setoid_replace ((F - p) * den)%Q with (- ((p - F) * den))%Q by ring. rewrite E1. assert (0 <= b * b * p * (p - r))%Q by nra. lra.
      * assert (p - F <= 0)%Q; [|lra]. apply (K _ den D). rewrite E1. assert (0 <= b * b * p * (r - p))%Q by nra. lra.
      * assert (F - r <= 0)%Q; [|lra]. apply (K _ den D). setoid_replace ((F - r) * den)%Q with (- ((r - F) * den))%Q by ring. rewrite E2. assert (0 <= r * (r - p))%Q by nra. lra.
    + split; [|lra]. intros ZF. exfalso. rewrite ZF in H2. assert (0 < p * r)%Q by nra. assert (0 <= (b * b) * (p * r))%Q by nra. lra.
    + intros Bz. assert ((p - F) * den == 0)%Q as Q0 by (rewrite E1, Bz; ring). apply Qmult_integral in Q0 as [Q0|Q0]; lra.
    + intros Bn. assert (0 < b * b)%Q as Bp. { assert (~ (b * b == 0)%Q) by (intros C; apply Qmult_integral in C; tauto). lra. }
      split.
      * intros EF. assert (b * b * p * (1 - r) + r * (1 - p) == 0)%Q as Q0 by (rewrite <- E3, EF; ring).
        assert (0 <= b * b * p * (1 - r))%Q by nra. assert (0 <= r * (1 - p))%Q by nra.
        assert (b * b * p * (1 - r) == 0)%Q as Q1 by lra. assert (r * (1 - p) == 0)%Q as Q2 by lra.
        apply Qmult_integral in Q1. apply Qmult_integral in Q2.
        assert (0 < b * b * p)%Q by nra. split; [destruct Q2; lra|destruct Q1; lra].
      * intros [Ep Er]. assert ((1 - F) * den == 0)%Q as Q0 by (rewrite E3, Ep, Er; ring). apply Qmult_integral in Q0 as [Q0|Q0]; lra.
Qed.
Section R.
Variable A : Type.
Variable eqb : A -> A -> bool.
Variable eq_ok : forall x y, eqb x y = true <-> x = y.
Lemma ngrams_concat (p : A) n rs acc : fold_left (fun acc rt => acc ++ n_gram_slices rt n 0 p) rs acc = acc ++ concat (map (fun rt => n_gram_slices rt n 0 p) rs).
Proof. revert acc. induction rs as [|r rs IH]; intros acc; cbn; [now rewrite app_nil_r|]. now rewrite IH, app_assoc. Qed.
Lemma rouge_n_ok p cand refs n : rouge_n eqb p cand refs n =
  rouge_ngram (list_eqb eqb) (n_gram_slices cand n 0 p) (concat (map (fun rt => n_gram_slices rt n 0 p) refs)).
Proof. unfold rouge_n. rewrite ngrams_concat. reflexivity. Qed.
Lemma subseq_full (u s : list A) : subseq u s -> length u = length s -> u = s.
Proof.
  induction 1 as [|x u s H IH|x u s H IH]; cbn; intros E; auto.
  - apply subseq_length in H. lia.
  - f_equal. apply IH. lia.
Qed.
Lemma rouge_l_ok cand ref beta : cand <> [] -> ref <> [] ->
  exists l F, longest_common l cand ref /\ rouge_l eqb cand ref beta = Ok F /\
  is_fmeasure beta (frac (length l) (length cand)) (frac (length l) (length ref)) F /\
  (0 <= F /\ F <= 1)%Q /\ ((F == 0)%Q <-> forall x, ~ (In x cand /\ In x ref)) /\
  ((beta == 0)%Q -> (F == frac (length l) (length cand))%Q) /\
  (~ (beta == 0)%Q -> ((F == 1)%Q <-> cand = ref)).
Proof.
  intros Nc Nr. apply len_pos in Nc, Nr. destruct (lcs_ok eqb eq_ok cand ref) as (l & E & Hl).
  exists l, (fmeasure beta (frac (length l) (length cand)) (frac (length l) (length ref))). split; auto. split.
  { unfold rouge_l. rewrite E. cbn [bind]. rewrite !fquot_ok by auto. reflexivity. }
  pose proof (fmeasure_ok beta (frac (length l) (length cand)) (frac (length l) (length ref))) as HF. split; auto.
  destruct Hl as [[S1 S2] Max]. pose proof (subseq_length S1). pose proof (subseq_length S2).
  assert (forall b, 0 < b -> (frac (length l) b == 0)%Q <-> length l = 0) as FZ by (intros b Hb; rewrite frac_zero; lia).
  destruct (fm_facts HF) as (R1 & R2 & R3 & R4 & R5); try (apply frac_range; lia).
  { rewrite !FZ by auto. tauto. }
  split; auto. split; [|split; auto].
  - rewrite R3, FZ by auto. split.
    + intros L0 x [Hx Hy]. assert (Lcs_spec.common [x] cand ref) as C.
      { assert (forall s : list A, In x s -> subseq [x] s) as K.
        { induction s as [|y s IH]; [easy|]. intros [->|H']; [constructor; apply subseq_nil|constructor; auto]. }
        split; auto. }
      apply Max in C. cbn in C. lia.
    + intros H'. destruct l as [|x l]; auto. exfalso. apply (H' x).
      assert (forall u s : list A, subseq u s -> forall y, In y u -> In y s) as K.
      { induction 1 as [|z0 u0 s0 Hu0 IHu|z0 u0 s0 Hu0 IHu]; intros z Hz; auto; [right; auto|]. destruct Hz as [->|Hz]; [now left|right; auto]. }
      split; [apply (K _ _ S1)|apply (K _ _ S2)]; now left.
  - intros Bn. rewrite (R5 Bn), !frac_one. split.
    + intros [[E1 _] [E2 _]]. rewrite <- (subseq_full S1 E1). now apply subseq_full.
    + intros <-. assert (Lcs_spec.common cand cand cand) as C by (split; apply subseq_refl). apply Max in C. lia.
Qed.
Lemma rouge_l_err cand ref beta : cand = [] \/ ref = [] -> rouge_l eqb cand ref beta = Err ZeroDivisionError.
Proof.
  intros H. unfold rouge_l. destruct (lcs_ok eqb eq_ok cand ref) as (l & -> & _). cbn [bind].
  unfold fquot. destruct ref as [|y ref]; cbn; auto. destruct H as [->|]; [|easy]. reflexivity.
Qed.
Lemma skip_nonempty tokens limit : length (skip_bigram_slices tokens limit : list (A * A)) = 0 <-> length tokens < 2.
Proof.
  destruct tokens as [|x [|y l]]; cbn; try (split; auto; lia).
  - destruct limit as [d|]; cbn; [destruct d|]; cbn; split; auto.
  - destruct limit as [d|]; cbn; split; lia.
Qed.
Lemma peq : forall p q : A * A, pair_eqb eqb eqb p q = true <-> p = q.
Proof. now apply pair_eqb_spec. Qed.
Lemma rouge_s_ok t1 t2 limit beta : 2 <= length t1 -> 2 <= length t2 ->
  exists m F, exactly (fun g => In g (skip_bigram_slices t1 limit) /\ In g (skip_bigram_slices t2 limit)) m /\
  rouge_s eqb t1 t2 limit beta = Ok F /\
  is_fmeasure beta (frac m (length (skip_bigram_slices t2 limit))) (frac m (length (skip_bigram_slices t1 limit))) F /\
  (0 <= F /\ F <= 1)%Q /\ ((F == 0)%Q <-> m = 0) /\
  (~ (beta == 0)%Q -> ((F == 1)%Q <-> same_set (skip_bigram_slices t1 limit) (skip_bigram_slices t2 limit))).
Proof.
  intros L1 L2. set (b1 := skip_bigram_slices t1 limit). set (b2 := skip_bigram_slices t2 limit).
  assert (0 < length b1) as N1 by (pose proof (skip_nonempty t1 limit) as K; change (skip_bigram_slices t1 limit) with b1 in K; lia).
  assert (0 < length b2) as N2 by (pose proof (skip_nonempty t2 limit) as K; change (skip_bigram_slices t2 limit) with b2 in K; lia).
  set (m := length (intersection (pair_eqb eqb eqb) (to_set (pair_eqb eqb eqb) b1) (to_set (pair_eqb eqb eqb) b2))).
  assert (exactly (fun g => In g b1 /\ In g b2) m) as Hm.
  { eapply exactly_ext; [|apply (inter_count (pair_eqb eqb eqb) peq)]. intros g. cbn. now rewrite (proj2 (to_set_ok _ peq b2)). }
  exists m, (fmeasure beta (frac m (length b2)) (frac m (length b1))). split; auto. split.
  { unfold rouge_s, rouge_skip_bigram. fold b1 b2. rewrite !fquot_ok by auto. reflexivity. }
  pose proof (fmeasure_ok beta (frac m (length b2)) (frac m (length b1))) as HF. split; auto.
  destruct (common_le _ peq _ _ Hm).
  destruct (fm_facts HF) as (R1 & R2 & R3 & R4 & R5); try (apply frac_range; lia).
  { rewrite !frac_zero. lia. }
  split; auto. split; [rewrite R3, frac_zero; lia|]. intros Bn. rewrite (R5 Bn), !frac_one.
  pose proof (common_full _ peq _ _ Hm) as F1.
  assert (exactly (fun g => In g b2 /\ In g b1) m) as Hm' by (eapply exactly_ext; [|exact Hm]; cbn; tauto).
  pose proof (common_full _ peq _ _ Hm') as F2. unfold same_set. split.
  - intros [[E2 _] [E1 _]]. apply F1 in E1 as [? ?]. apply F2 in E2 as [? ?]. split; auto. split; auto. intros x. split; auto.
  - intros (X1 & X2 & X3). split; (split; [|assumption]); [apply F2|apply F1]; split; auto; intros x; apply X3.
Qed.
Lemma rouge_s_err t1 t2 limit beta : length t1 < 2 \/ length t2 < 2 -> rouge_s eqb t1 t2 limit beta = Err ZeroDivisionError.
Proof.
  intros H. unfold rouge_s, rouge_skip_bigram, fquot.
  destruct (length (skip_bigram_slices t1 limit) =? 0) eqn:E1; auto.
  destruct (length (skip_bigram_slices t2 limit) =? 0) eqn:E2; cbn; auto.
  apply Nat.eqb_neq in E1, E2. rewrite skip_nonempty in E1, E2. lia.
Qed.
Lemma rouge_s_swap t1 t2 limit : match rouge_s eqb t1 t2 limit 1, rouge_s eqb t2 t1 limit 1 with
  | Ok F, Ok F' => (F == F')%Q | Err e, Err e' => e = e' | _, _ => False end.
Proof.
  destruct (lt_dec (length t1) 2) as [L|L]; [rewrite !rouge_s_err by auto; auto|].
  destruct (lt_dec (length t2) 2) as [L'|L']; [rewrite !rouge_s_err by auto; auto|].
  destruct (@rouge_s_ok t1 t2 limit 1) as (m & F & Hm & -> & HF & _); try lia.
  destruct (@rouge_s_ok t2 t1 limit 1) as (m' & F' & Hm' & -> & HF' & _); try lia.
  assert (m = m') as <- by (eapply exactly_fun; [|exact Hm|exact Hm']; cbn; tauto).
  assert (forall x y, fmeasure 1 x y == fmeasure 1 y x)%Q as K.
  { intros x y. unfold fmeasure. setoid_replace (1 * 1 * x + y)%Q with (1 * 1 * y + x)%Q by ring.
    destruct (Qeq_bool (1 * 1 * y + x) 0) eqn:E; [reflexivity|].
    setoid_replace (1 * 1 * x + y)%Q with (1 * 1 * y + x)%Q by ring. setoid_replace ((1 + 1 * 1) * x * y)%Q with ((1 + 1 * 1) * y * x)%Q by ring. reflexivity. }
  rewrite (fm_unique HF (fmeasure_ok _ _ _)). rewrite K. apply (fm_unique (fmeasure_ok _ _ _) HF').
Qed.
End R.
Lemma rouge_n_val A (eqb : A -> A -> bool) : (forall x y, eqb x y = true <-> x = y) ->
  forall (p : A) cand refs n m cs rss, windows n cand cs -> Forall2 (windows n) refs rss -> hits (concat rss) cs m ->
  rouge_n eqb p cand refs n = frac m (length (concat rss)).
Proof.
  intros H p cand refs n m cs rss W F X. rewrite rouge_n_ok. assert (R : map (fun rt => n_gram_slices rt n 0 p) refs = rss).
  { clear -F. induction F as [|t ws refs rss E F IH]; [reflexivity|]. cbn [map]. rewrite IH. f_equal. eapply windows_fun; [apply n_gram_windows|trivial]. }
  rewrite R. rewrite (windows_fun (n_gram_windows cand n p) W). refine (proj1 (rouge_ngram_all _ (list_eqb_spec eqb H) X)).
Qed.
