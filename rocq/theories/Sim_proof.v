From Coq Require Import QArith Lqa Permutation.
From Verif Require Import Py PyLemmas Sim_spec Sim_model.
Open Scope nat_scope.
Set Implicit Arguments.
Lemma exactly_fun A (P Q : A -> Prop) n m : (forall x, P x <-> Q x) -> exactly P n -> exactly Q m -> n = m.
Proof.
  intros H (l & N & E & <-) (l' & N' & E' & <-). apply Permutation_length. apply NoDup_Permutation; auto.
  intros x. rewrite E, E'. apply H.
Qed.
Lemma exactly_le A (P Q : A -> Prop) n m : (forall x, P x -> Q x) -> exactly P n -> exactly Q m -> n <= m.
Proof. intros H (l & N & E & <-) (l' & N' & E' & <-). apply NoDup_incl_length; auto. intros x Hx. apply E'. apply H. now apply E. Qed.
Lemma exactly_ext A (P Q : A -> Prop) n : (forall x, P x <-> Q x) -> exactly P n -> exactly Q n.
Proof. intros H (l & N & E & L). exists l. split; auto. split; auto. intros x. rewrite E. apply H. Qed.
Lemma exactly_zero A (P : A -> Prop) n : exactly P n -> (n = 0 <-> forall x, ~ P x).
Proof.
  intros (l & N & E & <-). split.
  - intros Z x Hx. apply E in Hx. destruct l; [easy|discriminate].
  - intros H. destruct l as [|x l]; auto. exfalso. apply (H x). apply E. now left.
Qed.
Lemma exactly_in_le A (s : list A) n : exactly (fun x => In x s) n -> n <= length s.
Proof. intros (l & N & E & <-). apply NoDup_incl_length; auto. intros x. apply E. Qed.
Lemma nodup_incl_len_iff A (s : list A) n : exactly (fun x => In x s) n -> (n = length s <-> NoDup s).
Proof.
  intros (l & N & E & <-). split.
  - intros H. apply NoDup_incl_NoDup with l; auto; [lia|]. intros x. apply E.
  - intros H. apply Permutation_length. apply NoDup_Permutation; auto.
Qed.
(** fractions *)
Lemma frac_quot a b : quot0 a b = frac a b.
Proof. unfold quot0, frac. destruct b; reflexivity. Qed.
Lemma qn_pos n : 0 < n -> (0 < inject_Z (Z.of_nat n))%Q.
Proof. intros. unfold Qlt, inject_Z; cbn. lia. Qed.
Lemma frac_range a b : a <= b -> (0 <= frac a b /\ frac a b <= 1)%Q.
Proof.
  intros H. unfold frac. destruct b; [split; lra|].
  assert (P := qn_pos (Nat.lt_0_succ b)). split.
  - apply Qle_shift_div_l; auto. rewrite Qmult_0_l. unfold Qle, inject_Z; cbn; lia.
  - apply Qle_shift_div_r; auto. rewrite Qmult_1_l. unfold Qle, inject_Z; cbn; lia.
Qed.
Lemma frac_one a b : (frac a b == 1)%Q <-> a = b /\ 0 < b.
Proof.
  unfold frac. destruct b as [|b].
  - split; [intros H; exfalso; lra|lia].
  - assert (P := qn_pos (Nat.lt_0_succ b)). split.
    + intros H. assert (inject_Z (Z.of_nat a) == inject_Z (Z.of_nat (S b)))%Q as E.
      { rewrite <- (Qmult_1_l (inject_Z (Z.of_nat (S b)))). rewrite <- H. field. intros C. rewrite C in P. discriminate. }
      unfold Qeq, inject_Z in E; cbn in E. lia.
    + intros [-> _]. field. intros C. rewrite C in P. discriminate.
Qed.
Lemma frac_zero a b : (frac a b == 0)%Q <-> a = 0 \/ b = 0.
Proof.
  unfold frac. destruct b as [|b].
  - split; [auto|intros _; reflexivity].
  - assert (P := qn_pos (Nat.lt_0_succ b)). split.
    + intros H. left. assert (inject_Z (Z.of_nat a) == 0)%Q as E.
      { transitivity (inject_Z (Z.of_nat a) / inject_Z (Z.of_nat (S b)) * inject_Z (Z.of_nat (S b)))%Q; [field; intros C; rewrite C in P; discriminate|].
        rewrite H. ring. }
      unfold Qeq, inject_Z in E; cbn in E. lia.
    + intros [->|]; [|lia]. unfold Qdiv. change (inject_Z (Z.of_nat 0)) with 0%Q. ring.
Qed.
Section S.
Variable A : Type.
Variable eqb : A -> A -> bool.
Variable eq_ok : forall x y, eqb x y = true <-> x = y.
Lemma A_dec (x y : A) : {x = y} + {x <> y}.
Proof. destruct (eqb x y) eqn:E; [left; now apply eq_ok|right; intros ->; rewrite (proj2 (eq_ok y y) eq_refl) in E; discriminate]. Qed.
Lemma union_ok l s : NoDup s -> NoDup (union eqb s l) /\ forall x, In x (union eqb s l) <-> In x s \/ In x l.
Proof.
  unfold union. revert s. induction l as [|y l IH]; intros s N; cbn; [split; auto; tauto|].
  destruct (mem eqb y s) eqn:E.
  - apply (mem_spec eqb eq_ok) in E. destruct (IH s N) as [A1 A2]. split; auto. intros x. rewrite A2. intuition (subst; auto).
  - assert (~ In y s) as Hy by (intros C; apply (mem_spec eqb eq_ok) in C; congruence).
    destruct (IH (s ++ [y])) as [A1 A2]; [now apply nodup_snoc|]. split; auto. intros x. rewrite A2, in_app_iff. cbn. intuition.
Qed.
Lemma to_set_ok l : NoDup (to_set eqb l) /\ forall x, In x (to_set eqb l) <-> In x l.
Proof. destruct (@union_ok l [] (NoDup_nil _)) as [A1 A2]. split; auto. intros x. rewrite (A2 x). cbn. tauto. Qed.
Lemma inter_ok l s : NoDup s -> NoDup (intersection eqb s l) /\ forall x, In x (intersection eqb s l) <-> In x s /\ In x l.
Proof.
  intros N. unfold intersection. split; [now apply NoDup_filter|]. intros x. rewrite filter_In.
  now rewrite (mem_spec eqb eq_ok).
Qed.
Lemma inter_count s1 s2 : exactly (fun x => In x s1 /\ In x s2) (length (intersection eqb (to_set eqb s1) s2)).
Proof.
  destruct (to_set_ok s1) as [N E]. destruct (@inter_ok s2 _ N) as [N' E']. eexists. split; [exact N'|]. split; auto.
  intros x. now rewrite E', E.
Qed.
Lemma union_count s1 s2 : exactly (fun x => In x s1 \/ In x s2) (length (union eqb (to_set eqb s1) s2)).
Proof.
  destruct (to_set_ok s1) as [N E]. destruct (@union_ok s2 _ N) as [N' E']. eexists. split; [exact N'|]. split; auto.
  intros x. now rewrite E', E.
Qed.
Lemma set_count s : exactly (fun x => In x s) (length (to_set eqb s)).
Proof. destruct (to_set_ok s) as [N E]. eexists. split; [exact N|]. split; auto. Qed.
Lemma values s1 s2 c u : exactly (fun x => In x s1 /\ In x s2) c -> exactly (fun x => In x s1 \/ In x s2) u ->
  type_match eqb s1 s2 = c /\
  dice eqb s1 s2 = frac (2 * c) (length s1 + length s2) /\
  tanimoto eqb s1 s2 = frac c (length s1 + length s2 - c) /\
  jaccard eqb s1 s2 = frac c u /\
  overlap_min eqb s1 s2 = frac c (min (length s1) (length s2)) /\
  overlap_max eqb s1 s2 = frac c (max (length s1) (length s2)) /\
  (length s1 * length s2 = 0 -> rq_zero (cosine eqb s1 s2)) /\
  (0 < length s1 * length s2 -> cosine eqb s1 s2 = {| rq_num := c; rq_rad := length s1 * length s2 |}).
Proof.
  intros Hc Hu. unfold type_match, dice, tanimoto, jaccard, overlap_min, overlap_max, cosine. rewrite !frac_quot.
  assert (length (intersection eqb (to_set eqb s1) s2) = c) as -> by (eapply exactly_fun; [|apply inter_count|exact Hc]; reflexivity).
  assert (length (union eqb (to_set eqb s1) s2) = u) as -> by (eapply exactly_fun; [|apply union_count|exact Hu]; reflexivity).
  repeat (split; [reflexivity|]). unfold rootquot0, rq_zero. split; intros H.
  - rewrite H. cbn. auto.
  - destruct (length s1 * length s2 =? 0) eqn:E; auto. apply Nat.eqb_eq in E. lia.
Qed.
Lemma common_le (s1 s2 : list A) c : exactly (fun x => In x s1 /\ In x s2) c -> c <= length s1 /\ c <= length s2.
Proof.
  intros H. split.
  - etransitivity; [eapply exactly_le; [|exact H|apply (set_count s1)]; cbn; tauto|apply exactly_in_le, set_count].
  - etransitivity; [eapply exactly_le; [|exact H|apply (set_count s2)]; cbn; tauto|apply exactly_in_le, set_count].
Qed.
(** c = |s| for the common elements: s has no duplicates and is included *)
Lemma common_full (s1 s2 : list A) c : exactly (fun x => In x s1 /\ In x s2) c -> (c = length s1 <-> NoDup s1 /\ incl s1 s2).
Proof.
  intros H. pose proof (set_count s1) as S. split.
  - intros E. assert (c <= length (to_set eqb s1)) by (eapply exactly_le; [|exact H|exact S]; cbn; tauto).
    pose proof (exactly_in_le _ S). assert (length (to_set eqb s1) = length s1) as E1 by lia.
    apply (nodup_incl_len_iff s1 S) in E1. split; auto.
    destruct H as (l & N & El & L). intros x Hx. assert (incl s1 l) as I.
    { apply NoDup_length_incl; auto; [lia|]. intros y Hy. apply El in Hy. tauto. }
    apply I in Hx. apply El in Hx. tauto.
  - intros [N I]. eapply exactly_fun; [|exact H|exists s1; split; [exact N|split; [|reflexivity]]].
    + cbn. intros x. split; [|intros Hx; split; [exact Hx|]]; [|apply I in Hx; exact Hx]. tauto.
    + intros x. tauto.
Qed.
Lemma common_same (s1 s2 : list A) c u : exactly (fun x => In x s1 /\ In x s2) c -> exactly (fun x => In x s1 \/ In x s2) u ->
  c <= u /\ (c = u <-> forall x, In x s1 <-> In x s2).
Proof.
  intros Hc Hu. split; [eapply exactly_le; [|exact Hc|exact Hu]; cbn; tauto|]. split.
  - intros <-. destruct Hc as (l & N & E & L), Hu as (l' & N' & E' & L').
    assert (incl l' l) as I. { apply NoDup_length_incl; auto; [lia|]. intros x Hx. apply E'. apply E in Hx. tauto. }
    intros x. split; intros Hx.
    + assert (In x l) as K by (apply I, E'; auto). apply E in K. tauto.
    + assert (In x l) as K by (apply I, E'; auto). apply E in K. tauto.
  - intros H. eapply exactly_fun; [|exact Hc|exact Hu]. cbn. intros x. rewrite (H x). tauto.
Qed.
Lemma union_pos (s1 s2 : list A) u : exactly (fun x => In x s1 \/ In x s2) u -> (0 < u <-> s1 <> [] \/ s2 <> []).
Proof.
  intros H. pose proof (exactly_zero H) as Z. destruct s1 as [|x s1]; [destruct s2 as [|y s2]|].
  - split; [|intuition]. intros P. assert (u = 0) by (apply Z; cbn; tauto). lia.
  - split; [intros _; right; discriminate|]. intros _. destruct u; [|lia]. exfalso. apply (proj1 Z eq_refl y). right. now left.
  - split; [intros _; left; discriminate|]. intros _. destruct u; [|lia]. exfalso. apply (proj1 Z eq_refl x). left. now left.
Qed.
(** all facts about the six measures *)
Lemma swap_counts (s1 s2 : list A) c u : exactly (fun x => In x s1 /\ In x s2) c -> exactly (fun x => In x s1 \/ In x s2) u ->
  exactly (fun x => In x s2 /\ In x s1) c /\ exactly (fun x => In x s2 \/ In x s1) u.
Proof. intros H K. split; eapply exactly_ext; eauto; cbn; tauto. Qed.
Lemma len0 (s : list A) : length s = 0 -> forall x, ~ In x s. Proof. destruct s; cbn; auto; discriminate. Qed.
Lemma measures_good : good_measure (dice eqb) /\ good_measure (tanimoto eqb) /\ good_measure (jaccard eqb) /\
  good_measure (overlap_min eqb) /\ good_measure (overlap_max eqb).
Proof.
  assert (forall (f : nat -> nat -> nat -> nat -> Q) (m : list A -> list A -> Q),
    (forall s1 s2 c u, exactly (fun x => In x s1 /\ In x s2) c -> exactly (fun x => In x s1 \/ In x s2) u -> m s1 s2 = f (length s1) (length s2) c u) ->
    (forall a b c u, f a b c u = f b a c u) ->
    (forall a b c u, c <= a -> c <= b -> c <= u -> (0 <= f a b c u /\ f a b c u <= 1)%Q) ->
    (forall a b c u, c <= a -> c <= b -> c <= u -> (f a b c u == 0)%Q <-> c = 0) -> good_measure m) as K.
  { intros f m V Sy Ra Ze s1 s2. pose proof (inter_count s1 s2) as Hc. pose proof (union_count s1 s2) as Hu.
    destruct (swap_counts _ _ Hc Hu) as [Hc' Hu']. rewrite (V _ _ _ _ Hc Hu), (V _ _ _ _ Hc' Hu').
    destruct (common_le _ _ Hc). destruct (common_same _ _ Hc Hu) as [? _]. split; auto. split; auto.
    rewrite Ze by auto. now apply exactly_zero. }
  split; [|split; [|split; [|split]]].
  - apply (K (fun a b c u => frac (2 * c) (a + b))).
    + intros s1 s2 c u H1 H2. apply (values _ _ H1 H2).
    + intros. now rewrite (Nat.add_comm a).
    + intros. apply frac_range. lia.
    + intros. rewrite frac_zero. lia.
  - apply (K (fun a b c u => frac c (a + b - c))).
    + intros s1 s2 c u H1 H2. apply (values _ _ H1 H2).
    + intros. now rewrite (Nat.add_comm a).
    + intros. apply frac_range. lia.
    + intros. rewrite frac_zero. lia.
  - apply (K (fun a b c u => frac c u)).
    + intros s1 s2 c u H1 H2. apply (values _ _ H1 H2).
    + auto.
    + intros. apply frac_range. lia.
    + intros. rewrite frac_zero. lia.
  - apply (K (fun a b c u => frac c (min a b))).
    + intros s1 s2 c u H1 H2. apply (values _ _ H1 H2).
    + intros. now rewrite Nat.min_comm.
    + intros. apply frac_range. lia.
    + intros. rewrite frac_zero. lia.
  - apply (K (fun a b c u => frac c (max a b))).
    + intros s1 s2 c u H1 H2. apply (values _ _ H1 H2).
    + intros. now rewrite Nat.max_comm.
    + intros. apply frac_range. lia.
    + intros. rewrite frac_zero. lia.
Qed.
Lemma len_pos (s : list A) : s <> [] <-> 0 < length s.
Proof. destruct s; cbn; split; intros; try lia; congruence. Qed.
Lemma ones s1 s2 :
  ((dice eqb s1 s2 == 1)%Q <-> same_set s1 s2 /\ s1 <> []) /\
  ((tanimoto eqb s1 s2 == 1)%Q <-> same_set s1 s2 /\ s1 <> []) /\
  ((jaccard eqb s1 s2 == 1)%Q <-> (forall x, In x s1 <-> In x s2) /\ s1 <> []) /\
  ((overlap_max eqb s1 s2 == 1)%Q <-> same_set s1 s2 /\ s1 <> []) /\
  ((overlap_min eqb s1 s2 == 1)%Q <-> s1 <> [] /\ s2 <> [] /\ ((NoDup s1 /\ incl s1 s2) \/ (NoDup s2 /\ incl s2 s1))).
Proof.
  pose proof (inter_count s1 s2) as Hc. pose proof (union_count s1 s2) as Hu.
  set (c := length (intersection _ _ _)) in *. set (u := length (union _ _ _)) in *.
  destruct (swap_counts _ _ Hc Hu) as [Hc' Hu']. destruct (values _ _ Hc Hu) as (_ & -> & -> & -> & -> & -> & _).
  destruct (common_le _ _ Hc). destruct (common_same _ _ Hc Hu) as [? Hs].
  pose proof (common_full _ _ Hc) as F1. pose proof (common_full _ _ Hc') as F2. pose proof (union_pos _ _ Hu) as U.
  pose proof (len_pos s1) as P1. pose proof (len_pos s2) as P2.
  assert (c = length s1 /\ c = length s2 <-> same_set s1 s2) as SS.
  { rewrite F1, F2. unfold same_set, incl. split; [intros [[? ?] [? ?]]; split; auto; split; auto; intros x; split; auto|intros (? & ? & E); split; split; auto; intros x; apply E]. }
  rewrite !frac_one. split; [|split; [|split; [|split]]].
  - rewrite <- SS, P1. lia.
  - rewrite <- SS, P1. lia.
  - rewrite Hs. split.
    + intros [E K]. split; auto. apply U in K. destruct K as [|K]; auto. intros ->. destruct s2 as [|y s2]; [easy|].
      destruct (proj2 (E y)). now left.
    + intros [E K]. split; auto. apply U. auto.
  - rewrite <- SS, P1. lia.
  - rewrite <- F1, <- F2, P1, P2. lia.
Qed.
Lemma cosine_all s1 s2 : cosine eqb s1 s2 = cosine eqb s2 s1 /\ rq_le_one (cosine eqb s1 s2) /\
  (rq_zero (cosine eqb s1 s2) <-> forall x, ~ (In x s1 /\ In x s2)) /\
  (rq_one (cosine eqb s1 s2) <-> same_set s1 s2 /\ s1 <> []).
Proof.
  pose proof (inter_count s1 s2) as Hc. pose proof (union_count s1 s2) as Hu.
  set (c := length (intersection _ _ _)) in *. set (u := length (union _ _ _)) in *.
  destruct (swap_counts _ _ Hc Hu) as [Hc' Hu']. destruct (values _ _ Hc Hu) as (_ & _ & _ & _ & _ & _ & Z & P).
  destruct (values _ _ Hc' Hu') as (_ & _ & _ & _ & _ & _ & Z' & P').
  destruct (common_le _ _ Hc). pose proof (exactly_zero Hc) as Z0.
  pose proof (common_full _ _ Hc) as F1. pose proof (common_full _ _ Hc') as F2.
  assert (c = length s1 /\ c = length s2 <-> same_set s1 s2) as SS.
  { rewrite F1, F2. unfold same_set, incl. split; [intros [[? ?] [? ?]]; split; auto; split; auto; intros x; split; auto|intros (? & ? & E); split; split; auto; intros x; apply E]. }
  destruct (Nat.eq_dec (length s1 * length s2) 0) as [E|E].
  - assert (forall x y, length x * length y = 0 -> cosine eqb x y = {| rq_num := 0; rq_rad := 1 |}) as K.
    { intros x y Exy. unfold cosine, rootquot0. now rewrite Exy. }
    rewrite (K s1 s2), (K s2 s1) by lia. unfold rq_le_one, rq_zero, rq_one; cbn. split; auto. split; [lia|]. split.
    + split; [|lia]. intros _. rewrite <- Z0. apply Nat.eq_mul_0 in E. lia.
    + split; [lia|]. intros [Q N]. rewrite <- SS in Q. apply len_pos in N. nia.
  - rewrite P, P' by lia. unfold rq_le_one, rq_zero, rq_one; cbn. split; [now rewrite (Nat.mul_comm (length s1))|]. split; [nia|]. split.
    + rewrite <- Z0. lia.
    + rewrite <- SS, len_pos. set (a := length s1) in *. set (b := length s2) in *. clearbody c a b. clear -H H0 E. split.
      * intros [_ Q]. assert (c = a) by (destruct (Nat.eq_dec c a); auto; exfalso; assert (c * c <= c * b) by (apply Nat.mul_le_mono_l; lia); assert (c * b < a * b) by (apply Nat.mul_lt_mono_pos_r; nia); lia).
        subst c. assert (a <> 0) by nia. split; [split; [reflexivity|]|lia]. now apply (Nat.mul_cancel_l a b a).
      * intros [[-> <-] P]. split; auto. nia.
Qed.
(** duplicate-free sequences: tanimoto is jaccard, dice is 2j/(1+j) *)
Lemma dup_free s1 s2 : NoDup s1 -> NoDup s2 -> tanimoto eqb s1 s2 = jaccard eqb s1 s2 /\
  (dice eqb s1 s2 == 2 * jaccard eqb s1 s2 / (1 + jaccard eqb s1 s2))%Q.
Proof.
  intros N1 N2. pose proof (inter_count s1 s2) as Hc. pose proof (union_count s1 s2) as Hu.
  set (c := length (intersection _ _ _)) in *. set (u := length (union _ _ _)) in *.
  destruct (values _ _ Hc Hu) as (_ & -> & -> & -> & _).
  assert (u + c = length s1 + length s2) as E.
  { destruct Hc as (lc & Nc & Ec & <-). destruct Hu as (lu & Nu & Eu & <-). rewrite <- !app_length.
    assert (forall x, count_occ A_dec (lu ++ lc) x = count_occ A_dec (s1 ++ s2) x) as K.
    { intros x. rewrite !count_occ_app.
      pose proof (proj1 (NoDup_count_occ' A_dec lc)) as C1. pose proof (proj1 (NoDup_count_occ' A_dec lu)) as C2.
      pose proof (proj1 (NoDup_count_occ' A_dec s1)) as C3. pose proof (proj1 (NoDup_count_occ' A_dec s2)) as C4.
      assert (forall l, NoDup l -> count_occ A_dec l x = if in_dec A_dec x l then 1 else 0) as KK.
      { intros l Hl. destruct (in_dec A_dec x l) as [I|I]; [now apply NoDup_count_occ'|now apply count_occ_not_In]. }
      rewrite !KK by auto. specialize (Ec x). specialize (Eu x).
      destruct (in_dec A_dec x lu), (in_dec A_dec x lc), (in_dec A_dec x s1), (in_dec A_dec x s2); try reflexivity; exfalso; tauto. }
    apply Permutation_length. now apply (Permutation_count_occ A_dec). }
  destruct (common_same _ _ Hc Hu) as [Hle _].
  replace (length s1 + length s2 - c) with u by lia. split; auto. rewrite <- E.
  unfold frac. destruct u as [|u'].
  { assert (c = 0) as -> by lia. cbn. reflexivity. }
  cbn [Nat.add]. set (U := S u') in *. 
  assert (0 < inject_Z (Z.of_nat U))%Q as PU by (apply qn_pos; unfold U; lia).
  assert (0 <= inject_Z (Z.of_nat c))%Q as PC by (unfold Qle, inject_Z; cbn; lia).
  change (S (u' + c)) with (U + c). rewrite Nat2Z.inj_add, Nat2Z.inj_mul, inject_Z_plus, inject_Z_mult. change (inject_Z (Z.of_nat 2)) with 2%Q.
  field. repeat match goal with |- _ /\ _ => split end; intros C; lra.
Qed.
(** token_match *)
Lemma token_match_all s1 s2 : token_match eqb s1 s2 <= length s1 /\
  (token_match eqb s1 s2 = length s1 <-> incl s1 s2) /\ type_match eqb s1 s2 <= token_match eqb s1 s2 /\
  sym_token_match eqb s1 s2 = sym_token_match eqb s2 s1 /\
  (NoDup s1 -> token_match eqb s1 s2 = type_match eqb s1 s2).
Proof.
  assert (forall s, length (filter (fun e => mem eqb e s2) s) <= length s) as L by (induction s as [|x s IH]; cbn; [lia|]; destruct (mem eqb x s2); cbn; lia).
  unfold token_match. split; auto. split; [|split; [|split]].
  - induction s1 as [|x s1 IH]; cbn; [split; intros; auto; intros y []|]. specialize (L s1).
    destruct (mem eqb x s2) eqn:E; cbn.
    + apply (mem_spec eqb eq_ok) in E. split.
      * intros K. intros y [<-|Hy]; auto. apply IH; auto; lia.
      * intros K. f_equal. apply IH. intros y Hy. apply K. now right.
    + split; [lia|]. intros K. exfalso. assert (In x s2) as I by (apply K; now left). apply (mem_spec eqb eq_ok) in I. congruence.
  - pose proof (inter_count s1 s2) as H. unfold type_match. destruct H as (l & N & E & <-). apply NoDup_incl_length; auto.
    intros x Hx. apply E in Hx as [A1 A2]. apply filter_In. split; auto. now apply (mem_spec eqb eq_ok).
  - unfold sym_token_match. now rewrite Nat.add_comm.
  - intros N. unfold type_match. apply (@exactly_fun A (fun x => In x s1 /\ In x s2) (fun x => In x s1 /\ In x s2)); [reflexivity| |apply inter_count].
    exists (filter (fun e => mem eqb e s2) s1). split; [now apply NoDup_filter|]. split; [|reflexivity].
    intros x. rewrite filter_In, (mem_spec eqb eq_ok). reflexivity.
Qed.
(** generalized versions *)
Lemma in_all_cons (s : list A) ss x : in_all (s :: ss) x <-> In x s /\ in_all ss x.
Proof. unfold in_all; cbn. split; [intros H; split; auto|intros [A1 A2] s' [<-|H]; auto]. Qed.
Lemma in_some_cons (s : list A) ss x : in_some (s :: ss) x <-> In x s \/ in_some ss x.
Proof.
  unfold in_some; cbn. split.
  - intros (s' & [<-|H] & Hx); eauto.
  - intros [H|(s' & H & Hx)]; eauto.
Qed.
Lemma gen_loop X (f : X -> list A -> X) ss x0 t : NoDup t ->
  let st := fold_left (fun st s => (f (fst st) s, intersection eqb (snd st) s)) ss (x0, t) in
  fst st = fold_left f ss x0 /\ NoDup (snd st) /\ forall x, In x (snd st) <-> In x t /\ in_all ss x.
Proof.
  revert x0 t. induction ss as [|s ss IH]; intros x0 t N; cbn -[intersection].
  - split; auto. split; auto. intros x. unfold in_all. cbn. intuition.
  - destruct (@inter_ok s t N) as [N' E']. destruct (IH (f x0 s) _ N') as (A1 & A2 & A3). split; auto. split; auto.
    intros x. rewrite A3, E', in_all_cons. tauto.
Qed.
Lemma gen_inter X (f : X -> list A -> X) s0 ss x0 :
  let st := fold_left (fun st s => (f (fst st) s, intersection eqb (snd st) s)) ss (x0, to_set eqb s0) in
  fst st = fold_left f ss x0 /\ exactly (in_all (s0 :: ss)) (length (snd st)).
Proof.
  destruct (to_set_ok s0) as [N E]. destruct (@gen_loop X f ss x0 _ N) as (A1 & A2 & A3). split; auto.
  eexists. split; [exact A2|]. split; auto. intros x. now rewrite A3, E, in_all_cons.
Qed.
Lemma unions_ok ss t : NoDup t -> NoDup (fold_left (union eqb) ss t) /\ forall x, In x (fold_left (union eqb) ss t) <-> In x t \/ in_some ss x.
Proof.
  revert t. induction ss as [|s ss IH]; intros t N; cbn -[union].
  - split; auto. intros x. unfold in_some. cbn. split; auto. intros [H|(s & [] & _)]; auto.
  - destruct (@union_ok s t N) as [N' E']. destruct (IH _ N') as (A1 & A2). split; auto. intros x. rewrite A2, E', in_some_cons. tauto.
Qed.
Lemma fold_add ss (n : nat) : fold_left (fun n (s : list A) => n + length s) ss n = n + list_sum (map (@length A) ss).
Proof. revert n. induction ss as [|s ss IH]; intros n; cbn; [apply plus_n_O|]. rewrite IH. unfold list_sum. lia. Qed.
Lemma fold_mul ss (n : nat) : fold_left (fun n (s : list A) => n * length s) ss n = n * product (map (@length A) ss).
Proof. revert n. induction ss as [|s ss IH]; intros n; cbn; [lia|]. rewrite IH. unfold product. lia. Qed.
Lemma gvalues (ss : list (list A)) c u : ss <> [] -> exactly (in_all ss) c -> exactly (in_some ss) u ->
  generalized_dice eqb ss = frac (length ss * c) (list_sum (map (@length A) ss)) /\
  generalized_jaccard eqb ss = frac c u /\
  (product (map (@length A) ss) = 0 -> rq_zero (generalized_cosine eqb ss)) /\
  (0 < product (map (@length A) ss) -> generalized_cosine eqb ss = {| rq_num := c; rq_rad := product (map (@length A) ss) |}).
Proof.
  intros Hne Hc Hu. destruct ss as [|s0 ss]; [easy|]. clear Hne.
  unfold generalized_dice, generalized_jaccard, generalized_cosine. rewrite !frac_quot.
  destruct (@gen_inter nat (fun n s => n + length s) s0 ss (length s0)) as [D1 D2].
  destruct (@gen_inter (list A) (union eqb) s0 ss (to_set eqb s0)) as [J1 J2].
  destruct (@gen_inter nat (fun n s => n * length s) s0 ss (length s0)) as [C1 C2].
  rewrite D1, J1, C1, fold_add, fold_mul.
  destruct (to_set_ok s0) as [N0 E0]. destruct (@unions_ok ss _ N0) as [U1 U2].
  assert (length (fold_left (union eqb) ss (to_set eqb s0)) = u) as ->.
  { apply (@exactly_fun A (in_some (s0 :: ss)) (in_some (s0 :: ss))); [reflexivity| |exact Hu].
    eexists. split; [exact U1|]. split; [|reflexivity].
    intros x. now rewrite U2, E0, in_some_cons. }
  rewrite (exactly_fun (fun x => iff_refl _) D2 Hc), (exactly_fun (fun x => iff_refl _) J2 Hc), (exactly_fun (fun x => iff_refl _) C2 Hc).
  split; [reflexivity|]. split; [reflexivity|]. change (product (map (@length A) (s0 :: ss))) with (length s0 * product (map (@length A) ss)).
  unfold rootquot0, rq_zero. split; intros H.
  - rewrite H. cbn. auto.
  - destruct (_ =? 0) eqn:E; auto. apply Nat.eqb_eq in E. lia.
Qed.
Lemma all_count (ss : list (list A)) : ss <> [] -> exists c u, exactly (in_all ss) c /\ exactly (in_some ss) u.
Proof.
  destruct ss as [|s0 ss]; [easy|intros _]. destruct (@gen_inter nat (fun n s => n + length s) s0 ss 0) as [_ H].
  destruct (to_set_ok s0) as [N0 E0]. destruct (@unions_ok ss _ N0) as [U1 U2]. do 2 eexists. split; [exact H|].
  eexists. split; [exact U1|]. split; [|reflexivity]. intros x. now rewrite U2, E0, in_some_cons.
Qed.
Lemma all_le (ss : list (list A)) c s : exactly (in_all ss) c -> In s ss -> c <= length s.
Proof.
  intros H Hs. etransitivity; [eapply exactly_le; [|exact H|apply (set_count s)]|apply exactly_in_le, set_count].
  cbn. unfold in_all. auto.
Qed.
Lemma sum_lower ss c : (forall s : list A, In s ss -> c <= length s) -> length ss * c <= list_sum (map (@length A) ss).
Proof. induction ss as [|s ss IH]; intros H; cbn; [lia|]. specialize (IH (fun s' Hs => H s' (or_intror Hs))). specialize (H s (or_introl eq_refl)). unfold list_sum in IH. lia. Qed.
Lemma prod_lower ss c : 1 <= length ss -> 0 < product (map (@length A) ss) -> (forall s : list A, In s ss -> c <= length s) -> c <= product (map (@length A) ss).
Proof.
  destruct ss as [|s ss]; cbn; [lia|]. intros _ P H. specialize (H s (or_introl eq_refl)). unfold product in *.
  destruct (fold_right Nat.mul 1 (map (length (A:=A)) ss)); [lia|]. nia.
Qed.
Lemma gen_all ss : ss <> [] ->
  (0 <= generalized_dice eqb ss /\ generalized_dice eqb ss <= 1)%Q /\
  (0 <= generalized_jaccard eqb ss /\ generalized_jaccard eqb ss <= 1)%Q /\
  (2 <= length ss -> rq_le_one (generalized_cosine eqb ss)) /\
  ((generalized_dice eqb ss == 0)%Q <-> forall x, ~ in_all ss x) /\
  ((generalized_jaccard eqb ss == 0)%Q <-> forall x, ~ in_all ss x) /\
  (rq_zero (generalized_cosine eqb ss) <-> forall x, ~ in_all ss x).
Proof.
  intros Hne. destruct (all_count Hne) as (c & u & Hc & Hu). destruct (gvalues Hne Hc Hu) as (-> & -> & Z & P).
  assert (forall s, In s ss -> c <= length s) as Hle by (intros s; now apply all_le).
  pose proof (sum_lower _ Hle) as SL. pose proof (exactly_zero Hc) as Z0.
  assert (0 < length ss) as Hl by (destruct ss; cbn; [congruence|lia]).
  assert (c <= u) as Hcu.
  { eapply exactly_le; [|exact Hc|exact Hu]. intros x Hx. destruct ss as [|s ss]; [easy|]. exists s. split; [now left|]. apply Hx. now left. }
  split; [apply frac_range; lia|]. split; [apply frac_range; lia|]. split; [|split; [|split]].
  - intros H2. destruct (Nat.eq_dec (product (map (@length A) ss)) 0) as [E|E].
    + destruct (Z E) as [R1 R2]. split; auto. rewrite R2. lia.
    + rewrite P by lia. unfold rq_le_one; cbn. split; [lia|]. destruct ss as [|s ss]; [easy|]. cbn in H2.
      change (product (map (@length A) (s :: ss))) with (length s * product (map (@length A) ss)) in *.
      apply Nat.mul_le_mono; [apply Hle; now left|]. apply prod_lower; [lia|nia|]. intros s' Hs'. apply Hle. now right.
  - rewrite frac_zero, <- Z0. nia.
  - rewrite frac_zero, <- Z0. nia.
  - rewrite <- Z0. destruct (Nat.eq_dec (product (map (@length A) ss)) 0) as [E|E].
    + specialize (Z E). split; auto. intros _.
      assert (forall l : list (list A), product (map (@length A) l) = 0 -> exists s, In s l /\ length s = 0) as K.
      { induction l as [|s l IH]; cbn; [discriminate|]. intros K. apply Nat.eq_mul_0 in K as [K|K]; [exists s; auto|].
        destruct (IH K) as (s' & ? & ?). eauto. }
      destruct (K _ E) as (s & Hs & L0). specialize (Hle s Hs). lia.
    + rewrite P by lia. unfold rq_zero; cbn. lia.
Qed.
Lemma gen_two s1 s2 : generalized_dice eqb [s1; s2] = dice eqb s1 s2 /\ generalized_jaccard eqb [s1; s2] = jaccard eqb s1 s2 /\
  generalized_cosine eqb [s1; s2] = cosine eqb s1 s2.
Proof. repeat split; reflexivity. Qed.
Lemma gen_equal (s : list A) n : NoDup s -> s <> [] -> (generalized_dice eqb (repeat s (S n)) == 1)%Q /\ (generalized_jaccard eqb (repeat s (S n)) == 1)%Q.
Proof.
  intros N Hs. assert (repeat s (S n) <> []) as Hne by discriminate.
  assert (exactly (in_all (repeat s (S n))) (length s)) as Hc.
  { exists s. split; auto. split; auto. intros x. unfold in_all. split; [|intros H; apply H; now left]. intros Hx s' Hs'. apply repeat_spec in Hs'. now subst. }
  assert (exactly (in_some (repeat s (S n))) (length s)) as Hu.
  { exists s. split; auto. split; auto. intros x. unfold in_some. split; [intros Hx; exists s; split; auto; now left|]. intros (s' & Hs' & Hx). apply repeat_spec in Hs'. now subst. }
  destruct (gvalues Hne Hc Hu) as (-> & -> & _). apply len_pos in Hs. rewrite !frac_one. split; [|auto].
  assert (forall m, list_sum (map (@length A) (repeat s m)) = m * length s) as K.
  { induction m; cbn; unfold list_sum in *; auto. }
  rewrite K, repeat_length. split; nia.
Qed.
End S.
