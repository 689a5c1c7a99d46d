From Coq Require Import String Ascii QArith Qabs Lqa Permutation.
From Verif Require Import Py PyLemmas Align_model Align_proof Eval_spec Eval_model Eval_proof Tfidf_proof Table_spec Number_model Table_model Table_proof Evalrun_spec Evalrun_model.
Open Scope list_scope.
Open Scope nat_scope.
Set Implicit Arguments.

Definition to3 (c : counts) : three := {| t_true := c_true c; t_pred := c_pred c; t_common := c_common c |}.
Lemma to3_at k c : three_at k (to3 c) = count_value k c.
Proof. now destruct k. Qed.
Lemma sum3_counts l : sum3 (map to3 l) = to3 (sum_counts l).
Proof. unfold sum3, to3, sum_counts. rewrite !map_map. reflexivity. Qed.
Definition bounded (c : counts) : Prop := c_common c <= c_true c /\ c_common c <= c_pred c.
Lemma sum_bounded l : Forall bounded l -> bounded (sum_counts l).
Proof.
  unfold bounded, sum_counts. induction 1 as [|c l [A B] _ [C D]]; cbn [map list_sum fold_right c_common c_true c_pred] in *; [lia|].
  unfold list_sum in *. lia.
Qed.
Lemma ratio_eq a b q : b <> 0 -> (q * q_of b == q_of a)%Q -> (q == ratio a b)%Q.
Proof.
  intros H E. unfold ratio. destruct b as [|b]; [congruence|]. unfold q_of, Qeq, Qmult, inject_Z in *. cbn [Qnum Qden] in *.
  rewrite <- Pos.of_nat_succ. lia.
Qed.
Lemma f_ratio c : bounded c -> (measure_value MF c == ratio (2 * c_common c) (c_true c + c_pred c))%Q.
Proof.
  intros [B1 B2]. cbn [measure_value]. unfold f_score. cbn [Qle_bool andb Qnum Qden Z.leb Z.compare Z.mul Pos.mul Pos.compare Pos.compare_cont].
  destruct (Nat.eq_dec (c_common c) 0) as [Z|Z].
  - assert (P0 : (prec c == 0)%Q). { unfold prec, safe_div. rewrite Z. destruct Qeq_bool; [reflexivity|]. unfold qnat. cbn. unfold Qdiv. apply Qmult_0_l. }
    assert (R0 : (rec c == 0)%Q). { unfold rec, safe_div. rewrite Z. destruct Qeq_bool; [reflexivity|]. unfold qnat. cbn. unfold Qdiv. apply Qmult_0_l. }
    assert (Hr : (ratio (2 * c_common c) (c_true c + c_pred c) == 0)%Q). { rewrite Z. unfold ratio. destruct (c_true c + c_pred c); reflexivity. }
    rewrite Hr. unfold safe_div. destruct (Qeq_bool _ 0) eqn:E; [reflexivity|]. exfalso. apply Qeq_bool_neq in E. apply E. rewrite P0, R0. reflexivity.
  - assert (Pt : (0 < qnat (c_true c))%Q) by (apply qnat_pos; lia). assert (Pp : (0 < qnat (c_pred c))%Q) by (apply qnat_pos; lia).
    assert (Pc : (0 < qnat (c_common c))%Q) by (apply qnat_pos; lia).
    assert (P0 : (prec c == qnat (c_common c) / qnat (c_pred c))%Q).
    { unfold prec, safe_div. destruct (Qeq_bool (qnat (c_pred c)) 0) eqn:E; [apply Qeq_bool_iff in E; lra|reflexivity]. }
    assert (R0 : (rec c == qnat (c_common c) / qnat (c_true c))%Q).
    { unfold rec, safe_div. destruct (Qeq_bool (qnat (c_true c)) 0) eqn:E; [apply Qeq_bool_iff in E; lra|reflexivity]. }
    apply ratio_eq; [lia|].
    assert (D : (0 < 1 * 1 * prec c + rec c)%Q).
    { rewrite P0, R0. assert (0 < qnat (c_common c) / qnat (c_pred c))%Q by (apply Qlt_shift_div_l; lra).
      assert (0 < qnat (c_common c) / qnat (c_true c))%Q by (apply Qlt_shift_div_l; lra). lra. }
    unfold safe_div. destruct (Qeq_bool _ 0) eqn:E; [apply Qeq_bool_iff in E; lra|].
    assert (S1 : (q_of (c_true c + c_pred c) == qnat (c_true c) + qnat (c_pred c))%Q).
    { unfold q_of, qnat. rewrite Nat2Z.inj_add, inject_Z_plus. reflexivity. }
    assert (S2 : (q_of (2 * c_common c) == 2 * qnat (c_common c))%Q).
    { unfold q_of, qnat. rewrite Nat2Z.inj_mul, inject_Z_mult. reflexivity. }
    rewrite S1, S2, P0, R0. field. repeat split; try lra.
    pose proof (Qmult_lt_0_compat _ _ Pc Pt). pose proof (Qmult_lt_0_compat _ _ Pc Pp). lra.
Qed.
Lemma measure_ok m c : bounded c -> (measure_value m c == measure_of m (to3 c))%Q.
Proof.
  intros B. destruct (measure_values 1 c) as (A & D & _). destruct m; [exact A|exact D|exact (f_ratio B)].
Qed.

(** ** Statistics of a table *)
Definition table_ok (rows : list counts) (t : tstat) : Prop :=
  (forall k, c_sum (cstats t k) = list_sum (map (count_value k) rows) /\
     is_mean (map (fun c => q_of (count_value k c)) rows) (c_mean (cstats t k)) /\
     is_variance (map (fun c => q_of (count_value k c)) rows) (c_mean (cstats t k)) (c_var (cstats t k))) /\
  (forall m, m_micro (mstats t m) = measure_value m (sum_counts rows) /\
     is_mean (map (measure_value m) rows) (m_macro (mstats t m)) /\
     is_variance (map (measure_value m) rows) (m_macro (mstats t m)) (m_macro_var (mstats t m)) /\
     is_variance (map (measure_value m) rows) (m_micro (mstats t m)) (m_micro_var (mstats t m))).
Lemma qsum_tot l : (qsum l == q_total (fun v => v) l)%Q.
Proof. induction l as [|x l IH]; cbn [qsum q_total fold_right]; [reflexivity|]. unfold qsum, q_total in IH. rewrite IH. reflexivity. Qed.
Lemma div_mean l n : length l = n -> n <> 0 -> exists x, div (qsum l) n = Ok x /\ x = (qsum l / qnat n)%Q /\ is_mean l x.
Proof.
  intros L H. unfold div. destruct (n =? 0) eqn:E; [apply Nat.eqb_eq in E; congruence|]. eexists. split; [reflexivity|]. split; [reflexivity|].
  unfold is_mean. rewrite <- qsum_tot, L. change (q_of n) with (qnat n). assert (0 < qnat n)%Q by (apply qnat_pos; lia). field. lra.
Qed.
Lemma var_ok l mean : is_variance l mean (variance l mean).
Proof. apply variance_values. Qed.
Lemma count_stat_ok rows k : rows <> [] -> exists x, eval_count_stat rows k = Ok x /\ c_sum x = list_sum (map (count_value k) rows) /\
  is_mean (map (fun c => q_of (count_value k c)) rows) (c_mean x) /\ is_variance (map (fun c => q_of (count_value k c)) rows) (c_mean x) (c_var x).
Proof.
  intros H. unfold eval_count_stat.
  assert (E : (qsum (map (fun c => q_of (count_value k c)) rows) == qnat (list_sum (map (count_value k) rows)))%Q).
  { clear H. induction rows as [|c rows IH]; cbn [map qsum fold_right list_sum]; [reflexivity|]. unfold qsum, list_sum in *. rewrite IH.
    unfold q_of, qnat. rewrite Nat2Z.inj_add, inject_Z_plus. reflexivity. }
  assert (N : length rows <> 0) by (destruct rows; [congruence|discriminate]).
  unfold div. destruct (length rows =? 0) eqn:Z; [apply Nat.eqb_eq in Z; congruence|]. cbn [bind]. eexists. split; [reflexivity|]. cbn [c_sum c_mean c_var].
  split; [reflexivity|]. split; [|apply var_ok]. unfold is_mean. rewrite <- qsum_tot, E, map_length. change (q_of (length rows)) with (qnat (length rows)).
  assert (0 < qnat (length rows))%Q by (apply qnat_pos; lia). field. lra.
Qed.
Lemma measure_stat_ok rows m : rows <> [] -> exists x, eval_measure_stat rows m = Ok x /\ m_micro x = measure_value m (sum_counts rows) /\
  is_mean (map (measure_value m) rows) (m_macro x) /\ is_variance (map (measure_value m) rows) (m_macro x) (m_macro_var x) /\
  is_variance (map (measure_value m) rows) (m_micro x) (m_micro_var x).
Proof.
  intros H. unfold eval_measure_stat. destruct (@div_mean (map (measure_value m) rows) (length rows)) as (x & -> & _ & M); [apply map_length|destruct rows; [congruence|discriminate]|].
  cbn [bind]. eexists. split; [reflexivity|]. cbn [m_micro m_macro m_macro_var m_micro_var]. split; [reflexivity|]. split; [exact M|]. split; apply var_ok.
Qed.
Lemma eval_table_ok rows : rows <> [] -> exists t, eval_table rows = Ok t /\ table_ok rows t.
Proof.
  intros H. unfold eval_table.
  destruct (@count_stat_ok rows KTrue H) as (t & -> & T). destruct (@count_stat_ok rows KPred H) as (p & -> & P). destruct (@count_stat_ok rows KCommon H) as (c & -> & C).
  destruct (@measure_stat_ok rows MPrec H) as (mp & -> & MP). destruct (@measure_stat_ok rows MRec H) as (mr & -> & MR). destruct (@measure_stat_ok rows MF H) as (mf & -> & MF').
  cbn [bind]. eexists. split; [reflexivity|]. split; [intros []; assumption|intros []; assumption].
Qed.
Lemma eval_table_nil : eval_table [] = Err ZeroDivisionError.
Proof. reflexivity. Qed.

(** ** Adding *)
Definition agrees (X : Type) (m : res X) (r : X * option exc) : Prop := match m with Ok x => r = (x, None) | Err e => snd r = Some e end.
Lemma foldS_agrees (S X : Type) (f : S -> X -> res S) g : (forall s x, agrees (f s x) (g s x)) -> forall l s, agrees (foldM f s l) (foldS g s l).
Proof.
  intros H. induction l as [|x l IH]; intros s; cbn [foldM foldS]; [reflexivity|]. specialize (H s x). destruct (f s x) as [s'|e]; cbn [bind agrees] in *.
  - rewrite H. apply IH.
  - destruct (g s x) as [s' [e'|]]; cbn [snd] in *; [exact H|discriminate].
Qed.
Lemma foldS_inv (S X : Type) (g : S -> X -> S * option exc) (P : S -> Prop) : (forall s x, P s -> P (fst (g s x))) -> forall l s, P s -> P (fst (foldS g s l)).
Proof.
  intros H. induction l as [|x l IH]; intros s Hs; cbn [foldS]; [exact Hs|]. specialize (H s x Hs). destruct (g s x) as [s' [e|]]; [exact H|now apply IH].
Qed.

(** ** Congruence *)
Lemma q_total_ext (X Y : Type) (f : X -> Q) (g : Y -> Q) l l' : Forall2 (fun x y => (f x == g y)%Q) l l' -> (q_total f l == q_total g l')%Q.
Proof. induction 1 as [|x y l l' H _ IH]; cbn [q_total fold_right]; [reflexivity|]. unfold q_total in IH. rewrite H, IH. reflexivity. Qed.
Lemma f2_length (X Y : Type) (P : X -> Y -> Prop) l l' : Forall2 P l l' -> length l = length l'.
Proof. induction 1; cbn; congruence. Qed.
Lemma f2_weaken (X Y : Type) (P Q : X -> Y -> Prop) l l' : (forall x y, P x y -> Q x y) -> Forall2 P l l' -> Forall2 Q l l'.
Proof. induction 2; constructor; auto. Qed.
Lemma mean_ext l l' x : Forall2 Qeq l l' -> is_mean l x -> is_mean l' x.
Proof. unfold is_mean. intros F H. rewrite <- (f2_length F), H. apply q_total_ext. exact F. Qed.
Lemma variance_ext l l' m m' x : Forall2 Qeq l l' -> (m == m')%Q -> is_variance l m x -> is_variance l' m' x.
Proof.
  unfold is_variance. intros F E [A B]. rewrite <- (f2_length F). split; [exact A|]. intros H. rewrite (B H). apply q_total_ext.
  refine (f2_weaken _ _ F). intros a b K. cbv beta. rewrite K, E. reflexivity.
Qed.
Definition stats_of (t : tstat) : stats :=
  {| s_mean := fun k => c_mean (cstats t k); s_var := fun k => c_var (cstats t k); s_macro := fun m => m_macro (mstats t m);
     s_macro_var := fun m => m_macro_var (mstats t m); s_micro_var := fun m => m_micro_var (mstats t m) |}.
Lemma map_at k rows : map (fun c => three_at k c) (map to3 rows) = map (count_value k) rows.
Proof. rewrite map_map. apply map_ext. intros c. apply to3_at. Qed.
Lemma sum3_at k l : three_at k (sum3 l) = list_sum (map (three_at k) l).
Proof. destruct k; reflexivity. Qed.
Lemma measures_values m rows : Forall bounded rows -> Forall2 Qeq (map (measure_value m) rows) (map (measure_of m) (map to3 rows)).
Proof. induction 1 as [|c rows B _ IH]; cbn [map]; constructor; [now apply measure_ok|exact IH]. Qed.
Lemma table_stats rows l t : map to3 rows = l -> Forall bounded rows -> table_ok rows t ->
  (forall k, c_sum (cstats t k) = three_at k (sum3 l)) /\ right_stats l (stats_of t) /\ (forall m, (m_micro (mstats t m) == measure_of m (sum3 l))%Q).
Proof.
  intros <- B [C M].
  assert (MI : forall m, (m_micro (mstats t m) == measure_of m (sum3 (map to3 rows)))%Q).
  { intros m. destruct (M m) as [-> _]. rewrite sum3_counts. apply measure_ok. now apply sum_bounded. }
  split; [|split; [|exact MI]].
  - intros k. destruct (C k) as [-> _]. rewrite sum3_at. now rewrite map_at.
  - split.
    + intros k. destruct (C k) as (_ & H1 & H2). cbn [stats_of s_mean s_var].
      assert (E : map (fun c => q_of (three_at k c)) (map to3 rows) = map (fun c => q_of (count_value k c)) rows) by (rewrite map_map; apply map_ext; intros c; now rewrite to3_at).
      rewrite E. auto.
    + intros m. destruct (M m) as (_ & H1 & H2 & H3). pose proof (measures_values m B) as F. cbn [stats_of s_macro s_macro_var s_micro_var].
      split; [exact (mean_ext F H1)|]. split; [exact (variance_ext F (Qeq_refl _) H2)|]. exact (variance_ext F (MI m) H3).
Qed.

(** ** Ranges *)
Lemma ratio_range a b : a <= b -> (0 <= ratio a b <= 1)%Q.
Proof.
  intros H. unfold ratio. destruct b as [|b]; [split; discriminate|]. unfold Qle. cbn [Qnum Qden]. rewrite <- Pos.of_nat_succ. split; lia.
Qed.
Lemma measure_range m c : t_common c <= t_true c -> t_common c <= t_pred c -> (0 <= measure_of m c <= 1)%Q.
Proof. intros A B. destruct m; apply ratio_range; lia. Qed.
Lemma mean_range l x : l <> [] -> Forall (fun v => 0 <= v <= 1)%Q l -> is_mean l x -> (0 <= x <= 1)%Q.
Proof.
  unfold is_mean. intros NE F E. assert (P : (0 < q_of (length l))%Q) by (apply qnat_pos; destruct l; [congruence|cbn; lia]).
  assert (B : (0 <= q_total (fun v => v) l <= q_of (length l))%Q).
  { clear NE E P. induction F as [|v l H _ IH]; cbn [q_total fold_right length]; [split; discriminate|]. unfold q_total in IH.
    assert (Q1 : (q_of (S (length l)) == 1 + q_of (length l))%Q) by (unfold q_of; rewrite Nat2Z.inj_succ, <- Z.add_1_l, inject_Z_plus; reflexivity). rewrite Q1. lra. }
  rewrite <- E in B. split.
  - apply Qnot_lt_le. intros H. destruct B as [B _]. assert (x * q_of (length l) < 0)%Q; [|lra]. setoid_replace 0%Q with (0 * q_of (length l))%Q by ring. now apply Qmult_lt_compat_r.
  - apply Qnot_lt_le. intros H. destruct B as [_ B]. assert (q_of (length l) < x * q_of (length l))%Q; [|lra]. setoid_replace (q_of (length l)) with (1 * q_of (length l))%Q at 1 by ring. now apply Qmult_lt_compat_r.
Qed.
Lemma list_sum_perm l l' : Permutation l l' -> list_sum l = list_sum l'.
Proof. induction 1; cbn; unfold list_sum in *; lia. Qed.
Lemma list_sum_concat ls : list_sum (concat ls) = list_sum (map list_sum ls).
Proof. induction ls as [|l ls IH]; cbn [concat map]; [reflexivity|]. rewrite list_sum_app, IH. reflexivity. Qed.
Lemma list_sum_swap (X Y : Type) (f : X -> Y -> nat) xs ys : list_sum (map (fun x => list_sum (map (f x) ys)) xs) = list_sum (map (fun y => list_sum (map (fun x => f x y) xs)) ys).
Proof.
  induction xs as [|x xs IH]; cbn [map list_sum fold_right].
  - induction ys as [|y ys IHy]; cbn; auto.
  - unfold list_sum in *. rewrite IH. clear IH. induction ys as [|y ys IHy]; cbn [map fold_right]; [reflexivity|]. lia.
Qed.

(** ** Printing *)
Lemma f2_maps (X Y Z : Type) (f : X -> Y) (g : X -> Z) (P : Y -> Z -> Prop) l : (forall x, In x l -> P (f x) (g x)) -> Forall2 P (map f l) (map g l).
Proof. induction l as [|x l IH]; intros H; cbn [map]; constructor; [apply H; now left|]. apply IH. intros y Hy. apply H. now right. Qed.
Lemma combine_map_r (X Y Z : Type) (f : Y -> Z) (l : list X) l' : combine l (map f l') = map (fun x => (fst x, f (snd x))) (combine l l').
Proof. revert l'. induction l as [|x l IH]; intros [|y l']; cbn; [| | |]; trivial. now rewrite IH. Qed.
Lemma show_nat_numeral n : numeral (Z.of_nat n) (show_nat n).
Proof.
  unfold show_nat. assert (E : str_N (N.of_nat n) = str_Z (Z.of_nat n)) by (unfold str_Z; destruct n; reflexivity). rewrite E. apply str_Z_numeral.
Qed.
Lemma hundredths_ext q q' z : (q == q')%Q -> hundredths q z -> hundredths q' z.
Proof. unfold hundredths. intros E [A B]. rewrite <- E. auto. Qed.
Lemma two_ext q q' s : (q == q')%Q -> two_decimals q s -> two_decimals q' s.
Proof.
  intros E (z & w & d & e & t & H & D1 & D2 & D3 & Z & K). exists z, w, d, e, t. split; [now apply (hundredths_ext E)|]. do 4 (split; [assumption|]).
  destruct K as [[K1 K2]|[K1 K2]]; [left|right]; (split; [now rewrite <- E|exact K2]).
Qed.
Lemma labelled_aligned w name cells : labelled w name cells = aligned w name cells.
Proof. unfold labelled, aligned, ljust. rewrite <- app_assoc. reflexivity. Qed.
Section Show.
Variables root root_percent : Q -> text.
Notation shows_cell := (shows_cell root root_percent).
Notation shows_line := (shows_line root root_percent).
Lemma show_count n : shows_cell (Count n) (show_nat n).
Proof. apply show_nat_numeral. Qed.
Lemma show_fixed q : shows_cell (Fixed q) (show_q q).
Proof. apply show_q_two. Qed.
Lemma show_percent q q' : (q == q')%Q -> shows_cell (percent_of q') (percent q).
Proof. intros E. unfold percent_of, percent. cbn [Evalrun_spec.shows_cell]. apply (@two_ext (q * 100)); [rewrite E; apply Qmult_comm|apply show_q_two]. Qed.
Lemma show_row w name cs texts : Forall2 shows_cell cs texts -> shows_line (Row w name cs) (labelled w name texts).
Proof. intros F. exists texts. split; [exact F|]. apply labelled_aligned. Qed.
Lemma show_counts w name (c : three) f : (forall k, three_at k c = f k) -> shows_line (counts_row w name c) (labelled w name (map (fun k => show_nat (f k)) count_keys)).
Proof.
  intros H. apply show_row. cbn [count_keys map]. pose proof (H KTrue) as H1. pose proof (H KPred) as H2. pose proof (H KCommon) as H3. cbn [three_at] in *. rewrite H1, H2, H3.
  repeat (constructor; [apply show_count|]). constructor.
Qed.
Lemma show_measures w name f g : (forall m, shows_cell (f m) (g m)) -> shows_line (measures_row w name f) (labelled w name (map g measure_keys)).
Proof. intros H. apply show_row. cbn [measure_keys map]. repeat (constructor; [apply H|]). constructor. Qed.
Lemma show_three w name (f : count_key -> cell) g : (forall k, shows_cell (f k) (g k)) -> shows_line (Row w name [f KTrue; f KPred; f KCommon]) (labelled w name (map g count_keys)).
Proof. intros H. apply show_row. cbn [count_keys map]. repeat (constructor; [apply H|]). constructor. Qed.
Lemma show_table nms rows t heading : nms <> [] -> Forall bounded rows -> table_ok rows t ->
  exists ls, write_table root root_percent nms rows (Some (length rows, t)) heading = Ok ls /\
    Forall2 shows_line ((match heading with [] => [] | _ => [Plain heading; Plain []] end) ++ relation_table nms (map to3 rows) (stats_of t)) ls.
Proof.
  intros NE B T. destruct (table_stats eq_refl B T) as (C & _ & M). unfold write_table. destruct nms as [|n0 nms']; [congruence|]. set (nms := n0 :: nms') in *.
  rewrite (proj2 (Nat.ltb_ge _ _) (Nat.le_refl _)). eexists. split; [reflexivity|]. apply Forall2_app.
  { destruct heading; repeat constructor. }
  unfold relation_table, width. set (w := Nat.max _ 14). rewrite (Nat.add_comm w 42), (Nat.add_comm w (3 * 14)). change (3 * 14) with 42.
  rewrite combine_map_r, !map_map.
  apply Forall2_app; [|apply Forall2_app; [|apply Forall2_app; [|apply Forall2_app]]].
  - constructor; [apply labelled_aligned|]. constructor; [reflexivity|constructor].
  - apply f2_maps. intros x _. cbn [fst snd]. apply show_counts. intros k. apply to3_at.
  - constructor; [reflexivity|].
    constructor; [apply show_counts; intros k; now rewrite C|].
    constructor; [apply (show_three _ _ (fun k => Fixed (s_mean (stats_of t) k))); intros k; apply show_fixed|].
    constructor; [apply (show_three _ _ (fun k => Fixed (s_var (stats_of t) k))); intros k; apply show_fixed|].
    constructor; [apply (show_three _ _ (fun k => Root (s_var (stats_of t) k))); intros k; reflexivity|].
    constructor; [reflexivity|]. constructor; [reflexivity|]. constructor; [apply labelled_aligned|]. constructor; [reflexivity|constructor].
  - apply f2_maps. intros x Hx. cbn [fst snd]. apply show_measures. intros m. apply show_percent. apply measure_ok. rewrite Forall_forall in B. apply B. destruct x. now apply in_combine_r in Hx.
  - constructor; [reflexivity|].
    do 2 (constructor; [apply show_measures; intros m; apply show_percent; reflexivity|]). constructor; [apply show_measures; intros m; reflexivity|].
    constructor; [apply show_measures; intros m; apply show_percent; apply M|].
    constructor; [apply show_measures; intros m; apply show_percent; reflexivity|]. constructor; [apply show_measures; intros m; reflexivity|].
    repeat constructor.
Qed.
End Show.

(** ** Reading rows *)
Lemma decimal_length n t : decimal n t -> forall k, (Z.of_nat n < 10 ^ Z.of_nat k)%Z -> 0 < k -> length t <= k.
Proof.
  induction 1 as [d D|n d t P D H IH]; intros k L K; [cbn; lia|]. rewrite app_length. cbn [length]. destruct k as [|k]; [lia|].
  rewrite Nat2Z.inj_succ, Z.pow_succ_r in L by lia. destruct k as [|k]; [change (10 ^ Z.of_nat 0)%Z with 1%Z in L; lia|].
  specialize (IH (S k) ltac:(lia) ltac:(lia)). lia.
Qed.
Lemma digit_blank d : d < 10 -> blank (digit d) = false.
Proof. intros H. do 10 (destruct d as [|d]; [reflexivity|]). lia. Qed.
Lemma decimal_word n t : decimal n t -> word t.
Proof.
  induction 1 as [d D|n d t P D H [NE F]]; [split; [discriminate|constructor; [now apply digit_blank|constructor]]|].
  split; [destruct t; discriminate|]. apply Forall_app. split; [exact F|]. constructor; [now apply digit_blank|constructor].
Qed.
Section ReadBack.
Variables root root_percent : Q -> text.
Lemma cell_fits c s : fits root root_percent c -> shows_cell root root_percent c s -> word s /\ length s < 14.
Proof.
  destruct c as [n|q|q|q]; cbn [fits shows_cell].
  - intros H [[_ D]|[Z _]]; [|lia]. split; [exact (decimal_word D)|]. assert (length s <= 13); [|lia]. apply (decimal_length D); [|lia]. rewrite Nat2Z.id. exact H.
  - intros [H1 H2] (z & w & d & e & t & [Hz _] & D & D1 & D2 & Z & K).
    assert (Wt : word t) by exact (decimal_word D).
    assert (Wf : Forall (fun c => blank c = false) (t ++ ["."%char; digit d; digit e])).
    { apply Forall_app. split; [apply Wt|]. constructor; [reflexivity|]. constructor; [now apply digit_blank|]. constructor; [now apply digit_blank|constructor]. }
    assert (Lt : length t <= 10).
    { apply (decimal_length D); [|lia]. apply Qabs_Qle_condition in Hz. destruct Hz as [Hz1 Hz2].
      assert (Z1 : (inject_Z z < inject_Z (100 * 10 ^ 9 + 1))%Q) by (change (inject_Z (100 * 10 ^ 9 + 1)) with (100000000001 # 1); change (10 ^ 9)%Q with (1000000000 # 1) in *; lra).
      assert (Z2 : (inject_Z (- (100 * 10 ^ 8 + 1)) < inject_Z z)%Q) by (change (inject_Z (- (100 * 10 ^ 8 + 1))) with (-10000000001 # 1); change (10 ^ 8)%Q with (100000000 # 1) in *; lra).
      rewrite <- Zlt_Qlt in Z1, Z2. change (10 ^ Z.of_nat 10)%Z with 10000000000%Z. change (10 ^ 9)%Z with 1000000000%Z in *; change (10 ^ 8)%Z with 100000000%Z in *. lia. }
    assert (L9 : (0 <= q)%Q \/ length t <= 9).
    { destruct (Qlt_le_dec q 0) as [Q0|Q0]; [right|now left]. apply (decimal_length D); [|lia]. apply Qabs_Qle_condition in Hz. destruct Hz as [Hz1 Hz2].
      assert (Z1 : (inject_Z z < inject_Z 1)%Q) by (change (inject_Z 1) with 1%Q; lra).
      rewrite <- Zlt_Qlt in Z1. assert (Z2 : (inject_Z (- (100 * 10 ^ 8 + 1)) < inject_Z z)%Q) by (change (inject_Z (- (100 * 10 ^ 8 + 1))) with (-10000000001 # 1); change (10 ^ 8)%Q with (100000000 # 1) in *; lra).
      rewrite <- Zlt_Qlt in Z2. change (10 ^ Z.of_nat 9)%Z with 1000000000%Z. change (10 ^ 9)%Z with 1000000000%Z in *; change (10 ^ 8)%Z with 100000000%Z in *. lia. }
    destruct K as [[K ->]|[K ->]].
    + split; [split; [destruct t; discriminate|exact Wf]|]. rewrite app_length. cbn [length]. lia.
    + split; [split; [discriminate|constructor; [reflexivity|exact Wf]]|]. cbn [length]. rewrite app_length. cbn [length]. destruct L9 as [L9|L9]; [lra|lia].
  - intros H ->. exact H.
  - intros H ->. exact H.
Qed.
Lemma cells_split cells : Forall (fun s => word s /\ length s < 14) cells -> splits (concat (map (fun c => repeat space (14 - length c) ++ c) cells)) cells.
Proof.
  induction 1 as [|c l [W L] F IH]; cbn [map concat]; [constructor; constructor|]. rewrite <- app_assoc. apply splits_cons; [apply spaces_blank|exact W| |exact IH].
  destruct F as [|d l [_ Ld] F]; cbn [map concat]; [exact I|]. destruct (14 - length d) eqn:E; [lia|reflexivity].
Qed.
Lemma splits_join s ws t us : splits s ws -> splits t us -> (t = [] \/ exists r, t = space :: r) -> splits (s ++ t) (ws ++ us).
Proof.
  intros H1 H2 H3. induction H1 as [b B|b w r ws B Wd Hr _ IH]; cbn [app]; [now apply splits_app|].
  rewrite <- !app_assoc. apply splits_cons; [exact B|exact Wd| |exact IH]. destruct r as [|c r]; [|exact Hr]. destruct H3 as [->|(q & ->)]; [exact I|reflexivity].
Qed.
Lemma row_reads w name cs l ws : shows_line root root_percent (Row w name cs) l -> splits name ws -> Forall (fits root root_percent) cs ->
  exists texts, Forall2 (shows_cell root root_percent) cs texts /\ splits l (ws ++ texts).
Proof.
  intros (texts & F & ->) Hn Hf. exists texts. split; [exact F|]. unfold aligned.
  assert (T : Forall (fun s => word s /\ length s < 14) texts).
  { clear Hn. induction F as [|c s cs texts H F IH]; [constructor|]. inversion Hf as [|? ? Hc Hcs]. subst. constructor; [now apply (cell_fits c)|now apply IH]. }
  apply splits_join; [exact Hn|apply splits_app; [apply spaces_blank|now apply cells_split]|].
  destruct (w - length name) as [|k]; cbn [repeat app]; [|right; eexists; reflexivity]. destruct T as [|s ts [_ L] _]; cbn [map concat]; [now left|].
  right. destruct (14 - length s) as [|k] eqn:E; [lia|]. cbn [repeat app]. eexists. reflexivity.
Qed.
End ReadBack.

Lemma paired (X : Type) (ts ps : list X) g : length ts = length ps -> In g ts \/ In g ps -> exists q, In q (combine ts ps) /\ (fst q = g \/ snd q = g).
Proof.
  revert ps. induction ts as [|t ts IH]; intros [|p ps] L H; cbn [length combine In] in *; try discriminate; [tauto|].
  destruct H as [[->|H]|[->|H]].
  - exists (g, p). cbn. auto.
  - destruct (IH ps ltac:(congruence) (or_introl H)) as (q & Q & K). eauto.
  - exists (t, g). cbn. auto.
  - destruct (IH ps ltac:(congruence) (or_intror H)) as (q & Q & K). eauto.
Qed.

Section P.
Variables N R : Type.
Variable neqb : N -> N -> bool.
Variable reqb : R -> R -> bool.
Variable truthy : R -> bool.
Hypothesis neqb_spec : forall x y, neqb x y = true <-> x = y.
Hypothesis reqb_spec : forall x y, reqb x y = true <-> x = y.
Variable relations : list R.
Notation kq := (keqb reqb).
Notation kspec := (keqb_spec reqb truthy reqb_spec).
Notation updS := (updS reqb).
Notation add := (add neqb reqb truthy relations).
Notation keys := (keys reqb relations).
Notation session := (session R).

Lemma updS_agrees (r : row R) k f : agrees (upd reqb r k f) (updS r k f).
Proof. unfold upd, Evalrun_model.updS, dread. destruct (dget kq r k); reflexivity. Qed.
Ltac use_upd := match goal with |- context [upd reqb ?r ?k ?f] => 
  let H := fresh in pose proof (updS_agrees r k f) as H; destruct (upd reqb r k f) as [?w|?e]; cbn [agrees bind] in *;
  [rewrite H; clear H|destruct (updS r k f) as [?w [?x|]]; cbn [snd] in *; [injection H as ->|discriminate H]] end.
Lemma true_agrees g st e : agrees (true_step neqb reqb truthy g st e) (true_stepS neqb reqb truthy g st e).
Proof.
  unfold true_step, true_stepS. use_upd; [|reflexivity]. destruct (get_align neqb g _ _) as [pr|]; [|reflexivity]. destruct (truthy pr); [|reflexivity].
  use_upd; [|reflexivity]. destruct (reqb pr (snd e)); [|reflexivity]. use_upd; reflexivity.
Qed.
Lemma pred_agrees st (e : (N * N) * R) : agrees (pred_step reqb st e) (pred_stepS reqb st e).
Proof. unfold pred_step, pred_stepS. use_upd; reflexivity. Qed.
Lemma pair_agrees r gp : agrees (pair_step neqb reqb truthy r gp) (pair_stepS neqb reqb truthy r gp).
Proof.
  unfold pair_step, pair_stepS. 
  pose proof (foldS_agrees _ _ (true_agrees (snd gp)) (alignments reqb (fst gp) []) (0, r)) as H. destruct (foldM _ _ _) as [st|e]; cbn [agrees bind] in *.
  2: { destruct (foldS _ _ _) as [st [x|]]; cbn [snd] in *; [injection H as ->|discriminate H]. reflexivity. }
  rewrite H; clear H. use_upd; [|reflexivity].
  pose proof (foldS_agrees _ _ pred_agrees (alignments reqb (snd gp) []) (0, w)) as H. destruct (foldM _ _ _) as [st'|e]; cbn [agrees bind] in *.
  2: { destruct (foldS _ _ _) as [st' [x|]]; cbn [snd] in *; [injection H as ->|discriminate H]. reflexivity. }
  rewrite H; clear H. apply updS_agrees.
Qed.
(** the keys of a row never change *)
Lemma updS_keys (r : row R) k f : dkeys (fst (updS r k f)) = dkeys r.
Proof.
  unfold Evalrun_model.updS. destruct (dget kq r k) as [c|] eqn:E; [|reflexivity]. cbn [fst]. apply (dkeys_dset_in kq kspec).
  destruct (in_dec (fun a b => match Bool.bool_dec (kq a b) true with left e => left (proj1 (kspec a b) e) | right n => right (fun q => n (proj2 (kspec a b) q)) end) k (dkeys r)) as [I|I]; [exact I|].
  apply (dget_none kq kspec) in I. congruence.
Qed.
Lemma true_keys g st e : dkeys (snd (fst (true_stepS neqb reqb truthy g st e))) = dkeys (snd st).
Proof.
  unfold true_stepS. pose proof (updS_keys (snd st) (Some (snd e)) (add_true 1)) as H1. destruct (updS (snd st) _ _) as [r1 [x|]]; [exact H1|]. cbn [fst] in H1.
  destruct (get_align neqb g _ _) as [pr|]; [|exact H1]. destruct (truthy pr); [|exact H1].
  pose proof (updS_keys r1 None (add_common 1)) as H2. destruct (updS r1 _ _) as [r2 [x|]]; cbn [fst snd] in *; [congruence|]. destruct (reqb pr (snd e)); [|cbn [fst snd]; congruence].
  pose proof (updS_keys r2 (Some (snd e)) (add_common 1)) as H3. destruct (updS r2 _ _) as [r3 x]. cbn [fst snd] in *. congruence.
Qed.
Lemma pred_keys st (e : (N * N) * R) : dkeys (snd (fst (pred_stepS reqb st e))) = dkeys (snd st).
Proof. unfold pred_stepS. pose proof (updS_keys (snd st) (Some (snd e)) (add_pred 1)) as H. destruct (updS _ _ _) as [r x]. exact H. Qed.
Lemma pair_keys r gp : dkeys (fst (pair_stepS neqb reqb truthy r gp)) = dkeys r.
Proof.
  unfold pair_stepS.
  assert (H1 := @foldS_inv _ _ (true_stepS neqb reqb truthy (snd gp)) (fun st => dkeys (snd st) = dkeys r) ltac:(intros s x <-; apply true_keys) (alignments reqb (fst gp) []) (0, r) eq_refl).
  destruct (foldS _ (0, r) _) as [st [x|]]; [exact H1|]. cbn [fst] in H1.
  pose proof (updS_keys (snd st) None (add_true (fst st))) as H2. destruct (updS (snd st) _ _) as [r1 [x|]]; cbn [fst snd] in *; [congruence|].
  assert (H3 := @foldS_inv _ _ (pred_stepS (N := N) reqb) (fun st => dkeys (snd st) = dkeys r) ltac:(intros s x <-; apply pred_keys) (alignments reqb (snd gp) []) (0, r1) ltac:(cbn [snd]; congruence)).
  destruct (foldS _ (0, r1) _) as [st' [x|]]; [exact H3|]. cbn [fst] in H3. rewrite updS_keys. exact H3.
Qed.
Definition the_name (s : session) (name : option text) : text :=
  match name with Some (c :: n) => c :: n | _ => lit "part" ++ str_N (N.of_nat (length (rows s) + 1)) end.
(** what add does *)
Lemma add_ok s ts ps name : length ts = length ps ->
  exists w x, add s ts ps name = ({| names := names s ++ [the_name s name]; rows := rows s ++ [w]; last := last s |}, x) /\
    dkeys w = keys /\ match eval_row neqb reqb truthy relations ts ps with Ok w' => w = w' /\ x = None | Err e => x = Some e end.
Proof.
  intros L. unfold Evalrun_model.add, eval_row. rewrite L, Nat.eqb_refl. cbn [negb]. fold (the_name s name).
  pose proof (foldS_agrees _ _ pair_agrees (combine ts ps) (zero_row reqb relations)) as A.
  assert (K := @foldS_inv _ _ (pair_stepS neqb reqb truthy) (fun r => dkeys r = keys) ltac:(intros r gp <-; apply pair_keys) (combine ts ps) (zero_row reqb relations) eq_refl).
  destruct (foldS _ _ _) as [w x]. exists w, x. split; [reflexivity|]. split; [exact K|].
  destruct (foldM _ _ _) as [w'|e]; cbn [agrees snd] in A; [now injection A as -> ->|exact A].
Qed.
Lemma add_unequal s ts ps name : length ts <> length ps -> add s ts ps name = (s, Some AssertionError).
Proof. intros H. unfold Evalrun_model.add. apply Nat.eqb_neq in H. now rewrite H. Qed.

(** ** Evaluating *)
Lemma k_dec : forall a b : key R, {a = b} + {a <> b}.
Proof.
  intros a b. destruct (kq a b) eqn:E; [left; now apply kspec|]. right. intros Q. apply kspec in Q. congruence.
Qed.
Lemma keys_fold l (d : row R) : NoDup (dkeys d) -> let d' := fold_left (fun d r => dset kq d (Some r) zero_counts) l d in
  NoDup (dkeys d') /\ (forall k, In k (dkeys d') <-> In k (dkeys d) \/ exists r, In r l /\ k = Some r).
Proof.
  revert d. induction l as [|r l IH]; intros d Hn; cbn [fold_left]; [split; [exact Hn|intros k; split; [now left|intros [H|(r & [] & _)]; exact H]]|].
  destruct (IH (dset kq d (Some r) zero_counts)) as [A B]; [now apply (nodup_dset kq kspec)|]. split; [exact A|]. intros k. rewrite B.
  assert (K : In k (dkeys (dset kq d (Some r) zero_counts)) <-> In k (dkeys d) \/ k = Some r).
  { destruct (in_dec k_dec (Some r) (dkeys d)) as [I|I].
    - rewrite (dkeys_dset_in kq kspec) by exact I. split; [now left|]. intros [H| ->]; trivial.
    - rewrite (dkeys_dset_new kq kspec) by exact I. unfold dkeys. rewrite map_app, in_app_iff. cbn [map In fst]. intuition congruence. }
  rewrite K. split.
  - intros [[H|H]|(q & H & E)]; [now left|right; exists r; split; [now left|trivial]|right; exists q; split; [now right|trivial]].
  - intros [H|(q & [->|H] & E)]; [now left; left|left; right; trivial|right; now exists q].
Qed.
Lemma keys_nodup : NoDup keys.
Proof. apply (@keys_fold relations [(None, zero_counts)]). cbn. repeat constructor. intros []. Qed.
Lemma keys_in k : In k keys <-> k = None \/ exists r, In r relations /\ k = Some r.
Proof.
  unfold Evalrun_model.keys, zero_row. destruct (@keys_fold relations [(None, zero_counts)]) as [_ B]; [cbn; repeat constructor; intros []|]. rewrite B. cbn. intuition congruence.
Qed.
Lemma keys_length : NoDup relations -> length keys = S (length relations).
Proof.
  intros ND. change (S (length relations)) with (length (None :: map Some relations)) at 1 || idtac.
  assert (E : length (None :: map (@Some R) relations) = S (length relations)) by (cbn [length]; now rewrite map_length). rewrite <- E. clear E.
  assert (ND' : NoDup (None :: map (@Some R) relations)).
  { constructor; [intros H; apply in_map_iff in H; destruct H as (r & H & _); discriminate|]. apply FinFun.Injective_map_NoDup; [|exact ND]. intros a b [= ->]. reflexivity. }
  apply Nat.le_antisymm; apply NoDup_incl_length; try exact ND'; try apply keys_nodup.
  - intros k H. apply keys_in in H. destruct H as [->|(r & H & ->)]; [now left|]. right. now apply in_map.
  - intros k H. apply keys_in. destruct H as [<-|H]; [now left|]. right. apply in_map_iff in H. destruct H as (r & <- & H). now exists r.
Qed.
Lemma zipped_all : NoDup relations -> map fst (combine relations keys) = relations.
Proof.
  intros ND. assert (L : length relations <= length keys) by (rewrite keys_length by exact ND; lia). revert L. generalize keys. clear ND.
  induction relations as [|r l IH]; intros [|k ks] H; cbn [combine map length fst] in *; trivial; try lia. f_equal. apply IH. lia.
Qed.
Notation table := (table reqb).
Notation evaluate := (evaluate reqb relations).
Lemma dget_mapped (f : key R -> tstat) l k : In k l -> dget kq (map (fun k => (k, f k)) l) k = Some (f k).
Proof.
  induction l as [|a l IH]; [intros []|]. cbn [map dget]. destruct (kq k a) eqn:E; [apply kspec in E; now subst|].
  intros [->|H]; [|now apply IH]. exfalso. assert (kq k k = true) by now apply kspec. congruence.
Qed.
Lemma dget_mapped_none (f : key R -> tstat) l k : ~ In k l -> dget kq (map (fun k => (k, f k)) l) k = None.
Proof.
  intros H. apply (dget_none kq kspec). unfold dkeys. rewrite map_map. cbn [fst]. now rewrite map_id.
Qed.
Definition tstat_of (rows : list counts) : tstat := match eval_table rows with Ok t => t | Err _ => {| cstats := fun _ => {| c_sum := 0; c_mean := 0; c_var := 0 |}; mstats := fun _ => {| m_macro := 0; m_macro_var := 0; m_micro := 0; m_micro_var := 0 |} |} end.
Lemma tstat_of_ok rows : rows <> [] -> eval_table rows = Ok (tstat_of rows) /\ table_ok rows (tstat_of rows).
Proof. intros H. unfold tstat_of. destruct (@eval_table_ok rows H) as (t & -> & K). now split. Qed.
Lemma table_nil (s : session) k : table s k = [] <-> rows s = [].
Proof. unfold Evalrun_model.table. destruct (rows s); cbn; split; congruence. Qed.
Lemma evaluate_no_rows s : rows s = [] -> evaluate s = Err ZeroDivisionError.
Proof.
  intros H. unfold Evalrun_model.evaluate.
  rewrite (@mapM_err _ _ (fun k => t <- eval_table (table s k) ;; Ok (k, t)) ZeroDivisionError None); [reflexivity| |apply keys_in; now left].
  intros k _. rewrite (proj2 (table_nil s k) H). reflexivity.
Qed.
Lemma evaluate_no_relations s : relations = [] -> evaluate s = Err ZeroDivisionError.
Proof.
  intros H. destruct (rows s) as [|r l] eqn:E; [now apply evaluate_no_rows|]. unfold Evalrun_model.evaluate.
  rewrite (@mapM_ok _ _ _ (fun k => (k, tstat_of (table s k)))).
  - cbn [bind]. rewrite H. reflexivity.
  - intros k _. destruct (@tstat_of_ok (table s k)) as [-> _]; [rewrite table_nil; congruence|reflexivity].
Qed.
Lemma evaluate_ok s : rows s <> [] -> relations <> [] -> exists e, evaluate s = Ok e /\
  (forall k, In k keys -> exists t, dget kq (e_tables e) k = Some t /\ table_ok (table s k) t) /\
  (forall k, ~ In k keys -> dget kq (e_tables e) k = None) /\
  (forall k, e_sums e k = list_sum (map (fun r => list_sum (map (count_value k) (table s (Some r)))) relations)) /\
  (forall m, e_macro e m = (qsum (map (fun r => measure_value m (sum_counts (table s (Some r)))) (map fst (combine relations keys))) / qnat (length relations))%Q) /\
  (forall m, e_micro e m = measure_value m (sum_counts (map (fun r => sum_counts (table s (Some r))) relations))).
Proof.
  intros Hr Hl. unfold Evalrun_model.evaluate.
  assert (T : forall k, table s k <> []) by (intros k; rewrite table_nil; exact Hr).
  rewrite (@mapM_ok _ _ (fun k => t <- eval_table (table s k) ;; Ok (k, t)) (fun k => (k, tstat_of (table s k)))).
  2: { intros k _. destruct (@tstat_of_ok (table s k) (T k)) as [-> _]. reflexivity. }
  cbn [bind]. set (ts := map (fun k => (k, tstat_of (table s k))) keys).
  assert (G : forall r, In r relations -> stat_of reqb ts (Some r) = Ok (tstat_of (table s (Some r)))).
  { intros r H. unfold stat_of, dread, ts. rewrite (dget_mapped (fun k => tstat_of (table s k))); [reflexivity|]. apply keys_in. right. now exists r. }
  rewrite (@mapM_ok _ _ _ (fun r k => c_sum (cstats (tstat_of (table s (Some r))) k))).
  2: { intros r H. rewrite G by exact H. reflexivity. }
  cbn [bind]. rewrite (@mapM_ok _ _ _ (fun rk m => m_micro (mstats (tstat_of (table s (Some (fst rk)))) m))).
  2: { intros rk H. rewrite G; [reflexivity|]. destruct rk as [r k]. now apply in_combine_l in H. }
  cbn [bind]. assert (L0 : (length relations =? 0) = false) by (apply Nat.eqb_neq; destruct relations; [congruence|discriminate]).
  unfold div. rewrite L0. cbn [bind]. eexists. split; [reflexivity|]. cbn [e_tables e_sums e_macro e_micro].
  assert (Sm : forall k, list_sum (map (fun f : count_key -> nat => f k) (map (fun r k => c_sum (cstats (tstat_of (table s (Some r))) k)) relations)) =
    list_sum (map (fun r => list_sum (map (count_value k) (table s (Some r)))) relations)).
  { intros k. f_equal. rewrite map_map. apply map_ext. intros r. destruct (@tstat_of_ok (table s (Some r)) (T _)) as [_ [K _]]. apply K. }
  split; [|split; [|split; [|split]]].
  - intros k H. exists (tstat_of (table s k)). split; [exact (dget_mapped (fun k => tstat_of (table s k)) _ _ H)|]. now apply tstat_of_ok.
  - intros k H. exact (dget_mapped_none (fun k => tstat_of (table s k)) _ _ H).
  - exact Sm.
  - assert (E : forall m, map (fun f : measure_key -> Q => f m) (map (fun rk m => m_micro (mstats (tstat_of (table s (Some (fst rk)))) m)) (combine relations keys)) =
                map (fun r => measure_value m (sum_counts (table s (Some r)))) (map fst (combine relations keys))).
    { intros m. rewrite !map_map. apply map_ext. intros rk. destruct (@tstat_of_ok (table s (Some (fst rk))) (T _)) as [_ [_ K]]. apply K. }
    intros []; now rewrite E.
  - intros m. f_equal. unfold counts_of, sum_counts. rewrite !Sm, !map_map. cbn [c_true c_pred c_common]. reflexivity.
Qed.

(** ** Histories *)
Hypothesis truthy_ok : forall r, In r relations -> truthy r = true.
Notation action := (action N R).
Notation act := (act neqb reqb truthy relations).
Notation after := (after neqb reqb truthy relations).
Definition well (a : action) : Prop :=
  match a with Add ts ps _ => Forall (goodg relations) ts /\ Forall (goodg relations) ps /\ length ts = length ps | Run _ _ => True end.
(** the pairs of corpora of a history *)
Definition added (h : list action) : list (corpora N R) :=
  flat_map (fun a => match a with Add ts ps _ => [(map (@edges N R) ts, map (@edges N R) ps)] | Run _ _ => [] end) h.
Definition row_of (w : row R) (c : corpora N R) : Prop :=
  (forall k, In k keys -> to3 (match dget kq w k with Some c => c | None => zero_counts end) = counted neqb reqb k c) /\
  (forall k, bounded (match dget kq w k with Some c => c | None => zero_counts end)).
Lemma eval_row_of ts ps w : Forall (goodg relations) ts -> Forall (goodg relations) ps -> length ts = length ps ->
  eval_row neqb reqb truthy relations ts ps = Ok w -> row_of w (map (@edges N R) ts, map (@edges N R) ps).
Proof.
  intros G1 G2 L E. destruct (eval_row_ok neqb reqb truthy neqb_spec reqb_spec truthy_ok G1 G2 L) as (w' & E' & _ & Hr & Ha). rewrite E in E'. injection E' as <-. split.
  - intros k H. apply keys_in in H. destruct H as [->|(r & H & ->)].
    + destruct Ha as (c & -> & A & B & C). unfold to3, counted. cbn [fst snd]. now rewrite A, B, C.
    + destruct (Hr r H) as (c & -> & A & B & C). unfold to3, counted. cbn [fst snd]. now rewrite A, B, C.
  - intros k. destruct (dget kq w k) as [c|] eqn:D; [|split; cbn; lia]. exact (eval_row_common neqb reqb truthy neqb_spec reqb_spec truthy_ok _ G1 G2 E D).
Qed.
Lemma run_rows s : rows (act s (Run _ _)) = rows s /\ names (act s (Run _ _)) = names s.
Proof. unfold Evalrun_model.act, run_eval. destruct (evaluate s); cbn [bind rows names]; auto. Qed.
Lemma history_rows h s cs : Forall well h -> Forall2 row_of (rows s) cs ->
  Forall2 row_of (rows (fold_left act h s)) (cs ++ added h).
Proof.
  intros W. revert s cs. induction W as [|a h Wa _ IH]; intros s cs F; cbn [fold_left]; [unfold added; cbn [flat_map]; now rewrite app_nil_r|].
  destruct a as [ts ps name|].
  - destruct Wa as (G1 & G2 & L). assert (A : added (Add ts ps name :: h) = [(map (@edges N R) ts, map (@edges N R) ps)] ++ added h) by reflexivity.
    rewrite A, app_assoc. apply IH. cbn [Evalrun_model.act]. destruct (@add_ok s ts ps name L) as (w & x & -> & _ & E). cbn [fst rows].
    destruct (eval_row_ok neqb reqb truthy neqb_spec reqb_spec truthy_ok G1 G2 L) as (w' & E' & _). rewrite E' in E. destruct E as [-> _].
    apply Forall2_app; [exact F|]. constructor; [|constructor]. now apply eval_row_of.
  - change (added (Run _ _ :: h)) with (added h). apply IH. destruct (run_rows s) as [-> _]. exact F.
Qed.
Lemma after_rows h : Forall well h -> Forall2 row_of (rows (after h)) (added h).
Proof. intros W. apply (@history_rows h _ [] W). constructor. Qed.
Lemma table_counted h k : Forall well h -> In k keys -> map to3 (table (after h) k) = map (counted neqb reqb k) (added h) /\ Forall bounded (table (after h) k).
Proof.
  intros W K. unfold Evalrun_model.table. induction (after_rows W) as [|w c ws cs [H B] _ [IH1 IH2]]; cbn [map]; [split; constructor|].
  rewrite IH1. split; [f_equal; now apply H|]. constructor; [apply B|exact IH2].
Qed.

(** ** Results *)
Notation all k h := (map (counted neqb reqb k) (added h)).
Lemma rows_added h : Forall well h -> (rows (after h) = [] <-> added h = []).
Proof. intros W. pose proof (f2_length (after_rows W)) as L. destruct (rows (after h)), (added h); cbn [length] in L; split; congruence. Qed.
Lemma in_keys r : In r relations -> In (Some r) keys.
Proof. intros H. apply keys_in. right. now exists r. Qed.
Lemma sum_overall h : Forall well h -> to3 (sum_counts (map (fun r => sum_counts (table (after h) (Some r))) relations)) = counted_overall neqb reqb relations (added h) /\
  bounded (sum_counts (map (fun r => sum_counts (table (after h) (Some r))) relations)).
Proof.
  intros W. split.
  - rewrite <- sum3_counts, map_map. unfold counted_overall. f_equal. apply map_ext_in. intros r H. rewrite <- sum3_counts. unfold counted_in_all. f_equal.
    apply (@table_counted h (Some r) W). now apply in_keys.
  - apply sum_bounded, Forall_forall. intros c H. apply in_map_iff in H. destruct H as (r & <- & H). apply sum_bounded. apply (@table_counted h (Some r) W). now apply in_keys.
Qed.
Lemma results h : Forall well h -> added h <> [] -> NoDup relations -> relations <> [] -> exists e, evaluate (after h) = Ok e /\
  (forall k, In k keys -> exists t, dget kq (e_tables e) k = Some t /\ (forall c, c_sum (cstats t c) = three_at c (sum3 (all k h))) /\
      right_stats (all k h) (stats_of t) /\ forall m, (m_micro (mstats t m) == measure_of m (sum3 (all k h)))%Q) /\
  (forall k, ~ In k keys -> dget kq (e_tables e) k = None) /\
  (forall c, e_sums e c = three_at c (counted_overall neqb reqb relations (added h))) /\
  (forall m, (e_micro e m == measure_of m (counted_overall neqb reqb relations (added h)))%Q) /\
  (forall m, is_mean (map (fun r => measure_of m (counted_in_all neqb reqb (Some r) (added h))) relations) (e_macro e m)).
Proof.
  intros W Ha ND NE. destruct (@evaluate_ok (after h)) as (e & E & T & T' & Sm & Ma & Mi); [rewrite rows_added by exact W; exact Ha|exact NE|]. exists e. split; [exact E|].
  destruct (sum_overall W) as [O B]. split; [|split; [|split; [|split]]].
  - intros k K. destruct (T k K) as (t & D & Ht). exists t. split; [exact D|]. destruct (table_counted _ W K) as [C Bk]. exact (table_stats C Bk Ht).
  - exact T'.
  - intros c. rewrite <- O, Sm, to3_at. unfold sum_counts. destruct c; cbn [count_value c_true c_pred c_common]; rewrite map_map; reflexivity.
  - intros m. rewrite Mi, <- O. now apply measure_ok.
  - intros m. rewrite Ma, zipped_all by exact ND.
    assert (F : Forall2 Qeq (map (fun r => measure_value m (sum_counts (table (after h) (Some r)))) relations) (map (fun r => measure_of m (counted_in_all neqb reqb (Some r) (added h))) relations)).
    { assert (G : forall l, (forall r, In r l -> In r relations) -> Forall2 Qeq (map (fun r => measure_value m (sum_counts (table (after h) (Some r)))) l) (map (fun r => measure_of m (counted_in_all neqb reqb (Some r) (added h))) l)).
      { induction l as [|r l IH]; intros H; cbn [map]; constructor; [|apply IH; intros q Hq; apply H; now right].
        destruct (@table_counted h (Some r) W) as [C Bk]; [apply in_keys, H; now left|]. unfold counted_in_all. rewrite <- C, sum3_counts. apply measure_ok. now apply sum_bounded. }
      apply G. auto. }
    apply (mean_ext F). destruct (@div_mean (map (fun r => measure_value m (sum_counts (table (after h) (Some r)))) relations) (length relations)) as (x & _ & -> & H); [apply map_length|destruct relations; [congruence|discriminate]|exact H].
Qed.

(** ** Ranges, totals, divisions *)
Lemma sum3_bounded h k : Forall well h -> In k keys -> t_common (sum3 (all k h)) <= t_true (sum3 (all k h)) /\ t_common (sum3 (all k h)) <= t_pred (sum3 (all k h)).
Proof. intros W K. destruct (table_counted _ W K) as [<- B]. rewrite sum3_counts. exact (sum_bounded B). Qed.
Lemma each_bounded h k c : Forall well h -> In k keys -> In c (all k h) -> t_common c <= t_true c /\ t_common c <= t_pred c.
Proof.
  intros W K H. destruct (table_counted _ W K) as [E B]. rewrite <- E in H. apply in_map_iff in H. destruct H as (w & <- & H). rewrite Forall_forall in B. exact (B w H).
Qed.
Lemma overall_bounded h : Forall well h -> let c := counted_overall neqb reqb relations (added h) in t_common c <= t_true c /\ t_common c <= t_pred c.
Proof. intros W. cbv zeta. destruct (sum_overall W) as [<- B]. exact B. Qed.
Notation gt := (list (triple N R)).
Definition pair_count (c : count_key) (k : option R) (q : gt * gt) : nat :=
  match c, k with
  | KTrue, Some r => n_rel reqb r (fst q)
  | KPred, Some r => n_rel reqb r (snd q)
  | KCommon, Some r => n_both_rel neqb reqb r (fst q) (snd q)
  | KTrue, None => length (fst q)
  | KPred, None => length (snd q)
  | KCommon, None => n_both_any neqb (fst q) (snd q)
  end.
Lemma counted_pairs c k cs : three_at c (counted_in_all neqb reqb k cs) = list_sum (map (pair_count c k) (graph_pairs cs)).
Proof.
  unfold counted_in_all, graph_pairs. rewrite sum3_at, concat_map, list_sum_concat, !map_map. f_equal. apply map_ext. intros x.
  destruct c, k; reflexivity.
Qed.
Lemma three_ext a b : (forall c, three_at c a = three_at c b) -> a = b.
Proof. intros H. destruct a, b. pose proof (H KTrue). pose proof (H KPred). pose proof (H KCommon). cbn in *. congruence. Qed.
Lemma division cs cs' : Permutation (graph_pairs cs) (graph_pairs cs') -> forall k, counted_in_all neqb reqb k cs = counted_in_all neqb reqb k cs'.
Proof. intros P k. apply three_ext. intros c. rewrite !counted_pairs. apply list_sum_perm. now apply Permutation_map. Qed.
Lemma pairs_known h q : Forall well h -> In q (graph_pairs (added h)) -> known_rels relations (fst q) /\ known_rels relations (snd q).
Proof.
  intros W H. unfold graph_pairs in H. apply in_concat in H. destruct H as (l & H & I). apply in_map_iff in H. destruct H as (c & <- & H).
  unfold added in H. apply in_flat_map in H. destruct H as (a & Ha & H). destruct a as [ts ps name|]; [|destruct H]. destruct H as [<-|[]]. cbn [fst snd] in I.
  rewrite Forall_forall in W. destruct (W _ Ha) as (G1 & G2 & _). rewrite Forall_forall in G1, G2. destruct q as [t p]. cbn [fst snd].
  pose proof (in_combine_l _ _ _ _ I) as I1. pose proof (in_combine_r _ _ _ _ I) as I2. apply in_map_iff in I1, I2. destruct I1 as (g & <- & I1), I2 as (g' & <- & I2).
  split; [apply (G1 _ I1)|apply (G2 _ I2)].
Qed.
Lemma overall_at c cs : three_at c (counted_overall neqb reqb relations cs) = list_sum (map (fun q => list_sum (map (fun r => pair_count c (Some r) q) relations)) (graph_pairs cs)).
Proof.
  unfold counted_overall. rewrite sum3_at, map_map. rewrite <- list_sum_swap. f_equal. apply map_ext. intros r. apply counted_pairs.
Qed.
Lemma list_sum_ext_in (X : Type) (f g : X -> nat) l : (forall x, In x l -> f x = g x) -> list_sum (map f l) = list_sum (map g l).
Proof. intros H. f_equal. now apply map_ext_in. Qed.
Lemma totals h : Forall well h -> NoDup relations -> let o := counted_overall neqb reqb relations (added h) in let a := counted_in_all neqb reqb None (added h) in
  t_true o = t_true a /\ t_pred o = t_pred a /\ t_common o <= t_common a.
Proof.
  intros W ND. cbv zeta. change (t_true ?x) with (three_at KTrue x). change (t_pred ?x) with (three_at KPred x). change (t_common ?x) with (three_at KCommon x).
  rewrite !overall_at, !counted_pairs. cbn [pair_count]. split; [|split].
  - apply list_sum_ext_in. intros q H. destruct (@pairs_known h q W H) as [A B]. now apply (@sum_rel N R reqb truthy reqb_spec relations).
  - apply list_sum_ext_in. intros q H. destruct (@pairs_known h q W H) as [A B]. now apply (@sum_rel N R reqb truthy reqb_spec relations).
  - assert (F : forall q, In q (graph_pairs (added h)) -> list_sum (map (fun r => n_both_rel neqb reqb r (fst q) (snd q)) relations) <= n_both_any neqb (fst q) (snd q)).
    { intros q H. destruct (@pairs_known h q W H) as [A B]. now apply (@sum_both N R neqb reqb truthy neqb_spec reqb_spec relations). }
    revert F. generalize (graph_pairs (added h)). induction l as [|q l IH]; intros F; cbn [map list_sum fold_right]; [lia|]. unfold list_sum in *.
    specialize (IH ltac:(intros; apply F; now right)). specialize (F q ltac:(now left)). change (pair_count KCommon None q) with (n_both_any neqb (fst q) (snd q)). lia.
Qed.

(** ** Any history *)
Definition is_add (a : action) : bool := match a with Add _ _ _ => true | Run _ _ => false end.
Lemma act_same s s' a : rows s = rows s' -> names s = names s' -> rows (act s a) = rows (act s' a) /\ names (act s a) = names (act s' a).
Proof.
  intros E1 E2. destruct a as [ts ps name|]; [|destruct (run_rows s) as [-> ->], (run_rows s') as [-> ->]; auto].
  cbn [Evalrun_model.act]. unfold Evalrun_model.add. destruct (negb _); cbn [fst]; [auto|]. destruct (foldS _ _ _) as [w x]. cbn [fst rows names]. now rewrite E1, E2.
Qed.
Lemma runs_do_not_matter h s s' : rows s = rows s' -> names s = names s' ->
  rows (fold_left act h s) = rows (fold_left act (filter is_add h) s') /\ names (fold_left act h s) = names (fold_left act (filter is_add h) s').
Proof.
  revert s s'. induction h as [|a h IH]; intros s s' E1 E2; cbn [fold_left filter]; [auto|]. destruct (is_add a) eqn:A.
  - cbn [fold_left]. destruct (act_same s s' a E1 E2). now apply IH.
  - destruct a; [discriminate|]. destruct (run_rows s) as [R1 R2]. apply IH; congruence.
Qed.
Lemma evaluate_rows s s' : rows s = rows s' -> evaluate s = evaluate s'.
Proof. intros E. unfold Evalrun_model.evaluate, Evalrun_model.table. now rewrite E. Qed.
Lemma evaluate_err s e : evaluate s = Err e -> e = ZeroDivisionError.
Proof.
  intros E. destruct (rows s) as [|r l] eqn:Er; [rewrite evaluate_no_rows in E by exact Er; congruence|].
  destruct (list_eq_dec (fun a b => match Bool.bool_dec (reqb a b) true with left e => left (proj1 (reqb_spec a b) e) | right n => right (fun q => n (proj2 (reqb_spec a b) q)) end) relations []) as [Z|Z].
  - rewrite evaluate_no_relations in E by exact Z. congruence.
  - destruct (@evaluate_ok s) as (x & E' & _); [congruence|exact Z|congruence].
Qed.
Definition sound (s : session) : Prop := length (names s) = length (rows s) /\ Forall (fun w => dkeys w = keys) (rows s).
Lemma act_sound s a : sound s -> sound (act s a).
Proof.
  intros [A B]. destruct a as [ts ps name|].
  - cbn [Evalrun_model.act]. destruct (Nat.eq_dec (length ts) (length ps)) as [L|L]; [|rewrite add_unequal by exact L; now split].
    destruct (@add_ok s ts ps name L) as (w & x & -> & K & _). cbn [fst]. split; cbn [names rows]; [now rewrite !app_length, A|]. apply Forall_app. split; [exact B|]. now constructor.
  - unfold sound. destruct (run_rows s) as [-> ->]. now split.
Qed.
Lemma after_sound h : sound (after h).
Proof.
  unfold Evalrun_model.after. assert (X : sound (new_session R)) by (split; constructor). revert X. generalize (new_session R). induction h as [|a h IH]; intros s X; [exact X|]. cbn [fold_left]. apply IH. now apply act_sound.
Qed.

(** ** The report *)
Variables rel_text : R -> text.
Variable upper : text -> text.
Variables root root_percent : Q -> text.
Notation shows_line := (shows_line root root_percent).
Notation write := (write reqb relations rel_text upper root root_percent).
Definition names_given (h : list action) : list (option text) := flat_map (fun a => match a with Add _ _ n => [n] | Run _ _ => [] end) h.
Lemma names_named h s : Forall well h -> exists l, names (fold_left act h s) = names s ++ l /\ named (length (rows s) + 1) (names_given h) l.
Proof.
  intros W. revert s. induction W as [|a h Wa _ IH]; intros s; cbn [fold_left]; [exists []; rewrite app_nil_r; split; [reflexivity|constructor]|]. destruct a as [ts ps name|].
  - destruct Wa as (_ & _ & L). cbn [Evalrun_model.act]. destruct (@add_ok s ts ps name L) as (w & x & -> & _). cbn [fst].
    edestruct IH as (l & -> & Hl). cbn [names rows] in *. rewrite app_length in Hl. cbn [length] in Hl. exists (the_name s name :: l). rewrite <- app_assoc. split; [reflexivity|].
    replace (length (rows s) + 1 + 1) with (S (length (rows s) + 1)) in Hl by lia.
    change (names_given (Add ts ps name :: h)) with (name :: names_given h). unfold the_name. destruct name as [[|c n]|].
    + apply named_default; [now right| |exact Hl]. apply (show_nat_numeral (length (rows s) + 1)).
    + apply named_given; [discriminate|exact Hl].
    + apply named_default; [now left| |exact Hl]. apply (show_nat_numeral (length (rows s) + 1)).
  - change (names_given (Run _ _ :: h)) with (names_given h). destruct (run_rows s) as [E1 E2]. destruct (IH (act s (Run _ _))) as (l & -> & H). exists l. rewrite E1 in H. rewrite E2. auto.
Qed.
Lemma named_length i l ns : named i l ns -> length ns = length l.
Proof. induction 1; cbn; congruence. Qed.
Lemma mapM_f2 (X Y Z : Type) (f : X -> res Y) (g : X -> list Z) (P : Z -> Y -> Prop) (Q : list Z -> Y -> Prop) l :
  (forall x, In x l -> exists y, f x = Ok y /\ Q (g x) y) -> exists ys, mapM f l = Ok ys /\ Forall2 (fun x y => Q (g x) y) l ys.
Proof.
  induction l as [|x l IH]; intros H; cbn [mapM]; [exists []; split; [reflexivity|constructor]|]. destruct (H x (or_introl eq_refl)) as (y & E & Hy).
  destruct IH as (ys & E' & F); [intros z Hz; apply H; now right|]. exists (y :: ys). rewrite E. cbn [bind]. rewrite E'. cbn [bind]. split; [reflexivity|]. now constructor.
Qed.
Lemma f2_concat (X Y Z : Type) (P : Y -> Z -> Prop) (g : X -> list Y) l (ys : list (list Z)) : Forall2 (fun x y => Forall2 P (g x) y) l ys -> Forall2 P (concat (map g l)) (concat ys).
Proof. induction 1; cbn [map concat]; [constructor|]. now apply Forall2_app. Qed.
Lemma after_snoc h a : after (h ++ [a]) = act (after h) a.
Proof. unfold Evalrun_model.after. now rewrite fold_left_app. Qed.
Lemma show_header root' rootp' s : Forall2 (Evalrun_spec.shows_line root' rootp') (title s) (header s).
Proof. repeat constructor. Qed.
Lemma write_ok h : Forall well h -> added h <> [] -> NoDup relations -> relations <> [] -> (forall r, In r relations -> upper (rel_text r) <> []) ->
  exists e st ls nms, evaluate (after h) = Ok e /\ write (after (h ++ [Run _ _])) = Ok ls /\ named 1 (names_given h) nms /\
    (forall k, In k keys -> right_stats (all k h) (st k)) /\
    is_mean (map (fun r => measure_of MPrec (counted_in_all neqb reqb (Some r) (added h))) relations) (e_macro e MPrec) /\
    is_mean (map (fun r => measure_of MRec (counted_in_all neqb reqb (Some r) (added h))) relations) (e_macro e MRec) /\
    is_mean (map (fun r => measure_of MF (counted_in_all neqb reqb (Some r) (added h))) relations) (e_macro e MF) /\
    Forall2 shows_line (report nms relations rel_text (fun r => upper (rel_text r)) (fun k => all k h) st (e_macro e)) ls.
Proof.
  intros W Ha ND NE U. destruct (results W Ha ND NE) as (e & E & _ & _ & Sm & Mi & Ma).
  assert (Hr : rows (after h) <> []) by (rewrite rows_added by exact W; exact Ha).
  destruct (@evaluate_ok (after h) Hr NE) as (e' & E' & T & _). rewrite E in E'. injection E' as <-.
  destruct (@names_named h (new_session R) W) as (nms & Hn & Hnamed). cbn [names new_session app] in Hn. cbn [rows new_session length Nat.add] in Hnamed.
  set (st := fun k => match dget kq (e_tables e) k with Some t => stats_of t | None => {| s_mean := fun _ => 0%Q; s_var := fun _ => 0%Q; s_macro := fun _ => 0%Q; s_macro_var := fun _ => 0%Q; s_micro_var := fun _ => 0%Q |} end).
  assert (A : after (h ++ [Run _ _]) = {| names := nms; rows := rows (after h); last := Some (length (rows (after h)), e) |}).
  { rewrite after_snoc. cbn [Evalrun_model.act]. unfold run_eval. rewrite E. cbn [bind]. f_equal. exact Hn. }
  set (s := {| names := nms; rows := rows (after h); last := Some (length (rows (after h)), e) |}) in A.
  assert (NN : nms <> []).
  { intros Z. destruct (after_sound h) as [L _]. unfold Evalrun_model.after in L, Hr. rewrite Hn, Z in L. destruct (rows (fold_left act h (new_session R))); [congruence|discriminate]. }
  assert (TB : forall k, In k keys -> exists t, table_stat reqb s k = Some (length (table s k), t) /\ table_ok (table s k) t /\ st k = stats_of t /\ Forall bounded (table s k) /\ map to3 (table s k) = all k h).
  { intros k K. destruct (T k K) as (t & D & Ht). exists t. unfold table_stat, s. cbn [last]. rewrite D. unfold st. rewrite D. unfold Evalrun_model.table at 1. cbn [rows]. rewrite map_length.
    destruct (table_counted k W K) as [C B]. repeat (split; [reflexivity || exact Ht || exact B|]). exact C. }
  assert (WT : forall k heading, In k keys -> exists ls, write_table root root_percent nms (table s k) (table_stat reqb s k) heading = Ok ls /\
    Forall2 shows_line ((match heading with [] => [] | _ => [Plain heading; Plain []] end) ++ relation_table nms (all k h) (st k)) ls).
  { intros k heading K. destruct (TB k K) as (t & -> & Ht & -> & B & <-). now apply show_table. }
  destruct (WT None []) as (la & Ea & Fa); [apply keys_in; now left|].
  destruct (@mapM_f2 R (list text) line (fun r => write_table root root_percent nms (table s (Some r)) (table_stat reqb s (Some r)) (upper (rel_text r)))
     (fun r => [Plain (upper (rel_text r)); Plain []] ++ relation_table nms (all (Some r) h) (st (Some r))) (fun _ _ => True) (Forall2 shows_line) relations) as (lb & Eb & Fb).
  { intros r H. destruct (WT (Some r) (upper (rel_text r)) (in_keys r H)) as (ls & E1 & E2). exists ls. split; [exact E1|]. specialize (U r H). destruct (upper (rel_text r)); [congruence|exact E2]. }
  assert (SC : forall r, In r relations -> exists t, stat_of reqb (e_tables e) (Some r) = Ok t /\ (forall c, c_sum (cstats t c) = three_at c (sum3 (all (Some r) h))) /\ (forall m, (m_micro (mstats t m) == measure_of m (sum3 (all (Some r) h)))%Q)).
  { intros r H. destruct (T (Some r) (in_keys r H)) as (t & D & Ht). exists t. unfold stat_of, dread. rewrite D. split; [reflexivity|]. destruct (table_counted (Some r) W (in_keys r H)) as [C B].
    destruct (table_stats C B Ht) as (C1 & _ & C2). auto. }
  destruct (@mapM_f2 R text line (fun r => t <- stat_of reqb (e_tables e) (Some r) ;; Ok (labelled width (rel_text r) (map (fun k => show_nat (c_sum (cstats t k))) count_keys)))
     (fun r => [counts_row 14 (rel_text r) (sum3 (all (Some r) h))]) (fun _ _ => True) (fun x y => Forall2 shows_line x [y]) relations) as (lc & Ec & Fc).
  { intros r H. destruct (SC r H) as (t & -> & C1 & C2). cbn [bind]. eexists. split; [reflexivity|]. constructor; [|constructor]. apply show_counts. intros c. now rewrite C1. }
  destruct (@mapM_f2 R text line (fun r => t <- stat_of reqb (e_tables e) (Some r) ;; Ok (labelled width (rel_text r) (map (fun m => percent (m_micro (mstats t m))) measure_keys)))
     (fun r => [measures_row 14 (rel_text r) (fun m => percent_of (measure_of m (sum3 (all (Some r) h))))]) (fun _ _ => True) (fun x y => Forall2 shows_line x [y]) relations) as (lm & Em & Fm).
  { intros r H. destruct (SC r H) as (t & -> & C1 & C2). cbn [bind]. eexists. split; [reflexivity|]. constructor; [|constructor]. apply show_measures. intros m. apply show_percent, C2. }
  assert (F1 : forall (g : R -> line) ys, Forall2 (fun x y => Forall2 shows_line [g x] [y]) relations ys -> Forall2 shows_line (map g relations) ys).
  { clear. intros g ys F. induction F as [|x y l ys H _ IH]; cbn [map]; constructor; [now inversion H|exact IH]. }
  exists e, st. eexists. exists nms. split; [exact E|]. split.
  { rewrite A. unfold Evalrun_model.write, write_alignment_only, write_alignment_per_relation, write_alignment_overall. cbn [names last]. fold (table s). 
    change (names s) with nms. change (last s) with (Some (length (rows (after h)), e)). rewrite Ea. cbn [bind]. rewrite Eb. cbn [bind]. cbv iota beta zeta. rewrite zipped_all by exact ND. rewrite Ec. cbn [bind]. rewrite Em. cbn [bind]. reflexivity. }
  split; [exact Hnamed|]. split.
  { intros k K. destruct (TB k K) as (t & _ & Ht & -> & B & C). destruct (table_stats C B Ht) as (_ & H & _). exact H. }
  do 3 (split; [apply Ma|]).
  unfold report. rewrite <- !app_assoc. apply Forall2_app; [apply show_header|]. apply Forall2_app; [exact Fa|]. apply Forall2_app; [apply show_header|].
  apply Forall2_app; [exact (f2_concat _ Fb)|]. apply Forall2_app; [apply show_header|]. 
  assert (O : sum3 (map snd (map (fun r => (rel_text r, sum3 (all (Some r) h))) relations)) = counted_overall neqb reqb relations (added h)) by (unfold counted_overall, counted_in_all; rewrite map_map; reflexivity).
  unfold overall_table. rewrite O, !map_map.
  apply Forall2_app; [|apply Forall2_app; [|apply Forall2_app; [|apply Forall2_app]]].
  - constructor; [apply labelled_aligned|]. constructor; [reflexivity|constructor].
  - apply F1. exact Fc.
  - constructor; [reflexivity|]. constructor; [apply show_counts; intros k; now rewrite Sm|]. constructor; [reflexivity|]. constructor; [reflexivity|]. constructor; [apply labelled_aligned|]. constructor; [reflexivity|constructor].
  - apply F1. exact Fm.
  - constructor; [reflexivity|]. constructor; [apply show_measures; intros m; apply show_percent; reflexivity|]. constructor; [apply show_measures; intros m; apply show_percent; apply Mi|]. repeat constructor.
Qed.

Definition fresh_last (s : session) : Prop := match last s with None => True | Some (n, _) => n <= length (rows s) end.
Lemma act_fresh s a : fresh_last s -> fresh_last (act s a).
Proof.
  intros F. destruct a as [ts ps name|]; cbn [Evalrun_model.act].
  - destruct (Nat.eq_dec (length ts) (length ps)) as [L|L]; [|rewrite add_unequal by exact L; exact F].
    destruct (@add_ok s ts ps name L) as (w & x & -> & _). unfold fresh_last in *. cbn [fst last rows]. destruct (last s) as [[n e]|]; [|exact I]. rewrite app_length. lia.
  - unfold run_eval. destruct (evaluate s) as [e|]; cbn [bind]; [|exact F]. unfold fresh_last. cbn [last rows]. lia.
Qed.
Lemma after_fresh h : fresh_last (after h).
Proof.
  unfold Evalrun_model.after. assert (X : fresh_last (new_session R)) by exact I. revert X. generalize (new_session R). induction h as [|a h IH]; intros s X; [exact X|]. cbn [fold_left]. apply IH. now apply act_fresh.
Qed.
Lemma write_unnamed s : names s = [] -> write s = Err ValueError.
Proof. intros E. unfold Evalrun_model.write, write_alignment_only, write_table. now rewrite E. Qed.
Lemma write_no_run s : last s = None -> names s <> [] -> write s = Err KeyError.
Proof. intros E NE. unfold Evalrun_model.write, write_alignment_only, write_table, table_stat. rewrite E. destruct (names s); [congruence|reflexivity]. Qed.
Lemma write_later h ts ps name : length ts = length ps -> write (after (h ++ [Add ts ps name])) = Err KeyError.
Proof.
  intros L. rewrite after_snoc. cbn [Evalrun_model.act]. pose proof (after_fresh h) as F. destruct (@add_ok (after h) ts ps name L) as (w & x & -> & _). cbn [fst]. unfold fresh_last in F.
  unfold Evalrun_model.write, write_alignment_only, write_table. cbn [names last]. destruct (names (after h) ++ [the_name (after h) name]) as [|n0 nms] eqn:E; [destruct (names (after h)); discriminate|].
  unfold table_stat. cbn [last]. destruct (last (after h)) as [[n e]|]; [|reflexivity]. destruct (dget kq (e_tables e) None) as [t|]; [|reflexivity].
  assert (Z : (n <? length (table {| names := n0 :: nms; rows := rows (after h) ++ [w]; last := Some (n, e) |} None)) = true).
  { apply Nat.ltb_lt. unfold Evalrun_model.table. cbn [rows]. rewrite map_length, app_length. cbn [length]. lia. }
  rewrite Z. reflexivity.
Qed.
Lemma no_run_last h s : last s = None -> filter is_add h = h -> last (fold_left act h s) = None.
Proof.
  revert s. induction h as [|a h IH]; intros s E F; [exact E|]. cbn [filter] in F. destruct a as [ts ps name|]; cbn [is_add] in F.
  - cbn [fold_left]. injection F as F. apply IH; [|exact F]. cbn [Evalrun_model.act]. destruct (Nat.eq_dec (length ts) (length ps)) as [L|L]; [|rewrite add_unequal by exact L; exact E].
    destruct (@add_ok s ts ps name L) as (w & x & -> & _). exact E.
  - exfalso. assert (X : length (filter is_add h) <= length h) by (clear; induction h as [|b h IH]; cbn; [lia|destruct (is_add b); cbn; lia]). apply (f_equal (@length _)) in F. cbn [length] in F. lia.
Qed.
End P.
