From Coq Require Import QArith Permutation Qfield Lqa.
From Verif Require Import Py PyLemmas Align_model Align_proof Eval_model Eval_spec Eval_proof Corpus_model Corpus_spec Corpus_proof Agree_spec Agree_model.
Open Scope nat_scope.
Set Implicit Arguments.
(** sums *)
Lemma total_app a b : (total (a ++ b) == total a + total b)%Q.
Proof. induction a as [|x a IH]; unfold total in *; cbn; [ring|]. rewrite IH. ring. Qed.
Lemma total_perm a b : Permutation a b -> (total a == total b)%Q.
Proof. induction 1; unfold total in *; cbn; try ring. now rewrite IHPermutation. now rewrite IHPermutation1. Qed.
Lemma total_ext A (f g : A -> Q) l : (forall x, In x l -> f x == g x)%Q -> (total (map f l) == total (map g l))%Q.
Proof. induction l as [|x l IH]; cbn; intros H; [reflexivity|]. unfold total in *. rewrite H, IH; auto; reflexivity. Qed.
Lemma total_flat_map A (f : A -> list Q) l : (total (flat_map f l) == total (map (fun x => total (f x)) l))%Q.
Proof. induction l as [|x l IH]; cbn; [reflexivity|]. rewrite total_app, IH. reflexivity. Qed.
Lemma total_plus A (f g : A -> Q) l : (total (map (fun x => f x + g x) l) == total (map f l) + total (map g l))%Q.
Proof. induction l as [|x l IH]; unfold total in *; cbn; [ring|]. rewrite IH. ring. Qed.
Lemma total_zero A (l : list A) : (total (map (fun _ => 0) l) == 0)%Q.
Proof. induction l as [|x l IH]; unfold total in *; cbn; [ring|]. rewrite IH. ring. Qed.
Lemma total_swap A B (f : A -> B -> Q) l m :
  (total (map (fun x => total (map (f x) m)) l) == total (map (fun y => total (map (fun x => f x y) l)) m))%Q.
Proof.
  induction l as [|x l IH]; cbn.
  - now rewrite total_zero.
  - unfold total in IH |- * at 1. cbn. rewrite IH. rewrite <- total_plus. apply total_ext. intros; reflexivity.
Qed.
Lemma total_filter A (b : A -> bool) (f : A -> Q) l : (total (map f (filter b l)) == total (map (fun x => if b x then f x else 0) l))%Q.
Proof. induction l as [|x l IH]; [reflexivity|]. unfold total in *. cbn. destruct (b x); cbn; rewrite IH; ring. Qed.
Lemma total_bounds lo hi l : (forall x, In x l -> lo <= x /\ x <= hi)%Q ->
  (lo * inject_Z (Z.of_nat (length l)) <= total l /\ total l <= hi * inject_Z (Z.of_nat (length l)))%Q.
Proof.
  induction l as [|x l IH]; intros H.
  - cbn. split; ring_simplify; apply Qle_refl.
  - destruct (H x (or_introl eq_refl)). destruct IH as [A B]; [intros; apply H; now right|].
    cbn [length]. rewrite Nat2Z.inj_succ. unfold Z.succ. rewrite inject_Z_plus. unfold total in *; cbn. change (inject_Z 1) with 1%Q. split; lra.
Qed.
Lemma qmean_bounds lo hi l : l <> [] -> (forall x, In x l -> lo <= x /\ x <= hi)%Q -> (lo <= qmean l /\ qmean l <= hi)%Q.
Proof.
  intros N H. apply total_bounds in H. unfold qmean.
  assert (0 < inject_Z (Z.of_nat (length l)))%Q.
  { destruct l; [congruence|]. unfold Qlt, inject_Z; cbn. lia. }
  split; [apply Qle_shift_div_l|apply Qle_shift_div_r]; tauto.
Qed.
Lemma total_nonneg l : (forall x, In x l -> 0 <= x)%Q -> (0 <= total l)%Q.
Proof. induction l as [|x l IH]; unfold total in *; cbn; intros H; [lra|]. specialize (IH ltac:(auto)). specialize (H x (or_introl eq_refl)). lra. Qed.
Lemma sq_nonneg (x : Q) : (0 <= x * x)%Q.
Proof. destruct (Qlt_le_dec x 0); [|now apply Qmult_le_0_compat]. setoid_replace (x*x)%Q with ((-x)*(-x))%Q by ring. apply Qmult_le_0_compat; lra. Qed.
Lemma qvar_nonneg l : l <> [] -> (0 <= qvar l)%Q.
Proof.
  intros N. unfold qvar. destruct l as [|x [|y l]]; [congruence| |].
  - unfold Qdiv. cbn [length]. replace (Z.of_nat 1 - 1)%Z with 0%Z by lia. cbn. rewrite Qmult_0_r. lra.
  - apply Qle_shift_div_l; [unfold Qlt, inject_Z; cbn [length]; cbn [Qnum Qden]; lia|]. rewrite Qmult_0_l. apply total_nonneg.
    intros z Hz. apply in_map_iff in Hz as (w & <- & _). apply sq_nonneg.
Qed.
Section A.
Variable L : Type.
Variable leqb : L -> L -> bool.
Variable leq : forall x y, leqb x y = true <-> x = y.
Lemma ltot_refl x : leqb x x = true. Proof. now apply leq. Qed.
Lemma lneq x y : x <> y -> leqb x y = false. Proof. intros; destruct (leqb x y) eqn:E; auto. apply leq in E; congruence. Qed.
Lemma lfalse x y : leqb x y = false -> x <> y. Proof. intros E ->. rewrite ltot_refl in E. discriminate. Qed.
Lemma L_dec (x y : L) : {x = y} + {x <> y}.
Proof. destruct (leqb x y) eqn:E; [left; now apply leq|right; now apply lfalse]. Qed.
Lemma in_others x y l : In y (others leqb x l) <-> In y l /\ x <> y.
Proof.
  unfold others. rewrite filter_In. split; intros [A B]; split; auto.
  - apply negb_true_iff, lfalse in B. auto.
  - now rewrite lneq.
Qed.
Lemma others_notin x l : ~ In x l -> others leqb x l = l.
Proof.
  induction l as [|y l IH]; cbn; intros H; auto. rewrite lneq by intuition. cbn. f_equal. apply IH. intuition.
Qed.
Lemma others_len x l : NoDup l -> In x l -> S (length (others leqb x l)) = length l.
Proof.
  induction l as [|y l IH]; cbn; intros N H; [easy|]. inversion N; subst. destruct (leqb x y) eqn:E; cbn.
  - apply leq in E as ->. fold (others leqb y l). now rewrite others_notin.
  - fold (others leqb x l). f_equal. apply IH; auto. destruct H; auto. subst. now rewrite ltot_refl in E.
Qed.
Lemma others_perm x a b : Permutation a b -> Permutation (others leqb x a) (others leqb x b).
Proof.
  induction 1; cbn; auto.
  - destruct (leqb x x0); cbn; auto.
  - destruct (leqb x y); cbn; destruct (leqb x x0); cbn; auto. apply perm_swap.
  - etransitivity; eauto.
Qed.
Lemma opairs_len l m : NoDup l -> incl m l -> length (flat_map (fun t => map (fun p => (t, p)) (others leqb t l)) m) = length m * (length l - 1).
Proof.
  intros N. induction m as [|x m IH]; cbn; intros H; auto. rewrite app_length, map_length, IH by (intros z Hz; apply H; now right).
  pose proof (@others_len x l N (H x (or_introl eq_refl))). lia.
Qed.
Lemma ordered_pairs_len l : NoDup l -> length (ordered_pairs leqb l) = length l * (length l - 1).
Proof. intros N. apply opairs_len; auto. apply incl_refl. Qed.
Lemma in_ordered_pairs t p l : In (t, p) (ordered_pairs leqb l) <-> In t l /\ In p l /\ t <> p.
Proof.
  unfold ordered_pairs. rewrite in_flat_map. split.
  - intros (x & Hx & H). apply in_map_iff in H as (y & [= -> ->] & H). apply in_others in H. tauto.
  - intros (A & B & C). exists t. split; auto. apply in_map_iff. exists p. split; auto. now apply in_others.
Qed.
(** totals of all scores: by rows or by columns, in any order *)
Lemma all_by_cells v l : (total (all_scores leqb v l) == total (map (fun t => total (map (fun p => if leqb t p then 0 else v t p) l)) l))%Q.
Proof.
  unfold all_scores, ordered_pairs.
  assert (forall m, map (fun tp : L * L => v (fst tp) (snd tp)) (flat_map (fun t => map (fun p => (t, p)) (others leqb t l)) m) =
          flat_map (fun t => map (fun p => v t p) (others leqb t l)) m) as E.
  { induction m as [|x m IH]; cbn; auto. now rewrite map_app, map_map, IH. }
  rewrite E, total_flat_map. apply total_ext. intros t _. unfold others. rewrite total_filter. apply total_ext.
  intros p _. destruct (leqb t p); reflexivity.
Qed.
Lemma lsym x y : leqb x y = leqb y x.
Proof. destruct (leqb x y) eqn:E; symmetry; [apply leq in E; subst; apply ltot_refl|]. apply lneq. apply not_eq_sym. now apply lfalse. Qed.
Lemma all_by_columns v l : (total (all_scores leqb v l) == total (map (fun c => total (column leqb v l c)) l))%Q.
Proof.
  rewrite all_by_cells, total_swap. apply total_ext. intros c _. unfold column, others. rewrite total_filter. apply total_ext.
  intros r _. rewrite (lsym c r). destruct (leqb r c); reflexivity.
Qed.
Lemma all_transposed v l : (total (all_scores leqb v l) == total (all_scores leqb (fun x y => v y x) l))%Q.
Proof. rewrite !all_by_cells, total_swap. apply total_ext. intros c _. apply total_ext. intros r _. now rewrite (lsym c r). Qed.
Lemma all_scores_perm v a b : Permutation a b -> (total (all_scores leqb v a) == total (all_scores leqb v b))%Q.
Proof.
  intros P. rewrite !all_by_columns. rewrite (total_perm (Permutation_map _ P)). apply total_ext.
  intros c _. apply total_perm. unfold column. apply Permutation_map. now apply others_perm.
Qed.
Lemma column_perm v c a b : Permutation a b -> Permutation (column leqb v a c) (column leqb v b c).
Proof. intros. unfold column. apply Permutation_map. now apply others_perm. Qed.

(** the table *)
Section T.
Variable v : L -> L -> Q.
Variable ls : list L.
Variable cs : list (L * list (L * Q)).
Hypothesis Hcs : forall r c, In r ls -> In c ls -> r <> c -> cell leqb cs r c = Ok (v r c).
Lemma col_total_gen f col start m : In col ls -> incl m ls -> exists x,
  foldM (fun acc r => if leqb col r then Ok acc else v <- cell leqb cs r col ;; Ok (acc + f v)%Q) start m = Ok x /\
  (x == start + total (map f (map (fun t => v t col) (others leqb col m))))%Q.
Proof.
  intros Hc. revert start. induction m as [|r m IH]; intros start Hm; cbn.
  - eexists; split; eauto. unfold total; cbn. ring.
  - destruct (leqb col r) eqn:E; cbn [bind negb].
    + apply IH. intros z Hz; apply Hm; now right.
    + rewrite Hcs; auto; [|apply Hm; now left|apply lfalse in E; auto]. cbn [bind].
      destruct (IH (start + f (v r col))%Q) as (x & E1 & E2); [intros z Hz; apply Hm; now right|].
      exists x. split; auto. rewrite E2. cbn. unfold others, total. ring.
Qed.
Lemma col_total_ok f col start : In col ls -> exists x, col_total leqb ls cs f col start = Ok x /\
  (x == start + total (map f (column leqb v ls col)))%Q.
Proof. intros. apply col_total_gen; auto. apply incl_refl. Qed.
Hypothesis ND : NoDup ls.
Hypothesis N2 : 2 <= length ls.
Lemma column_len c : In c ls -> length (column leqb v ls c) = length ls - 1.
Proof. intros H. unfold column. rewrite map_length. pose proof (@others_len c ls ND H). lia. Qed.
Lemma all_len : length (all_scores leqb v ls) = length ls * (length ls - 1).
Proof. unfold all_scores. rewrite map_length. now apply ordered_pairs_len. Qed.
Lemma col_n_val : col_n ls = Z.of_nat (length ls - 1). Proof. unfold col_n. lia. Qed.
Lemma overall_n_val : overall_n ls = Z.of_nat (length ls * (length ls - 1)). Proof. unfold overall_n. rewrite col_n_val. lia. Qed.
Lemma zq_nz z : z <> 0%Z -> Qeq_bool (zq z) 0 = false.
Proof. intros H. destruct (Qeq_bool (zq z) 0) eqn:E; auto. apply Qeq_bool_eq in E. unfold zq, Qeq, inject_Z in E; cbn in E. lia. Qed.
Lemma fdiv_ok s z : z <> 0%Z -> fdiv s (zq z) = Ok (s / zq z)%Q.
Proof. intros. unfold fdiv. now rewrite zq_nz. Qed.
Lemma map_fid (l : list Q) : map (fun x => x) l = l. Proof. induction l; cbn; congruence. Qed.

Lemma av_loop m st : incl m ls -> exists st',
  foldM (fun st col => s <- col_total leqb ls cs (fun v => v) col 0%Q ;; mn <- fdiv s (zq (col_n ls)) ;;
                             Ok (dset leqb (fst st) col mn, (snd st + s)%Q)) st m = Ok st' /\
  (snd st' == snd st + total (map (fun c => total (column leqb v ls c)) m))%Q /\
  (forall c, In c m -> exists x, dget leqb (fst st') c = Some x /\ x == qmean (column leqb v ls c))%Q /\
  (forall c, ~ In c m -> dget leqb (fst st') c = dget leqb (fst st) c).
Proof.
  revert st. induction m as [|c m IH]; intros st Hm; cbn [foldM].
  - exists st. split; auto. split; [unfold total; cbn; ring|]. split; [easy|auto].
  - assert (In c ls) as Hc by (apply Hm; now left).
    destruct (@col_total_ok (fun v => v) c 0%Q Hc) as (s & E1 & E2). rewrite E1. cbn [bind].
    rewrite map_fid in E2. rewrite fdiv_ok by (rewrite col_n_val; lia). cbn [bind].
    match goal with |- context [foldM _ ?st1 m] => destruct (IH st1) as (st' & F1 & F2 & F3 & F4) end; [intros z Hz; apply Hm; now right|].
    exists st'. split; auto. cbn [fst snd] in *. split.
    { rewrite F2, E2. unfold total; cbn. ring. }
    split.
    + intros d Hd. destruct (in_dec L_dec d m) as [I|I]; [auto|]. destruct Hd as [<-|]; [|easy]. rewrite F4 by auto.
      eexists. split; [apply (dget_dset_same leqb leq)|]. unfold qmean. rewrite column_len by auto. rewrite <- col_n_val.
      unfold zq. rewrite E2. unfold total. setoid_replace (0 + fold_right Qplus 0 (column leqb v ls c))%Q with (fold_right Qplus 0 (column leqb v ls c))%Q by ring. reflexivity.
    + intros d Hd. rewrite F4 by (intros X; apply Hd; now right). apply (dget_dset_other leqb leq). intros ->. apply Hd. now left.
Qed.
Lemma calculate_av_ok : exists ms o, calculate_av leqb ls cs = Ok (ms, o) /\ (o == qmean (all_scores leqb v ls))%Q /\
  (forall c, In c ls -> exists x, dget leqb ms c = Some x /\ x == qmean (column leqb v ls c))%Q.
Proof.
  unfold calculate_av. destruct (@av_loop ls ([], 0%Q) (incl_refl _)) as (st & E1 & E2 & E3 & _). rewrite E1. cbn [bind].
  rewrite fdiv_ok by (rewrite overall_n_val; nia). cbn [bind]. do 2 eexists. split; [reflexivity|]. split; auto.
  unfold qmean. rewrite all_len, <- overall_n_val. unfold zq. rewrite E2. cbn [snd]. rewrite <- all_by_columns.
  setoid_replace (0 + total (all_scores leqb v ls))%Q with (total (all_scores leqb v ls))%Q by ring. reflexivity.
Qed.
Lemma sd_loop ms av m st :
  (forall c, In c ls -> exists x, dget leqb ms c = Some x /\ x == qmean (column leqb v ls c))%Q -> incl m ls -> exists st',
  foldM (fun st col =>
     cav <- dread leqb ms col ;;
     dev <- col_total leqb ls cs (fun v => ((v - cav) * (v - cav))%Q) col 0%Q ;;
     odev <- col_total leqb ls cs (fun v => ((v - av) * (v - av))%Q) col (snd st) ;;
     Ok (dset leqb (fst st) col (match fdiv dev (zq (col_n ls - 1)) with Ok x => x | Err _ => 0%Q end), odev)) st m = Ok st' /\
  (snd st' == snd st + total (map (fun c => total (map (fun x => (x - av) * (x - av)) (column leqb v ls c))) m))%Q /\
  (forall c, In c m -> exists x, dget leqb (fst st') c = Some x /\ x == qvar (column leqb v ls c))%Q /\
  (forall c, ~ In c m -> dget leqb (fst st') c = dget leqb (fst st) c).
Proof.
  intros Hms. revert st. induction m as [|c m IH]; intros st Hm; cbn [foldM].
  - exists st. split; auto. split; [unfold total; cbn; ring|]. split; [easy|auto].
  - assert (In c ls) as Hc by (apply Hm; now left).
    destruct (Hms c Hc) as (cav & G1 & G2). unfold dread. rewrite G1. cbn [bind].
    destruct (@col_total_ok (fun v => (v - cav) * (v - cav))%Q c 0%Q Hc) as (s & E1 & E2). rewrite E1. cbn [bind].
    destruct (@col_total_ok (fun v => (v - av) * (v - av))%Q c (snd st) Hc) as (s2 & E3 & E4). rewrite E3. cbn [bind].
    match goal with |- context [foldM _ ?st1 m] => destruct (IH st1) as (st' & F1 & F2 & F3 & F4) end; [intros z Hz; apply Hm; now right|].
    exists st'. split; auto. cbn [fst snd] in *. split.
    { rewrite F2, E4. unfold total; cbn. ring. }
    split.
    + intros d Hd. destruct (in_dec L_dec d m) as [I|I]; [auto|]. destruct Hd as [<-|]; [|easy]. rewrite F4 by auto.
      eexists. split; [apply (dget_dset_same leqb leq)|]. unfold qvar. rewrite column_len by auto. rewrite <- col_n_val.
      set (dv := total (map (fun x => (x - qmean (column leqb v ls c)) * (x - qmean (column leqb v ls c))) (column leqb v ls c))%Q).
      assert (s == dv)%Q as Es.
      { rewrite E2. unfold dv. rewrite Qplus_0_l. apply total_ext. intros z _. now rewrite G2. }
      destruct (Z.eq_dec (col_n ls - 1) 0) as [Z0|Z0].
      * rewrite Z0. cbn. unfold Qdiv. cbn. ring.
      * rewrite fdiv_ok by auto. unfold zq. now rewrite Es.
    + intros d Hd. rewrite F4 by (intros X; apply Hd; now right). apply (dget_dset_other leqb leq). intros ->. apply Hd. now left.
Qed.
Lemma all_sq av : (total (map (fun x => (x - av) * (x - av)) (all_scores leqb v ls)) ==
  total (map (fun c => total (map (fun x => (x - av) * (x - av)) (column leqb v ls c))) ls))%Q.
Proof.
  pose proof (@all_by_columns (fun r c => (v r c - av) * (v r c - av))%Q ls) as H.
  unfold all_scores, column in *. rewrite map_map. rewrite H. apply total_ext. intros c _. rewrite map_map. reflexivity.
Qed.
Lemma calculate_sd_ok ms av : (av == qmean (all_scores leqb v ls))%Q ->
  (forall c, In c ls -> exists x, dget leqb ms c = Some x /\ x == qmean (column leqb v ls c))%Q ->
  exists ss o, calculate_sd leqb ls cs ms av = Ok (ss, o) /\ (o == qvar (all_scores leqb v ls))%Q /\
  (forall c, In c ls -> exists x, dget leqb ss c = Some x /\ x == qvar (column leqb v ls c))%Q.
Proof.
  intros Ha Hms. unfold calculate_sd. destruct (@sd_loop ms av ls ([], 0%Q) Hms (incl_refl _)) as (st & E1 & E2 & E3 & _). rewrite E1. cbn [bind].
  rewrite fdiv_ok by (rewrite overall_n_val; nia). cbn [bind]. do 2 eexists. split; [reflexivity|]. split; auto.
  unfold qvar. rewrite all_len, <- overall_n_val. unfold zq. rewrite E2. cbn [snd]. rewrite <- all_sq. rewrite Qplus_0_l.
  assert (total (map (fun x => (x - av) * (x - av)) (all_scores leqb v ls)) ==
          total (map (fun x => (x - qmean (all_scores leqb v ls)) * (x - qmean (all_scores leqb v ls))) (all_scores leqb v ls)))%Q as ->; [|reflexivity].
  apply total_ext. intros z _. now rewrite Ha.
Qed.
End T.
(** cells *)
Lemma empty_cells_gen ls d : forall l, dget leqb (fold_left (fun d l => dset leqb d l []) ls d) l =
  if mem leqb l ls then Some (@nil (L * Q)) else dget leqb d l.
Proof.
  revert d. induction ls as [|x ls IH]; intros d l; cbn; auto. rewrite IH. destruct (mem leqb l ls); [now rewrite orb_true_r|].
  rewrite orb_false_r. destruct (leqb l x) eqn:E.
  - apply leq in E as ->. apply (dget_dset_same leqb leq).
  - apply (dget_dset_other leqb leq). intros ->. rewrite ltot_refl in E. discriminate.
Qed.
Lemma set_cell_ok cs r c x d : dget leqb cs r = Some d -> exists cs', set_cell leqb cs r c x = Ok cs' /\
  (forall q, (exists e, dget leqb cs q = Some e) -> exists e, dget leqb cs' q = Some e) /\
  cell leqb cs' r c = Ok x /\ (forall r' c', (r', c') <> (r, c) -> cell leqb cs' r' c' = cell leqb cs r' c').
Proof.
  intros H. unfold set_cell, dread. rewrite H. cbn [bind]. eexists. split; [reflexivity|]. split; [|split].
  - intros q Hq. destruct (L_dec r q) as [<-|]; [rewrite (dget_dset_same leqb leq); eauto|]. now rewrite (dget_dset_other leqb leq).
  - unfold cell, dread. rewrite (dget_dset_same leqb leq). cbn. now rewrite (dget_dset_same leqb leq).
  - intros r' c' N. unfold cell, dread. destruct (L_dec r r') as [<-|].
    + rewrite (dget_dset_same leqb leq), H. cbn. rewrite (dget_dset_other leqb leq); auto. congruence.
    + now rewrite (dget_dset_other leqb leq).
Qed.
Lemma cells_loop X (f : X -> res Q) (v : L -> L -> Q) (es : list ((L * L) * X)) cs :
  (forall e, In e es -> f (snd e) = Ok (v (fst (fst e)) (snd (fst e)))) ->
  (forall e, In e es -> exists d, dget leqb cs (fst (fst e)) = Some d) ->
  exists cs', foldM (fun cs e => x <- f (snd e) ;; set_cell leqb cs (fst (fst e)) (snd (fst e)) x) cs es = Ok cs' /\
   (forall t p, In (t, p) (map fst es) -> cell leqb cs' t p = Ok (v t p)) /\
   (forall t p, ~ In (t, p) (map fst es) -> cell leqb cs' t p = cell leqb cs t p).
Proof.
  revert cs. induction es as [|[[t p] x] es IH]; intros cs Hf Hd; cbn [foldM].
  - exists cs. split; auto. split; [easy|auto].
  - rewrite Hf by now left. cbn [bind fst snd]. destruct (Hd _ (or_introl eq_refl)) as (d & Hd0). cbn in Hd0.
    destruct (@set_cell_ok cs t p (v t p) d Hd0) as (cs1 & -> & A & B & C). cbn [bind].
    destruct (IH cs1) as (cs' & E & F & G).
    + intros e He. apply Hf. now right.
    + intros e He. apply A. apply Hd. now right.
    + exists cs'. split; auto.
      assert (forall a b : L * L, {a = b} + {a <> b}) as pdec by (decide equality; apply L_dec).
      split.
      * intros t' p' [H|H]; auto. injection H as <- <-. destruct (in_dec pdec (t, p) (map fst es)); auto. rewrite G; auto.
      * intros t' p' H. rewrite G by (intros Q; apply H; now right). apply C. intros Q. apply H. left. auto.
Qed.
Variable lleb : L -> L -> bool.
Lemma true_names_in names x : In x (true_names leqb lleb names) <-> In x (map fst names).
Proof.
  unfold true_names. rewrite sort_isort. 
  assert (forall l y, In y (isort lleb l) <-> In y l) as K.
  { intros l y. split; apply Permutation_in; [symmetry|]; apply isort_perm. }
  rewrite K. clear K.
  assert (forall d, In x (dkeys (fold_left (fun d (n : L * L) => dset leqb d (fst n) tt) names d)) <-> In x (dkeys d) \/ In x (map fst names)) as G.
  { induction names as [|n names IH]; intros d; cbn [fold_left map In]; [tauto|]. rewrite IH.
    assert (In x (dkeys (dset leqb d (fst n) tt)) <-> In x (dkeys d) \/ fst n = x) as ->; [|tauto].
    destruct (in_dec L_dec (fst n) (dkeys d)) as [I|I].
    - rewrite (dkeys_dset_in leqb leq) by auto. split; [tauto|]. intros [|<-]; auto.
    - rewrite (dkeys_dset_new leqb leq) by auto. unfold dkeys. rewrite map_app, in_app_iff. cbn. tauto. }
  rewrite G. cbn. tauto.
Qed.
Lemma true_names_nodup names : NoDup (true_names leqb lleb names).
Proof.
  unfold true_names. rewrite sort_isort. eapply Permutation_NoDup; [apply isort_perm|].
  assert (forall d : list (L * unit), NoDup (dkeys d) -> NoDup (dkeys (fold_left (fun d (n : L * L) => dset leqb d (fst n) tt) names d))) as G.
  { induction names as [|n names IH]; intros d Hd; cbn; auto. apply IH. now apply (nodup_dset leqb leq). }
  apply G. constructor.
Qed.
End A.
Lemma foldM_ext S X (f g : S -> X -> res S) s l : (forall s x, In x l -> f s x = g s x) -> foldM f s l = foldM g s l.
Proof.
  revert s. induction l as [|x l IH]; intros s H; cbn; auto. rewrite H by now left. destruct (g s x); cbn; auto.
  apply IH. intros; apply H. now right.
Qed.
Section C.
Variables N R L : Type.
Variable neqb : N -> N -> bool.
Variable neq : forall x y, neqb x y = true <-> x = y.
Variable reqb : R -> R -> bool.
Variable req : forall x y, reqb x y = true <-> x = y.
Variable truthy : R -> bool.
Variable leqb lleb : L -> L -> bool.
Variable leq : forall x y, leqb x y = true <-> x = y.
Variable relations : list R.
Variable rtruthy : forall r, In r relations -> truthy r = true.
Notation corpus := (list (digraph N R)).
Notation er := (eval_row neqb reqb truthy relations).
Variables (corpora : list corpus) (ann : list L).
Variable len : nat.
Hypothesis Hlen : length ann = length corpora.
Hypothesis Hgood : Forall (fun c => Forall (goodg relations) c /\ length c = len) corpora.
Definition row_of (t p : corpus) : row R := match er t p with Ok w => w | Err _ => [] end.
Lemma er_ok t p : In t corpora -> In p corpora -> er t p = Ok (row_of t p).
Proof.
  intros A B. rewrite Forall_forall in Hgood. destruct (Hgood _ A) as [At Al], (Hgood _ B) as [Bt Bl]. unfold row_of.
  destruct (@eval_row_ok N R neqb reqb truthy neq req relations rtruthy t p At Bt) as (w & E & _); [congruence|]. now rewrite E.
Qed.
Definition expected (ts ps : list (corpus * L)) : list ((L * L) * row R) :=
  flat_map (fun t => map (fun p => ((snd t, snd p), row_of (fst t) (fst p))) (filter (fun p => negb (leqb (snd t) (snd p))) ps)) ts.
Lemma cross_ok : cross_evaluate neqb reqb truthy leqb relations corpora ann = Ok (expected (combine corpora ann) (combine corpora ann)).
Proof.
  unfold cross_evaluate. rewrite Hlen, Nat.eqb_refl. cbn [negb].
  assert (forall ps t acc, In (fst t) corpora -> incl ps (combine corpora ann) -> foldM (fun acc p =>
        if leqb (snd t) (snd p) then Ok acc
        else r <- er (fst t) (fst p) ;; Ok (acc ++ [((snd t, snd p), r)])) acc ps =
      Ok (acc ++ map (fun p => ((snd t, snd p), row_of (fst t) (fst p))) (filter (fun p => negb (leqb (snd t) (snd p))) ps))) as In1.
  { induction ps as [|p ps IH]; intros t acc Ht Hp; cbn; [now rewrite app_nil_r|].
    destruct (leqb (snd t) (snd p)); cbn [bind negb].
    - apply IH; auto. intros z Hz; apply Hp; now right.
    - rewrite er_ok; auto. 2:{ destruct p as [p q]. eapply in_combine_l with (l' := ann) (y := q). apply Hp. now left. }
      cbn [bind]. rewrite IH; auto. 2:{ intros z Hz; apply Hp; now right. } now rewrite <- app_assoc. }
  assert (forall ts acc, incl ts (combine corpora ann) -> foldM (fun acc t => foldM (fun acc p =>
        if leqb (snd t) (snd p) then Ok acc
        else r <- er (fst t) (fst p) ;; Ok (acc ++ [((snd t, snd p), r)])) acc (combine corpora ann)) acc ts =
      Ok (acc ++ expected ts (combine corpora ann))) as In2.
  { induction ts as [|t ts IH]; intros acc Ht; cbn [foldM expected flat_map]; [now rewrite app_nil_r|].
    rewrite In1; [cbn [bind]|destruct t as [t q]; eapply in_combine_l with (l' := ann) (y := q); apply Ht; now left|apply incl_refl].
    rewrite IH by (intros z Hz; apply Ht; now right). now rewrite <- app_assoc. }
  apply In2, incl_refl.
Qed.
Lemma map_snd_combine A B (a : list A) (b : list B) : length b = length a -> map snd (combine a b) = b.
Proof. revert b. induction a as [|x a IH]; intros [|y b]; cbn; intros H; try lia; auto. f_equal. apply IH. lia. Qed.
Lemma filter_map_comm A B (f : A -> B) (b : B -> bool) l : filter b (map f l) = map f (filter (fun x => b (f x)) l).
Proof. induction l as [|x l IH]; cbn; auto. destruct (b (f x)); cbn; now rewrite IH. Qed.
Lemma expected_names : map fst (expected (combine corpora ann) (combine corpora ann)) = ordered_pairs leqb ann.
Proof.
  unfold ordered_pairs.
  assert (forall ts, map fst (expected ts (combine corpora ann)) =
     flat_map (fun t => map (fun p => (t, p)) (others leqb t (map snd (combine corpora ann)))) (map snd ts)) as H.
  2:{ specialize (H (combine corpora ann)). rewrite (map_snd_combine corpora ann Hlen) in H. exact H. }
  induction ts as [|t ts IH]; cbn [expected flat_map map]; auto. rewrite map_app, map_map. change (flat_map _ ts) with (expected ts (combine corpora ann)). rewrite IH. f_equal. unfold others. rewrite filter_map_comm, map_map. reflexivity.
Qed.
Lemma in_expected t p w : In ((t, p), w) (expected (combine corpora ann) (combine corpora ann)) <->
  t <> p /\ exists ct cp, In (ct, t) (combine corpora ann) /\ In (cp, p) (combine corpora ann) /\ w = row_of ct cp.
Proof.
  unfold expected. rewrite in_flat_map. split.
  - intros ((ct & t') & Ht & H). apply in_map_iff in H as ((cp & p') & [= -> -> <-] & H). apply filter_In in H as [H1 H2].
    cbn in H2. apply negb_true_iff in H2. split; [now apply (lfalse leqb leq)|]. eauto 8.
  - intros (Hne & ct & cp & Ht & Hp & ->). exists (ct, t). split; auto. apply in_map_iff. exists (cp, p). split; auto.
    apply filter_In. split; auto. cbn. now rewrite (lneq leqb leq).
Qed.
Hypothesis ND : NoDup ann.
Hypothesis N2 : 2 <= length ann.
Lemma combine_fun c c' a : In (c, a) (combine corpora ann) -> In (c', a) (combine corpora ann) -> c = c'.
Proof.
  revert ND. clear. revert ann. induction corpora as [|x cs IH]; intros [|y an] ND; cbn; try easy. inversion ND; subst.
  intros [[= -> ->]|H] [[= ->]|H']; auto.
  - apply in_combine_r in H'. easy.
  - subst. apply in_combine_r in H. easy.
  - eapply IH; eauto.
Qed.
(** the score a comparison must have *)
Definition corpus_of (a : L) : corpus := match find (fun ca => leqb a (snd ca)) (combine corpora ann) with Some ca => fst ca | None => [] end.
Lemma corpus_of_ok c a : In (c, a) (combine corpora ann) -> corpus_of a = c.
Proof.
  intros H. unfold corpus_of. destruct (find _ _) as [[c' a']|] eqn:E.
  - apply find_some in E as [E1 E2]. cbn in E2. apply leq in E2 as ->. eapply combine_fun; eauto.
  - eapply find_none in E; eauto. cbn in E. rewrite (ltot_refl leqb leq) in E. discriminate.
Qed.
Lemma in_ann a : In a ann -> exists c, In (c, a) (combine corpora ann).
Proof.
  intros H. rewrite <- (map_snd_combine corpora ann Hlen) in H. apply in_map_iff in H as ((c & a') & <- & H). eauto.
Qed.
Variable k : key R.
Hypothesis Hk : k = None \/ exists r, k = Some r /\ In r relations.
Variable measure : counts -> Q.
Definition score (t p : L) : Q := match dget (keqb reqb) (row_of (corpus_of t) (corpus_of p)) k with Some c => measure c | None => 0%Q end.
Lemma row_has t p : In t corpora -> In p corpora -> exists c, dget (keqb reqb) (row_of t p) k = Some c.
Proof.
  intros A B. rewrite Forall_forall in Hgood. destruct (Hgood _ A) as [At Al], (Hgood _ B) as [Bt Bl]. unfold row_of.
  destruct (@eval_row_ok N R neqb reqb truthy neq req relations rtruthy t p At Bt) as (w & -> & _ & H1 & H2); [congruence|].
  destruct Hk as [->|(r & -> & Hr)]; [destruct H2 as (c & ? & _); eauto|destruct (H1 r Hr) as (c & ? & _); eauto].
Qed.
Lemma labels_perm : Permutation (true_names leqb lleb (ordered_pairs leqb ann)) ann.
Proof.
  apply NoDup_Permutation; auto; [now apply true_names_nodup|]. intros x. rewrite true_names_in by auto.
  rewrite in_map_iff. split.
  - intros ((t & p) & <- & H). apply (in_ordered_pairs leqb leq) in H. apply H.
  - intros Hx. pose proof (others_len leqb leq x ND Hx). destruct (others leqb x ann) as [|y o] eqn:E; [cbn in *; lia|].
    assert (In y (others leqb x ann)) as Hy by (rewrite E; now left). apply (in_others leqb leq) in Hy.
    exists (x, y). split; auto. apply (in_ordered_pairs leqb leq); tauto.
Qed.
Lemma qmean_perm a b : Permutation a b -> (qmean a == qmean b)%Q.
Proof. intros P. unfold qmean. rewrite (Permutation_length P), (total_perm P). reflexivity. Qed.
Lemma qmean_eq a b : length a = length b -> (total a == total b)%Q -> (qmean a == qmean b)%Q.
Proof. intros P E. unfold qmean. now rewrite P, E. Qed.
Lemma qvar_perm a b : Permutation a b -> (qvar a == qvar b)%Q.
Proof.
  intros P. unfold qvar. rewrite (Permutation_length P). rewrite (total_perm (Permutation_map _ P)).
  match goal with |- (?x / _ == ?y / _)%Q => assert (x == y)%Q as ->; [|reflexivity] end. apply total_ext. intros z _. now rewrite (qmean_perm P).
Qed.
Lemma others_flat_perm (v : L -> L -> Q) a b m : Permutation a b -> 
  Permutation (flat_map (fun t => map (fun p => (t, p)) (others leqb t a)) m) (flat_map (fun t => map (fun p => (t, p)) (others leqb t b)) m).
Proof. intros P. induction m; cbn; auto. apply Permutation_app; auto. apply Permutation_map. now apply others_perm. Qed.
Lemma ordered_pairs_perm (v : L -> L -> Q) a b : Permutation a b -> Permutation (ordered_pairs leqb a) (ordered_pairs leqb b).
Proof. intros P. unfold ordered_pairs. rewrite (others_flat_perm v _ P). now apply Permutation_flat_map. Qed.
Lemma all_scores_perm' (v : L -> L -> Q) a b : Permutation a b -> Permutation (all_scores leqb v a) (all_scores leqb v b).
Proof. intros P. apply Permutation_map. now apply (ordered_pairs_perm v). Qed.
Lemma tableize_ok : exists T, tableize reqb leqb lleb k measure (expected (combine corpora ann) (combine corpora ann)) = Ok T /\
  Permutation (labels T) ann /\
  (forall t p, In t ann -> In p ann -> t <> p -> cell leqb (cells T) t p = Ok (score t p)) /\
  (forall c, In c ann -> exists x, dget leqb (means T) c = Some x /\ x == qmean (column leqb score ann c))%Q /\
  (overall T == qmean (all_scores leqb score ann))%Q /\
  (forall c, In c ann -> exists x, dget leqb (vars T) c = Some x /\ x == qvar (column leqb score ann c))%Q /\
  (overall_var T == qvar (all_scores leqb score ann))%Q.
Proof.
  unfold tableize. rewrite expected_names. set (ls := true_names leqb lleb (ordered_pairs leqb ann)).
  assert (Permutation ls ann) as P by apply labels_perm.
  set (es := expected _ _).
  assert (forall cs, foldM (fun cs e => c <- dread (keqb reqb) (snd e) k ;; set_cell leqb cs (fst (fst e)) (snd (fst e)) (measure c)) cs es =
     foldM (fun cs e => x <- (c <- dread (keqb reqb) (snd e) k ;; Ok (measure c)) ;; set_cell leqb cs (fst (fst e)) (snd (fst e)) x) cs es) as Ef.
  { intros cs. apply foldM_ext. intros cs0 e _. now destruct (dread (keqb reqb) (snd e) k). }
  rewrite Ef. clear Ef.
  destruct (@cells_loop L leqb leq (row R) (fun w => c <- dread (keqb reqb) w k ;; Ok (measure c)) score es (empty_cells leqb ls)) as (cs & Ecs & Hc & _).
  { intros [[t p] w] H. apply in_expected in H as (Hne & ct & cp & Ht & Hp & ->). cbn. unfold score, dread.
    rewrite (corpus_of_ok _ _ Ht), (corpus_of_ok _ _ Hp).
    destruct (@row_has ct cp) as (c & ->); try reflexivity; eapply in_combine_l; eauto. }
  { intros [[t p] w] H. assert (In (t, p) (map fst es)) as Hi by (apply in_map_iff; now exists ((t, p), w)). unfold es in Hi. rewrite expected_names in Hi.
    unfold empty_cells. rewrite empty_cells_gen by auto. cbn.
    assert (mem leqb t ls = true) as ->; [|eauto]. apply (mem_spec leqb leq). unfold ls. rewrite true_names_in by auto. apply in_map_iff. exists (t, p). auto. }
  match goal with |- context [bind (foldM ?f ?s ?l) _] => replace (foldM f s l) with (@Ok (list (L * list (L * Q))) cs) by (symmetry; exact Ecs) end.
  cbn [bind]. unfold es in Hc. rewrite expected_names in Hc.
  assert (forall r c, In r ls -> In c ls -> r <> c -> cell leqb cs r c = Ok (score r c)) as Hcell.
  { intros r c A B D. apply Hc. apply (in_ordered_pairs leqb leq). split; [|split]; auto; eapply Permutation_in; eauto. }
  assert (NoDup ls) as NDl by (eapply Permutation_NoDup; [symmetry|]; eauto).
  assert (2 <= length ls) as N2l by (now rewrite (Permutation_length P)).
  destruct (@calculate_av_ok L leqb leq score ls cs Hcell NDl N2l) as (ms & o & -> & A1 & A2). cbn [bind fst snd].
  destruct (@calculate_sd_ok L leqb leq score ls cs Hcell NDl N2l ms o A1 A2) as (ss & o2 & -> & B1 & B2). cbn [bind fst snd].
  eexists. split; [reflexivity|]. cbn. split; auto.
  assert (forall x, In x ann -> In x ls) as Hin by (intros x; apply Permutation_in; now symmetry).
  split; [intros; apply Hcell; auto|]. split; [|split; [|split]].
  - intros c Hc'. destruct (A2 c (Hin _ Hc')) as (x & E1 & E2). exists x. split; auto. rewrite E2. now apply qmean_perm, column_perm.
  - rewrite A1. apply qmean_perm. now apply all_scores_perm'.
  - intros c Hc'. destruct (B2 c (Hin _ Hc')) as (x & E1 & E2). exists x. split; auto. rewrite E2. now apply qvar_perm, column_perm.
  - rewrite B1. apply qvar_perm. now apply all_scores_perm'.
Qed.
End C.
Section F.
Variables N R L : Type.
Variable neqb : N -> N -> bool.
Variable neq : forall x y, neqb x y = true <-> x = y.
Variable reqb : R -> R -> bool.
Lemma words_only_loop nt_s nt_t l g : wf g -> tight g -> NoDup (map fst l) -> incl l (edges g) ->
  exists g', foldM (fun g (e : (N * N) * R) => if nt_s (fst (fst e)) || nt_t (snd (fst e)) then del_align neqb g (fst (fst e)) (snd (fst e)) else Ok g) g l = Ok g' /\
  wf g' /\ tight g' /\ forall e, In e (edges g') <-> In e (edges g) /\ ~ (In (fst e) (map fst l) /\ nt_s (fst (fst e)) || nt_t (snd (fst e)) = true).
Proof.
  revert g. induction l as [|[[s t] r] l IH]; intros g W T ND Hl; cbn [foldM fst snd].
  - exists g. split; auto. split; auto. split; auto. intros e. cbn. tauto.
  - inversion ND as [|? ? Hnin ND']; subst. destruct (nt_s s || nt_t t) eqn:E.
    + destruct (@del_ok N R neqb neq g s t r W T) as (g1 & -> & W1 & T1 & D1).
      { apply (ga_in neqb neq); auto. apply Hl. now left. }
      cbn [bind]. destruct (IH g1 W1 T1 ND') as (g' & -> & W' & T' & D').
      { intros e He. apply D1. split; [apply Hl; now right|]. intros Q. apply Hnin. cbn. rewrite <- Q. now apply in_map. }
      exists g'. split; auto. split; auto. split; auto. intros e. rewrite D', D1. cbn [map In fst].
      split.
      * intros ((A & B) & C). split; auto. intros ([Q|Q] & F); [congruence|]. apply C. auto.
      * intros (A & B). split; [split; auto|].
        -- intros Q. apply B. split; [left; auto|]. destruct e as [[s' t'] r']. cbn in *. congruence.
        -- intros (C & D). apply B. auto.
    + cbn [bind]. destruct (IH g W T ND') as (g' & -> & W' & T' & D').
      { intros e He. apply Hl. now right. }
      exists g'. split; auto. split; auto. split; auto. intros e. rewrite D'. cbn [map In fst].
      split; intros (A & B); (split; [auto|]); intros (C & D); apply B; split; auto.
      destruct C as [Q|]; auto. destruct e as [[s' t'] r']. cbn in *. injection Q as -> ->. congruence.
Qed.
Lemma words_only_ok nt_s nt_t g : wf g -> tight g -> exists g', words_only_pair neqb reqb nt_s nt_t g = Ok g' /\ wf g' /\ tight g' /\
  forall e, In e (edges g') <-> In e (edges g) /\ nt_s (fst (fst e)) = false /\ nt_t (snd (fst e)) = false.
Proof.
  intros W T. destruct (@words_only_loop nt_s nt_t (edges g) g W T (wf_edges W) (incl_refl _)) as (g' & E & W' & T' & D).
  exists g'. split; [exact E|]. split; auto. split; auto. intros e. rewrite D.
  split; intros (A & B); split; auto.
  - apply orb_false_iff. destruct (_ || _) eqn:Q; auto. exfalso. apply B. split; auto. now apply in_map.
  - apply orb_false_iff in B. intros (_ & C). congruence.
Qed.
End F.
Section M.
Variables N R L : Type.
Variable neqb : N -> N -> bool.
Variable neq : forall x y, neqb x y = true <-> x = y.
Variable reqb : R -> R -> bool.
Variable req : forall x y, reqb x y = true <-> x = y.
Variable truthy : R -> bool.
Variable leqb lleb : L -> L -> bool.
Variable leq : forall x y, leqb x y = true <-> x = y.
Variable relations : list R.
Variable rtruthy : forall r, In r relations -> truthy r = true.
Notation corpus := (list (digraph N R)).
Lemma agreement_all (corpora : list corpus) (ann : list L) (len : nat) :
  length ann = length corpora -> NoDup ann -> 2 <= length ann ->
  Forall (fun c => Forall (goodg relations) c /\ length c = len) corpora ->
  exists evals, cross_evaluate neqb reqb truthy leqb relations corpora ann = Ok evals /\
  map fst evals = ordered_pairs leqb ann /\
  forall k, k = None \/ (exists r, k = Some r /\ In r relations) ->
  exists w : L -> L -> counts,
   (forall i j t p, nth_error ann i = Some t -> nth_error ann j = Some p -> t <> p ->
      exists ct cp row, nth_error corpora i = Some ct /\ nth_error corpora j = Some cp /\
      eval_row neqb reqb truthy relations ct cp = Ok row /\ dget (keqb reqb) row k = Some (w t p)) /\
   forall measure : counts -> Q, let v t p := measure (w t p) in
   exists T, tableize reqb leqb lleb k measure evals = Ok T /\
   Permutation (labels T) ann /\
   (forall t p, In t ann -> In p ann -> t <> p -> cell leqb (cells T) t p = Ok (v t p)) /\
   (forall c, In c ann -> exists x, dget leqb (means T) c = Some x /\ x == qmean (column leqb v ann c))%Q /\
   (overall T == qmean (all_scores leqb v ann))%Q /\
   (forall c, In c ann -> exists x, dget leqb (vars T) c = Some x /\ x == qvar (column leqb v ann c))%Q /\
   (overall_var T == qvar (all_scores leqb v ann))%Q.
Proof.
  intros Hlen ND N2 Hg. exists (expected neqb reqb truthy leqb relations (combine corpora ann) (combine corpora ann)).
  split; [now apply cross_ok with len|]. split; [now apply expected_names|]. intros k Hk.
  assert (forall i a, nth_error ann i = Some a -> exists c, nth_error corpora i = Some c /\ In (c, a) (combine corpora ann)) as Hi.
  { intros i a. clear -Hlen. revert corpora Hlen i. induction ann as [|y an IH]; intros [|x cs] Hlen [|i]; cbn in *; try easy.
    - intros [= ->]. eauto.
    - intros H. destruct (IH cs ltac:(lia) i H) as (c & ? & ?). eauto. }
  exists (fun t p => match dget (keqb reqb) (row_of neqb reqb truthy relations (corpus_of leqb corpora ann t) (corpus_of leqb corpora ann p)) k with Some c => c | None => zero_counts end).
  assert (forall t p, In t ann -> In p ann -> exists c, dget (keqb reqb) (row_of neqb reqb truthy relations (corpus_of leqb corpora ann t) (corpus_of leqb corpora ann p)) k = Some c) as Hrow.
  { intros t p Ht Hp. apply (in_ann corpora ann Hlen) in Ht as (ct & Ht). apply (in_ann corpora ann Hlen) in Hp as (cp & Hp).
    rewrite (@corpus_of_ok N R L leqb leq corpora ann ND _ _ Ht), (@corpus_of_ok N R L leqb leq corpora ann ND _ _ Hp).
    apply row_has with (corpora := corpora) (len := len); auto; eapply in_combine_l; eauto. }
  split.
  - intros i j t p Ht Hp Hne. destruct (Hi _ _ Ht) as (ct & A1 & A2). destruct (Hi _ _ Hp) as (cp & B1 & B2).
    exists ct, cp, (row_of neqb reqb truthy relations ct cp). split; auto. split; auto. split.
    + apply er_ok with (corpora := corpora) (len := len); auto; eapply in_combine_l; eauto.
    + destruct (Hrow t p) as (c & Ec); try (eapply nth_error_In; eauto). rewrite Ec.
      rewrite (@corpus_of_ok N R L leqb leq corpora ann ND _ _ A2), (@corpus_of_ok N R L leqb leq corpora ann ND _ _ B2) in Ec. exact Ec.
  - intros measure v. destruct (@tableize_ok N R L neqb neq reqb req truthy leqb lleb leq relations rtruthy corpora ann len Hlen Hg ND N2 k Hk measure) as (T & E1 & E2 & E3 & E4 & E5 & E6 & E7).
    exists T. split; auto. split; auto.
    set (sc := score _ _ _ _ _ _ _ _ _) in *.
    assert (forall t p, In t ann -> In p ann -> sc t p = v t p) as Hv.
    { intros t p Ht Hp. unfold sc, score, v. destruct (Hrow t p Ht Hp) as (c & ->). reflexivity. }
    assert (forall c, In c ann -> column leqb sc ann c = column leqb v ann c) as Hcol.
    { intros c Hc. unfold column. apply map_ext_in. intros a Ha. apply (in_others leqb leq) in Ha. apply Hv; tauto. }
    assert (all_scores leqb sc ann = all_scores leqb v ann) as Hall.
    { unfold all_scores. apply map_ext_in. intros [a b] H. apply (in_ordered_pairs leqb leq) in H. apply Hv; tauto. }
    rewrite <- Hall. split; [|split; [|split; [|split]]]; auto.
    + intros. rewrite <- Hv; auto.
    + intros c Hc. rewrite <- Hcol; auto.
    + intros c Hc. rewrite <- Hcol; auto.
Qed.
(** the mean precision of a cross evaluation equals its mean recall *)
Lemma prec_rec_mean (corpora : list corpus) (ann : list L) (len : nat) evals k Tp Tr :
  length ann = length corpora -> NoDup ann -> 2 <= length ann ->
  Forall (fun c => Forall (goodg relations) c /\ length c = len) corpora ->
  cross_evaluate neqb reqb truthy leqb relations corpora ann = Ok evals ->
  k = None \/ (exists r, k = Some r /\ In r relations) ->
  tableize reqb leqb lleb k prec evals = Ok Tp -> tableize reqb leqb lleb k rec evals = Ok Tr ->
  (overall Tp == overall Tr)%Q /\
  (forall t p, In t ann -> In p ann -> t <> p -> exists x, cell leqb (cells Tp) t p = Ok x /\ cell leqb (cells Tr) p t = Ok x).
Proof.
  intros Hlen ND N2 Hg Hc Hk Hp Hr. destruct (agreement_all Hlen ND N2 Hg) as (ev & E1 & _ & E2).
  rewrite Hc in E1. injection E1 as <-. destruct (E2 k Hk) as (w & Hw & Ht).
  destruct (Ht prec) as (T1 & A1 & A2 & A3 & A4 & A5 & _). destruct (Ht rec) as (T2 & B1 & B2 & B3 & B4 & B5 & _).
  rewrite Hp in A1. injection A1 as <-. rewrite Hr in B1. injection B1 as <-.
  assert (forall t p, In t ann -> In p ann -> t <> p -> prec (w t p) = rec (w p t)) as Hsw.
  { intros t p Hti Hpi Hne. apply In_nth_error in Hti as (i & Hi). apply In_nth_error in Hpi as (j & Hj).
    destruct (Hw _ _ _ _ Hi Hj Hne) as (ct & cp & row & C1 & C2 & C3 & C4).
    destruct (Hw _ _ _ _ Hj Hi (not_eq_sym Hne)) as (cp' & ct' & row' & D1 & D2 & D3 & D4).
    rewrite D1 in C2. rewrite D2 in C1. injection C1 as ->. injection C2 as ->.
    rewrite Forall_forall in Hg. destruct (Hg _ (nth_error_In _ _ D1)) as [G1 _]. destruct (Hg _ (nth_error_In _ _ D2)) as [G2 _].
    destruct (@eval_exchange N R neqb reqb truthy neq req relations rtruthy ct cp row row' G2 G1 C3 D3 k _ C4) as (c' & F1 & F2 & F3 & F4 & F5 & F6).
    rewrite D4 in F1. injection F1 as <-. symmetry. exact F6. }
  split.
  - rewrite A5, B5. apply qmean_eq; [unfold all_scores; now rewrite !map_length|].
    rewrite (all_transposed leqb leq (fun t p => rec (w t p)) ann). unfold all_scores. apply total_ext. intros [t p] H. cbn.
    apply (in_ordered_pairs leqb leq) in H. rewrite Hsw by tauto. reflexivity.
  - intros t p Hti Hpi Hne. exists (prec (w t p)). rewrite A3 by auto. split; auto. rewrite B3 by auto. now rewrite Hsw.
Qed.
Lemma too_few (corpora : list corpus) (ann : list L) evals k m : length ann < 2 ->
  cross_evaluate neqb reqb truthy leqb relations corpora ann = Ok evals -> evals = [] /\ tableize reqb leqb lleb k m evals = Err ZeroDivisionError.
Proof.
  intros Hl H. unfold cross_evaluate in H. destruct (length ann =? length corpora) eqn:E; [cbn [negb] in H|discriminate]. apply Nat.eqb_eq in E.
  destruct ann as [|a [|b ann]]; [| |cbn in Hl; lia].
  - destruct corpora; [|discriminate]. cbn in H. injection H as <-. split; auto.
  - destruct corpora as [|c [|d cs]]; try discriminate. cbn in H. rewrite (proj2 (leq a a) eq_refl) in H. cbn in H. injection H as <-. auto.
Qed.
End M.
