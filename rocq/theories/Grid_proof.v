(** Proofs about printed score tables and alignments. *)
From Coq Require Import NArith String Ascii QArith Lqa ZifyN.
From Verif Require Import Py PyLemmas Number_model Number_proof Table_spec Table_model Table_proof Evalrun_proof Agreerep_proof Seqal_model Grid_spec Grid_model.
From Verif Require Seqal_spec Seqal_proof.
Open Scope list_scope.
Open Scope nat_scope.

Lemma str_upper n : (n < 10 ^ N.of_nat (length (str_N n)))%N.
Proof.
  apply (str_ind (fun n s => (n < 10 ^ N.of_nat (length s))%N)); clear n.
  - intros n H. exact H.
  - intros n d H D IH. rewrite app_length. cbn [length]. replace (N.of_nat (length (str_N n) + 1)) with (N.succ (N.of_nat (length (str_N n)))) by lia.
    rewrite N.pow_succ_r'. lia.
Qed.
Lemma str_nat_mono i n : i <= n -> length (str_nat i) <= length (str_nat n).
Proof.
  intros H. unfold str_nat. apply str_length.
  - pose proof (str_upper (N.of_nat n)). lia.
  - destruct (str_nonempty (N.of_nat n)) as (c & s & -> & _). cbn. lia.
Qed.
Lemma str_nat_decimal n : decimal n (str_nat n).
Proof. unfold str_nat. pose proof (str_decimal (N.of_nat n)) as H. now rewrite Nnat.Nat2N.id in H. Qed.
Lemma rjust_field w c : length c < w -> field w c (rjust w c).
Proof. intros H. exists (w - length c). unfold rjust. rewrite app_length, repeat_length. repeat split; lia. Qed.
Lemma rjust_fields w cs : Forall (fun c => length c < w) cs -> Forall2 (field w) cs (map (rjust w) cs).
Proof. induction 1; cbn; constructor; auto using rjust_field. Qed.
Lemma margin_ok w1 w2 num lab : length num < w1 -> length lab < w2 -> row_margin w1 (w1 + w2) num lab (ljust w1 num ++ ljust w2 lab).
Proof.
  intros H1 H2. exists (w1 - length num), (w2 - length lab). unfold ljust. rewrite <- !app_assoc. rewrite !app_length, !repeat_length. repeat split; lia.
Qed.
Lemma max_len_ok s m e : max_len s = Ok m -> In e s -> length e <= m.
Proof. destruct s; [easy|]. intros [= <-] H. apply (in_map (@length ascii)) in H. exact (max_in _ _ H). Qed.
Lemma max_len_some s : s <> [] -> exists m, max_len s = Ok m.
Proof. destruct s; [easy|]. intros _. eexists. reflexivity. Qed.
Lemma mem_mark al i j : shows_mark al i j (if mem pos_eqb (i, j) al then ["x"%char] else ["."%char]).
Proof.
  destruct (mem pos_eqb (i, j) al) eqn:E; [left|right]; split; auto.
  - apply mem_spec in E; auto. intros p q. unfold pos_eqb. destruct p, q. cbn. rewrite andb_true_iff, !Nat.eqb_eq. split; [intros [-> ->]|intros [= -> ->]]; auto.
  - intros I. apply (mem_spec pos_eqb) in I; [congruence|]. intros p q. unfold pos_eqb. destruct p, q. cbn. rewrite andb_true_iff, !Nat.eqb_eq. split; [intros [-> ->]|intros [= -> ->]]; auto.
Qed.
Lemma in_lines_cons l ls : in_lines (l :: ls) = l ++ [newline] ++ in_lines ls.
Proof. unfold in_lines. cbn. now rewrite <- app_assoc. Qed.
Lemma nth_error_combine_seq (A : Type) (l : list A) : forall k i, nth_error (combine (seq k (length l)) l) i = option_map (fun x => (k + i, x)) (nth_error l i).
Proof.
  induction l as [|a l IH]; intros k [|i]; cbn; auto. rewrite Nat.add_0_r; auto. rewrite IH. destruct (nth_error l i); cbn; auto. f_equal. f_equal. lia.
Qed.

Lemma numbers_ok n : numbers_from_0 n (map str_nat (seq 0 n)).
Proof. unfold numbers_from_0. generalize (seq 0 n). intros l. induction l; cbn [map]; constructor; auto using str_nat_decimal. Qed.

Section Alignment.
Variables (s1 s2 : list text) (al : list pos).
Definition mark (i j : nat) : text := if mem pos_eqb (i, j) al then ["x"%char] else ["."%char].
Definition a_row (x : nat * text) : row := {| number_of := str_nat (fst x); label_of := snd x; cells_of := map (mark (fst x)) (seq 0 (length s2)) |}.
Definition a_rows : list row := map a_row (combine (seq 0 (length s1)) s1).
Lemma a_rows_ok : alignment_rows s1 s2 al a_rows.
Proof.
  unfold a_rows. split; [rewrite map_length, combine_length, seq_length; lia|]. intros i e E. exists (a_row (i, e)).
  rewrite nth_error_map, nth_error_combine_seq, E. cbn. split; auto. split; [apply str_nat_decimal|]. split; auto. rewrite map_length, seq_length. split; auto.
  intros j J. exists (mark i j). split; [|apply mem_mark]. rewrite nth_error_map. rewrite (nth_error_nth' _ 0) by (now rewrite seq_length). cbn. now rewrite seq_nth.
Qed.
Lemma alignment_ok h t : s1 <> [] -> s2 <> [] -> exists ls, print_alignment s1 s2 al h t = Ok (h ++ in_lines ls ++ t) /\
  exists ns, numbers_from_0 (length s2) ns /\ grid ns s2 a_rows ls.
Proof.
  intros N1 N2. destruct (max_len_some s1 N1) as (m1 & M1), (max_len_some s2 N2) as (m2 & M2).
  unfold print_alignment. rewrite M1. cbn [bind]. rewrite M2. cbn [bind].
  set (w1 := length (str_nat (length s1)) + 1). set (w2 := m1 + 1). set (w := Nat.max (m2 + 1) (length (str_nat (length s2)) + 1)).
  set (cells := fun x : nat * text => map (rjust w) (map (mark (fst x)) (seq 0 (length s2)))).
  exists ((repeat space (w1 + w2) ++ concat (map (rjust w) (map str_nat (seq 0 (length s2))))) :: (repeat space (w1 + w2) ++ concat (map (rjust w) s2)) ::
    map (fun x => (ljust w1 (str_nat (fst x)) ++ ljust w2 (snd x)) ++ concat (cells x)) (combine (seq 0 (length s1)) s1)).
  split.
  - rewrite !in_lines_cons, <- !app_assoc. rewrite map_map. 
    assert (forall xs, concat (map (fun x : nat * text => ljust w1 (str_nat (fst x)) ++ ljust w2 (snd x) ++
        concat (map (fun j => rjust w (if mem pos_eqb (fst x, j) al then ["x"%char] else ["."%char])) (seq 0 (length s2))) ++ [newline]) xs) =
      in_lines (map (fun x => (ljust w1 (str_nat (fst x)) ++ ljust w2 (snd x)) ++ concat (cells x)) xs)) as K.
    { induction xs as [|x xs IH]; [reflexivity|]. cbn [map concat]. rewrite in_lines_cons, IH, <- !app_assoc. unfold cells. now rewrite map_map. }
    now rewrite K.
  - exists (map str_nat (seq 0 (length s2))). split; [apply numbers_ok|].
    exists w1, (w1 + w2), w. do 3 eexists. split; [reflexivity|]. split; [eexists; split; [reflexivity|]|]. 2:split; [eexists; split; [reflexivity|]|].
    + apply rjust_fields. apply Forall_forall. intros x I. apply in_map_iff in I as (i & <- & I). apply in_seq in I. pose proof (str_nat_mono i (length s2)). lia.
    + apply rjust_fields. apply Forall_forall. intros x I. pose proof (max_len_ok s2 m2 x M2 I). lia.
    + unfold a_rows. assert (forall x, In x (combine (seq 0 (length s1)) s1) -> fst x <= length s1 /\ length (snd x) <= m1) as B.
      { intros [i e] I. cbn. split; [apply in_combine_l in I; apply in_seq in I; lia|apply in_combine_r in I; exact (max_len_ok s1 m1 e M1 I)]. }
      revert B. generalize (combine (seq 0 (length s1)) s1). intros xs B. induction xs as [|x xs IH]; cbn [map]; constructor; [|apply IH; intros; apply B; cbn; auto].
      destruct (B x) as [B1 B2]; [cbn; auto|]. eexists. split; [apply margin_ok; cbn [number_of label_of a_row]|].
      * pose proof (str_nat_mono _ _ B1). unfold w1. lia.
      * unfold w2. lia.
      * exists (cells x). split; auto. apply rjust_fields. apply Forall_forall. intros y I. cbn in I. apply in_map_iff in I as (j & <- & _). unfold mark.
        assert (1 < w). { destruct (str_nonempty (N.of_nat (length s2))) as (c & s & E & _). unfold w, str_nat. rewrite E. cbn. lia. } destruct (mem _ _ _); cbn; auto.
Qed.
End Alignment.

Lemma field_splits w cs fs : Forall2 (field w) cs fs -> Forall (fun c => c = [] \/ word c) cs ->
  splits (concat fs) (filter nonempty cs) /\ (concat fs = [] \/ exists r, concat fs = space :: r).
Proof.
  induction 1 as [|c f cs fs (k & K & -> & L) _ IH]; intros W; cbn [concat filter]; [split; [constructor; constructor|auto]|].
  apply Forall_inv in W as W1. apply Forall_inv_tail in W as W2. destruct (IH W2) as [IH1 IH2]. split.
  - assert (splits (repeat space k ++ c) (if nonempty c then [c] else [])) as S1.
    { destruct W1 as [->|W1]; cbn [nonempty]; [rewrite app_nil_r; constructor; apply spaces_blank|].
      destruct c as [|x c]; [destruct W1; easy|]. cbn [nonempty]. rewrite <- (app_nil_r (x :: c)) at 1. apply splits_cons; auto using spaces_blank. constructor. constructor. }
    destruct c as [|x c]; cbn [nonempty] in S1 |- *; exact (splits_join S1 IH1 IH2).
  - right. destruct k; [lia|]. cbn. eauto.
Qed.
Lemma margin_splits w1 w0 num lab m : row_margin w1 w0 num lab m -> word num -> lab = [] \/ word lab -> splits m (num :: filter nonempty [lab]).
Proof.
  intros (a & b & A & B & -> & _) Wn Wl. assert (splits num [num]) as S1.
  { rewrite <- (app_nil_r num) at 1. change (num ++ []) with ([] ++ num ++ []). apply splits_cons; auto. constructor. constructor. }
  change (num :: filter nonempty [lab]) with ([num] ++ filter nonempty [lab]). apply splits_join; auto.
  - assert (splits (repeat space b) []) as S3 by (constructor; apply spaces_blank).
    assert (repeat space b = [] \/ exists r, repeat space b = space :: r) as S4 by (destruct b; cbn; eauto).
    rewrite app_assoc. rewrite <- (app_nil_r (filter nonempty [lab])). apply splits_join; auto.
    destruct Wl as [->|Wl]; [rewrite app_nil_r; constructor; apply spaces_blank|]. destruct lab as [|x l]; [destruct Wl; easy|].
    cbn [filter nonempty]. rewrite <- (app_nil_r (x :: l)) at 1. apply splits_cons; auto using spaces_blank. constructor. constructor.
  - right. destruct a; [lia|]. cbn. eauto.
Qed.
Lemma laid_splits w m cs l ms : laid_out w m cs l -> splits m ms -> Forall (fun c => c = [] \/ word c) cs -> splits l (ms ++ filter nonempty cs).
Proof. intros (fs & -> & F) M W. destruct (field_splits _ _ _ F W). apply splits_join; auto. Qed.
Definition wordy (c : text) : Prop := c = [] \/ word c.
Lemma grid_splits heads names rows ls : grid heads names rows ls -> Forall wordy heads -> Forall wordy names ->
  Forall (fun r => word (number_of r) /\ wordy (label_of r) /\ Forall wordy (cells_of r)) rows -> grid_words heads names rows ls.
Proof.
  intros (w1 & w0 & w & h & n & rs & -> & H & N & R) WH WN WR.
  assert (splits (repeat space w0) []) as S0 by (constructor; apply spaces_blank).
  constructor; [exact (laid_splits _ _ _ _ _ H S0 WH)|]. constructor; [exact (laid_splits _ _ _ _ _ N S0 WN)|].
  induction R as [|r l rows rs (m & M & L) R IH]; [constructor|]. destruct (Forall_inv WR) as (W1 & W2 & W3). cbn [map]. constructor; [|apply IH; now apply Forall_inv_tail in WR].
  pose proof (laid_splits _ _ _ _ _ L (margin_splits _ _ _ _ _ M W1 W2) W3) as K.
  change (number_of r :: label_of r :: cells_of r) with ([number_of r] ++ [label_of r] ++ cells_of r). rewrite !filter_app.
  destruct (number_of r) as [|x u]; [destruct W1; easy|]. exact K.
Qed.

Section Scores.
Variables (s1 s2 : list text) (sc : scores_table).
Definition score_text (i j : nat) : text := match dget pos_eqb sc (i, j) with Some c => show_score c | None => [] end.
Definition label_at (i : nat) : text := match i with 0 => [] | S k => nth k s1 [] end.
Definition s_row (i : nat) : row := {| number_of := str_nat i; label_of := label_at i; cells_of := map (score_text i) (seq 0 (length s2 + 1)) |}.
Definition s_rows : list row := map s_row (seq 0 (length s1 + 1)).
Hypothesis N1 : s1 <> [].
Hypothesis N2 : s2 <> [].
Definition width1 := length (str_nat (length s1)) + 1.
Definition max1 := fold_right Nat.max 0 (map (@length ascii) s1).
Definition max2' := fold_right Nat.max 0 (map (@length ascii) s2).
Definition width := Nat.max (max2' + 1) 7.
Definition s_line (i : nat) : text := (ljust width1 (str_nat i) ++ ljust (max1 + 1) (label_at i)) ++ concat (map (rjust width) (map (score_text i) (seq 0 (length s2 + 1)))).
Definition s_lines : list text :=
  (repeat space (width1 + (max1 + 1)) ++ concat (map (rjust width) (map str_nat (seq 0 (length s2 + 1))))) ::
  (repeat space (width1 + (max1 + 1)) ++ concat (map (rjust width) ([] :: s2))) :: map s_line (seq 0 (length s1 + 1)).
Lemma max_len_eq s : s <> [] -> max_len s = Ok (fold_right Nat.max 0 (map (@length ascii) s)).
Proof. now destruct s. Qed.
Lemma mapM_total (A B : Type) (f : A -> res B) (g : A -> B) l : (forall x, In x l -> f x = Ok (g x)) -> mapM f l = Ok (map g l).
Proof. induction l as [|x l IH]; intros H; cbn; auto. rewrite H by (cbn; auto). cbn. rewrite IH by (intros; apply H; cbn; auto). reflexivity. Qed.
Lemma mapM_fails (A B : Type) (f : A -> res B) (e : exc) l : (forall x, In x l -> f x = Err e \/ exists y, f x = Ok y) -> (exists x, In x l /\ f x = Err e) -> mapM f l = Err e.
Proof.
  induction l as [|x l IH]; intros H (y & I & E); [easy|]. cbn. destruct (H x) as [->|(z & Z)]; cbn; auto. rewrite Z. cbn. rewrite IH; auto.
  - intros; apply H; cbn; auto.
  - destruct I as [->|I]; [congruence|]. eauto.
Qed.
Lemma label_get i : i <= length s1 -> (if 0 <? i then get s1 (i - 1) else Ok []) = Ok (label_at i).
Proof.
  intros H. destruct i as [|i]; cbn; auto. rewrite Nat.sub_0_r. unfold get. destruct (nth_error s1 i) eqn:E; [now rewrite (nth_error_nth _ _ _ E)|].
  apply nth_error_None in E. lia.
Qed.
Lemma scores_text h t : (forall i j, i <= length s1 -> j <= length s2 -> exists c, dget pos_eqb sc (i, j) = Some c) ->
  print_scores s1 s2 sc h t = Ok (h ++ in_lines s_lines ++ t).
Proof.
  intros D. unfold print_scores. rewrite (max_len_eq s1 N1), (max_len_eq s2 N2). cbn [bind].
  fold max1 max2'. fold width width1.
  rewrite (mapM_total _ _ _ (fun i => s_line i ++ [newline])).
  - cbn [bind]. f_equal. unfold s_lines. rewrite !in_lines_cons, <- !app_assoc. rewrite map_map. cbn [map concat]. rewrite <- !app_assoc.
    assert (rjust width [] = repeat space width) as -> by (unfold rjust; cbn [length]; now rewrite Nat.sub_0_r, app_nil_r).
    replace (concat (map (fun i => s_line i ++ [newline]) (seq 0 (length s1 + 1)))) with (in_lines (map s_line (seq 0 (length s1 + 1)))); [reflexivity|].
    unfold in_lines. now rewrite map_map.
  - intros i I. apply in_seq in I. rewrite label_get by lia. cbn [bind].
    rewrite (mapM_total _ _ _ (fun j => rjust width (score_text i j))).
    + cbn [bind]. unfold s_line. rewrite map_map, <- !app_assoc. reflexivity.
    + intros j J. apply in_seq in J. destruct (D i j) as (c & E); [lia|lia|]. unfold dread, score_text. now rewrite E.
Qed.
Lemma scores_missing h t i j : i <= length s1 -> j <= length s2 -> dget pos_eqb sc (i, j) = None -> print_scores s1 s2 sc h t = Err KeyError.
Proof.
  intros Hi Hj E. unfold print_scores. rewrite (max_len_eq s1 N1), (max_len_eq s2 N2). cbn [bind].
  assert (forall i j, (c <- dread pos_eqb sc (i, j);; Ok (rjust (Nat.max (fold_right Nat.max 0 (map (@length ascii) s2) + 1) 7) (show_score c))) = Err KeyError \/
    exists y, (c <- dread pos_eqb sc (i, j);; Ok (rjust (Nat.max (fold_right Nat.max 0 (map (@length ascii) s2) + 1) 7) (show_score c))) = Ok y) as D.
  { intros a b. unfold dread. destruct (dget pos_eqb sc (a, b)); cbn; eauto. }
  rewrite (@mapM_fails _ _ _ KeyError); auto.
  - intros a Ia. apply in_seq in Ia. rewrite label_get by lia. cbn [bind].
    destruct (mapM _ (seq 0 (length s2 + 1))) as [y|e] eqn:M; cbn [bind]; [eauto|]. left.
    assert (forall l, mapM (fun j0 => c <- dread pos_eqb sc (a, j0);; Ok (rjust (Nat.max (fold_right Nat.max 0 (map (@length ascii) s2) + 1) 7) (show_score c))) l = Err e -> e = KeyError) as K.
    { induction l as [|x l IH]; [discriminate|]. cbn [mapM]. destruct (D a x) as [->|(y & ->)]; cbn [bind]; [congruence|]. destruct (mapM _ l); cbn; [discriminate|]. auto. }
    f_equal. exact (K _ M).
  - exists i. split; [apply in_seq; lia|]. rewrite label_get by lia. cbn [bind].
    rewrite (@mapM_fails _ _ _ KeyError); auto. exists j. split; [apply in_seq; lia|]. unfold dread. now rewrite E.
Qed.
Lemma quot_cut q : cut_off (Float q) (Z.quot (Qnum q) (Zpos (Qden q))).
Proof.
  pose proof (Z.quot_rem (Qnum q) (Zpos (Qden q)) ltac:(easy)) as E. cbn. destruct q as [n d]. cbn [Qnum Qden] in *.
  unfold Qle, Qlt, inject_Z, Qplus, Qminus, Qopp. cbn [Qnum Qden Z.mul Z.opp Z.add Pos.mul]. set (k := Z.quot n (Zpos d)) in *. set (r := Z.rem n (Zpos d)) in *.
  rewrite ?Z.mul_1_r, ?Pos.mul_1_l, ?Z.mul_1_l. change (- (1))%Z with (-1)%Z. rewrite ?Z.mul_add_distr_r. 
  destruct (Z.le_gt_cases 0 n) as [H|H].
  - left. pose proof (Z.rem_bound_pos n (Zpos d) H ltac:(easy)) as B. fold r in B. repeat split; lia.
  - right. pose proof (Z.rem_bound_pos_neg n (Zpos d) ltac:(easy) ltac:(lia)) as B. fold r in B. repeat split; try lia. change (Qnum ((k # 1) + -1)) with (k * 1 + -1 * 1)%Z. lia.
Qed.
Definition cut (x : number) : Z := match x with Whole z => z | Float q => Z.quot (Qnum q) (Zpos (Qden q)) end.
Lemma cut_ok x : cut_off x (cut x).
Proof. destruct x; [reflexivity|apply quot_cut]. Qed.
Lemma cut_fun x y z : cut_off x y -> cut_off x z -> y = z.
Proof.
  destruct x as [a|q]; cbn; [congruence|]. intros H1 H2.
  assert (inject_Z y < inject_Z z + 1 /\ inject_Z z < inject_Z y + 1)%Q as [A B].
  { destruct H1 as [(P1 & P2 & P3)|(P1 & P2 & P3)], H2 as [(Q1 & Q2 & Q3)|(Q1 & Q2 & Q3)]; split; try lra.
    - assert (q == 0)%Q by lra. assert (inject_Z y == 0)%Q; [|lra]. assert (-1 < y)%Z; [|assert (y < 1)%Z; [|assert (y = 0)%Z as -> by lia; reflexivity]].
      + rewrite Zlt_Qlt. change (inject_Z (-1)) with (- (1))%Q. lra.
      + rewrite Zlt_Qlt. change (inject_Z 1) with 1%Q. lra.
    - assert (q == 0)%Q by lra. assert (inject_Z z == 0)%Q; [|lra]. assert (-1 < z)%Z; [|assert (z < 1)%Z; [|assert (z = 0)%Z as -> by lia; reflexivity]].
      + rewrite Zlt_Qlt. change (inject_Z (-1)) with (- (1))%Q. lra.
      + rewrite Zlt_Qlt. change (inject_Z 1) with 1%Q. lra. }
  change 1%Q with (inject_Z 1) in A, B. rewrite <- !inject_Z_plus, <- !Zlt_Qlt in *. lia.
Qed.
Lemma show_int_cut x : show_int x = str_Z (cut x).
Proof. now destruct x. Qed.
Lemma show_score_ok c : shows_score c (show_score c).
Proof. exists (cut (fst c)), (show_int (fst c)). split; [apply cut_ok|]. split; auto. rewrite show_int_cut. apply str_Z_numeral. Qed.
Lemma s_rows_ok : (forall i j, i <= length s1 -> j <= length s2 -> exists c, dget pos_eqb sc (i, j) = Some c) -> score_rows s1 s2 (fun i j => dget pos_eqb sc (i, j)) s_rows.
Proof.
  intros D. unfold s_rows. split; [rewrite map_length, seq_length; lia|]. intros i r E. rewrite nth_error_map in E.
  destruct (nth_error (seq 0 (length s1 + 1)) i) as [k|] eqn:Ek; [|discriminate]. cbn in E. injection E as <-.
  assert (i < length (seq 0 (length s1 + 1))) as L by (apply nth_error_Some; congruence). rewrite seq_length in L.
  rewrite (nth_error_nth' _ 0) in Ek by (rewrite seq_length; lia). rewrite seq_nth in Ek by lia. cbn in Ek. injection Ek as <-. cbn.
  split; [apply str_nat_decimal|]. split; auto. rewrite map_length, seq_length. split; [lia|]. intros j J. destruct (D i j) as (c & Ec); [lia|lia|].
  exists c, (show_score c). split; auto. split; [|apply show_score_ok]. rewrite nth_error_map, (nth_error_nth' _ 0) by (rewrite seq_length; lia).
  rewrite seq_nth by lia. cbn. unfold score_text. now rewrite Ec.
Qed.
Lemma small_length z : (-1000 < z < 10000)%Z -> length (str_Z z) <= 4.
Proof.
  intros H. unfold str_Z. destruct z as [|p|p].
  - cbn. lia.
  - apply str_length; [|lia]. change (10 ^ N.of_nat 4)%N with 10000%N. lia.
  - cbn [length]. assert (length (str_N (N.pos p)) <= 3); [|lia]. apply str_length; [|lia]. change (10 ^ N.of_nat 3)%N with 1000%N. lia.
Qed.
Lemma score_length c : small_score c -> length (show_score c) < 7.
Proof.
  intros (z & C & B & L). unfold show_score. rewrite app_length. cbn [length]. rewrite L, show_int_cut.
  rewrite (cut_fun _ _ _ (cut_ok (fst c)) C). pose proof (small_length z B). lia.
Qed.
Lemma scores_grid : (Z.of_nat (length s2) < 1000000)%Z ->
  (forall i j, i <= length s1 -> j <= length s2 -> exists c, dget pos_eqb sc (i, j) = Some c /\ small_score c) ->
  grid (map str_nat (seq 0 (length s2 + 1))) ([] :: s2) s_rows s_lines.
Proof.
  intros B D. exists width1, (width1 + (max1 + 1)), width. do 3 eexists. split; [reflexivity|].
  assert (forall s x, In x s -> length x <= fold_right Nat.max 0 (map (@length ascii) s)) as MX by (intros s x I; apply max_in; now apply in_map).
  split; [eexists; split; [reflexivity|]|]. 2:split; [eexists; split; [reflexivity|]|].
  - apply rjust_fields. apply Forall_forall. intros x I. apply in_map_iff in I as (i & <- & I). apply in_seq in I. unfold str_nat.
    assert (length (str_N (N.of_nat i)) <= 6); [apply str_length; [change (10 ^ N.of_nat 6)%N with 1000000%N|]; lia|]. unfold width. lia.
  - apply rjust_fields. constructor; [unfold width; cbn; lia|]. apply Forall_forall. intros x I. pose proof (MX _ _ I). unfold width, max2'. lia.
  - unfold s_rows. assert (forall i, In i (seq 0 (length s1 + 1)) -> i <= length s1) as I1 by (intros i I; apply in_seq in I; lia).
    revert I1. generalize (seq 0 (length s1 + 1)). intros l I1. induction l as [|i l IH]; cbn [map]; constructor; [|apply IH; intros; apply I1; cbn; auto].
    assert (i <= length s1) as L by (apply I1; cbn; auto). eexists. split; [apply margin_ok; cbn [number_of label_of s_row]|].
    + pose proof (str_nat_mono _ _ L). unfold width1. lia.
    + destruct i as [|k]; cbn [label_at]; [cbn; lia|]. assert (In (nth k s1 []) s1) as I by (apply nth_In; lia). pose proof (MX _ _ I). unfold max1. lia.
    + eexists. split; [reflexivity|]. apply rjust_fields. apply Forall_forall. intros x I. cbn in I. apply in_map_iff in I as (j & <- & I). apply in_seq in I.
      destruct (D i j) as (c & E & Sm); [lia|lia|]. unfold score_text. rewrite E. pose proof (score_length c Sm). unfold width. lia.
Qed.
End Scores.
Lemma concat_cells (A : Type) (f g : A -> text) t t' l : (forall x, In x l -> length (f x) = length (g x)) -> concat (map f l) ++ t = concat (map g l) ++ t' ->
  (forall x, In x l -> f x = g x) /\ t = t'.
Proof.
  induction l as [|x l IH]; cbn [map concat app]; intros L E; [split; [easy|exact E]|]. rewrite <- !app_assoc in E.
  assert (f x = g x /\ concat (map f l) ++ t = concat (map g l) ++ t') as [E1 E2].
  { assert (length (f x) = length (g x)) as Lx by (apply L; cbn; auto). revert E Lx. generalize (f x) (g x). intros u. induction u as [|a u IHu]; intros [|b v]; cbn; intros E Lx; try discriminate; auto.
    injection E as <- E. destruct (IHu v E) as [-> E']; [lia|]. auto. }
  destruct IH as [IH1 IH2]; auto; [intros; apply L; cbn; auto|]. split; auto. intros y [<-|I]; auto.
Qed.
Lemma rjust_inj w a b : rjust w a = rjust w b -> length a = length b -> a = b.
Proof. unfold rjust. intros E L. rewrite L in E. now apply app_inv_head in E. Qed.
Lemma rjust_length w a : length a <= w -> length (rjust w a) = w.
Proof. unfold rjust. rewrite app_length, repeat_length. lia. Qed.
Lemma alignment_recovers s1 s2 al al' h t out : print_alignment s1 s2 al h t = Ok out -> print_alignment s1 s2 al' h t = Ok out ->
  forall i j, i < length s1 -> j < length s2 -> (In (i, j) al <-> In (i, j) al').
Proof.
  intros E E' i j Hi Hj. assert (s1 <> []) as N1 by (now destruct s1). assert (s2 <> []) as N2 by (now destruct s2).
  destruct (max_len_some s1 N1) as (m1 & M1), (max_len_some s2 N2) as (m2 & M2).
  unfold print_alignment in E, E'. rewrite M1 in E, E'. cbn [bind] in E, E'. rewrite M2 in E, E'. cbn [bind] in E, E'. apply Seqal_proof.ok_inj in E, E'. rewrite <- E' in E. clear E'.
  do 3 apply app_inv_head in E.
  set (w := Nat.max (m2 + 1) (length (str_nat (length s2)) + 1)) in *.
  assert (forall (al : list pos) k n, length (rjust w (if mem pos_eqb (k, n) al then ["x"%char] else ["."%char])) = w) as LW.
  { intros a k n. apply rjust_length. unfold w. destruct (mem _ _ _); cbn; lia. }
  assert (forall (f : nat -> text) l, (forall x, length (f x) = w) -> length (concat (map f l)) = w * length l) as LC.
  { intros f l H. induction l as [|x l IH]; cbn [map concat length]; [lia|]. rewrite app_length, H, IH. lia. }
  apply concat_cells in E as [E _].
  - destruct (nth_error s1 i) as [e|] eqn:Ee; [|apply nth_error_None in Ee; lia].
    assert (In (i, e) (combine (seq 0 (length s1)) s1)) as I.
    { apply nth_error_In with (n := i). rewrite nth_error_combine_seq, Ee. reflexivity. }
    specialize (E _ I). cbn [fst snd] in E. do 2 apply app_inv_head in E. apply concat_cells in E as [E _]; [|intros; now rewrite !LW].
    specialize (E j). rewrite in_seq in E. specialize (E ltac:(lia)). apply rjust_inj in E; [|now destruct (mem _ _ al), (mem _ _ al')].
    destruct (mem_mark al i j) as [[A EA]|[A EA]]; destruct (mem_mark al' i j) as [[B EB]|[B EB]]; try tauto; rewrite EA, EB in E; discriminate.
  - intros [k e] _. cbn [fst snd]. rewrite !app_length. rewrite !LC by (intros; apply LW). reflexivity.
Qed.
Lemma scores_entries s1 s2 sc h t out : print_scores s1 s2 sc h t = Ok out -> s1 <> [] /\ s2 <> [] /\
  forall i j, i <= length s1 -> j <= length s2 -> exists c, dget pos_eqb sc (i, j) = Some c.
Proof.
  intros E. assert (s1 <> []) as N1 by (intros ->; discriminate). assert (s2 <> []) as N2.
  { intros ->. unfold print_scores in E. destruct (max_len s1); discriminate. }
  split; auto. split; auto. intros i j Hi Hj. destruct (dget pos_eqb sc (i, j)) as [c|] eqn:D; [eauto|]. rewrite (scores_missing s1 s2 sc N1 N2 h t i j Hi Hj D) in E. discriminate.
Qed.
Lemma colon_digits a b s t : Forall is_digit a -> Forall is_digit b -> a ++ ":"%char :: s = b ++ ":"%char :: t -> a = b /\ s = t.
Proof.
  assert (~ is_digit ":"%char) as NC.
  { intros (d & D & E). destruct (digit_facts d D) as (F & _). rewrite <- E in F. discriminate. }
  revert b. induction a as [|x a IH]; intros [|y b] Da Db E; cbn in E.
  - now injection E.
  - injection E as <- _. apply Forall_inv in Db. easy.
  - injection E as -> _. apply Forall_inv in Da. easy.
  - injection E as -> E. apply Forall_inv_tail in Da, Db. destruct (IH b Da Db E) as [-> ->]. auto.
Qed.
Lemma show_score_inj c c' : show_score c = show_score c' -> cut (fst c) = cut (fst c') /\ snd c = snd c'.
Proof.
  unfold show_score. rewrite !show_int_cut. generalize (cut (fst c)) (cut (fst c')). intros x y E.
  assert (str_Z x = str_Z y /\ snd c = snd c') as [E1 E2].
  { unfold str_Z in *.
    assert (forall z, Forall is_digit (str_N z)) as SD by apply str_digits.
    assert (forall n u m v, "-"%char :: str_N n ++ u <> str_N m ++ v) as NE.
    { intros n u m v H. destruct (str_nonempty m) as (d & s & Em & D). rewrite Em in H. injection H as <- _. exact (digit_not_dash _ D eq_refl). }
    destruct x as [|p|p], y as [|q|q]; cbn [app] in E; try (apply colon_digits in E; auto; fail);
      try (exfalso; exact (NE _ _ _ _ E)); try (exfalso; exact (NE _ _ _ _ (eq_sym E))).
    injection E as E. apply colon_digits in E as [-> ->]; auto. }
  split; auto. pose proof (parse_show_int x) as P. rewrite E1, parse_show_int in P. now injection P.
Qed.
Lemma rjust_inj2 w a b : (forall c, In c a -> c <> space) -> (forall c, In c b -> c <> space) -> rjust w a = rjust w b -> a = b.
Proof.
  unfold rjust. generalize (w - length a) (w - length b). intros k. induction k as [|k IH]; intros [|n] Ha Hb E; cbn in E; auto.
  - subst a. exfalso. apply (Ha space); cbn; auto.
  - subst b. exfalso. apply (Hb space); cbn; auto.
  - injection E as E. eauto.
Qed.
Lemma in_lines_inj (f g : nat -> text) l t t' : (forall x, In x l -> length (f x) = length (g x)) -> in_lines (map f l) ++ t = in_lines (map g l) ++ t' -> forall x, In x l -> f x = g x.
Proof.
  intros L E. unfold in_lines in E. rewrite !map_map in E. apply concat_cells in E as [E _].
  - intros x I. specialize (E x I). now apply app_inv_tail in E.
  - intros x I. now rewrite !app_length, L.
Qed.
Lemma concat_length (f : nat -> text) w l : (forall x, In x l -> length (f x) = w) -> length (concat (map f l)) = w * length l.
Proof.
  intros H. induction l as [|x l IH]; cbn [map concat length]; [lia|]. rewrite app_length, IH by (intros; apply H; cbn; auto). rewrite H by (cbn; auto). lia.
Qed.
Lemma scores_recover s1 s2 sc sc' h t out : print_scores s1 s2 sc h t = Ok out -> print_scores s1 s2 sc' h t = Ok out ->
  (forall i j c, i <= length s1 -> j <= length s2 -> dget pos_eqb sc (i, j) = Some c \/ dget pos_eqb sc' (i, j) = Some c -> small_score c) ->
  (forall i j c, dget pos_eqb sc (i, j) = Some c \/ dget pos_eqb sc' (i, j) = Some c -> snd c <> [space]) ->
  forall i j, i <= length s1 -> j <= length s2 -> exists c c' z, dget pos_eqb sc (i, j) = Some c /\ dget pos_eqb sc' (i, j) = Some c' /\
    cut_off (fst c) z /\ cut_off (fst c') z /\ snd c = snd c'.
Proof.
  intros E E' Sm NB i j Hi Hj. destruct (scores_entries _ _ _ _ _ _ E) as (N1 & N2 & D). destruct (scores_entries _ _ _ _ _ _ E') as (_ & _ & D').
  rewrite scores_text in E, E' by auto. apply Seqal_proof.ok_inj in E, E'. rewrite <- E' in E. clear E'. apply app_inv_head in E.
  unfold s_lines in E. rewrite !in_lines_cons, <- !app_assoc in E. do 6 apply app_inv_head in E.
  assert (forall i j, i <= length s1 -> j <= length s2 -> length (rjust (width s2) (score_text sc i j)) = width s2 /\ length (rjust (width s2) (score_text sc' i j)) = width s2) as LW.
  { intros a b Ha Hb. destruct (D a b Ha Hb) as (c & Ec), (D' a b Ha Hb) as (c' & Ec'). unfold score_text. rewrite Ec, Ec'.
    assert (length (show_score c) < 7) by (apply score_length; apply (Sm a b); auto). assert (length (show_score c') < 7) by (apply score_length; apply (Sm a b); auto).
    split; apply rjust_length; unfold width; lia. }
  destruct (D i j Hi Hj) as (c & Ec), (D' i j Hi Hj) as (c' & Ec').
  assert (score_text sc i j = score_text sc' i j) as ES.
  { assert (s_line s1 s2 sc i = s_line s1 s2 sc' i) as EL.
    { refine (in_lines_inj (s_line s1 s2 sc) (s_line s1 s2 sc') _ _ _ _ E i _); [|apply in_seq; lia].
      intros x I. apply in_seq in I. unfold s_line. rewrite !app_length. f_equal. rewrite !map_map.
      rewrite !(concat_length _ (width s2)); auto; intros y J; apply in_seq in J; apply LW; lia. }
    unfold s_line in EL. apply app_inv_head in EL. rewrite !map_map in EL. rewrite <- (app_nil_r (concat (map (fun x => rjust (width s2) (score_text sc i x)) _))) in EL.
    rewrite <- (app_nil_r (concat (map (fun x => rjust (width s2) (score_text sc' i x)) _))) in EL.
    apply concat_cells in EL as [EL _]; [|intros y J; apply in_seq in J; destruct (LW i y) as [-> ->]; lia].
    specialize (EL j). rewrite in_seq in EL. specialize (EL ltac:(lia)).
    assert (forall c, snd c <> [space] -> small_score c -> forall x, In x (show_score c) -> x <> space) as NS.
    { intros [x st] N (z & _ & _ & L) y I -> . cbn in N, L. unfold show_score in I. cbn in I. apply in_app_iff in I as [I|[I|I]].
      - rewrite show_int_cut in I. destruct (str_Z_word (cut x)) as [_ W]. rewrite Forall_forall in W. specialize (W _ I). discriminate.
      - discriminate.
      - destruct st as [|a [|b st]]; cbn in L; try discriminate. destruct I as [->|[]]. easy. }
    apply rjust_inj2 in EL; auto; unfold score_text; [rewrite Ec|rewrite Ec']; apply NS; eauto. }
  exists c, c', (cut (fst c)). unfold score_text in ES. rewrite Ec, Ec' in ES. destruct (show_score_inj _ _ ES) as [E1 E2].
  split; auto. split; auto. split; [apply cut_ok|]. split; auto. rewrite E1. apply cut_ok.
Qed.
(** The tables of the aligners. *)
Lemma as_scores_get (t : Seqal_model.table) p : dget pos_eqb (as_scores t) p = option_map (fun c => (Whole (fst c), step_text (snd c))) (dget pos_eqb t p).
Proof. induction t as [|[q c] t IH]; cbn; auto. destruct (pos_eqb p q); cbn; auto. Qed.
Definition full (s1 s2 : nat) (t : Seqal_model.table) : Prop := forall i j, i <= s1 -> j <= s2 -> exists c, dget pos_eqb t (i, j) = Some c.
Lemma cread_get t i j c : cread t i j = Ok c -> dget pos_eqb t (i, j) = Some c.
Proof. unfold cread, dread. destruct (dget pos_eqb t (i, j)); congruence. Qed.
Section Aligned.
Variables (A : Type) (sim : A -> A -> Z) (gap : A -> Z) (s1 s2 : list A).
Lemma nw_full t al : needleman_wunsch sim gap s1 s2 = Ok (t, al) -> full (length s1) (length s2) t.
Proof.
  unfold needleman_wunsch. destruct (Seqal_proof.nw_border_ok gap s1 s2) as (b & -> & B). cbn [bind].
  destruct (@Seqal_proof.fill_ok _ sim gap s1 s2 _ _ _ _ (Seqal_proof.nw_pcell sim gap s1 s2) _ B) as (t' & -> & F). cbn [bind].
  destruct (nw_trace _ _ _ _ _); cbn; [|discriminate]. intros [= <- _] i j Hi Hj. destruct (Seqal_proof.filled_any F Hi Hj) as (c & Ec). exists c. exact (cread_get _ _ _ _ Ec).
Qed.
Lemma matrix_full t : make_matrix sim gap s1 s2 = Ok t -> full (length s1) (length s2) t.
Proof.
  destruct (Seqal_proof.matrix_ok sim gap s1 s2) as (t' & -> & F). intros [= <-] i j Hi Hj. destruct (Seqal_proof.filled_any F Hi Hj) as (c & Ec). exists c. exact (cread_get _ _ _ _ Ec).
Qed.
Lemma sw_full t al : smith_waterman sim gap s1 s2 = Ok (t, al) -> full (length s1) (length s2) t.
Proof.
  unfold smith_waterman. destruct (make_matrix sim gap s1 s2) as [t'|] eqn:E; cbn [bind]; [|discriminate]. pose proof (matrix_full _ E) as F.
  destruct (last_sorted _) as [[c p]|]; [|discriminate]. destruct p as [pi pj]; match goal with |- context [sw_trace ?a ?b ?c ?d ?e] => destruct (sw_trace a b c d e) end; cbn; [|discriminate]. intros [= <- _]. exact F.
Qed.
Lemma loop_full fuel : forall limit t ss als ss' als', Seqal_proof.wf s1 s2 t -> we_loop sim gap s1 s2 fuel limit t ss als = Ok (ss', als') ->
  Forall (full (length s1) (length s2)) ss -> Forall (full (length s1) (length s2)) ss'.
Proof.
  induction fuel as [|fuel IH]; intros limit t ss als ss' als' W; cbn [we_loop].
  - destruct (orb _ _); [discriminate|]. intros [= <- <-]. auto.
  - destruct (orb _ _) eqn:EO. 2:{ intros [= <- <-]. auto. }
    pose proof (Seqal_proof.round sim gap W) as RD. destruct (find_best_score s1 s2 t) as [b [i j]]. cbn [fst snd] in RD |- *. destruct (b =? 0)%Z eqn:E0; [intros [= <- <-]; auto|].
    apply Z.eqb_neq in E0. destruct (RD E0) as (al & t' & -> & E2 & W' & OK). cbn [bind]. rewrite E2. cbn [bind]. intros H FF.
    apply (IH _ _ _ _ _ _ W' H). apply Forall_app. split; auto. constructor; [|constructor]. intros a c Ha Hc. destruct W as (_ & R & _). destruct (R a c Ha Hc) as (x & Ex). exists x. exact (cread_get _ _ _ _ Ex).
Qed.
Lemma we_full fuel limit ss als : waterman_eggert sim gap s1 s2 fuel limit = Ok (ss, als) -> Forall (full (length s1) (length s2)) ss.
Proof.
  unfold waterman_eggert. destruct (Seqal_proof.matrix_ok sim gap s1 s2) as (t & -> & F). cbn [bind]. intros H.
  exact (loop_full _ _ _ _ _ _ _ (Seqal_proof.filled_wf F) H (Forall_nil _)).
Qed.
End Aligned.
Lemma pair_shown p : pair_text p (show_pos p).
Proof. exists (str_nat (fst p)), (str_nat (snd p)). repeat split; auto using str_nat_decimal. Qed.
Lemma list_shown al : exists s, list_text al s /\ show_alignment al = "["%char :: s ++ ["]"%char].
Proof.
  assert (forall l p, list_text (p :: l) (show_pos p ++ concat (map (fun q => [","%char; space] ++ show_pos q) l))) as K.
  { induction l as [|q l IH]; intros p; cbn [map concat]; [rewrite app_nil_r; constructor; apply pair_shown|]. rewrite <- !app_assoc. apply list_more; [apply pair_shown|apply IH]. }
  destruct al as [|p al]; [exists []; split; [constructor|reflexivity]|]. eexists. split; [apply K|]. cbn [show_alignment]. now rewrite <- app_assoc.
Qed.
