(** Proofs about the printed agreement report. *)
From Coq Require Import String Ascii QArith Lia Lqa Permutation Sorted.
From Verif Require Import Py PyLemmas Align_model Align_proof Eval_spec Eval_model Eval_proof Corpus_model Corpus_proof Table_spec Number_model Table_model Table_proof
  Evalrun_spec Evalrun_model Evalrun_proof Agree_spec Agree_model Agree_proof Agreerep_spec Agreerep_model Tfidf_proof.
Open Scope list_scope.
Open Scope nat_scope.
Set Implicit Arguments.

(** ** Square roots *)
Definition nearest_root_z (a b n : Z) : Prop :=
  (0 <= n)%Z /\ ((0 < n)%Z -> ((2 * n - 1) * (2 * n - 1) * b <= 4 * a)%Z) /\ (4 * a <= (2 * n + 1) * (2 * n + 1) * b)%Z /\
  ((4 * a = (2 * n - 1) * (2 * n - 1) * b)%Z \/ (4 * a = (2 * n + 1) * (2 * n + 1) * b)%Z -> (0 < n)%Z -> Z.even n = true).
Lemma nearest_z scale q n : nearest_root_z (scale * scale * Qnum q) (Zpos (Qden q)) n -> nearest_root scale q n.
Proof.
  destruct q as [a b]. unfold nearest_root_z, nearest_root. cbn [Qnum Qden]. intros (H0 & H1 & H2 & H3). split; [exact H0|].
  assert (E : forall z, (inject_Z z <= 4 * inject_Z (scale * scale) * (a # b))%Q <-> (z * Zpos b <= 4 * (scale * scale * a))%Z).
  { intros z. unfold Qle, inject_Z, Qmult. cbn [Qnum Qden]. rewrite !Pos.mul_1_l. rewrite Z.mul_1_r, !Z.mul_assoc. tauto. }
  assert (E' : forall z, (4 * inject_Z (scale * scale) * (a # b) <= inject_Z z)%Q <-> (4 * (scale * scale * a) <= z * Zpos b)%Z).
  { intros z. unfold Qle, inject_Z, Qmult. cbn [Qnum Qden]. rewrite !Pos.mul_1_l. rewrite Z.mul_1_r, !Z.mul_assoc. tauto. }
  assert (E2 : forall z, (4 * inject_Z (scale * scale) * (a # b) == inject_Z z)%Q <-> (4 * (scale * scale * a) = z * Zpos b)%Z).
  { intros z. unfold Qeq, inject_Z, Qmult. cbn [Qnum Qden]. rewrite !Pos.mul_1_l. rewrite Z.mul_1_r, !Z.mul_assoc. tauto. }
  rewrite E, E', !E2. tauto.
Qed.
Lemma root_round_spec scale q : (0 <= q)%Q -> nearest_root scale q (root_round scale q).
Proof.
  intros Hq. apply nearest_z. unfold root_round. destruct q as [num den]. cbn [Qnum Qden]. assert (N0 : (0 <= num)%Z) by (unfold Qle in Hq; cbn in Hq; lia).
  set (a := (scale * scale * num)%Z). set (b := Zpos den). assert (A : (0 <= a)%Z) by (apply Z.mul_nonneg_nonneg; [apply Z.square_nonneg|exact N0]). assert (B : (0 < b)%Z) by reflexivity.
  clearbody a b. clear Hq N0. assert (D : (0 <= a / b)%Z) by (apply Z.div_pos; lia). pose proof (Z.sqrt_spec (a / b) D) as (S1 & S2). pose proof (Z.sqrt_nonneg (a / b)) as F0.
  set (f := Z.sqrt (a / b)) in *. clearbody f. unfold Z.succ in S2.
  assert (L : (f * f * b <= a)%Z). { apply Z.le_trans with (b * (a / b))%Z; [rewrite (Z.mul_comm (f * f)); apply Z.mul_le_mono_nonneg_l; lia|]. apply Z.mul_div_le. exact B. }
  assert (U : (a < (f + 1) * (f + 1) * b)%Z).
  { pose proof (Z.mul_succ_div_gt a b B) as G. apply Z.lt_le_trans with (b * Z.succ (a / b))%Z; [exact G|]. rewrite (Z.mul_comm _ b). apply Z.mul_le_mono_nonneg_l; lia. }
  assert (R0 : (0 <= f * b)%Z) by (apply Z.mul_nonneg_nonneg; lia).
  assert (R1 : (0 < f)%Z -> (b <= f * b)%Z). { intros H. rewrite <- (Z.mul_1_l b) at 1. apply Z.mul_le_mono_nonneg_r; lia. }
  replace ((f + 1) * (f + 1) * b)%Z with (f * f * b + 2 * (f * b) + b)%Z in U by ring. set (P := (f * f * b)%Z) in *. set (R := (f * b)%Z) in *.
  assert (E1 : ((2 * f + 1) * (2 * f + 1) * b = 4 * P + 4 * R + b)%Z) by (unfold P, R; ring).
  assert (E2 : ((2 * f - 1) * (2 * f - 1) * b = 4 * P - 4 * R + b)%Z) by (unfold P, R; ring).
  assert (E3 : ((2 * (f + 1) + 1) * (2 * (f + 1) + 1) * b = 4 * P + 12 * R + 9 * b)%Z) by (unfold P, R; ring).
  assert (E4 : ((2 * (f + 1) - 1) * (2 * (f + 1) - 1) * b = 4 * P + 4 * R + b)%Z) by (unfold P, R; ring).
  rewrite E1. unfold nearest_root_z.
  assert (Low : (4 * a <= 4 * P + 4 * R + b)%Z -> ((4 * a = 4 * P + 4 * R + b)%Z -> Z.even f = true) ->
     (0 <= f)%Z /\ ((0 < f)%Z -> ((2 * f - 1) * (2 * f - 1) * b <= 4 * a)%Z) /\ (4 * a <= (2 * f + 1) * (2 * f + 1) * b)%Z /\
  ((4 * a = (2 * f - 1) * (2 * f - 1) * b)%Z \/ (4 * a = (2 * f + 1) * (2 * f + 1) * b)%Z -> (0 < f)%Z -> Z.even f = true)).
  { rewrite E1, E2. intros H1 H2. split; [exact F0|]. split; [lia|]. split; [exact H1|]. intros [H|H] K; [lia|auto]. }
  assert (High : (4 * P + 4 * R + b <= 4 * a)%Z -> ((4 * a = 4 * P + 4 * R + b)%Z -> Z.even (f + 1) = true) ->
     (0 <= f + 1)%Z /\ ((0 < f + 1)%Z -> ((2 * (f + 1) - 1) * (2 * (f + 1) - 1) * b <= 4 * a)%Z) /\ (4 * a <= (2 * (f + 1) + 1) * (2 * (f + 1) + 1) * b)%Z /\
  ((4 * a = (2 * (f + 1) - 1) * (2 * (f + 1) - 1) * b)%Z \/ (4 * a = (2 * (f + 1) + 1) * (2 * (f + 1) + 1) * b)%Z -> (0 < f + 1)%Z -> Z.even (f + 1) = true)).
  { rewrite E3, E4. intros H1 H2. split; [lia|]. split; [lia|]. split; [lia|]. intros [H|H] K; [auto|lia]. }
  destruct (Z.compare_spec (4 * a) (4 * P + 4 * R + b)) as [E|E|E].
  - destruct (Bool.bool_dec (Z.even f) true) as [Ev|Ev].
    + rewrite Ev. apply Low; [lia|auto].
    + apply Bool.not_true_is_false in Ev. rewrite Ev. apply High; [lia|]. intros _. rewrite Z.even_add, Ev. reflexivity.
  - apply Low; lia.
  - apply High; lia.
Qed.
Lemma nearest_root_ext scale q q' n : (q == q')%Q -> nearest_root scale q n -> nearest_root scale q' n.
Proof. unfold nearest_root. intros E (A & B & C & D). rewrite <- !E. tauto. Qed.
Lemma root_ext scale q q' s : (q == q')%Q -> root_two_decimals scale q s -> root_two_decimals scale q' s.
Proof. intros E (n & w & d & e & t & A & B). exists n, w, d, e, t. split; [exact (nearest_root_ext E A)|exact B]. Qed.
Lemma show_root_exact scale q : (0 <= q)%Q -> root_two_decimals scale q (show_root scale q).
Proof.
  intros Hq. pose proof (root_round_spec scale Hq) as H. unfold show_root. set (z := root_round scale q) in *. assert (Z0 : (0 <= z)%Z) by exact (proj1 H).
  set (a := Z.to_N z). assert (Za : Z.of_N a = z) by (apply Z2N.id; exact Z0).
  exists z, (N.to_nat (a / 100)), (N.to_nat (a mod 100 / 10)), (N.to_nat (a mod 100 mod 10)), (str_N (a / 100)).
  assert (M : (a mod 100 < 100)%N) by (apply N.mod_lt; lia). assert (A : (a mod 100 / 10 < 10)%N) by (apply N.div_lt_upper_bound; lia). assert (B : (a mod 100 mod 10 < 10)%N) by (apply N.mod_lt; lia).
  split; [exact H|]. split; [apply str_decimal|]. split; [lia|]. split; [lia|]. split.
  - pose proof (N.div_mod' a 100). pose proof (N.div_mod' (a mod 100) 10). lia.
  - unfold two_digits. rewrite !digit_dchar by auto. reflexivity.
Qed.

(** ** Means and variances of equal numbers *)
Lemma total_f2 l l' : Forall2 Qeq l l' -> (total l == total l')%Q.
Proof. induction 1 as [|x y l l' E _ IH]; [reflexivity|]. unfold total in *. cbn [fold_right]. rewrite E, IH. reflexivity. Qed.
Lemma qmean_ext l l' : Forall2 Qeq l l' -> (qmean l == qmean l')%Q.
Proof. intros H. unfold qmean. rewrite (total_f2 H), (f2_length H). reflexivity. Qed.
Lemma qvar_ext l l' : Forall2 Qeq l l' -> (qvar l == qvar l')%Q.
Proof.
  intros H. unfold qvar. rewrite (f2_length H). pose proof (qmean_ext H) as M. set (m := qmean l) in *. set (m' := qmean l') in *. clearbody m m'.
  assert (E : (total (map (fun x => (x - m) * (x - m)) l) == total (map (fun x => (x - m') * (x - m')) l'))%Q).
  { apply total_f2. clear -H M. induction H as [|x y l l' E _ IH]; cbn [map]; constructor; [|exact IH]. now rewrite E, M. }
  rewrite E. reflexivity.
Qed.

(** ** One table *)
Notation teq := text_eqb.
Record shown (T : Agree_model.table text) (ann : list text) (s : text -> text -> Q) : Prop := {
  sh_perm : Permutation (labels T) ann;
  sh_cell : forall t p, In t ann -> In p ann -> t <> p -> exists x, cell teq (cells T) t p = Ok x /\ (x == s t p)%Q;
  sh_mean : forall c, In c ann -> exists x, dget teq (means T) c = Some x /\ (x == qmean (column teq s ann c))%Q;
  sh_all : (Agree_model.overall T == qmean (all_scores teq s ann))%Q;
  sh_var : forall c, In c ann -> exists x, dget teq (vars T) c = Some x /\ (x == qvar (column teq s ann c))%Q;
  sh_all_var : (overall_var T == qvar (all_scores teq s ann))%Q }.
Lemma name_label s : name_cell s = label_text s.
Proof. reflexivity. Qed.
Lemma percent_shows q q' : (q == q')%Q -> shows_acell (Percent q') (percent_cell q).
Proof. intros E. exists (show_q (q * 100)%Q). split; [|reflexivity]. apply (@two_ext (q * 100)); [rewrite E; apply Qmult_comm|apply show_q_two]. Qed.
Lemma root_shows q q' : (q == q')%Q -> (0 <= q')%Q -> shows_acell (RootPercent q') (root_cell q).
Proof. intros E P. exists (show_root 10000 q). split; [|reflexivity]. apply (root_ext E). apply show_root_exact. now rewrite E. Qed.
Lemma column_nonempty s ann c : 2 <= length ann -> NoDup ann -> In c ann -> column teq s ann c <> [].
Proof.
  intros L ND I E. apply (f_equal (@List.length _)) in E. unfold column in E. rewrite map_length in E. cbn [List.length] in E.
  pose proof (@others_len _ teq text_eqb_spec c ann ND I). lia.
Qed.
Lemma all_nonempty s ann : 2 <= length ann -> NoDup ann -> all_scores teq s ann <> [].
Proof.
  intros L ND E. apply (f_equal (@List.length _)) in E. rewrite (@all_len _ teq text_eqb_spec s ann ND) in E. cbn [List.length] in E. destruct (length ann) as [|[|n]]; cbn in E; lia.
Qed.
Lemma mapM_shows (X : Type) (f : X -> res (list ascii)) (g : X -> acell) l : (forall x, In x l -> exists t, f x = Ok t /\ shows_acell (g x) t) ->
  exists ts, mapM f l = Ok ts /\ Forall2 shows_acell (map g l) ts.
Proof.
  induction l as [|x l IH]; intros H; cbn [mapM map]; [exists []; split; [reflexivity|constructor]|]. destruct (H x (or_introl eq_refl)) as (t & -> & K).
  destruct IH as (ts & -> & F); [intros y I; apply H; now right|]. exists (t :: ts). split; [reflexivity|]. now constructor.
Qed.
Lemma mapM_shows' (X : Type) (f : X -> res text) (g : X -> acell) l : (forall x, In x l -> exists t, f x = Ok t /\ shows_acell (g x) t) ->
  exists ts, mapM f l = Ok ts /\ Forall2 shows_acell (map g l) ts.
Proof. apply mapM_shows. Qed.
Lemma single_rows (X : Type) (g : X -> aline) l rows : Forall2 (fun x y => Forall2 shows_aline [g x] [y]) l rows -> Forall2 shows_aline (map g l) rows.
Proof. induction 1 as [|x y l rows H _ IH]; cbn [map]; constructor; [inversion H; assumption|exact IH]. Qed.
Lemma write_matrix_ok T ann s h : 2 <= length ann -> NoDup ann -> shown T ann s -> h <> [] ->
  exists ls, write_matrix T h = Ok ls /\ Forall2 shows_aline ([APlain h; APlain []] ++ matrix teq ann (labels T) s) ls.
Proof.
  intros L ND [P C M A V AV] NE. set (ls := labels T) in *. assert (I : forall x, In x ls -> In x ann) by (intros x; apply (Permutation_in _ P)).
  unfold write_matrix. fold ls.
  destruct (@Evalrun_proof.mapM_f2 _ _ aline (fun r => cs <- mapM (fun c => if teq r c then Ok (repeat space 12) else v <- cell teq (cells T) r c ;; Ok (percent_cell v)) ls ;; Ok (name_cell r ++ concat cs))
    (fun r => [ARow r (map (fun c => if teq r c then Blank else Percent (s r c)) ls)]) (fun _ _ => True) (fun x l => Forall2 shows_aline x [l]) ls) as (rows & -> & Frows).
  { intros r Hr. cbv beta. destruct (@mapM_shows text (fun c => if teq r c then Ok (repeat space 12) else v <- cell teq (cells T) r c ;; Ok (percent_cell v)) (fun c => if teq r c then Blank else Percent (s r c)) ls) as (ts & -> & F).
    - intros c Hc. destruct (teq r c) eqn:E; [eexists; split; reflexivity|]. destruct (C r c (I r Hr) (I c Hc)) as (x & -> & Ex).
      + intros ->. assert (teq c c = true) by now apply text_eqb_spec. congruence.
      + cbn [bind]. eexists. split; [reflexivity|]. now apply percent_shows.
    - cbn [bind]. eexists. split; [reflexivity|]. constructor; [|constructor]. exists ts. split; [exact F|reflexivity]. }
  cbn [bind].
  destruct (@mapM_shows' text (fun c => v <- dread teq (means T) c ;; Ok (percent_cell v)) (fun c => Percent (qmean (column teq s ann c))) ls) as (ms & -> & Fms).
  { intros c Hc. destruct (M c (I c Hc)) as (x & D & Ex). unfold dread. rewrite D. cbn [bind]. eexists. split; [reflexivity|]. now apply percent_shows. }
  cbn [bind].
  destruct (@mapM_shows' text (fun c => v <- dread teq (vars T) c ;; Ok (root_cell v)) (fun c => RootPercent (qvar (column teq s ann c))) ls) as (ss & -> & Fss).
  { intros c Hc. destruct (V c (I c Hc)) as (x & D & Ex). unfold dread. rewrite D. cbn [bind]. eexists. split; [reflexivity|]. apply root_shows; [exact Ex|]. apply qvar_nonneg. apply column_nonempty; auto. }
  cbn [bind]. eexists. split; [reflexivity|]. unfold matrix. destruct h as [|h0 h1]; [congruence|].
  apply Forall2_app; [repeat (constructor; [reflexivity|]); constructor|].
  assert (Dash : dashes ((length ls + 2) * 12) = repeat dash (12 * (length ls + 2))) by (unfold dashes; now rewrite Nat.mul_comm).
  apply Forall2_app; [constructor; [reflexivity|]; constructor; [exact Dash|constructor]|].
  apply Forall2_app; [exact (single_rows _ Frows)|].
  constructor; [exact Dash|]. constructor.
  { exists (ms ++ [percent_cell (Agree_model.overall T)]). split; [apply Forall2_app; [exact Fms|constructor; [now apply percent_shows|constructor]]|]. rewrite concat_app. cbn [concat]. now rewrite app_nil_r. }
  constructor.
  { exists (ss ++ [root_cell (overall_var T)]). split; [apply Forall2_app; [exact Fss|constructor; [apply root_shows; [exact AV|apply qvar_nonneg; apply all_nonempty; auto]|constructor]]|]. rewrite concat_app. cbn [concat]. now rewrite app_nil_r. }
  repeat (constructor; [reflexivity|]). constructor.
Qed.

(** ** The whole report *)
Lemma tableize_labels (R L : Type) (reqb : R -> R -> bool) (leqb lleb : L -> L -> bool) k m (evals : list ((L * L) * row R)) T :
  tableize reqb leqb lleb k m evals = Ok T -> labels T = true_names leqb lleb (map fst evals).
Proof.
  unfold tableize. intros H. match type of H with context [foldM ?f ?s evals] => destruct (foldM f s evals) as [cs|]; [|discriminate H] end. cbn [bind] in H. destruct (calculate_av _ _ _) as [av|]; [|discriminate H]. cbn [bind] in H.
  destruct (calculate_sd _ _ _ _ _) as [sd|]; [|discriminate H]. cbn [bind] in H. injection H as <-. reflexivity.
Qed.
Lemma true_names_sorted (L : Type) (leqb lleb : L -> L -> bool) names : (forall x y, lleb x y = true \/ lleb y x = true) ->
  Sorted (fun x y => lleb x y = true) (true_names leqb lleb names).
Proof. intros H. unfold true_names. rewrite sort_isort. apply isort_adj. exact H. Qed.
(** ** The widths of cells *)
Lemma right_length w s : length s <= w -> length (right w s) = w.
Proof. intros H. unfold right. rewrite app_length, repeat_length. lia. Qed.
Lemma percent_length q t : (0 <= q <= 1)%Q -> two_decimals (100 * q)%Q t -> length t <= 6.
Proof.
  intros [Q0 Q1] (z & w & d & e & s & [Hz _] & D & D1 & D2 & Z & K). apply Qabs.Qabs_Qle_condition in Hz. destruct Hz as [Hz1 Hz2].
  assert (Zb : (z <= 10000)%Z). { apply Z.lt_succ_r. rewrite Zlt_Qlt. change (inject_Z (Z.succ 10000)) with (10001 # 1)%Q. lra. }
  assert (Za : (-1 < z)%Z). { rewrite Zlt_Qlt. change (inject_Z (-1)) with (-1 # 1)%Q. lra. }
  assert (W : w <= 100) by lia. assert (Ls : length s <= 3) by (apply (decimal_length D); [change (10 ^ Z.of_nat 3)%Z with 1000%Z|]; lia).
  destruct K as [[K ->]|[K _]]; [|exfalso; lra]. rewrite app_length. cbn [List.length]. lia.
Qed.
Lemma root_length q t : (0 <= q <= 2)%Q -> root_two_decimals 10000 q t -> length t <= 6.
Proof.
  intros [Q0 Q1] (n & w & d & e & s & (N0 & N1 & _) & D & D1 & D2 & Z & ->). rewrite app_length. cbn [List.length].
  assert (Nb : (n < 20000)%Z).
  { apply Z.nle_gt. intros H. specialize (N1 ltac:(lia)). assert (B : (inject_Z ((2 * n - 1) * (2 * n - 1)) <= inject_Z 800000000)%Q).
    { eapply Qle_trans; [exact N1|]. change (inject_Z (10000 * 10000)) with (100000000 # 1)%Q. change (inject_Z 800000000) with (800000000 # 1)%Q. lra. }
    rewrite <- Zle_Qle in B. assert ((39999 * 39999 <= (2 * n - 1) * (2 * n - 1))%Z) by (apply Z.mul_le_mono_nonneg; lia). lia. }
  assert (W : w < 1000) by lia. assert (Ls : length s <= 3) by (apply (decimal_length D); [change (10 ^ Z.of_nat 3)%Z with 1000%Z|]; lia). lia.
Qed.
Lemma cell_width c t : small c -> shows_acell c t -> length t = 12.
Proof.
  destruct c as [|q|q]; cbn [small shows_acell].
  - intros _ ->. apply repeat_length.
  - intros H (s & T & ->). apply right_length. pose proof (percent_length H T). lia.
  - intros H (s & T & ->). apply right_length. pose proof (root_length H T). lia.
Qed.
Lemma cells_at cs ts : Forall small cs -> Forall2 shows_acell cs ts ->
  length (concat ts) = 12 * length cs /\ forall j c, nth_error cs j = Some c -> shows_acell c (firstn 12 (skipn (12 * j) (concat ts))).
Proof.
  intros Sm F. induction F as [|c t cs ts H F IH]; [split; [reflexivity|intros [|j]; discriminate]|]. inversion Sm as [|? ? S1 S2]; subst. destruct (IH S2) as [L A].
  pose proof (@cell_width c t S1 H) as W. cbn [concat List.length]. split; [rewrite app_length, W, L; lia|]. intros [|j] x E; cbn [nth_error] in E.
  - injection E as <-. change (12 * 0) with 0. rewrite skipn_O, firstn_app, W, Nat.sub_diag, firstn_O, app_nil_r, <- W, firstn_all. exact H.
  - specialize (A j x E). replace (12 * S j) with (length t + 12 * j) by lia. rewrite skipn_app. rewrite skipn_all2 by lia. cbn [app]. replace (length t + 12 * j - length t) with (12 * j) by lia. exact A.
Qed.
Lemma row_columns name cs l : length name <= 11 -> Forall small cs -> shows_aline (ARow name cs) l -> fixed_columns name cs l.
Proof.
  intros N S (ts & F & ->). destruct (cells_at S F) as [L A]. assert (W : length (label_text name) = 12) by (unfold label_text; rewrite app_length, right_length by exact N; reflexivity).
  split; [rewrite app_length, W, L; lia|]. split; [rewrite firstn_app, W, Nat.sub_diag, firstn_O, app_nil_r, <- W, firstn_all; reflexivity|].
  intros j c E. replace (12 * (j + 1)) with (length (label_text name) + 12 * j) by lia. rewrite skipn_app. rewrite skipn_all2 by lia. cbn [app]. replace (length (label_text name) + 12 * j - length (label_text name)) with (12 * j) by lia. now apply A.
Qed.
Lemma qvar_bound l : l <> [] -> (forall x, In x l -> 0 <= x <= 1)%Q -> (0 <= qvar l <= 2)%Q.
Proof.
  intros NE H. split; [now apply qvar_nonneg|]. destruct (qmean_bounds NE H) as [M0 M1]. unfold qvar. set (m := qmean l) in *. clearbody m. destruct l as [|x [|y l']]; [congruence| |].
  - cbn [List.length]. change (inject_Z (Z.of_nat 1 - 1)) with 0%Q. unfold Qdiv. change (/ 0)%Q with 0%Q. rewrite Qmult_0_r. lra.
  - set (l := x :: y :: l') in *. apply Qle_shift_div_r.
    + unfold l, Qlt, inject_Z. cbn [List.length Qnum Qden]. lia.
    + destruct (@total_bounds 0 1 (map (fun x => (x - m) * (x - m))%Q l)) as [_ B].
      { intros v Hv. apply in_map_iff in Hv. destruct Hv as (u & <- & Hu). specialize (H u Hu). split; [apply sq_nonneg|].
        assert (A : (-(1) <= u - m <= 1)%Q) by lra. assert (G : (0 <= (1 - (u - m)) * (1 + (u - m)))%Q) by (apply Qmult_le_0_compat; lra).
        assert (E : ((1 - (u - m)) * (1 + (u - m)) == 1 - (u - m) * (u - m))%Q) by ring. rewrite E in G. lra. }
      rewrite map_length in B. eapply Qle_trans; [exact B|]. rewrite Qmult_1_l. assert (I : (Z.of_nat (length l) <= 2 * (Z.of_nat (length l) - 1))%Z) by (unfold l; cbn [List.length]; lia).
      rewrite Zle_Qle, inject_Z_mult in I. exact I.
Qed.

Section Report.
Variables N R : Type.
Variable neqb : N -> N -> bool.
Hypothesis neqb_spec : forall x y, neqb x y = true <-> x = y.
Variable reqb : R -> R -> bool.
Hypothesis reqb_spec : forall x y, reqb x y = true <-> x = y.
Variable truthy : R -> bool.
Variable lleb : text -> text -> bool.
Hypothesis lleb_total : forall x y, lleb x y = true \/ lleb y x = true.
Variable rel_text : R -> text.
Variable relations : list R.
Hypothesis truthy_ok : forall r, In r relations -> truthy r = true.
Variable corpora : list (list (digraph N R)).
Variable given : option (list text).
Variable len : nat.
Notation ann := (names_or_default given (length corpora)).
Hypothesis Hlen : length ann = length corpora.
Hypothesis ND : NoDup ann.
Hypothesis Two : 2 <= length ann.
Hypothesis Good : Forall (fun c => Forall (goodg relations) c /\ length c = len) corpora.
Variable corpus_of : text -> list (list (triple N R)).
Hypothesis corpus_ok : forall i name c, nth_error ann i = Some name -> nth_error corpora i = Some c -> corpus_of name = map (@edges N R) c.
Definition score (k : option R) (m : measure_key) (t p : text) : Q := measure_of m (counted neqb reqb k (corpus_of t, corpus_of p)).
Lemma tables_shown : exists evals, cross_evaluate neqb reqb truthy text_eqb relations corpora ann = Ok evals /\
  forall k m, k = None \/ (exists r, k = Some r /\ In r relations) ->
  exists T, tableize reqb text_eqb lleb k (measure_value m) evals = Ok T /\ shown T ann (score k m).
Proof.
  destruct (@agreement_all N R text neqb neqb_spec reqb reqb_spec truthy text_eqb lleb text_eqb_spec relations truthy_ok corpora ann len Hlen ND Two Good) as (evals & E & _ & H).
  exists evals. split; [exact E|]. intros k m Hk. destruct (H k Hk) as (w & Hw & K). destruct (K (measure_value m)) as (T & ET & P & C & M & A & V & AV). clear K H.
  exists T. split; [exact ET|].
  assert (S : forall t p, In t ann -> In p ann -> t <> p -> (measure_value m (w t p) == score k m t p)%Q).
  { intros t p It Ip Ne. apply In_nth_error in It. destruct It as [i Hi]. apply In_nth_error in Ip. destruct Ip as [j Hj].
    destruct (Hw i j t p Hi Hj Ne) as (ct & cp & rw & Ci & Cj & Er & D).
    rewrite Forall_forall in Good. destruct (Good ct (nth_error_In _ _ Ci)) as [G1 L1]. destruct (Good cp (nth_error_In _ _ Cj)) as [G2 L2].
    destruct (@eval_row_of N R neqb reqb truthy neqb_spec reqb_spec relations truthy_ok ct cp rw G1 G2 (eq_trans L1 (eq_sym L2)) Er) as [R1 R2].
    specialize (R2 k). rewrite D in R2. rewrite measure_ok by exact R2. unfold score. rewrite (corpus_ok i Hi Ci), (corpus_ok j Hj Cj).
    assert (Ik : In k (keys reqb relations)); [|specialize (R1 k Ik); rewrite D in R1; rewrite R1; reflexivity].
    apply (keys_in reqb truthy reqb_spec). destruct Hk as [->|(r & -> & Hr)]; [now left|right; exists r; auto]. }
  assert (Col : forall c, In c ann -> Forall2 Qeq (column text_eqb (fun t p => measure_value m (w t p)) ann c) (column text_eqb (score k m) ann c)).
  { intros c Hc. unfold column. apply f2_maps. intros t Ht. apply (@in_others _ text_eqb text_eqb_spec) in Ht. destruct Ht as [I1 I2]. apply S; auto. }
  assert (All : Forall2 Qeq (all_scores text_eqb (fun t p => measure_value m (w t p)) ann) (all_scores text_eqb (score k m) ann)).
  { unfold all_scores. apply f2_maps. intros [t p] Ht. apply (@in_ordered_pairs _ text_eqb text_eqb_spec) in Ht. destruct Ht as (I1 & I2 & I3). apply S; auto. }
  constructor.
  - exact P.
  - intros t p It Ip Ne. exists (measure_value m (w t p)). split; [now apply C|now apply S].
  - intros c Hc. destruct (M c Hc) as (x & D & E'). exists x. split; [exact D|]. rewrite E'. apply qmean_ext. now apply Col.
  - rewrite A. now apply qmean_ext.
  - intros c Hc. destruct (V c Hc) as (x & D & E'). exists x. split; [exact D|]. rewrite E'. apply qvar_ext. now apply Col.
  - rewrite AV. now apply qvar_ext.
Qed.
Lemma report_ok keys measures : (forall k, In k keys -> k = None \/ (exists r, k = Some r /\ In r relations)) ->
  exists ls lines, agreement_report neqb reqb truthy lleb rel_text relations corpora given keys measures = Ok lines /\
    Permutation ls ann /\ Sorted (fun x y => lleb x y = true) ls /\
    Forall2 shows_aline (agreement_lines text_eqb rel_text keys measures ann ls score) lines.
Proof.
  intros Hk. destruct tables_shown as (evals & E & H). unfold agreement_report. rewrite E. cbn [bind].
  set (ls := true_names text_eqb lleb (map fst evals)). exists ls.
  assert (W : forall k m, In k keys -> exists T, tableize reqb text_eqb lleb k (measure_value m) evals = Ok T /\ exists l, write_matrix T (upper_measure m) = Ok l /\
     Forall2 shows_aline ([APlain (Agreerep_spec.measure_head m); APlain []] ++ matrix text_eqb ann ls (score k m)) l).
  { intros k m Ik. destruct (H k m (Hk k Ik)) as (T & ET & Sh). exists T. split; [exact ET|]. pose proof (tableize_labels _ _ _ _ _ _ ET) as Lb. fold ls in Lb. rewrite <- Lb.
    assert (NE : upper_measure m <> []) by (destruct m; discriminate). destruct (write_matrix_ok Two ND Sh NE) as (l & W1 & W2). exists l. split; [exact W1|]. destruct m; exact W2. }
  assert (Tabs : exists tables, mapM (fun k => ts <- mapM (fun m => T <- tableize reqb text_eqb lleb k (measure_value m) evals ;; Ok (m, T)) measures ;; Ok (k, ts)) keys = Ok tables /\
    exists lines, write_tables rel_text tables = Ok lines /\ Forall2 shows_aline (agreement_lines text_eqb rel_text keys measures ann ls score) lines).
  { clear Hk H E. unfold write_tables, agreement_lines. induction keys as [|k ks IH]; [exists []; split; [reflexivity|]; exists []; split; [reflexivity|constructor]|].
    destruct IH as (tables & Et & lines & Ew & F); [intros k' m' I'; apply W; now right|].
    assert (Ms : exists ts, mapM (fun m => T <- tableize reqb text_eqb lleb k (measure_value m) evals ;; Ok (m, T)) measures = Ok ts /\
      exists ll, mapM (fun mt => write_matrix (snd mt) (upper_measure (fst mt))) ts = Ok ll /\
      Forall2 shows_aline (concat (map (fun m => [APlain (Agreerep_spec.measure_head m); APlain []] ++ matrix text_eqb ann ls (score k m)) measures)) (concat ll)).
    { assert (Wk : forall m, exists T, tableize reqb text_eqb lleb k (measure_value m) evals = Ok T /\ exists l, write_matrix T (upper_measure m) = Ok l /\
        Forall2 shows_aline ([APlain (Agreerep_spec.measure_head m); APlain []] ++ matrix text_eqb ann ls (score k m)) l) by (intros m; apply W; now left).
      clear -Wk. induction measures as [|m ms IH]; [exists []; split; [reflexivity|]; exists []; split; [reflexivity|constructor]|].
      destruct IH as (ts & E1 & ll & E2 & F). destruct (Wk m) as (T & ET & l & EL & FL). exists ((m, T) :: ts). cbn [mapM]. rewrite ET. cbn [bind]. rewrite E1. cbn [bind]. split; [reflexivity|].
      exists (l :: ll). cbn [mapM fst snd]. rewrite EL. cbn [bind]. rewrite E2. cbn [bind]. split; [reflexivity|]. cbn [map concat]. apply Forall2_app; [exact FL|exact F]. }
    destruct Ms as (ts & E1 & ll & E2 & F2). exists ((k, ts) :: tables). cbn [mapM]. rewrite E1. cbn [bind]. rewrite Et. cbn [bind]. split; [reflexivity|].
    cbn [mapM fst snd]. rewrite E2. cbn [bind]. destruct (mapM _ tables) as [l2|]; cbn [bind] in Ew |- *; [|discriminate Ew]. injection Ew as <-. eexists. split; [reflexivity|].
    cbn [map concat]. apply Forall2_app; [|exact F]. apply Forall2_app; [|exact F2]. repeat (constructor; [reflexivity|]). constructor. }
  destruct Tabs as (tables & -> & lines & Ew & F). cbn [bind]. exists lines. split; [exact Ew|]. split; [|split; [|exact F]].
  - destruct (H None MPrec (or_introl eq_refl)) as (T & ET & Sh). pose proof (tableize_labels _ _ _ _ _ _ ET) as Lb. fold ls in Lb. rewrite <- Lb. apply (sh_perm Sh).
  - apply true_names_sorted. exact lleb_total.
Qed.
Lemma score_range k m t p : k = None \/ (exists r, k = Some r /\ In r relations) -> In t ann -> In p ann -> t <> p -> (0 <= score k m t p <= 1)%Q.
Proof.
  intros Hk It Ip Ne. destruct (@agreement_all N R text neqb neqb_spec reqb reqb_spec truthy text_eqb lleb text_eqb_spec relations truthy_ok corpora ann len Hlen ND Two Good) as (evals & _ & _ & H).
  destruct (H k Hk) as (w & Hw & _). apply In_nth_error in It. destruct It as [i Hi]. apply In_nth_error in Ip. destruct Ip as [j Hj].
  destruct (Hw i j t p Hi Hj Ne) as (ct & cp & rw & Ci & Cj & Er & D).
  rewrite Forall_forall in Good. destruct (Good ct (nth_error_In _ _ Ci)) as [G1 L1]. destruct (Good cp (nth_error_In _ _ Cj)) as [G2 L2].
  destruct (@eval_row_of N R neqb reqb truthy neqb_spec reqb_spec relations truthy_ok ct cp rw G1 G2 (eq_trans L1 (eq_sym L2)) Er) as [R1 R2].
  specialize (R2 k). rewrite D in R2. unfold score. rewrite (corpus_ok i Hi Ci), (corpus_ok j Hj Cj).
  assert (Ik : In k (keys reqb relations)). { apply (keys_in reqb truthy reqb_spec). destruct Hk as [->|(r & -> & Hr)]; [now left|right; exists r; auto]. }
  specialize (R1 k Ik). rewrite D in R1. destruct R2 as [B1 B2]. change (t_common (to3 (w t p)) <= t_true (to3 (w t p))) in B1. change (t_common (to3 (w t p)) <= t_pred (to3 (w t p))) in B2. rewrite R1 in B1, B2. apply measure_range; [exact B1|exact B2].
Qed.
Lemma rows_small keys measures ls name cs : (forall k, In k keys -> k = None \/ (exists r, k = Some r /\ In r relations)) -> Permutation ls ann ->
  In (ARow name cs) (agreement_lines text_eqb rel_text keys measures ann ls score) -> (In name ann \/ name = txt "mean" \/ name = txt "SD") /\ Forall small cs.
Proof.
  intros Hk P I. unfold agreement_lines in I. apply in_concat in I. destruct I as (x & Hx & I). apply in_map_iff in Hx. destruct Hx as (k & <- & Ik). specialize (Hk k Ik).
  apply in_app_or in I. destruct I as [I|I]; [cbn [In] in I; decompose [or] I; try discriminate; contradiction|].
  apply in_concat in I. destruct I as (y & Hy & I). apply in_map_iff in Hy. destruct Hy as (m & <- & Im).
  apply in_app_or in I. destruct I as [I|I]; [cbn [In] in I; decompose [or] I; try discriminate; contradiction|].
  assert (In' : forall z, In z ls -> In z ann) by (intros z; apply (Permutation_in _ P)).
  assert (Cb : forall c z, In c ls -> In z (column text_eqb (score k m) ann c) -> (0 <= z <= 1)%Q).
  { intros c z Hc Hz. unfold column in Hz. apply in_map_iff in Hz. destruct Hz as (t & <- & Ht). apply (@in_others _ text_eqb text_eqb_spec) in Ht. destruct Ht as [A B]. apply score_range; auto. }
  assert (Ab : forall z, In z (all_scores text_eqb (score k m) ann) -> (0 <= z <= 1)%Q).
  { intros z Hz. unfold all_scores in Hz. apply in_map_iff in Hz. destruct Hz as ([t p] & <- & Ht). apply (@in_ordered_pairs _ text_eqb text_eqb_spec) in Ht. destruct Ht as (A & B & C). apply score_range; auto. }
  unfold matrix in I. apply in_app_or in I. destruct I as [I|I]; [cbn [In] in I; decompose [or] I; try discriminate; contradiction|].
  apply in_app_or in I. destruct I as [I|I].
  - apply in_map_iff in I. destruct I as (r & E & Hr). injection E as <- <-. split; [left; now apply In'|]. apply Forall_forall. intros c Hc. apply in_map_iff in Hc. destruct Hc as (q & <- & Hq).
    destruct (text_eqb r q) eqn:T; [exact I|]. cbn [small]. apply score_range; auto. intros ->. assert (text_eqb q q = true) by now apply text_eqb_spec. congruence.
  - cbn [In] in I. destruct I as [I|[I|[I|[I|[I|[]]]]]]; try discriminate; injection I as <- <-.
    + split; [right; now left|]. apply Forall_app. split; [|constructor; [|constructor]].
      * apply Forall_forall. intros c Hc. apply in_map_iff in Hc. destruct Hc as (q & <- & Hq). cbn [small]. apply qmean_bounds; [apply column_nonempty; auto|]. intros z Hz. now apply (Cb q).
      * cbn [small]. apply qmean_bounds; [apply all_nonempty; auto|exact Ab].
    + split; [right; now right|]. apply Forall_app. split; [|constructor; [|constructor]].
      * apply Forall_forall. intros c Hc. apply in_map_iff in Hc. destruct Hc as (q & <- & Hq). cbn [small]. apply qvar_bound; [apply column_nonempty; auto|]. intros z Hz. now apply (Cb q).
      * cbn [small]. apply qvar_bound; [apply all_nonempty; auto|exact Ab].
Qed.
Lemma columns_ok keys measures : (forall k, In k keys -> k = None \/ (exists r, k = Some r /\ In r relations)) -> Forall (fun a => length a <= 11) ann ->
  forall ls lines, Permutation ls ann -> Forall2 shows_aline (agreement_lines text_eqb rel_text keys measures ann ls score) lines ->
  forall i name cs l, nth_error (agreement_lines text_eqb rel_text keys measures ann ls score) i = Some (ARow name cs) -> nth_error lines i = Some l -> fixed_columns name cs l.
Proof.
  intros Hk W ls lines P F i name cs l E1 E2. destruct (@rows_small keys measures ls name cs Hk P (nth_error_In _ _ E1)) as [Hn Hs].
  assert (Sh : shows_aline (ARow name cs) l).
  { clear -F E1 E2. revert i E1 E2. induction F as [|x y xs ys H _ IH]; intros [|i] E1 E2; cbn [nth_error] in *; try discriminate; [|now apply (IH i)]. injection E1 as ->. injection E2 as ->. exact H. }
  apply row_columns; [|exact Hs|exact Sh]. destruct Hn as [Hn|[->| ->]]; [rewrite Forall_forall in W; now apply W|cbn; lia|cbn; lia].
Qed.
End Report.

(** ** Names *)
Lemma digit_inj a b : a < 10 -> b < 10 -> digit a = digit b -> a = b.
Proof. intros A B H. apply (f_equal nat_of_ascii) in H. unfold digit in H. rewrite !nat_ascii_embedding in H by lia. lia. Qed.
Lemma decimal_ne n t : decimal n t -> t <> [].
Proof. destruct 1; [discriminate|]. intros K. apply app_eq_nil in K. destruct K. discriminate. Qed.
Lemma decimal_inj n t : decimal n t -> forall m, decimal m t -> n = m.
Proof.
  induction 1 as [d D|n d t P D H IH]; intros m Hm.
  - remember [digit d] as t eqn:E. destruct Hm as [e F|m e u P' F Hm]; [injection E as E; now apply digit_inj|]. apply (app_inj_tail u [] _ _) in E. destruct E as [-> _]. now apply decimal_ne in Hm.
  - remember (t ++ [digit d]) as u eqn:E. destruct Hm as [e F|m e u P' F Hm]; [symmetry in E; apply (app_inj_tail t [] _ _) in E; destruct E as [-> _]; now apply decimal_ne in H|].
    apply app_inj_tail in E. destruct E as [-> E]. apply digit_inj in E; [|assumption|assumption]. rewrite (IH m Hm). lia.
Qed.
Lemma decimal_fun n t : decimal n t -> forall t', decimal n t' -> t = t'.
Proof.
  induction 1 as [d D|n d t P D H IH]; intros t' Ht.
  - inversion Ht as [e F E1|m e u P' F Hm E1]; subst; [reflexivity|lia].
  - inversion Ht as [e F E1|m e u P' F Hm E1]; subst; [lia|]. assert (m = n /\ e = d) as [-> ->] by lia. now rewrite (IH u Hm).
Qed.
Lemma numeral_fun n t t' : numeral (Z.of_nat n) t -> numeral (Z.of_nat n) t' -> t = t'.
Proof. intros [[_ A]|[A _]] [[_ B]|[B _]]; try lia. exact (decimal_fun A B). Qed.
Lemma numeral_inj n m t : numeral (Z.of_nat n) t -> numeral (Z.of_nat m) t -> n = m.
Proof. intros [[_ A]|[A _]] [[_ B]|[B _]]; try lia. rewrite Nat2Z.id in A, B. exact (decimal_inj A B). Qed.
Lemma names_spec given n : annotator_names given n (names_or_default given n).
Proof.
  assert (D : length (map (fun i => "A"%char :: str_N (N.of_nat (i + 1))) (seq 0 n)) = n /\
    forall i s, nth_error (map (fun i => "A"%char :: str_N (N.of_nat (i + 1))) (seq 0 n)) i = Some s -> exists t, numeral (Z.of_nat (i + 1)) t /\ s = "A"%char :: t).
  { split; [now rewrite map_length, seq_length|]. intros i s H. assert (L : i < n). { rewrite <- (seq_length n 0), <- (map_length (fun i => "A"%char :: str_N (N.of_nat (i + 1)))). apply nth_error_Some. congruence. }
    rewrite nth_error_map in H. assert (E : nth_error (seq 0 n) i = Some i). { rewrite (nth_error_nth' _ 0) by (rewrite seq_length; exact L). now rewrite seq_nth. }
    rewrite E in H. cbn [option_map] in H. injection H as <-. exists (str_N (N.of_nat (i + 1))). split; [apply (show_nat_numeral (i + 1))|reflexivity]. }
  destruct given as [[|a l]|]; [exact D|reflexivity|exact D].
Qed.
Lemma annotator_names_fun given n a b : annotator_names given n a -> annotator_names given n b -> a = b.
Proof.
  assert (D : forall u v : list text, length u = n /\ (forall i s, nth_error u i = Some s -> exists t, numeral (Z.of_nat (i + 1)) t /\ s = "A"%char :: t) ->
     length v = n /\ (forall i s, nth_error v i = Some s -> exists t, numeral (Z.of_nat (i + 1)) t /\ s = "A"%char :: t) -> u = v).
  { intros u v [L1 H1] [L2 H2]. apply nth_ext with [] []; [congruence|]. intros i Hi. assert (Hj : i < length v) by congruence.
    destruct (nth_error u i) as [s|] eqn:E1; [|apply nth_error_None in E1; lia]. destruct (nth_error v i) as [s'|] eqn:E2; [|apply nth_error_None in E2; lia].
    rewrite (nth_error_nth _ _ _ E1), (nth_error_nth _ _ _ E2). destruct (H1 i s E1) as (t & N1 & ->). destruct (H2 i s' E2) as (t' & N2 & ->). f_equal. now apply (@numeral_fun (i + 1)). }
  destruct given as [[|x l]|]; cbn [annotator_names]; [apply D|congruence|apply D].
Qed.
Lemma default_nodup n : NoDup (names_or_default None n).
Proof.
  cbn [names_or_default]. apply FinFun.Injective_map_NoDup; [|apply seq_NoDup]. intros i j H. injection H as H.
  assert (E : numeral (Z.of_nat (i + 1)) (str_N (N.of_nat (i + 1)))) by apply (show_nat_numeral (i + 1)). assert (E' : numeral (Z.of_nat (j + 1)) (str_N (N.of_nat (j + 1)))) by apply (show_nat_numeral (j + 1)).
  rewrite H in E. pose proof (@numeral_inj _ _ _ E E'). lia.
Qed.
(** ** Symmetry *)
Section Symmetry.
Variables N R : Type.
Variable neqb : N -> N -> bool.
Hypothesis neqb_spec : forall x y, neqb x y = true <-> x = y.
Variable reqb : R -> R -> bool.
Hypothesis reqb_spec : forall x y, reqb x y = true <-> x = y.
Lemma counted_swap k (ts ps : list (list (triple N R))) : Forall (fun l => NoDup (map fst l)) ts -> Forall (fun l => NoDup (map fst l)) ps ->
  t_true (counted neqb reqb k (ps, ts)) = t_pred (counted neqb reqb k (ts, ps)) /\ t_pred (counted neqb reqb k (ps, ts)) = t_true (counted neqb reqb k (ts, ps)) /\
  t_common (counted neqb reqb k (ps, ts)) = t_common (counted neqb reqb k (ts, ps)).
Proof.
  intros Ht Hp. rewrite Forall_forall in Ht, Hp. destruct k as [r|]; cbn [counted t_true t_pred t_common fst snd].
  - split; [apply over_pairs_swap; auto|]. split; [apply over_pairs_swap; auto|]. apply over_pairs_swap. intros a b Ia Ib. apply n_both_rel_sym; auto.
  - split; [apply over_pairs_swap; auto|]. split; [apply over_pairs_swap; auto|]. apply over_pairs_swap. intros a b Ia Ib. apply n_both_any_sym; auto.
Qed.
Lemma measures_swap k (ts ps : list (list (triple N R))) : Forall (fun l => NoDup (map fst l)) ts -> Forall (fun l => NoDup (map fst l)) ps ->
  measure_of MF (counted neqb reqb k (ps, ts)) = measure_of MF (counted neqb reqb k (ts, ps)) /\
  measure_of MPrec (counted neqb reqb k (ps, ts)) = measure_of MRec (counted neqb reqb k (ts, ps)).
Proof.
  intros Ht Hp. destruct (@counted_swap k ts ps Ht Hp) as (A & B & C). cbn [measure_of]. rewrite A, B, C. split; [|reflexivity]. now rewrite Nat.add_comm.
Qed.
End Symmetry.
