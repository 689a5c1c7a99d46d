From Coq Require Import Ascii ZArith NArith List Bool Arith Lia.
From Verif Require Import Py PyLemmas Number_model Number_proof Table_spec Table_model Table_proof Evalrun_proof Agreerep_proof Grid_proof Showmat_spec Showmat_model.
Import ListNotations.
Open Scope list_scope.
Open Scope nat_scope.
Section S.
Variable lg : Z -> nat.
Notation width_of := (width_of lg). Notation log10 := (log10 lg).
Definition positive (m : list (list Z)) := forall row v, In row m -> In v row -> (0 < v)%Z.
Definition maxw (w : nat) (row : list Z) : nat := fold_left (fun w v => Nat.max w (lg v + 1)) row w.
Lemma row_width row : forall w, foldM (fun w v => l <- log10 v ;; Ok (Nat.max w (l + 1))) w row =
  if forallb (fun v => (0 <? v)%Z) row then Ok (maxw w row) else Err ValueError.
Proof.
  induction row as [|v row IH]; intros w; [reflexivity|]. cbn [foldM forallb maxw fold_left]. unfold Showmat_model.log10 at 1. destruct (0 <? v)%Z; [|reflexivity].
  cbn [bind andb]. apply IH.
Qed.
Lemma width_rows m : forall w, foldM (fun w row => foldM (fun w v => l <- log10 v ;; Ok (Nat.max w (l + 1))) w row) w m =
  if forallb (forallb (fun v => (0 <? v)%Z)) m then Ok (fold_left maxw m w) else Err ValueError.
Proof.
  induction m as [|row m IH]; intros w; [reflexivity|]. cbn [foldM forallb fold_left]. rewrite row_width. destruct (forallb _ row); [|reflexivity]. cbn [bind andb]. apply IH.
Qed.
Lemma positive_spec m : forallb (forallb (fun v => (0 <? v)%Z)) m = true <-> positive m.
Proof.
  rewrite forallb_forall. split.
  - intros H row v R I. specialize (H row R). rewrite forallb_forall in H. specialize (H v I). now apply Z.ltb_lt.
  - intros H row R. apply forallb_forall. intros v I. apply Z.ltb_lt. eapply H; eauto.
Qed.
Lemma width_ok m : positive m -> width_of m = Ok (fold_left maxw m 0).
Proof. intros H. unfold Showmat_model.width_of. rewrite width_rows. now rewrite (proj2 (positive_spec m) H). Qed.
Lemma width_err m : ~ positive m -> width_of m = Err ValueError.
Proof. intros H. unfold Showmat_model.width_of. rewrite width_rows. destruct (forallb _ m) eqn:E; [|reflexivity]. exfalso. apply H. now apply positive_spec. Qed.
Lemma maxw_le row : forall w, w <= maxw w row.
Proof. induction row as [|v row IH]; intros w; [cbn; lia|]. cbn [maxw fold_left]. specialize (IH (Nat.max w (lg v + 1))). unfold maxw in IH. lia. Qed.
Lemma maxw_in row v : In v row -> forall w, lg v + 1 <= maxw w row.
Proof.
  induction row as [|u row IH]; [intros []|]. intros [->|I] w; cbn [maxw fold_left].
  - pose proof (maxw_le row (Nat.max w (lg v + 1))) as H. unfold maxw in H. lia.
  - now apply IH.
Qed.
Lemma rows_le m : forall w, w <= fold_left maxw m w.
Proof. induction m as [|row m IH]; intros w; [cbn; lia|]. cbn [fold_left]. specialize (IH (maxw w row)). pose proof (maxw_le row w). lia. Qed.
Lemma rows_in m row v : In row m -> In v row -> forall w, lg v + 1 <= fold_left maxw m w.
Proof.
  induction m as [|r m IH]; [intros []|]. intros [->|R] I w; cbn [fold_left].
  - pose proof (rows_le m (maxw w row)). pose proof (maxw_in row v I w). lia.
  - now apply IH.
Qed.
Lemma maxw_or row : forall w, maxw w row = w \/ exists v, In v row /\ maxw w row = lg v + 1.
Proof.
  induction row as [|u row IH]; intros w; [now left|]. cbn [maxw fold_left]. fold (maxw (Nat.max w (lg u + 1)) row). destruct (IH (Nat.max w (lg u + 1))) as [E|(v & I & E)].
  - rewrite E. destruct (Nat.max_spec w (lg u + 1)) as [[_ ->]|[_ ->]]; [right; exists u; split; auto; now left|now left].
  - right. exists v. split; auto. now right.
Qed.
Lemma rows_or m : forall w, fold_left maxw m w = w \/ exists row v, In row m /\ In v row /\ fold_left maxw m w = lg v + 1.
Proof.
  induction m as [|r m IH]; intros w; [now left|]. cbn [fold_left]. destruct (IH (maxw w r)) as [E|(row & v & R & I & E)].
  - rewrite E. destruct (maxw_or r w) as [->|(v & I & ->)]; [now left|]. right. exists r, v. split; [now left|auto].
  - right. exists row, v. split; [now right|auto].
Qed.
Lemma str_Z_nat v : (0 <= v)%Z -> str_Z v = str_N (Z.to_N v).
Proof. destruct v; auto; lia. Qed.
Lemma length_up v k : (0 < v)%Z -> (v < 10 ^ Z.of_nat k)%Z -> length (str_Z v) <= k.
Proof.
  intros P L. destruct (str_Z_numeral v) as [[_ D]|[N _]]; [|lia]. apply (decimal_length D); [rewrite Z2Nat.id; lia|].
  destruct k; [|lia]. cbn in L. lia.
Qed.
Lemma length_low v k : (0 < v)%Z -> (10 ^ Z.of_nat k <= v)%Z -> k < length (str_Z v).
Proof.
  intros P L. rewrite str_Z_nat by lia. pose proof (str_upper (Z.to_N v)) as U. apply N2Z.inj_lt in U. rewrite Z2N.id in U by lia. rewrite N2Z.inj_pow in U.
  change (Z.of_N 10) with 10%Z in U. rewrite nat_N_Z in U. assert (10 ^ Z.of_nat k < 10 ^ Z.of_nat (length (str_N (Z.to_N v))))%Z by lia.
  apply Z.pow_lt_mono_r_iff in H; lia.
Qed.
Definition line0 (w : nat) (row : list Z) : text := cells w ["["%char] row ++ ["]"%char].
Lemma cells_more w row : cells w [","%char; space] row = concat (map (fun g => ","%char :: space :: g) (map (cell w) row)).
Proof. induction row as [|v row IH]; [reflexivity|]. cbn [cells map concat app]. now rewrite IH. Qed.
Lemma line0_ok w row : row_line (map (cell w) row) (line0 w row).
Proof. destruct row as [|v row]; [reflexivity|]. unfold line0. cbn [cells map row_line app]. rewrite cells_more. now rewrite <- app_assoc. Qed.
Lemma lines_eq w m : concat (map (line w) m) = in_lines (map (line0 w) m).
Proof.
  unfold in_lines. rewrite map_map. f_equal. apply map_ext. intros row. unfold line, line0. now rewrite <- app_assoc.
Qed.
Lemma cell_ok w v : length (str_Z v) <= w -> right_in w v (cell w v).
Proof. intros L. exists (w - length (str_Z v)), (str_Z v). split; [apply str_Z_numeral|]. split; [reflexivity|]. now apply rjust_length. Qed.
Lemma matrix_ok w m : (forall row v, In row m -> In v row -> length (str_Z v) <= w) -> matrix_lines w m (map (line0 w) m).
Proof.
  intros H. unfold matrix_lines. induction m as [|row m IH]; cbn; constructor.
  - exists (map (cell w) row). split; [|apply line0_ok]. assert (G : forall v, In v row -> length (str_Z v) <= w) by (intros v I; eapply H; eauto; now left).
    clear - G. induction row as [|v row IH]; cbn; constructor; [apply cell_ok; apply G; now left|]. apply IH. intros u I. apply G. now right.
  - apply IH. intros r v R I. apply (H r v); auto. now right.
Qed.
(** recovery *)
Definition plain (c : ascii) := c <> space /\ ~ is_digit c.
Lemma space_no_digit : ~ is_digit space.
Proof. intros (d & L & E). assert (B : blank space = false) by (apply (Forall_inv (digit_word [space] (Forall_cons space (ex_intro _ d (conj L E)) (Forall_nil _))))). discriminate. Qed.
Lemma digits_then d : forall d' c r c' r', Forall is_digit d -> Forall is_digit d' -> ~ is_digit c -> ~ is_digit c' -> d ++ c :: r = d' ++ c' :: r' -> d = d' /\ c :: r = c' :: r'.
Proof.
  induction d as [|x d IH]; intros [|y d'] c r c' r' D D' C C' E; cbn [app] in E.
  - auto.
  - exfalso. injection E as -> _. apply C. exact (Forall_inv D').
  - exfalso. injection E as -> _. apply C'. exact (Forall_inv D).
  - injection E as -> E. destruct (IH d' c r c' r' (Forall_inv_tail D) (Forall_inv_tail D') C C' E) as [-> ->]. auto.
Qed.
Lemma spaces_then k : forall k' d d' c r c' r', d <> [] -> d' <> [] -> Forall is_digit d -> Forall is_digit d' -> ~ is_digit c -> ~ is_digit c' ->
  repeat space k ++ d ++ c :: r = repeat space k' ++ d' ++ c' :: r' -> d = d' /\ c :: r = c' :: r'.
Proof.
  induction k as [|k IH]; intros [|k'] d d' c r c' r' N N' D D' C C' E; cbn [repeat app] in E.
  - now apply digits_then.
  - exfalso. destruct d as [|x d]; [congruence|]. injection E as -> _. apply space_no_digit. exact (Forall_inv D).
  - exfalso. destruct d' as [|x d']; [congruence|]. cbn [app] in E. injection E as <- _. apply space_no_digit. exact (Forall_inv D').
  - injection E as E. eapply IH; eauto.
Qed.
Lemma cell_then w w' v v' c r c' r' : (0 < v)%Z -> (0 < v')%Z -> ~ is_digit c -> ~ is_digit c' -> cell w v ++ c :: r = cell w' v' ++ c' :: r' -> v = v' /\ c :: r = c' :: r'.
Proof.
  intros P P' C C' E. unfold cell, rjust in E. rewrite <- !app_assoc in E. rewrite (str_Z_nat v), (str_Z_nat v') in E by lia.
  assert (N : forall n, str_N n <> []) by (intros n K; now apply str_ne in K).
  destruct (spaces_then _ _ _ _ _ _ _ _ (N _) (N _) (str_digits _) (str_digits _) C C' E) as [Sz R]. split; auto.
  rewrite <- (str_Z_nat v), <- (str_Z_nat v') in Sz by lia. destruct (str_Z_numeral v) as [[_ A]|[A _]]; [|lia]. destruct (str_Z_numeral v') as [[_ B]|[B _]]; [|lia].
  rewrite <- Sz in B. pose proof (decimal_inj A B). lia.
Qed.
Lemma comma_no : ~ is_digit ","%char. Proof. intros (d & L & E). assert (H : (d = 0 \/ d = 1 \/ d = 2 \/ d = 3 \/ d = 4 \/ d = 5 \/ d = 6 \/ d = 7 \/ d = 8 \/ d = 9)%N) by lia. repeat destruct H as [->|H]; try (vm_compute in E; discriminate). subst. vm_compute in E. discriminate. Qed.
Lemma bracket_no : ~ is_digit "]"%char. Proof. intros (d & L & E). assert (H : (d = 0 \/ d = 1 \/ d = 2 \/ d = 3 \/ d = 4 \/ d = 5 \/ d = 6 \/ d = 7 \/ d = 8 \/ d = 9)%N) by lia. repeat destruct H as [->|H]; try (vm_compute in E; discriminate). subst. vm_compute in E. discriminate. Qed.
Lemma cells_head w row t : exists c r, cells w [","%char; space] row ++ "]"%char :: t = c :: r /\ ~ is_digit c.
Proof. destruct row as [|v row]; cbn [cells app]; [exists "]"%char, t|eexists ","%char, _]; split; try reflexivity; [apply bracket_no|apply comma_no]. Qed.
Lemma cells_then w w' row : forall row' sep x t t', sep = x :: tl sep -> x <> "]"%char -> (forall v, In v row -> (0 < v)%Z) -> (forall v, In v row' -> (0 < v)%Z) ->
  cells w sep row ++ "]"%char :: t = cells w' sep row' ++ "]"%char :: t' -> row = row' /\ t = t'.
Proof.
  induction row as [|v row IH]; intros [|v' row'] sep x t t' Sx Nx P P' E; cbn [cells app] in E.
  - injection E as ->. auto.
  - exfalso. rewrite Sx in E. cbn [app] in E. injection E as E _. congruence.
  - exfalso. rewrite Sx in E. cbn [app] in E. injection E as E _. congruence.
  - rewrite <- !app_assoc in E. apply app_inv_head in E. destruct (cells_head w row t) as (c & r & H & C), (cells_head w' row' t') as (c' & r' & H' & C'). rewrite H, H' in E.
    apply cell_then in E; auto; [|apply P; now left|apply P'; now left]. destruct E as [-> E]. rewrite <- H, <- H' in E.
    destruct (IH row' [","%char; space] ","%char t t') as [-> ->]; auto; [discriminate|intros u I; apply P; now right|intros u I; apply P'; now right].
Qed.
Lemma matrix_then w w' m : forall m', positive m -> positive m' -> concat (map (line w) m) = concat (map (line w') m') -> m = m'.
Proof.
  induction m as [|row m IH]; intros [|row' m'] P P' E; auto.
  - exfalso. cbn in E. symmetry in E. apply app_eq_nil in E as [E _]. unfold line in E. apply app_eq_nil in E as [_ E]. discriminate.
  - exfalso. cbn in E. apply app_eq_nil in E as [E _]. unfold line in E. apply app_eq_nil in E as [_ E]. discriminate.
  - cbn [map concat] in E. unfold line at 1 3 in E. rewrite <- !app_assoc in E. cbn [app] in E. apply (cells_then w w' row row' ["["%char] "["%char) in E; auto; [|discriminate|intros v I; apply (P row v); auto; now left|intros v I; apply (P' row' v); auto; now left].
    destruct E as [-> E]. injection E as E. f_equal. apply IH; auto; intros r v R I; [apply (P r v)|apply (P' r v)]; auto; now right.
Qed.
End S.
