(** C67: print_matrix of munkres. *)
From Coq Require Import Ascii ZArith List Bool Arith Lia.
From Verif Require Import Py Number_model Table_spec Table_model Table_proof Evalrun_proof Showmat_spec Showmat_model Showmat_proof.
Import ListNotations.
Open Scope list_scope.
Open Scope nat_scope.
Definition message (msg : option text) : text := match msg with Some s => s ++ [newline] | None => [] end.
(** A value that is not positive: ValueError, with the message written already and nothing of the matrix. *)
Theorem print_matrix_fails : forall lg m msg, (exists row v, In row m /\ In v row /\ (v <= 0)%Z) -> print_matrix lg m msg = (message msg, Some ValueError).
Proof. intros lg m msg (row & v & R & I & L). unfold print_matrix. rewrite width_err; auto. intros P. specialize (P row v R I). lia. Qed.
Theorem print_matrix_only_fails_so : forall lg m msg e, snd (print_matrix lg m msg) = Some e -> e = ValueError /\ exists row v, In row m /\ In v row /\ (v <= 0)%Z.
Proof.
  intros lg m msg e. unfold print_matrix, width_of. rewrite width_rows. destruct (forallb _ m) eqn:E; cbn; [discriminate|]. intros H. injection H as <-. split; auto.
  assert (G : existsb (existsb (fun v => (v <=? 0)%Z)) m = true).
  { clear -E. induction m as [|r m IH]; [discriminate|]. cbn in *. apply andb_false_iff in E as [E|E]; [|rewrite IH by auto; apply orb_true_r].
    replace (existsb (fun v => (v <=? 0)%Z) r) with true; auto. symmetry. clear -E. induction r as [|v r IH]; [discriminate|]. cbn in *.
    apply andb_false_iff in E as [E|E]; [|rewrite IH by auto; apply orb_true_r]. apply Z.ltb_ge in E. apply Z.leb_le in E. now rewrite E. }
  apply existsb_exists in G as (r & R & G). apply existsb_exists in G as (v & I & G). exists r, v. repeat split; auto. now apply Z.leb_le.
Qed.
(** Otherwise the rows are written, in fields of one width, if int(log10(v)) is not below the exponent of v. *)
Theorem print_matrix_prints : forall lg m msg, (forall row v, In row m -> In v row -> (0 < v < 10 ^ Z.of_nat (S (lg v)))%Z) ->
  exists w ls, print_matrix lg m msg = (message msg ++ in_lines ls, None) /\ matrix_lines w m ls.
Proof.
  intros lg m msg P. exists (fold_left (maxw lg) m 0), (map (line0 (fold_left (maxw lg) m 0)) m). split.
  - unfold print_matrix. rewrite width_ok by (intros row v R I; now apply (P row v)). now rewrite lines_eq.
  - apply matrix_ok. intros row v R I. destruct (P row v R I) as [A B]. pose proof (length_up lg v _ A B). pose proof (rows_in lg m row v R I 0). lia.
Qed.
(** If it is exactly the exponent, then the width is that of the longest number. *)
Theorem print_matrix_width : forall lg m msg, (forall row v, In row m -> In v row -> (0 < v)%Z /\ exponent v (lg v)) ->
  exists w ls, print_matrix lg m msg = (message msg ++ in_lines ls, None) /\ matrix_lines w m ls /\
    ((forall row, In row m -> row = []) \/ exists row v d, In row m /\ In v row /\ numeral v d /\ length d = w).
Proof.
  intros lg m msg P. exists (fold_left (maxw lg) m 0), (map (line0 (fold_left (maxw lg) m 0)) m). split; [|split].
  - unfold print_matrix. rewrite width_ok by (intros row v R I; now apply (P row v)). now rewrite lines_eq.
  - apply matrix_ok. intros row v R I. destruct (P row v R I) as [A B]. pose proof (length_up lg v _ A (proj2 B)). pose proof (rows_in lg m row v R I 0). lia.
  - destruct (rows_or lg m 0) as [E|(row & v & R & I & E)].
    + left. intros [|v row] R; auto. exfalso. pose proof (rows_in lg m _ v R (or_introl eq_refl) 0). lia.
    + right. exists row, v, (str_Z v). split; auto. split; auto. split; [apply str_Z_numeral|]. destruct (P row v R I) as [A [B1 B2]].
      pose proof (length_up lg v _ A B2). pose proof (length_low lg v _ A B1). lia.
Qed.
(** Rows with equally many numbers have equally long lines. *)
Theorem matrix_is_straight : forall w m ls i j r r' l l', matrix_lines w m ls -> nth_error m i = Some r -> nth_error m j = Some r' ->
  nth_error ls i = Some l -> nth_error ls j = Some l' -> length r = length r' -> length l = length l'.
Proof.
  intros w m ls i j r r' l l' M R R' L L' E.
  assert (G : forall k r l, nth_error m k = Some r -> nth_error ls k = Some l -> length l = match length r with 0 => 1 | S n => w + n * (w + 2) + 2 end).
  { intros k. clear - M. revert k. induction M as [|row line m ls (fs & F & Q) M IH]; intros [|k] r l H H'; try discriminate; cbn in H, H'; eauto.
    injection H as <-. injection H' as <-. destruct F as [|v f row fs (k & d & _ & _ & Lf) F]; cbn [row_line] in Q; subst line; [reflexivity|].
    cbn [length]. rewrite !app_length, Lf. cbn [length]. enough (length (concat (map (fun g => ","%char :: space :: g) fs)) = length row * (w + 2)) by lia.
    clear - F. induction F as [|v f row fs (k & d & _ & _ & L) F IH]; [reflexivity|]. cbn [map concat]. rewrite app_length, IH. cbn [length]. rewrite L. lia. }
  rewrite (G i r l), (G j r' l'), E; auto.
Qed.
(** What is written determines the matrix, whatever log10 gives. *)
Theorem matrix_can_be_read_back : forall lg m m' msg t, print_matrix lg m msg = (t, None) -> print_matrix lg m' msg = (t, None) -> m = m'.
Proof.
  intros lg m m' msg t. unfold print_matrix, width_of. rewrite !width_rows. destruct (forallb _ m) eqn:E; [|discriminate]. destruct (forallb _ m') eqn:E'; [|discriminate].
  intros H H'. rewrite <- H in H'. injection H' as H'. apply app_inv_head in H'. symmetry. apply positive_spec in E, E'. eapply matrix_then; eauto.
Qed.
Definition small_lg (z : Z) : nat := if (z <? 10)%Z then 0 else if (z <? 100)%Z then 1 else 2.
Example shown : print_matrix small_lg [[400; 5; 12]; []; [7; 80; 999]]%Z (Some ["c"%char]) =
  (["c"%char; newline] ++ in_lines [["["; "4"; "0"; "0"; ","; " "; " "; " "; "5"; ","; " "; " "; "1"; "2"; "]"]%char; ["]"%char];
    ["["; " "; " "; "7"; ","; " "; " "; "8"; "0"; ","; " "; "9"; "9"; "9"; "]"]%char], None).
Proof. vm_compute. reflexivity. Qed.
Example fails : print_matrix small_lg [[400; 0]]%Z (Some ["c"%char]) = (["c"%char; newline], Some ValueError).
Proof. reflexivity. Qed.
Example exponents : Forall (fun v => (0 < v)%Z /\ exponent v (small_lg v)) [400; 5; 12; 7; 80; 999]%Z.
Proof. repeat constructor; vm_compute; congruence. Qed.
Print Assumptions print_matrix_fails.
Print Assumptions print_matrix_only_fails_so.
Print Assumptions print_matrix_prints.
Print Assumptions print_matrix_width.
Print Assumptions matrix_is_straight.
Print Assumptions matrix_can_be_read_back.
