(** C58: printed score tables and alignments (needleman_wunsch.print_scores, print_alignment,
    waterman_eggert.print_all_scores_and_alignments). *)
From Coq Require Import String Ascii QArith.
From Verif Require Import Py Table_spec Seqal_model Grid_spec Grid_model Grid_proof.
From Verif Require Table_proof Evalrun_proof.
Open Scope list_scope.
Open Scope nat_scope.

(** An alignment of two sequences that are not empty is printed as a grid: the positions and the elements of the second sequence
    above the columns, one row for each element of the first with its position, and a cross exactly for the aligned pairs.  All
    lines have the same columns, whatever the elements look like; if the elements are words, the lines can be split at blanks. *)
Theorem alignment_grid_shown : forall (s1 s2 : list text) (al : list (nat * nat)) (header trailer : text), s1 <> [] -> s2 <> [] ->
  exists ls ns rows, print_alignment s1 s2 al header trailer = Ok (header ++ in_lines ls ++ trailer) /\
    numbers_from_0 (length s2) ns /\ alignment_rows s1 s2 al rows /\ grid ns s2 rows ls /\
    (Forall word s1 -> Forall word s2 -> grid_words ns s2 rows ls).
Proof.
  intros s1 s2 al h t N1 N2. destruct (alignment_ok s1 s2 al h t N1 N2) as (ls & E & ns & Hn & G). exists ls, ns, (a_rows s1 s2 al).
  split; [exact E|]. split; [exact Hn|]. split; [apply a_rows_ok|]. split; [exact G|]. intros W1 W2. apply grid_splits; auto.
  - clear -Hn. unfold numbers_from_0 in Hn. induction Hn; constructor; auto. right. eapply Evalrun_proof.decimal_word; eauto.
  - apply Forall_impl with (2 := W2). intros a H. now right.
  - unfold a_rows. apply Forall_forall. intros r I. apply in_map_iff in I as ([i e] & <- & I). cbn. split; [|split].
    + exact (Evalrun_proof.decimal_word (str_nat_decimal i)).
    + right. rewrite Forall_forall in W1. apply W1. exact (in_combine_r _ _ _ _ I).
    + apply Forall_forall. intros x J. apply in_map_iff in J as (j & <- & _). right. unfold mark. destruct (mem _ _ _); split; try discriminate; repeat constructor.
Qed.
(** The alignment can be read back from the text, as far as it lies within the sequences. *)
Theorem alignment_grid_recovers : forall (s1 s2 : list text) (al al' : list (nat * nat)) (header trailer out : text),
  print_alignment s1 s2 al header trailer = Ok out -> print_alignment s1 s2 al' header trailer = Ok out ->
  forall i j, i < length s1 -> j < length s2 -> (In (i, j) al <-> In (i, j) al').
Proof. exact alignment_recovers. Qed.
(** A table of scores is printed if the sequences are not empty and the table has all its entries; otherwise there is a ValueError or a KeyError. *)
Theorem scores_printed : forall (s1 s2 : list text) (sc : scores_table) (header trailer : text),
  match print_scores s1 s2 sc header trailer with
  | Ok _ => s1 <> [] /\ s2 <> [] /\ forall i j, i <= length s1 -> j <= length s2 -> dget pos_eqb sc (i, j) <> None
  | Err ValueError => s1 = [] \/ s2 = []
  | Err e => e = KeyError /\ s1 <> [] /\ s2 <> [] /\ exists i j, i <= length s1 /\ j <= length s2 /\ dget pos_eqb sc (i, j) = None
  end /\
  ((s1 = [] \/ s2 = []) -> print_scores s1 s2 sc header trailer = Err ValueError /\ forall al, print_alignment s1 s2 al header trailer = Err ValueError).
Proof.
  intros s1 s2 sc h t. split.
  - destruct s1 as [|a s1]; [cbn; auto|]. destruct s2 as [|b s2]; [cbn; auto|].
    assert ((exists i j, i <= length (a :: s1) /\ j <= length (b :: s2) /\ dget pos_eqb sc (i, j) = None) \/
            forall i j, i <= length (a :: s1) -> j <= length (b :: s2) -> dget pos_eqb sc (i, j) <> None) as [(i & j & Hi & Hj & E)|D].
    { generalize (length (a :: s1)) (length (b :: s2)). intros n m. induction n as [|n [(i & j & H & H' & E)|IH]].
      - induction m as [|m [(i & j & H & H' & E)|IH]].
        + destruct (dget pos_eqb sc (0, 0)) eqn:E; [right; intros [|i] [|j] H H'; try lia; congruence|left; exists 0, 0; auto].
        + left. exists i, j. repeat split; auto.
        + destruct (dget pos_eqb sc (0, S m)) eqn:E; [right; intros i j H H'|left; exists 0, (S m); auto].
          destruct (Nat.eq_dec j (S m)) as [->|]; [assert (i = 0) as -> by lia; congruence|apply IH; lia].
      - left. exists i, j. repeat split; auto.
      - assert ((exists j, j <= m /\ dget pos_eqb sc (S n, j) = None) \/ forall j, j <= m -> dget pos_eqb sc (S n, j) <> None) as [(j & H & E)|K].
        { clear IH. induction m as [|m [(j & H & E)|IH]].
          - destruct (dget pos_eqb sc (S n, 0)) eqn:E; [right; intros [|j] H; try lia; congruence|left; exists 0; auto].
          - left. exists j. auto.
          - destruct (dget pos_eqb sc (S n, S m)) eqn:E; [right; intros j H|left; exists (S m); auto]. destruct (Nat.eq_dec j (S m)) as [->|]; [congruence|apply IH; lia]. }
        + left. exists (S n), j. auto.
        + right. intros i j H H'. destruct (Nat.eq_dec i (S n)) as [->|]; [auto|apply IH; lia]. }
    + rewrite (scores_missing (a :: s1) (b :: s2) sc ltac:(discriminate) ltac:(discriminate) h t i j Hi Hj E). split; [reflexivity|]. split; [discriminate|]. split; [discriminate|]. eauto.
    + rewrite (scores_text (a :: s1) (b :: s2) sc ltac:(discriminate) ltac:(discriminate) h t).
      * split; [discriminate|]. split; [discriminate|]. exact D.
      * intros i j Hi Hj. specialize (D i j Hi Hj). destruct (dget pos_eqb sc (i, j)); [eauto|easy].
  - intros [->| ->]; [split; reflexivity|]. destruct s1; split; reflexivity.
Qed.
(** A table of scores is printed as a grid, if the scores have at most three or four digits (and there are less than a million
    columns): the positions and the elements above, the elements of the first sequence to the left, and each score, cut off to a
    whole number, with its step. *)
Theorem score_grid_shown : forall (s1 s2 : list text) (sc : scores_table) (header trailer : text), s1 <> [] -> s2 <> [] -> (Z.of_nat (length s2) < 1000000)%Z ->
  (forall i j, i <= length s1 -> j <= length s2 -> exists c, dget pos_eqb sc (i, j) = Some c /\ small_score c) ->
  exists ls ns rows, print_scores s1 s2 sc header trailer = Ok (header ++ in_lines ls ++ trailer) /\
    numbers_from_0 (S (length s2)) ns /\ score_rows s1 s2 (fun i j => dget pos_eqb sc (i, j)) rows /\ grid ns ([] :: s2) rows ls /\
    (Forall word s1 -> Forall word s2 -> (forall i j c, dget pos_eqb sc (i, j) = Some c -> word (snd c)) -> grid_words ns ([] :: s2) rows ls).
Proof.
  intros s1 s2 sc h t N1 N2 B D.
  assert (forall i j, i <= length s1 -> j <= length s2 -> exists c, dget pos_eqb sc (i, j) = Some c) as D' by (intros i j Hi Hj; destruct (D i j Hi Hj) as (c & E & _); eauto).
  exists (s_lines s1 s2 sc), (map str_nat (seq 0 (length s2 + 1))), (s_rows s1 s2 sc). pose proof (scores_grid s1 s2 sc B D) as G.
  pose proof (numbers_ok (length s2 + 1)) as Hn. split; [now apply scores_text|]. split; [now replace (S (length s2)) with (length s2 + 1) by lia|].
  split; [now apply s_rows_ok|]. split; [exact G|]. intros W1 W2 W3. apply grid_splits; auto.
  - apply Forall_forall. intros x I. apply in_map_iff in I as (i & <- & _). right. exact (Evalrun_proof.decimal_word (str_nat_decimal i)).
  - constructor; [now left|]. apply Forall_impl with (2 := W2). intros a H. now right.
  - unfold s_rows. apply Forall_forall. intros r I. apply in_map_iff in I as (i & <- & I). apply in_seq in I. cbn. split; [|split].
    + exact (Evalrun_proof.decimal_word (str_nat_decimal i)).
    + destruct i as [|k]; cbn; [now left|]. right. rewrite Forall_forall in W1. apply W1. apply nth_In. lia.
    + apply Forall_forall. intros x J. apply in_map_iff in J as (j & <- & J). apply in_seq in J. right. unfold score_text. destruct (D' i j) as (c & E); [lia|lia|]. rewrite E.
      unfold show_score. rewrite show_int_cut. split; [now destruct (Number_model.str_Z (cut (fst c)))|]. apply Forall_app. split; [apply Table_proof.str_Z_word|].
      constructor; [reflexivity|]. apply (W3 _ _ _ E).
Qed.
(** ... and the scores can be read back, up to the cutting off. *)
Theorem score_grid_recovers : forall (s1 s2 : list text) (sc sc' : scores_table) (header trailer out : text),
  print_scores s1 s2 sc header trailer = Ok out -> print_scores s1 s2 sc' header trailer = Ok out ->
  (forall i j c, i <= length s1 -> j <= length s2 -> dget pos_eqb sc (i, j) = Some c \/ dget pos_eqb sc' (i, j) = Some c -> small_score c) ->
  (forall i j c, dget pos_eqb sc (i, j) = Some c \/ dget pos_eqb sc' (i, j) = Some c -> snd c <> [space]) ->
  forall i j, i <= length s1 -> j <= length s2 -> exists c c' z, dget pos_eqb sc (i, j) = Some c /\ dget pos_eqb sc' (i, j) = Some c' /\
    cut_off (fst c) z /\ cut_off (fst c') z /\ snd c = snd c'.
Proof. exact scores_recover. Qed.

(** The tables which the three aligners return have all entries: they can be printed for all sequences that are not empty. *)
Theorem aligner_tables_printed : forall (A : Type) (sim : A -> A -> Z) (gap : A -> Z) (s1 s2 : list A) (str : A -> text) (header trailer : text) (t : Seqal_model.table),
  s1 <> [] -> s2 <> [] ->
  (exists al, needleman_wunsch sim gap s1 s2 = Ok (t, al)) \/ (exists al, smith_waterman sim gap s1 s2 = Ok (t, al)) \/
  (exists fuel limit ss als, waterman_eggert sim gap s1 s2 fuel limit = Ok (ss, als) /\ In t ss) ->
  exists ls, print_scores (map str s1) (map str s2) (as_scores t) header trailer = Ok (header ++ in_lines ls ++ trailer) /\ length ls = 3 + length s1.
Proof.
  intros A sim gap s1 s2 str h tr t N1 N2 H. assert (full (length s1) (length s2) t) as F.
  { destruct H as [(al & E)|[(al & E)|(fuel & limit & ss & als & E & I)]]; [exact (nw_full _ _ _ _ _ _ _ E)|exact (sw_full _ _ _ _ _ _ _ E)|].
    pose proof (we_full _ _ _ _ _ _ _ _ _ E) as F. rewrite Forall_forall in F. auto. }
  exists (s_lines (map str s1) (map str s2) (as_scores t)). split.
  - apply scores_text; [now destruct s1|now destruct s2|]. rewrite !map_length. intros i j Hi Hj. destruct (F i j Hi Hj) as (c & E). rewrite as_scores_get, E. cbn. eauto.
  - unfold s_lines. cbn [length]. rewrite !map_length, seq_length. lia.
Qed.
(** All results of Waterman-Eggert: one part for each alignment, in order, with its table, its grid and the list of its pairs. *)
Theorem all_alignments_printed : forall (A : Type) (sim : A -> A -> Z) (gap : A -> Z) (s1 s2 : list A) (str : A -> text) fuel limit ss als,
  s1 <> [] -> s2 <> [] -> waterman_eggert sim gap s1 s2 fuel limit = Ok (ss, als) ->
  exists parts, print_all_scores_and_alignments (map str s1) (map str s2) (map as_scores ss) als = Ok (concat parts) /\
  Forall2 (fun (x : Seqal_model.table * list (nat * nat)) part => exists scores grid_text list,
    print_scores (map str s1) (map str s2) (as_scores (fst x)) scores_header default_trailer = Ok scores /\
    print_alignment (map str s1) (map str s2) (snd x) alignment_header default_trailer = Ok grid_text /\
    list_text (snd x) list /\ part = scores ++ grid_text ++ "["%char :: list ++ ["]"%char; newline]) (combine ss als) parts.
Proof.
  intros A sim gap s1 s2 str fuel limit ss als N1 N2 E. pose proof (we_full _ _ _ _ _ _ _ _ _ E) as F. unfold print_all_scores_and_alignments. clear E.
  assert (forall l, Forall (fun x : Seqal_model.table * list pos => full (length s1) (length s2) (fst x)) l -> exists parts,
    mapM (fun x => a <- print_scores (map str s1) (map str s2) (fst x) scores_header default_trailer ;;
       b <- print_alignment (map str s1) (map str s2) (snd x) alignment_header default_trailer ;; Ok (a ++ b ++ show_alignment (snd x) ++ [newline]))
      (map (fun x => (as_scores (fst x), snd x)) l) = Ok parts /\
    Forall2 (fun (x : Seqal_model.table * list (nat * nat)) part => exists scores grid_text list,
      print_scores (map str s1) (map str s2) (as_scores (fst x)) scores_header default_trailer = Ok scores /\
      print_alignment (map str s1) (map str s2) (snd x) alignment_header default_trailer = Ok grid_text /\
      list_text (snd x) list /\ part = scores ++ grid_text ++ "["%char :: list ++ ["]"%char; newline]) l parts) as K.
  { induction l as [|[t al] l IH]; intros Fl; [exists []; split; [reflexivity|constructor]|].
    pose proof (Forall_inv Fl) as Ft. destruct (IH (Forall_inv_tail Fl)) as (parts & EP & FP). cbn [map mapM fst snd].
    assert (exists x, print_scores (map str s1) (map str s2) (as_scores t) scores_header default_trailer = Ok x) as (x & Ex).
    { eexists. apply scores_text; [now destruct s1|now destruct s2|]. rewrite !map_length. intros i j Hi Hj. destruct (Ft i j Hi Hj) as (c & E). cbn in E. rewrite as_scores_get, E. cbn. eauto. }
    assert (exists y, print_alignment (map str s1) (map str s2) al alignment_header default_trailer = Ok y) as (y & Ey).
    { destruct (alignment_ok (map str s1) (map str s2) al alignment_header default_trailer) as (ls & E & _); [now destruct s1|now destruct s2|eauto]. }
    rewrite Ex. cbn [bind]. rewrite Ey. cbn [bind]. rewrite EP. cbn [bind]. eexists. split; [reflexivity|]. constructor; [|exact FP].
    destruct (list_shown al) as (l' & L & EL). exists x, y, l'. cbn [fst snd]. split; [exact Ex|]. split; [exact Ey|]. split; [exact L|].
    rewrite EL. cbn [app]. rewrite <- !app_assoc. reflexivity. }
  destruct (K (combine ss als)) as (parts & EP & FP).
  { apply Forall_forall. intros [t al] I. apply in_combine_l in I. rewrite Forall_forall in F. exact (F t I). }
  exists parts. split; [|exact FP]. replace (combine (map as_scores ss) als) with (map (fun x : Seqal_model.table * list pos => (as_scores (fst x), snd x)) (combine ss als)); [now rewrite EP|].
  clear. revert als. induction ss as [|s ss IH]; intros [|a als]; cbn; auto. now rewrite IH.
Qed.

(** Finding: fractional scores are cut off, so different tables look the same. *)
Theorem score_fractions_refuted : ~ (forall (s1 s2 : list text) (sc sc' : scores_table) (h t out : text),
  print_scores s1 s2 sc h t = Ok out -> print_scores s1 s2 sc' h t = Ok out -> forall i j, dget pos_eqb sc (i, j) = dget pos_eqb sc' (i, j)).
Proof.
  intros H. pose (tab := fun q : Q => [((0, 0), (Whole 0, ["T"%char])); ((0, 1), (Float q, ["L"%char])); ((1, 0), (Float q, ["U"%char])); ((1, 1), (Float q, ["D"%char]))]).
  assert (exists out, print_scores [["a"%char]] [["b"%char]] (tab (1 # 4)) [] [] = Ok out /\ print_scores [["a"%char]] [["b"%char]] (tab (3 # 4)) [] [] = Ok out) as (out & E1 & E2)
    by (eexists; split; vm_compute; reflexivity).
  specialize (H _ _ _ _ _ _ _ E1 E2 1 1). discriminate H.
Qed.
(** Finding: scores of more than four digits run together: they are not words of the text. *)
Theorem score_grid_wide_refuted : ~ (forall (s1 s2 : list text) (sc : scores_table) (out : text) (ws : list text), Forall word s1 -> Forall word s2 ->
  print_scores s1 s2 sc [] [] = Ok out -> splits out ws ->
  forall i j c s, i <= length s1 -> j <= length s2 -> dget pos_eqb sc (i, j) = Some c -> shows_score c s -> In s ws).
Proof.
  intros H. pose (tab := [((0, 0), (Whole 0%Z, ["T"%char])); ((0, 1), (Whole 10000%Z, ["L"%char])); ((1, 0), (Whole 10000%Z, ["U"%char])); ((1, 1), (Whole 10000%Z, ["D"%char]))]).
  assert (exists out, print_scores [["a"%char]] [["b"%char]] tab [] [] = Ok out) as (out & E) by (eexists; vm_compute; reflexivity).
  specialize (H [["a"%char]] [["b"%char]] tab out (Table_model.split out) ltac:(repeat constructor; discriminate) ltac:(repeat constructor; discriminate) E (Table_proof.split_splits out) 1 1 _ _ ltac:(cbn; lia) ltac:(cbn; lia) eq_refl (show_score_ok _)).
  assert (existsb (Table_model.text_eqb (show_score (Whole 10000%Z, ["D"%char]))) (Table_model.split out) = true) as X.
  { apply existsb_exists. eexists. split; [exact H|]. now apply Table_proof.text_eqb_spec. }
  vm_compute in E. injection E as <-. vm_compute in X. discriminate X.
Qed.

(** examples: "ab" and "cb" *)
Example grid_example : exists out, print_alignment [["a"%char]; ["b"%char]] [["c"%char]; ["b"%char]] [(1, 1)] [] [] = Ok out /\
  out = in_lines (map list_ascii_of_string ["     0 1"; "     c b"; "0 a  . ."; "1 b  . x"])%string.
Proof. eexists. split; vm_compute; reflexivity. Qed.
Example score_example : exists t al out, needleman_wunsch (fun a b => if Nat.eqb a b then 2%Z else (-1)%Z) (fun _ => (-1)%Z) [1; 2] [3; 2] = Ok (t, al) /\
  print_scores [["a"%char]; ["b"%char]] [["c"%char]; ["b"%char]] (as_scores t) [] [] = Ok out /\
  out = in_lines (map list_ascii_of_string ["          0      1      2"; "                 c      b"; "0       0:T   -1:L   -2:L"; "1 a    -1:U   -1:D   -2:L"; "2 b    -2:U   -2:U    1:D"])%string /\
  forall i j c, dget pos_eqb (as_scores t) (i, j) = Some c -> small_score c.
Proof.
  do 3 eexists. split; [vm_compute; reflexivity|]. split; [vm_compute; reflexivity|]. split; [vm_compute; reflexivity|].
  intros [|[|[|i]]] [|[|[|j]]] c E; vm_compute in E; try discriminate; injection E as <-; eexists; (split; [reflexivity|]); split; try reflexivity; lia.
Qed.

Print Assumptions alignment_grid_shown.
Print Assumptions alignment_grid_recovers.
Print Assumptions scores_printed.
Print Assumptions score_grid_shown.
Print Assumptions score_grid_recovers.
Print Assumptions aligner_tables_printed.
Print Assumptions all_alignments_printed.
Print Assumptions score_fractions_refuted.
Print Assumptions score_grid_wide_refuted.
