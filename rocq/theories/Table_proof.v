(** Proofs about tables of statistics. *)
From Coq Require Import NArith String Ascii QArith Qround Qabs Lqa ZifyN.
From Verif Require Import Py PyLemmas Number_model Number_proof Table_spec Table_model.
Open Scope list_scope.
Open Scope nat_scope.

(** Digits. *)
Definition is_digit (c : ascii) : Prop := exists d, (d < 10)%N /\ c = dchar d.
Lemma digits_check d : (d < 10)%N ->
  (match digit_of (dchar d) with Some v => (v =? Z.of_N d)%Z | None => false end &&
   negb (blank (dchar d)) && negb (Ascii.eqb (dchar d) ".") && negb (Ascii.eqb (dchar d) "-") && negb (Ascii.eqb (dchar d) "+") && negb (Ascii.eqb (dchar d) dash))%bool = true.
Proof. revert d. apply check. vm_compute. reflexivity. Qed.
Lemma digit_facts d : (d < 10)%N -> digit_of (dchar d) = Some (Z.of_N d) /\ blank (dchar d) = false /\ Ascii.eqb (dchar d) "." = false /\
  Ascii.eqb (dchar d) "-" = false /\ Ascii.eqb (dchar d) "+" = false.
Proof.
  intros H. pose proof (digits_check d H) as C. rewrite !andb_true_iff, !negb_true_iff in C. destruct C as (((((C1 & C2) & C3) & C4) & C5) & _).
  repeat split; auto. destruct (digit_of (dchar d)); [|discriminate]. apply Z.eqb_eq in C1. now subst.
Qed.
Lemma str_small n : (n < 10)%N -> str_N n = [dchar n].
Proof. intros H. unfold str_N. fold (ds n). now rewrite ds_small. Qed.
Lemma str_big n : (10 <= n)%N -> str_N n = str_N (n / 10) ++ [dchar (n mod 10)].
Proof. intros H. unfold str_N. fold (ds n). fold (ds (n / 10)). rewrite ds_big by auto. reflexivity. Qed.
Lemma str_ind (P : N -> text -> Prop) : (forall n, (n < 10)%N -> P n [dchar n]) ->
  (forall n d, (0 < n)%N -> (d < 10)%N -> P n (str_N n) -> P (10 * n + d)%N (str_N n ++ [dchar d])) -> forall n, P n (str_N n).
Proof.
  intros H1 H2 n. induction n as [n IH] using (well_founded_induction N.lt_wf_0). destruct (N.lt_ge_cases n 10) as [L|L].
  - rewrite str_small by auto. auto.
  - rewrite str_big by auto. rewrite (N.div_mod' n 10) at 1. apply H2.
    + apply N.div_str_pos. lia.
    + apply N.mod_lt. lia.
    + apply IH. apply N.div_lt; lia.
Qed.
Lemma str_digits n : Forall is_digit (str_N n).
Proof.
  apply (str_ind (fun _ s => Forall is_digit s)).
  - intros d H. constructor; auto. exists d; auto.
  - intros m d _ H F. apply Forall_app. split; auto. constructor; auto. exists d; auto.
Qed.
Lemma digits_value_app s t : forall v, digits_value v (s ++ t) = match digits_value v s with Some w => digits_value w t | None => None end.
Proof. induction s as [|c s IH]; intros v; cbn [app digits_value]; auto. destruct (digit_of c); auto. Qed.
Lemma digits_str n : forall v, exists k, digits_value v (str_N n) = Some (v * k + Z.of_N n)%Z.
Proof.
  apply (str_ind (fun n s => forall v, exists k, digits_value v s = Some (v * k + Z.of_N n)%Z)).
  - intros d H v. exists 10%Z. cbn [digits_value]. destruct (digit_facts d H) as (-> & _). f_equal. lia.
  - intros m d _ H IH v. destruct (IH v) as (k & E). exists (10 * k)%Z. rewrite digits_value_app, E. cbn [digits_value].
    destruct (digit_facts d H) as (-> & _). f_equal. lia.
Qed.
Lemma digits_str0 n : digits_value 0 (str_N n) = Some (Z.of_N n).
Proof. destruct (digits_str n 0) as (k & ->). f_equal. Qed.
Lemma str_length n k : (n < 10 ^ N.of_nat k)%N -> 0 < k -> length (str_N n) <= k.
Proof.
  revert k. apply (str_ind (fun n s => forall k, (n < 10 ^ N.of_nat k)%N -> 0 < k -> length s <= k)).
  - intros d _ k _ H. cbn. lia.
  - intros m d M H IH k L K. rewrite app_length. cbn [length]. destruct k as [|k]; [lia|]. rewrite Nat2N.inj_succ, N.pow_succ_r' in L.
    destruct k as [|k]; [change (10 ^ N.of_nat 0)%N with 1%N in L; lia|]. assert (length (str_N m) <= S k); [|lia]. apply IH; lia.
Qed.
Lemma str_nonempty n : exists c s, str_N n = c :: s /\ is_digit c.
Proof.
  pose proof (str_digits n) as D. destruct (str_N n) as [|c s] eqn:E; [now apply str_ne in E|]. inversion D; subst. eauto.
Qed.
Lemma digit_word s : Forall is_digit s -> Forall (fun c => blank c = false) s.
Proof. apply Forall_impl. intros c (d & H & ->). apply digit_facts; auto. Qed.

(** Counts. *)
Lemma str_Z_word z : word (str_Z z).
Proof.
  unfold word, str_Z. assert (X : forall n, str_N n <> [] /\ Forall (fun c => blank c = false) (str_N n)) by (intros n; split; [apply str_ne|apply digit_word, str_digits]).
  destruct z; auto. split; [discriminate|]. constructor; [reflexivity|]. apply X.
Qed.
Lemma parse_show_int z : parse_int (str_Z z) = Ok z.
Proof.
  assert (X : forall n, parse_int (str_N n) = Ok (Z.of_N n)).
  { intros n. unfold parse_int, unsigned. destruct (str_nonempty n) as (c & s & E & (d & D & ->)). rewrite E.
    destruct (digit_facts d D) as (_ & _ & _ & -> & ->). rewrite <- E, digits_str0. reflexivity. }
  unfold str_Z. destruct z as [|p|p]; [apply (X 0%N)|apply (X (Npos p))|].
  unfold parse_int, unsigned. change (Ascii.eqb "-" "-") with true. cbv iota. rewrite digits_str0. destruct (str_N (Npos p)) eqn:E; [now apply str_ne in E|reflexivity].
Qed.
Lemma str_Z_length z : (-1000000 < z < 10000000)%Z -> length (str_Z z) <= 7.
Proof.
  intros H. unfold str_Z. destruct z as [|p|p].
  - cbn. lia.
  - apply str_length; [|lia]. change (10 ^ N.of_nat 7)%N with 10000000%N. lia.
  - cbn [length]. assert (length (str_N (N.pos p)) <= 6); [|lia]. apply str_length; [|lia]. change (10 ^ N.of_nat 6)%N with 1000000%N. lia.
Qed.
(** A number does not start with two dashes. *)
Definition no_dashes (s : text) : Prop := match s with a :: b :: _ => a = dash -> b <> dash | _ => True end.
Lemma digit_not_dash c : is_digit c -> c <> dash.
Proof. intros (d & H & ->) E. destruct (digit_facts d H) as (_ & _ & _ & X & _). unfold dash in E. rewrite E in X. discriminate. Qed.
Lemma no_dashes_str n t : no_dashes (str_N n ++ t).
Proof.
  destruct (str_nonempty n) as (c & s & -> & D). cbn. destruct (s ++ t); auto. intros E. now apply digit_not_dash in D.
Qed.
Lemma no_dashes_minus n t : no_dashes (dash :: str_N n ++ t).
Proof. destruct (str_nonempty n) as (c & s & -> & D). cbn. intros _. now apply digit_not_dash. Qed.
Lemma str_Z_no_dashes z t : no_dashes (str_Z z ++ t).
Proof. unfold str_Z. destruct z; try apply no_dashes_str. apply no_dashes_minus. Qed.

(** Rounding. *)
Lemma floor_bounds q : (inject_Z (Qfloor q) <= q /\ q < inject_Z (Qfloor q) + 1)%Q.
Proof.
  split; [apply Qfloor_le|]. pose proof (Qlt_floor q) as H. rewrite inject_Z_plus in H. exact H.
Qed.
Lemma round_even_spec q : (Qabs (q - inject_Z (round_even q)) <= 1 # 2)%Q /\ ((Qabs (q - inject_Z (round_even q)) == 1 # 2)%Q -> Z.even (round_even q) = true).
Proof.
  unfold round_even. destruct (floor_bounds q) as (B1 & B2). set (f := Qfloor q) in *. clearbody f.
  assert (P : forall x, (0 <= x)%Q -> (Qabs x == x)%Q) by (intros; now apply Qabs_pos).
  assert (N : forall x, (x <= 0)%Q -> (Qabs x == - x)%Q) by (intros; now apply Qabs_neg).
  destruct (Qcompare (q - inject_Z f) (1 # 2)) eqn:C.
  - apply Qeq_alt in C. destruct (Z.even f) eqn:E.
    + rewrite P by lra. split; [lra|]. auto.
    + rewrite inject_Z_plus. change (inject_Z 1) with 1%Q. rewrite N by lra. split; [lra|]. intros _. rewrite Z.even_add, E. reflexivity.
  - apply Qlt_alt in C. rewrite P by lra. split; [lra|]. intros X. rewrite X in C. lra.
  - apply Qgt_alt in C. rewrite inject_Z_plus. change (inject_Z 1) with 1%Q. rewrite N by lra. split; [lra|]. intros X. lra.
Qed.
Lemma round_even_nonneg q : (0 <= q)%Q -> (0 <= round_even q)%Z.
Proof.
  intros H. assert (0 <= Qfloor q)%Z by (rewrite <- (Qfloor_Z 0); now apply Qfloor_resp_le).
  unfold round_even. destruct (Qcompare (q - inject_Z (Qfloor q)) (1 # 2)), (Z.even (Qfloor q)); lia.
Qed.

(** Floats. *)
Definition cents (q : Q) : N := Z.to_N (round_even (100 * Qabs q)).
Lemma cents_round q : Z.of_N (cents q) = round_even (100 * Qabs q).
Proof. unfold cents. rewrite Z2N.id; auto. apply round_even_nonneg. pose proof (Qabs_nonneg q). lra. Qed.
Lemma until_point_digits s t : Forall is_digit s -> until_point (s ++ "."%char :: t) = (s, Some t).
Proof.
  induction 1 as [|c s (d & H & ->) F IH]; [reflexivity|]. cbn [app until_point]. destruct (digit_facts d H) as (_ & _ & -> & _). now rewrite IH.
Qed.
Lemma two_digit n : (n < 100)%N -> Forall is_digit (two_digits n) /\ forall v, digits_value v (two_digits n) = Some (100 * v + Z.of_N n)%Z.
Proof.
  intros H. assert (A : (n / 10 < 10)%N) by (apply N.div_lt_upper_bound; lia). assert (B : (n mod 10 < 10)%N) by (apply N.mod_lt; lia). split.
  - apply Forall_cons; [exists (n / 10)%N; auto|]. apply Forall_cons; [exists (n mod 10)%N; auto|]. constructor.
  - intros v. unfold two_digits. cbn [digits_value]. destruct (digit_facts _ A) as (-> & _). destruct (digit_facts _ B) as (-> & _). f_equal.
    pose proof (N.div_mod' n 10). lia.
Qed.
Definition unsigned_text (a : N) : text := str_N (a / 100) ++ "."%char :: two_digits (a mod 100).
Lemma show_q_eq q : show_q q = (if Z.ltb (Qnum q) 0 then [dash] else []) ++ unsigned_text (cents q).
Proof. reflexivity. Qed.
Lemma unsigned_parse a : let (x, y) := until_point (unsigned_text a) in
  x ++ match y with Some f => f | None => [] end <> [] /\ digits_value 0 (x ++ match y with Some f => f | None => [] end) = Some (Z.of_N a) /\
  length (match y with Some f => f | None => [] end) = 2.
Proof.
  unfold unsigned_text. rewrite until_point_digits by apply str_digits.
  assert (M : (a mod 100 < 100)%N) by (apply N.mod_lt; lia). destruct (two_digit _ M) as (T1 & T2). repeat split.
  - destruct (str_nonempty (a / 100)) as (c & s & -> & _). discriminate.
  - rewrite digits_value_app, digits_str0, T2. f_equal. pose proof (N.div_mod' a 100). lia.
Qed.
Lemma qnum_neg q : Z.ltb (Qnum q) 0 = true <-> (q < 0)%Q.
Proof. unfold Qlt. cbn. rewrite Z.ltb_lt. lia. Qed.
Lemma parse_show_q q : exists r, parse_float (show_q q) = Ok r /\ rounded q r.
Proof.
  rewrite show_q_eq. set (a := cents q).
  assert (U : unsigned ((if Z.ltb (Qnum q) 0 then [dash] else []) ++ unsigned_text a) = (Z.ltb (Qnum q) 0, unsigned_text a)).
  { destruct (Z.ltb (Qnum q) 0); [reflexivity|]. unfold unsigned_text. cbn [app]. destruct (str_nonempty (a / 100)) as (c & s & -> & (d & D & ->)).
    cbn [app unsigned]. destruct (digit_facts d D) as (_ & _ & _ & -> & ->). reflexivity. }
  unfold parse_float. rewrite U. pose proof (unsigned_parse a) as UP. destruct (until_point (unsigned_text a)) as (x, y).
  destruct UP as (NE & DV & LF). destruct y as [f|]; [|discriminate LF].
  eexists. split.
  { destruct (x ++ f) as [|c l] eqn:EX; [congruence|]. rewrite DV, LF. reflexivity. }
  clear U.
  destruct (round_even_spec (100 * Qabs q)) as (R1 & R2). rewrite <- cents_round in R1, R2. fold a in R1, R2.
  unfold rounded, hundredths. destruct (Z.ltb (Qnum q) 0) eqn:S.
  - apply qnum_neg in S. exists (- Z.of_N a)%Z. assert (E : (Qabs (100 * q - inject_Z (- Z.of_N a)) == Qabs (100 * Qabs q - inject_Z (Z.of_N a)))%Q).
    { rewrite (Qabs_neg q) by lra. rewrite inject_Z_opp. rewrite <- (Qabs_opp (100 * q - - inject_Z (Z.of_N a))). apply Qabs_wd. ring. }
    rewrite E. split; [split; auto|].
    + intros H. rewrite Z.even_opp. auto.
    + rewrite inject_Z_opp. change (inject_Z (10 ^ Z.of_nat 2)) with 100%Q. field.
  - assert (S' : (0 <= q)%Q) by (apply Qnot_lt_le; intros H; apply qnum_neg in H; congruence). exists (Z.of_N a).
    assert (E : (Qabs (100 * q - inject_Z (Z.of_N a)) == Qabs (100 * Qabs q - inject_Z (Z.of_N a)))%Q) by (rewrite (Qabs_pos q) by lra; reflexivity).
    rewrite E. split; [split; auto|]. change (inject_Z (10 ^ Z.of_nat 2)) with 100%Q. reflexivity.
Qed.
Lemma cents_bound q b : (100 * Qabs q + (1 # 2) < inject_Z b)%Q -> (Z.of_N (cents q) < b)%Z.
Proof.
  intros H. destruct (round_even_spec (100 * Qabs q)) as (R1 & _). rewrite <- cents_round in R1. apply Qabs_Qle_condition in R1.
  rewrite Zlt_Qlt. lra.
Qed.
Lemma show_q_length q : (-999995 # 1000 < q /\ q < 9999995 # 1000)%Q -> length (show_q q) <= 7.
Proof.
  intros (H1 & H2). rewrite show_q_eq. unfold unsigned_text. rewrite !app_length. cbn [length two_digits].
  destruct (Z.ltb (Qnum q) 0) eqn:S; cbn [length].
  - apply qnum_neg in S. assert (B : (Z.of_N (cents q) < 100000)%Z) by (apply cents_bound; rewrite Qabs_neg by lra; change (inject_Z 100000) with (100000 # 1); lra).
    assert (length (str_N (cents q / 100)) <= 3); [|lia]. apply str_length; [|lia]. change (10 ^ N.of_nat 3)%N with 1000%N. apply N.div_lt_upper_bound; lia.
  - assert (S' : (0 <= q)%Q) by (apply Qnot_lt_le; intros H; apply qnum_neg in H; congruence).
    assert (B : (Z.of_N (cents q) < 1000000)%Z) by (apply cents_bound; rewrite Qabs_pos by lra; change (inject_Z 1000000) with (1000000 # 1); lra).
    assert (length (str_N (cents q / 100)) <= 4); [|lia]. apply str_length; [|lia]. change (10 ^ N.of_nat 4)%N with 10000%N. apply N.div_lt_upper_bound; lia.
Qed.
Lemma unsigned_word a : word (unsigned_text a).
Proof.
  unfold unsigned_text. split; [destruct (str_nonempty (a / 100)) as (c & s & -> & _); discriminate|]. apply Forall_app. split; [apply digit_word, str_digits|].
  constructor; [reflexivity|]. apply digit_word, two_digit. apply N.mod_lt. lia.
Qed.
Lemma show_q_word q : word (show_q q).
Proof.
  rewrite show_q_eq. destruct (unsigned_word (cents q)) as (A & B). destruct (Z.ltb (Qnum q) 0); [|split; auto]. split; [discriminate|]. constructor; auto.
Qed.
Lemma show_q_no_dashes q t : no_dashes (show_q q ++ t).
Proof.
  rewrite show_q_eq. unfold unsigned_text. destruct (Z.ltb (Qnum q) 0); cbn [app]; rewrite <- app_assoc; [apply no_dashes_minus|apply no_dashes_str].
Qed.

(** Words and lines. *)
Lemma split_blanks b s : Forall (fun c => blank c = true) b -> split (b ++ s) = split s.
Proof. unfold split. induction 1 as [|c b H F IH]; [reflexivity|]. cbn [app split_loop]. now rewrite H. Qed.
Lemma split_word w : Forall (fun c => blank c = false) w -> forall v r, match r with [] => True | c :: _ => blank c = true end ->
  v ++ w <> [] -> split_loop (rev v) (w ++ r) = (v ++ w) :: split r.
Proof.
  induction 1 as [|c w H F IH]; intros v r HR NE; cbn [app].
  - rewrite app_nil_r in *. destruct r as [|c r]; cbn [split_loop].
    + destruct (rev v) eqn:E; [|now rewrite <- E, rev_involutive]. apply (f_equal (@rev ascii)) in E. rewrite rev_involutive in E. now rewrite E in NE.
    + rewrite HR. unfold split. cbn [split_loop]. rewrite HR. destruct (rev v) eqn:E; [|now rewrite <- E, rev_involutive].
      apply (f_equal (@rev ascii)) in E. rewrite rev_involutive in E. now rewrite E in NE.
  - cbn [split_loop]. rewrite H. replace (c :: rev v) with (rev (v ++ [c])) by (rewrite rev_app_distr; reflexivity).
    rewrite (IH (v ++ [c]) r HR); [now rewrite <- app_assoc|]. intros X. apply app_eq_nil in X as (X & _). apply app_eq_nil in X as (_ & X). discriminate.
Qed.
Lemma splits_split s ws : splits s ws -> split s = ws.
Proof.
  induction 1 as [b H|b w r ws H (NE & W) R S IH].
  - rewrite <- (app_nil_r b). now rewrite split_blanks.
  - rewrite split_blanks by auto. unfold split at 1. change (split_loop [] (w ++ r)) with (split_loop (rev []) (w ++ r)). rewrite split_word by auto. now rewrite IH.
Qed.
Lemma split_splits s : splits s (split s).
Proof.
  assert (X : forall s v, Forall (fun c => blank c = false) v -> match v with [] => splits s (split_loop [] s) | _ => splits (v ++ s) (split_loop (rev v) s) end).
  { clear s. induction s as [|c s IH]; intros v V.
    - destruct v as [|a v]; cbn [split_loop]; [constructor; constructor|]. destruct (rev (a :: v)) eqn:E.
      + apply (f_equal (@rev ascii)) in E. rewrite rev_involutive in E. discriminate.
      + rewrite <- E, rev_involutive. apply (splits_cons [] (a :: v) [] []); [constructor|split; [discriminate|auto]|exact I|constructor; constructor].
    - destruct (blank c) eqn:B.
      + assert (S : forall ws, splits s ws -> splits (c :: s) ws).
        { intros ws S. inversion S; subst; [constructor; auto|]. apply (splits_cons (c :: b) w r ws0); auto. }
        pose proof (IH [] (Forall_nil _)) as I0. destruct v as [|a v]; cbn [split_loop]; rewrite B; [auto|].
        destruct (rev (a :: v)) eqn:E; [apply (f_equal (@rev ascii)) in E; rewrite rev_involutive in E; discriminate|].
        rewrite <- E, rev_involutive. apply (splits_cons [] (a :: v) (c :: s)); [constructor|split; [discriminate|auto]|exact B|auto].
      + cbn [split_loop]. assert (V' : Forall (fun c => blank c = false) (v ++ [c])) by (apply Forall_app; auto).
        specialize (IH (v ++ [c]) V'). rewrite rev_app_distr in IH. cbn [rev app] in IH. rewrite <- app_assoc in IH. cbn [app] in IH.
        destruct v as [|a v]; cbn [app split_loop rev] in *; rewrite ?B; exact IH. }
  exact (X s [] (Forall_nil _)).
Qed.
Definition flat (s : text) : Prop := Forall (fun c => Ascii.eqb c newline = false) s.
Lemma lines_line s r : flat s -> lines (s ++ newline :: r) = s :: lines r.
Proof.
  intros H. unfold lines. assert (X : forall v, lines_loop v (s ++ newline :: r) = (rev v ++ s) :: lines_loop [] r).
  { induction H as [|c s H F IH]; intros v; cbn [app lines_loop].
    - rewrite app_nil_r. reflexivity.
    - rewrite H, IH. cbn [rev]. now rewrite <- app_assoc. }
  apply X.
Qed.
Lemma word_line s : Forall (fun c => blank c = false) s -> flat s.
Proof. apply Forall_impl. intros c H. destruct (Ascii.eqb c newline) eqn:E; auto. apply Ascii.eqb_eq in E. subst c. discriminate. Qed.
Lemma spaces_blank n : Forall (fun c => blank c = true) (repeat space n).
Proof. induction n; constructor; auto. Qed.
Lemma spaces_line n : flat (repeat space n).
Proof. induction n; constructor; auto. Qed.
Lemma flat_app s t : flat s -> flat t -> flat (s ++ t).
Proof. intros. apply Forall_app; auto. Qed.
Lemma flat_concat l : Forall flat l -> flat (concat l).
Proof. induction 1; cbn; [constructor|]. now apply flat_app. Qed.

(** Rows. *)
Definition raw (c : column) : list text := match data c with Strings l => l | Counts l => map str_Z l | Numbers _ l => map show_q l end.
Definition text_column (c : column) : bool := match data c with Strings _ => true | _ => false end.
Definition pad (c : column) (s : text) : text := if text_column c then ljust (column_width c) s else rjust (column_width c) s.
Lemma show_cells_raw c : show_cells c = map (pad c) (raw c).
Proof. unfold show_cells, raw, pad, text_column. destruct (data c); rewrite ?map_map; reflexivity. Qed.
Lemma show_label_pad c : show_label c = pad c (label c).
Proof. unfold show_label, pad, text_column. destruct (data c); reflexivity. Qed.
Lemma raw_length c : length (raw c) = size c.
Proof. unfold raw, size. destruct (data c); rewrite ?map_length; reflexivity. Qed.
Lemma textual_spec c : textual c <-> text_column c = true.
Proof. unfold textual, text_column. destruct (data c); split; eauto; try discriminate; intros (x & X); discriminate. Qed.
Lemma splits_app b s ws : Forall (fun c => blank c = true) b -> splits s ws -> splits (b ++ s) ws.
Proof. intros B S. inversion S; subst; [constructor; now apply Forall_app|]. rewrite app_assoc. constructor; auto. now apply Forall_app. Qed.
Definition roomy (c : column) (x : text) : Prop := word x /\ (text_column c = true -> length x + 2 <= column_width c).
Fixpoint apart (ps : list (column * text)) : Prop :=
  match ps with (c, _) :: (((d, y) :: _) as l) => (text_column c = true \/ (text_column d = false /\ length y <= 7)) /\ apart l | _ => True end.
Definition padded (ps : list (column * text)) : text := concat (map (fun p => pad (fst p) (snd p)) ps).
Lemma num_width c : text_column c = false -> column_width c = 8.
Proof. unfold text_column, column_width, get_width. destruct (data c); [discriminate|reflexivity|reflexivity]. Qed.
Lemma row_splits ps : Forall (fun p => roomy (fst p) (snd p)) ps -> apart ps -> splits (padded ps) (map snd ps).
Proof.
  induction 1 as [|(c, x) ps ((NE & W) & R) F IH]; intros A; [repeat constructor|]. cbn [fst snd] in *.
  unfold padded. cbn [map concat]. fold (padded ps). unfold pad. cbn [fst snd].
  assert (A' : apart ps) by (cbn in A; destruct ps as [|(d, y) ps]; [exact I|apply A]). specialize (IH A').
  destruct (text_column c) eqn:T.
  - unfold ljust. specialize (R eq_refl). rewrite <- app_assoc. apply (splits_cons [] x); [constructor|split; auto| |apply splits_app; [apply spaces_blank|exact IH]].
    destruct (column_width c - length x) eqn:E; [lia|reflexivity].
  - unfold rjust. rewrite <- app_assoc. apply splits_cons; [apply spaces_blank|split; auto| |exact IH].
    destruct ps as [|(d, y) ps]; [exact I|]. cbn [apart] in A. destruct A as ([A|(A & B)] & _); [congruence|].
    unfold padded. cbn [map concat fst snd]. unfold pad. rewrite A. unfold rjust. rewrite num_width by auto. destruct (8 - length y) eqn:E; [lia|reflexivity].
Qed.
Lemma blank_split s : forallb blank s = true -> split s = [].
Proof. intros H. apply splits_split. constructor. now apply Forall_forall, forallb_forall. Qed.
Lemma row_not_blank ps : Forall (fun p => roomy (fst p) (snd p)) ps -> apart ps -> ps <> [] -> forallb blank (padded ps) = false.
Proof.
  intros F A NE. destruct (forallb blank (padded ps)) eqn:E; auto. apply blank_split in E. rewrite (splits_split _ _ (row_splits _ F A)) in E. destruct ps; [congruence|discriminate].
Qed.
Lemma sep_spec l : is_separator l = true <-> starts_with_dashes l.
Proof.
  unfold starts_with_dashes. destruct l as [|a [|b [|c [|d l]]]]; cbn [is_separator]; try (split; [discriminate|intros (t & X); discriminate]).
  rewrite !andb_true_iff, !Ascii.eqb_eq. split.
  - intros (((-> & ->) & ->) & ->). exists l. reflexivity.
  - intros (t & X). injection X as -> -> -> -> _. auto.
Qed.
Lemma sep_space s r : starts_with_dashes (s ++ space :: r) -> starts_with_dashes s.
Proof.
  intros (t & X). destruct s as [|a [|b [|c [|d s]]]]; cbn in X; try discriminate; injection X as -> -> -> -> _; exists s; reflexivity.
Qed.
Lemma sep_repeat n s : 0 < n -> ~ starts_with_dashes (repeat space n ++ s).
Proof. intros H (t & X). destruct n; [lia|]. discriminate. Qed.
Lemma sep_num s r : no_dashes (s ++ r) -> ~ starts_with_dashes (s ++ r).
Proof. intros H (t & X). rewrite X in H. cbn in H. now apply H. Qed.
(** a padded text starts with dashes only if the text does *)
Lemma padded_sep c x r : roomy c x -> starts_with_dashes (pad c x ++ r) -> (text_column c = true -> starts_with_dashes x) /\ (text_column c = false -> starts_with_dashes (x ++ r) /\ 8 <= length x).
Proof.
  intros (W & R) D. unfold pad in D. split; intros T; rewrite T in D.
  - specialize (R T). unfold ljust in D. rewrite <- app_assoc in D. destruct (column_width c - length x) as [|k] eqn:E; [lia|]. now apply sep_space in D.
  - unfold rjust in D. rewrite num_width in D by auto. destruct (8 - length x) as [|k] eqn:E; [split; [exact D|lia]|]. rewrite <- app_assoc in D. apply sep_repeat in D; [easy|lia].
Qed.

(** The cells of a row. *)
Lemma max_in l x : In x l -> x <= fold_right Nat.max 0 l.
Proof. induction l as [|y l IH]; cbn; [easy|]. intros [->|H]; [lia|]. specialize (IH H). lia. Qed.
Lemma raw_roomy c x : words_only c -> In x (raw c) -> roomy c x.
Proof.
  unfold words_only, raw, roomy, text_column, column_width, get_width. destruct (data c) as [l|l|ty l]; intros W H.
  - rewrite Forall_forall in W. split; [auto|]. intros _. pose proof (max_in (map (@length ascii) l) (length x) (in_map _ _ _ H)). lia.
  - apply in_map_iff in H as (z & <- & _). split; [apply str_Z_word|discriminate].
  - apply in_map_iff in H as (q & <- & _). split; [apply show_q_word|discriminate].
Qed.
Lemma label_roomy c : word (label c) -> roomy c (label c).
Proof. intros W. split; auto. unfold text_column, column_width, get_width. destruct (data c); [|discriminate|discriminate]. intros _. lia. Qed.
Lemma narrow_raw c x : narrow c -> In x (raw c) -> text_column c = false /\ length x <= 7.
Proof.
  unfold narrow, raw, text_column. destruct (data c) as [l|l|ty l]; [easy| |]; intros N H; split; auto; apply in_map_iff in H as (z & <- & Z); rewrite Forall_forall in N.
  - apply str_Z_length. auto.
  - apply show_q_length. auto.
Qed.
Definition row_at (cs : list column) (i : nat) : list (column * text) := map (fun c => (c, nth i (raw c) [])) cs.
Lemma row_roomy cs i : Forall words_only cs -> Forall (fun c => i < size c) cs -> Forall (fun p => roomy (fst p) (snd p)) (row_at cs i).
Proof.
  intros W S. unfold row_at. rewrite Forall_map, Forall_forall in *. intros c C. cbn. apply raw_roomy; auto. apply nth_In. rewrite raw_length. auto.
Qed.
Lemma row_apart cs i : separated cs -> Forall (fun c => i < size c) cs -> apart (row_at cs i).
Proof.
  induction cs as [|c [|d cs] IH]; cbn [row_at map apart separated]; auto. intros (H & SP) S. inversion S as [|? ? S1 S2]; subst. split; [|now apply IH].
  destruct H as [H|H]; [left; now apply textual_spec|]. right. apply narrow_raw; auto. apply nth_In. rewrite raw_length. now inversion S2.
Qed.
Lemma row_not_sep cs i : Forall words_only cs -> Forall (fun c => i < size c) cs -> separated cs ->
  match cs with [] => True | c :: _ => match data c with Strings l => Forall (fun s => ~ starts_with_dashes s) l | _ => True end end ->
  is_separator (padded (row_at cs i)) = false.
Proof.
  intros W S SP D. destruct (is_separator _) eqn:E; auto. exfalso. apply sep_spec in E. destruct cs as [|c cs]; [destruct E as (t & X); discriminate|].
  pose proof (row_roomy _ _ W S) as R. inversion R as [|? ? R1 _]; subst. cbn [fst snd] in R1. unfold padded in E. cbn [row_at map concat fst snd] in E.
  assert (I : In (nth i (raw c) []) (raw c)) by (apply nth_In; rewrite raw_length; now inversion S).
  set (x := nth i (raw c) []) in *. apply padded_sep in E as (E1 & E2); auto. unfold text_column, raw in *. destruct (data c) as [l|l|ty l].
  - rewrite Forall_forall in D. apply (D _ I). auto.
  - destruct (E2 eq_refl) as (E3 & _). apply in_map_iff in I as (z & Z & _). rewrite <- Z in E3. apply sep_num in E3; auto. apply str_Z_no_dashes.
  - destruct (E2 eq_refl) as (E3 & _). apply in_map_iff in I as (z & Z & _). rewrite <- Z in E3. apply sep_num in E3; auto. apply show_q_no_dashes.
Qed.
Lemma word_flat x : word x -> flat x.
Proof. intros (_ & W). now apply word_line. Qed.
Lemma pad_line c x : word x -> flat (pad c x).
Proof. intros W. unfold pad, ljust, rjust. destruct (text_column c); apply flat_app; auto using word_flat, spaces_line. Qed.
Lemma padded_line ps : Forall (fun p => roomy (fst p) (snd p)) ps -> flat (padded ps).
Proof. intros F. apply flat_concat. rewrite Forall_map. eapply Forall_impl; [|exact F]. intros (c, x) (W & _). now apply pad_line. Qed.

(** Reading the rows. *)
Definition take (k : nat) (a : cells) : cells := match a with Strings l => Strings (firstn k l) | Counts l => Counts (firstn k l) | Numbers t l => Numbers t (firstn k l) end.
Record absorbed (k : nat) (c0 c c1 : column) : Prop :=
  { ab_label : label c1 = label c0; ab_descr : descr c1 = descr c0; ab_overall : overall c1 = overall c0;
    ab_data : read_back (data c0) (take k (data c)) (data c1); ab_kind : same_kind (data c0) (data c1) }.
Lemma firstn_snoc A (d : A) i l : i < length l -> firstn (S i) l = firstn i l ++ [nth i l d].
Proof. revert l. induction i as [|i IH]; intros [|x l] H; cbn in *; try lia; auto. f_equal. apply IH. lia. Qed.
Lemma append_ok i c0 c c1 : absorbed i c0 c c1 -> i < size c -> exists c2, append_value c1 (nth i (raw c) []) = Ok c2 /\ absorbed (S i) c0 c c2.
Proof.
  intros [H1 H2 H3 H4 H5] L. unfold append_value, raw, size, read_back, same_kind, take in *.
  destruct (data c0) as [l0|l0|t0 l0] eqn:E0, (data c) as [l|l|ty l] eqn:E, (data c1) as [l1|l1|t1 l1] eqn:E1; try easy.
  - subst l1. cbn [bind]. eexists. split; [reflexivity|]. constructor; auto; cbn [data same_kind label descr overall]; rewrite E0, ?E; cbn [same_kind]; auto. cbn [take read_back]. rewrite (firstn_snoc text []) by auto. now rewrite app_assoc.
  - subst l1. rewrite nth_indep with (d' := str_Z 0) by (now rewrite map_length). rewrite map_nth, parse_show_int. cbn [bind].
    eexists. split; [reflexivity|]. constructor; auto; cbn [data same_kind label descr overall]; rewrite E0, ?E; cbn [same_kind]; auto. cbn [take read_back]. rewrite (firstn_snoc _ 0%Z) by auto. now rewrite app_assoc.
  - destruct H4 as (-> & r & -> & F). rewrite nth_indep with (d' := show_q 0) by (now rewrite map_length). rewrite map_nth.
    destruct (parse_show_q (nth i l 0%Q)) as (q & -> & R). cbn [bind].
    eexists. split; [reflexivity|]. constructor; auto; cbn [data same_kind label descr overall]; rewrite E0, ?E; cbn [same_kind]; auto. cbn [take read_back]. split; [reflexivity|]. exists (r ++ [q]). rewrite app_assoc. split; auto.
    rewrite (firstn_snoc _ 0%Q) by auto. apply Forall2_app; auto.
Qed.
Inductive all3 (R : column -> column -> column -> Prop) : table -> list column -> table -> Prop :=
| all3_nil : all3 R [] [] []
| all3_cons k c0 t0 c cs c1 t1 : R c0 c c1 -> all3 R t0 cs t1 -> all3 R ((k, c0) :: t0) (c :: cs) ((k, c1) :: t1).
Lemma row_ok i t0 cs t1 : all3 (absorbed i) t0 cs t1 -> Forall (fun c => i < size c) cs ->
  exists t2, append_row t1 (map snd (row_at cs i)) = Ok t2 /\ all3 (absorbed (S i)) t0 cs t2.
Proof.
  induction 1 as [|k c0 t0 c cs c1 t1 H A IH]; intros S; [exists []; split; [reflexivity|constructor]|].
  inversion S as [|? ? S1 S2]; subst. destruct (append_ok _ _ _ _ H S1) as (c2 & E & H2). destruct (IH S2) as (t2 & E2 & A2).
  exists ((k, c2) :: t2). cbn [row_at map snd append_row]. rewrite E. cbn [bind]. unfold row_at in E2. rewrite E2. split; [reflexivity|]. now constructor.
Qed.
Lemma rows_ok cs n : cs <> [] -> Forall (fun c => size c = n) cs -> Forall words_only cs -> separated cs ->
  match cs with [] => True | c :: _ => match data c with Strings l => Forall (fun s => ~ starts_with_dashes s) l | _ => True end end ->
  forall k i t0 t1 rest, i + k = n -> all3 (absorbed i) t0 cs t1 ->
  exists t2, read_loop 1 t1 (map (fun i => padded (row_at cs i)) (seq i k) ++ rest) = read_loop 1 t2 rest /\ all3 (absorbed n) t0 cs t2.
Proof.
  intros NE SZ W SP D. induction k as [|k IH]; intros i t0 t1 rest E A.
  - exists t1. split; [reflexivity|]. now replace n with i by lia.
  - assert (SI : Forall (fun c => i < size c) cs) by (eapply Forall_impl; [|exact SZ]; cbn; intros c ->; lia).
    cbn [seq map app read_loop]. pose proof (row_roomy _ _ W SI) as R. pose proof (row_apart _ _ SP SI) as AP.
    rewrite row_not_blank; auto; [|destruct cs; [congruence|discriminate]]. rewrite row_not_sep; auto. cbn [Nat.eqb].
    rewrite (splits_split _ _ (row_splits _ R AP)). destruct (row_ok _ _ _ _ A SI) as (t2 & E2 & A2). rewrite E2. cbn [bind].
    apply (IH (S i)); auto. lia.
Qed.

(** The whole text. *)
Lemma fold_min n l : Forall (fun k => k = n) l -> fold_right Nat.min n l = n.
Proof. induction 1; cbn; subst; lia. Qed.
Lemma zip_eq cs n : Forall (fun c => size c = n) cs -> zip_rows (map show_cells cs) = if cs then [] else map (fun i => map (fun c => nth i (show_cells c) []) cs) (seq 0 n).
Proof.
  intros S. destruct cs as [|c cs]; [reflexivity|]. cbn [map zip_rows].
  assert (L : forall c, size c = n -> length (show_cells c) = n) by (intros d <-; rewrite show_cells_raw, map_length; apply raw_length).
  inversion S as [|? ? S1 S2]; subst. rewrite L by auto.
  rewrite fold_min.
  - apply map_ext. intros i. cbn [map]. f_equal. now rewrite map_map.
  - constructor; [reflexivity|]. rewrite !Forall_map. eapply Forall_impl; [|exact S2]. cbn. intros d. apply L.
Qed.
Lemma show_cell_at c i : i < size c -> nth i (show_cells c) [] = pad c (nth i (raw c) []).
Proof.
  intros H. rewrite show_cells_raw. rewrite nth_indep with (d' := pad c []) by (rewrite map_length, raw_length; auto). now rewrite map_nth.
Qed.
Lemma row_text cs i : Forall (fun c => i < size c) cs -> concat (map (fun c => nth i (show_cells c) []) cs) = padded (row_at cs i).
Proof.
  intros S. unfold padded, row_at. rewrite map_map. f_equal. apply map_ext_in. intros c C. rewrite Forall_forall in S. cbn. apply show_cell_at. auto.
Qed.
Definition header (cs : list column) : text := padded (map (fun c => (c, label c)) cs).
Definition total (cs : list column) : nat := list_sum (map column_width cs).
Lemma body_text cs n : cs <> [] -> Forall (fun c => size c = n) cs ->
  concat (map (fun row => concat row ++ [newline]) (zip_rows (map show_cells cs))) = concat (map (fun i => padded (row_at cs i) ++ [newline]) (seq 0 n)).
Proof.
  intros NE S. rewrite (zip_eq _ _ S). destruct cs as [|c cs]; [easy|]. set (L := c :: cs) in *. rewrite map_map. f_equal. apply map_ext_in. intros i I.
  f_equal. apply row_text. eapply Forall_impl; [|exact S]. cbn. intros d ->. apply in_seq in I. lia.
Qed.
Lemma lines_rows (f : nat -> text) l r : Forall (fun i => flat (f i)) l -> lines (concat (map (fun i => f i ++ [newline]) l) ++ r) = map f l ++ lines r.
Proof.
  induction 1 as [|i l H F IH]; [reflexivity|]. cbn [map concat]. rewrite <- !app_assoc. cbn [app]. rewrite lines_line by auto. now rewrite IH.
Qed.
Lemma dashes_line n : flat (repeat dash n).
Proof. induction n; constructor; auto. Qed.
Lemma write_lines t n : let cs := values t in cs <> [] -> Forall (fun c => size c = n) cs -> Forall (fun c => word (label c)) cs -> Forall words_only cs ->
  forall leg, exists rest, lines (write t leg) =
    header cs :: repeat dash (total cs) :: map (fun i => padded (row_at cs i)) (seq 0 n) ++ repeat dash (total cs) :: rest.
Proof.
  intros cs NE S L W leg. unfold write. fold cs. fold (total cs). cbv zeta.
  assert (H : concat (map show_label cs) = header cs) by (unfold header, padded; rewrite map_map; f_equal; apply map_ext; intros; apply show_label_pad).
  rewrite H. rewrite (body_text _ _ NE S). cbn [app]. eexists. rewrite lines_line.
  2: { apply padded_line. rewrite Forall_map. eapply Forall_impl; [|exact L]. intros c. apply label_roomy. }
  f_equal. rewrite lines_line by apply dashes_line. f_equal. rewrite lines_rows.
  - f_equal. rewrite lines_line by apply dashes_line. reflexivity.
  - rewrite Forall_forall. intros i I. apply padded_line, row_roomy; auto. eapply Forall_impl; [|exact S]. cbn. intros d ->. apply in_seq in I. lia.
Qed.
Lemma dashes_sep n : 4 <= n -> is_separator (repeat dash n) = true /\ forallb blank (repeat dash n) = false.
Proof. intros H. destruct n as [|[|[|[|n]]]]; try lia. split; reflexivity. Qed.
Lemma wide_total cs : wide cs -> 4 <= total cs.
Proof.
  intros (c & I & H). assert (4 <= column_width c).
  { unfold column_width, get_width. unfold textual in H. destruct (data c) as [l| |]; [|lia|lia]. destruct H as [H|H]; [exfalso; eauto|lia]. }
  unfold total. induction cs as [|d cs IH]; [easy|]. cbn [map]. change (list_sum (?x :: ?l)) with (x + list_sum l). destruct I as [->|I]; [lia|]. specialize (IH I). lia.
Qed.
Lemma header_skip cs t ls : cs <> [] -> Forall (fun c => word (label c)) cs -> match cs with [] => True | c :: _ => ~ starts_with_dashes (label c) end ->
  read_loop 0 t (header cs :: ls) = read_loop 0 t ls.
Proof.
  intros NE L D. cbn [read_loop]. destruct (forallb blank (header cs)); [reflexivity|].
  destruct (is_separator (header cs)) eqn:E; [|reflexivity]. exfalso. apply sep_spec in E. destruct cs as [|c cs]; [easy|].
  unfold header, padded in E. cbn [map concat fst snd] in E. inversion L as [|? ? L1 L2]; subst. apply padded_sep in E; [|now apply label_roomy].
  destruct E as (E1 & E2). destruct (text_column c) eqn:T; [auto|]. destruct (E2 eq_refl) as ((u & U) & LL). apply D.
  destruct (label c) as [|x1 [|x2 [|x3 [|x4 x]]]]; cbn in LL; try lia. cbn in U. injection U as -> -> -> -> _. exists x. reflexivity.
Qed.
(** The round trip. *)
Lemma kind_absorbed c0 c : same_kind (data c0) (data c) -> absorbed 0 c0 c c0.
Proof.
  intros H. constructor; auto; unfold same_kind, read_back, take in *; destruct (data c0), (data c); cbn [firstn]; auto; try easy; rewrite ?app_nil_r; auto.
  split; auto. exists []. rewrite app_nil_r. auto.
Qed.
Lemma take_all c : take (size c) (data c) = data c.
Proof. unfold take, size. destruct (data c); now rewrite firstn_all. Qed.
Lemma round_trip t0 t leg : readable (values t) -> Forall2 same_column (values t0) (values t) ->
  exists t1, read t0 (write t leg) = Ok t1 /\ all3 (fun c0 c c1 => label c1 = label c0 /\ descr c1 = descr c0 /\ overall c1 = overall c0 /\ read_back (data c0) (data c) (data c1)) t0 (values t) t1.
Proof.
  set (cs := values t). intros ((n & S) & L & W & SP & WD & D) K.
  assert (NE : cs <> []) by (destruct WD as (c & I & _); intros X; rewrite X in I; easy).
  destruct (write_lines t n NE S L W leg) as (rest & E). fold cs in E. unfold read. rewrite E.
  rewrite header_skip; auto; [|destruct cs; tauto].
  destruct (dashes_sep (total cs) (wide_total _ WD)) as (DS & DB). cbn [read_loop]. rewrite DB, DS. cbn [Nat.add Nat.eqb].
  assert (A0 : all3 (absorbed 0) t0 cs t0).
  { clear -K. clearbody cs. unfold values in K. revert cs K. induction t0 as [|(k, c0) t0 IH]; intros cs K; inversion K; subst; constructor; auto. apply kind_absorbed. match goal with H : same_column _ _ |- _ => apply H end. }
  destruct (rows_ok cs n NE S W SP) with (k := n) (i := 0) (t0 := t0) (t1 := t0) (rest := repeat dash (total cs) :: rest) as (t2 & E2 & A2); auto; [destruct cs; tauto|].
  rewrite E2. exists t2. cbn [read_loop]. rewrite DB, DS. split; [reflexivity|].
  clear -A2 S. induction A2 as [|k c0 t0 c cs c1 t1 H A IH]; constructor; [|apply IH; now inversion S]. destruct H as [H1 H2 H3 H4 H5]. inversion S; subst. rewrite take_all in H4. auto.
Qed.

Lemma flat_spec s : flat s <-> one_line s.
Proof.
  unfold flat, one_line. rewrite Forall_forall. split.
  - intros H I. specialize (H _ I). rewrite Ascii.eqb_refl in H. discriminate.
  - intros H c I. apply Ascii.eqb_neq. intros ->. auto.
Qed.
(** Reading stops at the second separator. *)
Lemma lines_app a b : exists l x y r, lines a = l ++ [x] /\ lines b = y :: r /\ lines (a ++ b) = l ++ (x ++ y) :: r.
Proof.
  unfold lines. assert (B : forall v, exists y r, lines_loop v b = (rev v ++ y) :: r /\ lines_loop [] b = y :: r).
  { induction b as [|c b IH]; intros v; cbn [lines_loop].
    - exists [], []. rewrite app_nil_r. auto.
    - destruct (Ascii.eqb c newline).
      + exists [], (lines_loop [] b). rewrite app_nil_r. auto.
      + destruct (IH (c :: v)) as (y & r & E & E0). destruct (IH [c]) as (y' & r' & E' & E0'). rewrite E0 in E0'. injection E0' as <- <-.
        exists (c :: y), r. rewrite E, E'. cbn [rev app]. rewrite <- !app_assoc. auto. }
  assert (A : forall a v, exists l x y r, lines_loop v a = l ++ [x] /\ lines_loop [] b = y :: r /\ lines_loop v (a ++ b) = l ++ (x ++ y) :: r).
  { clear a. induction a as [|c a IH]; intros v; cbn [lines_loop app].
    - destruct (B v) as (y & r & E & E0). exists [], (rev v), y, r. auto.
    - destruct (Ascii.eqb c newline).
      + destruct (IH []) as (l & x & y & r & E1 & E2 & E3). exists (rev v :: l), x, y, r. rewrite E1, E3. auto.
      + destruct (IH (c :: v)) as (l & x & y & r & E1 & E2 & E3). exists l, x, y, r. auto. }
  apply A.
Qed.
Lemma read_stops l x y r t' : forall t k, read_loop k t (l ++ [x]) = Ok t' -> read_loop k t (l ++ (x ++ y) :: r) = Ok t'.
Proof.
  induction l as [|z l IH]; intros t k; cbn [app read_loop].
  - destruct (forallb blank x) eqn:B; [discriminate|]. destruct (is_separator x) eqn:S.
    + assert (forallb blank (x ++ y) = false) as -> by (rewrite forallb_app, B; reflexivity).
      assert (is_separator (x ++ y) = true) as ->. { apply sep_spec in S. apply sep_spec. destruct S as (u & ->). exists (u ++ y). now rewrite app_assoc. }
      destruct (k + 1 =? 2); [auto|discriminate].
    + destruct (k =? 1); [|discriminate]. destruct (append_row t (split x)); discriminate.
  - destruct (forallb blank z); auto. destruct (is_separator z); [destruct (k + 1 =? 2); auto|]. destruct (k =? 1); auto.
    destruct (append_row t (split z)); cbn [bind]; auto; discriminate.
Qed.
Lemma read_prefix t a b t' : read t a = Ok t' -> read t (a ++ b) = Ok t'.
Proof. unfold read. destruct (lines_app a b) as (l & x & y & r & -> & _ & ->). apply read_stops. Qed.
Lemma append_errors t : forall vs e, append_row t vs = Err e -> e = ValueError.
Proof.
  induction t as [|(k, c) t IH]; intros [|v vs] e; cbn [append_row]; try discriminate.
  destruct (append_value c v) as [c'|e'] eqn:A; cbn [bind].
  - destruct (append_row t vs) eqn:R; cbn [bind]; [discriminate|]. intros [= <-]. eauto.
  - intros [= <-]. unfold append_value in A. destruct (data c); cbn [bind] in A; [discriminate| |].
    + unfold parse_int in A. destruct (unsigned v) as (n, [|d s]); cbn [bind] in A; [congruence|]. destruct (digits_value 0 (d :: s)); cbn [bind] in A; congruence.
    + unfold parse_float in A. destruct (unsigned v) as (n, s). destruct (until_point s) as (x, y). destruct (x ++ _) as [|d u]; cbn [bind] in A; [congruence|].
      destruct (digits_value 0 (d :: u)); cbn [bind] in A; congruence.
Qed.
Lemma read_errors ls e : forall k t, read_loop k t ls = Err e -> e = EOFError \/ e = ValueError.
Proof.
  induction ls as [|l ls IH]; intros k t; cbn [read_loop]; [intros [= <-]; auto|].
  destruct (forallb blank l); [apply IH|]. destruct (is_separator l); [destruct (k + 1 =? 2); [discriminate|apply IH]|].
  destruct (k =? 1); [|apply IH]. destruct (append_row t (split l)) eqn:A; cbn [bind]; [apply IH|]. intros [= <-]. right. eapply append_errors; eauto.
Qed.
Lemma sep_not_blank l : starts_with_dashes l -> forallb blank l = false.
Proof. intros (t & ->). reflexivity. Qed.
Lemma read_two ls t' : forall k t, read_loop k t ls = Ok t' -> k <= 1 ->
  (k = 1 -> exists a s b, ls = a ++ s :: b /\ starts_with_dashes s) /\ (k = 0 -> separator_lines ls).
Proof.
  induction ls as [|l ls IH]; intros k t; cbn [read_loop]; [discriminate|]. intros H K.
  assert (STEP : forall k t, read_loop k t ls = Ok t' -> k <= 1 -> (k = 1 -> exists a s b, l :: ls = a ++ s :: b /\ starts_with_dashes s) /\ (k = 0 -> separator_lines (l :: ls))).
  { intros k0 t0 H0 K0. destruct (IH _ _ H0 K0) as (I1 & I2). split; intros Z.
    - destruct (I1 Z) as (a & s & b & -> & D). exists (l :: a), s, b. auto.
    - destruct (I2 Z) as (a & s & b & s' & c & -> & D). exists (l :: a), s, b, s', c. auto. }
  destruct (forallb blank l); [now apply (STEP k t)|]. destruct (is_separator l) eqn:S.
  - apply sep_spec in S. destruct k as [|[|k]]; [| |lia]; cbn [Nat.add Nat.eqb] in H.
    + split; [discriminate|]. intros _. destruct (IH _ _ H) as (I1 & _); [lia|]. destruct (I1 eq_refl) as (a & s & b & -> & D). exists [], l, a, s, b. auto.
    + split; [|discriminate]. intros _. exists [], l, ls. auto.
  - destruct (k =? 1); [|now apply (STEP k t)]. destruct (append_row t (split l)) as [t1|]; [|discriminate]. now apply (STEP k t1).
Qed.

(** Widths. *)
Lemma pad_length c x : length x <= column_width c -> length (pad c x) = column_width c.
Proof. intros H. unfold pad, ljust, rjust. destruct (text_column c); rewrite app_length, repeat_length; lia. Qed.
Lemma padded_length ps : Forall (fun p => length (snd p) <= column_width (fst p)) ps -> length (padded ps) = total (map fst ps).
Proof.
  unfold padded, total. induction 1 as [|(c, x) ps H F IH]; [reflexivity|]. cbn [map concat fst snd] in *. rewrite app_length, IH, pad_length by auto. reflexivity.
Qed.
Lemma concat_lines ls : in_lines ls = concat (map (fun l => l ++ [newline]) ls).
Proof. reflexivity. Qed.
Lemma write_text t n leg : let cs := values t in cs <> [] -> Forall (fun c => size c = n) cs ->
  exists rest, write t leg = in_lines (header cs :: repeat dash (total cs) :: map (fun i => padded (row_at cs i)) (seq 0 n) ++ [repeat dash (total cs)]) ++ rest.
Proof.
  intros cs NE S. unfold write. fold cs. fold (total cs). cbv zeta.
  assert (H : concat (map show_label cs) = header cs) by (unfold header, padded; rewrite map_map; f_equal; apply map_ext; intros; apply show_label_pad).
  rewrite H, (body_text _ _ NE S). unfold in_lines. rewrite !map_cons, map_app, map_map. cbn [concat]. rewrite concat_app. cbn [map concat].
  eexists. rewrite <- !app_assoc. cbn [app]. reflexivity.
Qed.
Lemma write_width t n leg : let cs := values t in cs <> [] -> Forall (fun c => size c = n) cs ->
  Forall (fun c => textual c \/ length (label c) <= 8 /\ narrow c) cs ->
  exists ls rest w, write t leg = in_lines ls ++ rest /\ length ls = n + 3 /\ Forall (fun l => length l = w) ls.
Proof.
  intros cs NE S F. destruct (write_text t n leg NE S) as (rest & E). fold cs in E. eexists _, rest, (total cs). split; [exact E|]. split.
  - cbn [length]. rewrite app_length, map_length, seq_length. cbn. lia.
  - assert (ALL : forall f, (forall c, In c cs -> length (f c : text) <= column_width c) -> length (padded (map (fun c => (c, f c)) cs)) = total cs).
    { intros f H. rewrite padded_length; [f_equal; rewrite map_map; cbn; apply map_id|]. rewrite Forall_map, Forall_forall. exact H. }
    rewrite Forall_forall in F.
    constructor; [|constructor; [apply repeat_length|]].
    + apply ALL. intros c C. unfold column_width, get_width. destruct (F c C) as [(l & X)|(X & Y)]; [rewrite X; lia|]. unfold narrow in Y. destruct (data c); [easy|lia|lia].
    + apply Forall_app. split; [|constructor; [apply repeat_length|constructor]]. rewrite Forall_map, Forall_forall. intros i I. apply ALL. intros c C.
      assert (IN : In (nth i (raw c) []) (raw c)) by (apply nth_In; rewrite raw_length; rewrite Forall_forall in S; rewrite (S _ C); apply in_seq in I; lia).
      destruct (F c C) as [(l & X)|(X & Y)].
      * unfold column_width, get_width. unfold raw in IN |- *. rewrite X in *. pose proof (max_in (map (@length ascii) l) _ (in_map _ _ _ IN)). lia.
      * destruct (narrow_raw _ _ Y IN) as (T & LL). rewrite num_width by auto. lia.
Qed.

(** New tables. *)
Lemma text_eqb_spec s : forall t, text_eqb s t = true <-> s = t.
Proof.
  induction s as [|a s IH]; intros [|b t]; cbn; try (split; [discriminate|discriminate]); [tauto|]. rewrite andb_true_iff, Ascii.eqb_eq, IH. split; [intros (-> & ->); auto|intros [= -> ->]; auto].
Qed.
Lemma join_spaced ws : spaced ws (join ws).
Proof.
  unfold spaced, join. destruct ws as [|w ws]; [reflexivity|].
  assert (X : forall w, fold_left (fun s x => s ++ [space] ++ x) ws w = w ++ concat (map (fun x => space :: x) ws)); [|apply X].
  induction ws as [|x ws IH]; intros v; cbn [fold_left map concat]; [now rewrite app_nil_r|]. rewrite IH, <- !app_assoc. reflexivity.
Qed.
Lemma new_column_ok lab type des n : new_cells (string_of_list_ascii type) n (data (new_column lab type des n)) /\ label (new_column lab type des n) = lab /\
  descr (new_column lab type des n) = des /\ overall (new_column lab type des n) = None.
Proof.
  unfold new_column. destruct (text_eqb type (lit "count")) eqn:E1.
  { apply text_eqb_spec in E1. subst type. destruct n; cbn; auto. }
  destruct (text_eqb type (lit "string")) eqn:E2.
  { apply text_eqb_spec in E2. subst type. destruct n; cbn; auto. }
  assert (N : forall s, text_eqb type (lit s) = false -> string_of_list_ascii type <> s).
  { intros s F X. subst s. unfold lit in F. rewrite list_ascii_of_string_of_list_ascii in F. rewrite (proj2 (text_eqb_spec type type) eq_refl) in F. discriminate. }
  assert (NC : forall l, l = repeat 0%Q n -> new_cells (string_of_list_ascii type) n (Numbers type l)).
  { intros l ->. cbn. rewrite list_ascii_of_string_of_list_ascii. repeat split; auto. }
  destruct n as [|n]; cbn [Nat.eqb grow_column grow_cells data label descr overall]; (split; [now apply NC|auto]).
Qed.
Definition define (n : nat) (t : table) (l : text) : res table :=
  match split l with [] => Ok t | [_] => Err IndexError | lab :: type :: des => Ok (dset text_eqb t lab (new_column lab type (join des) n)) end.
Lemma lines_joined ls s : lines_are ls s -> lines s = ls.
Proof.
  intros (F & E). destruct ls as [|l ls]; [easy|]. subst s. revert l F. induction ls as [|l' ls IH]; intros l F; inversion F as [|? ? F1 F2]; subst; cbn [map concat].
  - rewrite app_nil_r. apply flat_spec in F1. clear -F1. unfold lines. assert (X : forall v, lines_loop v l = [rev v ++ l]); [|apply X].
    induction F1 as [|c l H F IH]; intros v; cbn [lines_loop]; [now rewrite app_nil_r|]. rewrite H, IH. cbn. now rewrite <- app_assoc.
  - cbn [app]. rewrite lines_line by now apply flat_spec. f_equal. now apply IH.
Qed.
Lemma new_table_eq def n : new_table def n = foldM (define n) [] (lines def).
Proof. reflexivity. Qed.
Definition nonempty {A} (l : list A) : bool := match l with [] => false | _ => true end.
Lemma dset_new t k (c : column) : ~ In k (map fst t) -> dset text_eqb t k c = t ++ [(k, c)].
Proof.
  induction t as [|(k', c') t IH]; intros H; [reflexivity|]. cbn in *. destruct (text_eqb k k') eqn:E.
  - apply text_eqb_spec in E. subst; tauto.
  - rewrite IH by tauto. reflexivity.
Qed.
Lemma define_ok n ls : forall t, Forall (fun l => length (split l) <> 1) ls -> NoDup (map fst t ++ labels (filter nonempty (map split ls))) ->
  exists t', foldM (define n) t ls = Ok (t ++ t') /\ map fst t' = labels (filter nonempty (map split ls)) /\ Forall2 (defined_by n) (filter nonempty (map split ls)) (values t') /\
    map label (values t') = map fst t'.
Proof.
  induction ls as [|l ls IH]; intros t F ND; cbn [map filter foldM].
  - exists []. rewrite app_nil_r. split; auto. split; auto. split; [constructor|auto].
  - inversion F as [|? ? F1 F2]; subst. unfold define at 1. cbn [map filter] in ND. destruct (split l) as [|lab [|type des]]; [|cbn in F1; lia|].
    + cbn [bind nonempty]. now apply IH.
    + cbn [nonempty labels map hd] in *. cbn [bind]. destruct (new_column_ok lab type (join des) n) as (C1 & C2 & C3 & C4). set (c := new_column lab type (join des) n) in *.
      apply NoDup_remove in ND as H0. destruct H0 as (ND1 & NI). rewrite dset_new by (intros X; apply NI, in_or_app; auto).
      destruct (IH (t ++ [(lab, c)])) as (t' & E & L & F3 & L2); auto.
      { rewrite map_app. cbn [map fst]. rewrite <- app_assoc. exact ND. }
      exists ((lab, c) :: t'). rewrite E, <- app_assoc. split; [reflexivity|]. cbn [map fst values snd]. split; [now rewrite L|]. split.
      * constructor; auto. exists lab, (string_of_list_ascii type), des. rewrite list_ascii_of_string_of_list_ascii. repeat split; auto. rewrite C3. apply join_spaced.
      * f_equal; auto.
Qed.
Lemma define_bad n ls : forall t, (exists l, In l ls /\ length (split l) = 1) -> foldM (define n) t ls = Err IndexError.
Proof.
  induction ls as [|l ls IH]; intros t (x & I & E); [easy|]. cbn [foldM]. unfold define at 1. destruct (split l) as [|lab [|type des]] eqn:S; [|reflexivity|]; cbn [bind]; apply IH; exists x; (destruct I as [->|I]; [rewrite S in E; discriminate|auto]).
Qed.

(** Decimal notation. *)
Lemma digit_dchar d : (d < 10)%N -> digit (N.to_nat d) = dchar d.
Proof. intros H. unfold digit, dchar, ascii_of_nat. f_equal. lia. Qed.
Lemma str_decimal n : decimal (N.to_nat n) (str_N n).
Proof.
  apply (str_ind (fun n s => decimal (N.to_nat n) s)).
  - intros d H. rewrite <- digit_dchar by auto. constructor. lia.
  - intros m d M H D. rewrite <- digit_dchar by auto. replace (N.to_nat (10 * m + d)) with (10 * N.to_nat m + N.to_nat d) by lia. constructor; auto; lia.
Qed.
Lemma str_Z_numeral z : numeral z (str_Z z).
Proof.
  unfold numeral, str_Z. destruct z as [|p|p].
  - left. split; [lia|]. apply (str_decimal 0).
  - left. split; [lia|]. replace (Z.to_nat (Zpos p)) with (N.to_nat (Z.to_N (Z.pos p))) by lia. apply str_decimal.
  - right. split; [lia|]. exists (str_N (Npos p)). split; [reflexivity|]. replace (Z.to_nat (- Zneg p)) with (N.to_nat (Npos p)) by lia. apply str_decimal.
Qed.
Lemma show_q_two q : two_decimals q (show_q q).
Proof.
  rewrite show_q_eq. set (a := cents q). destruct (round_even_spec (100 * Qabs q)) as (R1 & R2). rewrite <- cents_round in R1, R2. fold a in R1, R2.
  unfold two_decimals. exists (if Z.ltb (Qnum q) 0 then - Z.of_N a else Z.of_N a)%Z, (N.to_nat (a / 100)), (N.to_nat (a mod 100 / 10)), (N.to_nat (a mod 100 mod 10)), (str_N (a / 100)).
  assert (M : (a mod 100 < 100)%N) by (apply N.mod_lt; lia). assert (A : (a mod 100 / 10 < 10)%N) by (apply N.div_lt_upper_bound; lia). assert (B : (a mod 100 mod 10 < 10)%N) by (apply N.mod_lt; lia).
  split; [|split; [apply str_decimal|split; [lia|split; [lia|split]]]].
  - unfold hundredths. destruct (Z.ltb (Qnum q) 0) eqn:S.
    + apply qnum_neg in S. assert (E : (Qabs (100 * q - inject_Z (- Z.of_N a)) == Qabs (100 * Qabs q - inject_Z (Z.of_N a)))%Q).
      { rewrite (Qabs_neg q) by lra. rewrite inject_Z_opp. rewrite <- (Qabs_opp (100 * q - - inject_Z (Z.of_N a))). apply Qabs_wd. ring. }
      rewrite E. split; auto. intros H. rewrite Z.even_opp. auto.
    + assert (S' : (0 <= q)%Q) by (apply Qnot_lt_le; intros H; apply qnum_neg in H; congruence).
      assert (E : (Qabs (100 * q - inject_Z (Z.of_N a)) == Qabs (100 * Qabs q - inject_Z (Z.of_N a)))%Q) by (rewrite (Qabs_pos q) by lra; reflexivity).
      rewrite E. split; auto.
  - assert (E : Z.abs (if Z.ltb (Qnum q) 0 then - Z.of_N a else Z.of_N a) = Z.of_N a) by (destruct (Z.ltb (Qnum q) 0); lia). rewrite E.
    pose proof (N.div_mod' a 100). pose proof (N.div_mod' (a mod 100) 10). lia.
  - unfold unsigned_text, two_digits. rewrite !digit_dchar by auto. destruct (Z.ltb (Qnum q) 0) eqn:S; [right|left]; (split; [|reflexivity]).
    + now apply qnum_neg.
    + apply Qnot_lt_le; intros H; apply qnum_neg in H; congruence.
Qed.
(** The overalls. *)
Definition overall_text (o : cells * number) : text := match fst o with Counts _ => show_int (snd o) | _ => show_float (snd o) end.
Lemma overall_shows c n : narrow_overall c -> overall c = Some n -> shows (data c, n) (overall_text (data c, n)) /\ word (overall_text (data c, n)) /\ length (overall_text (data c, n)) <= 7 /\ text_column c = false.
Proof.
  unfold narrow_overall, shows, overall_text, text_column. cbn [fst snd]. intros H E. rewrite E in H. destruct (data c), n; try easy; cbn [show_int show_float].
  - split; [apply str_Z_numeral|]. split; [apply str_Z_word|]. split; [now apply str_Z_length|reflexivity].
  - split; [apply show_q_two|]. split; [apply show_q_word|]. split; [now apply show_q_length|reflexivity].
  - split; [apply show_q_two|]. split; [apply show_q_word|]. split; [now apply show_q_length|reflexivity].
Qed.
Lemma show_overall_eq c : show_overall c = match overall c with None => repeat space (column_width c) | Some n => rjust (column_width c) (overall_text (data c, n)) end.
Proof. unfold show_overall, overall_text. cbn [fst snd]. destruct (overall c), (data c); reflexivity. Qed.
Lemma overalls_ok cs : Forall narrow_overall cs ->
  exists ws, splits (concat (map show_overall cs)) ws /\ Forall2 shows (overalls cs) ws /\ flat (concat (map show_overall cs)) /\
    length (concat (map show_overall cs)) = total cs /\ match concat (map show_overall cs) with [] => True | c :: _ => blank c = true end.
Proof.
  induction 1 as [|c cs H F (ws & I1 & I2 & I3 & I4 & I5)]; [exists []; cbn; repeat constructor|]. cbn [map concat]. rewrite show_overall_eq. unfold overalls. cbn [flat_map]. fold (overalls cs).
  destruct (overall c) as [n|] eqn:E.
  - destruct (overall_shows _ _ H E) as (S1 & S2 & S3 & S4). rewrite num_width by auto. set (x := overall_text (data c, n)) in *. exists (x :: ws). unfold rjust. rewrite <- app_assoc.
    split; [apply splits_cons; auto; apply spaces_blank|]. split; [constructor; auto|]. split; [repeat apply flat_app; auto using spaces_line, word_flat|]. split.
    + rewrite !app_length, repeat_length, I4. unfold total. cbn [map]. rewrite (num_width c) by auto. change (list_sum (8 :: ?l)) with (8 + list_sum l). lia.
    + destruct (8 - length x) eqn:L; [lia|reflexivity].
  - exists ws. split; [apply splits_app; auto; apply spaces_blank|]. split; [exact I2|]. split; [apply flat_app; auto using spaces_line|]. split.
    + rewrite app_length, repeat_length, I4. reflexivity.
    + destruct (column_width c); [exact I5|reflexivity].
Qed.
Lemma write_overalls t n leg : let cs := values t in cs <> [] -> Forall (fun c => size c = n) cs -> Forall narrow_overall cs ->
  exists ls line rest ws, write t leg = in_lines (ls ++ [line]) ++ rest /\ length ls = n + 3 /\ one_line line /\ splits line ws /\ Forall2 shows (overalls cs) ws /\ length line = total cs.
Proof.
  intros cs NE S O. destruct (overalls_ok cs O) as (ws & I1 & I2 & I3 & I4 & _). unfold write. fold cs. fold (total cs). cbv zeta.
  rewrite (body_text _ _ NE S).
  exists (concat (map show_label cs) :: repeat dash (total cs) :: map (fun i => padded (row_at cs i)) (seq 0 n) ++ [repeat dash (total cs)]), (concat (map show_overall cs)).
  exists (newline :: newline :: (if leg then newline :: newline :: write_legenda t else [])). exists ws. split; [|split; [|split; [now apply flat_spec|auto]]].
  - unfold in_lines. cbn [app]. rewrite !map_cons, !map_app, map_map. cbn [concat]. rewrite !concat_app. cbn [map concat]. rewrite !app_nil_r. repeat (rewrite <- !app_assoc; cbn [app]). destruct leg; cbn [app]; repeat (rewrite <- !app_assoc; cbn [app]); reflexivity.
  - cbn [length]. rewrite app_length, map_length, seq_length. cbn. lia.
Qed.
(** The legenda. *)
Lemma legenda_lines t : write t true = write t false ++ [newline; newline] ++ write_legenda t.
Proof. unfold write. cbv zeta. repeat (rewrite <- !app_assoc; cbn [app]). reflexivity. Qed.
Lemma legenda_text t : exists ls, write_legenda t = in_lines ls /\ length ls = length (values t) /\
  forall i c, nth_error (values t) i = Some c -> exists l, nth_error ls i = Some l /\ legend_line i c l.
Proof.
  set (f := fun x : nat * column => ljust 4 (str_N (N.of_nat (fst x + 1))) ++ ljust 8 (label (snd x)) ++ descr (snd x)).
  exists (map f (combine (seq 0 (length (values t))) (values t))). split; [|split].
  - unfold write_legenda, in_lines. rewrite map_map. unfold values at 2. rewrite map_length. f_equal. apply map_ext. intros (i, c). unfold f. cbn [fst snd]. now rewrite <- !app_assoc.
  - rewrite map_length, combine_length, seq_length. lia.
  - intros i c H. exists (f (i, c)). split.
    + rewrite nth_error_map. assert (L : i < length (values t)) by (apply nth_error_Some; congruence).
      assert (X : forall (l : list column) k i c, nth_error l i = Some c -> nth_error (combine (seq k (length l)) l) i = Some (k + i, c)).
      { clear. induction l as [|d l IH]; intros k [|i] c; cbn [nth_error length seq combine]; try discriminate; [intros [= <-]; do 2 f_equal; lia|].
        intros H. rewrite (IH _ _ _ H). do 2 f_equal. lia. }
      rewrite (X _ 0 _ _ H). reflexivity.
    + unfold legend_line, f. cbn [fst snd]. exists (str_N (N.of_nat (i + 1))). split.
      * pose proof (str_Z_numeral (Z.of_nat (i + 1))) as N. unfold str_Z in N. destruct (Z.of_nat (i + 1)) as [|p|p] eqn:Z; [lia| |lia].
        assert (Zpos p = Z.of_N (N.of_nat (i + 1))) as E by lia. rewrite E in N at 2. rewrite N2Z.id in N. exact N.
      * unfold ljust. now rewrite <- !app_assoc.
Qed.

(** What is read, exactly. *)
Lemma digit_of_spec c d : digit_of c = Some d <-> exists n, n < 10 /\ c = digit n /\ d = Z.of_nat n.
Proof.
  unfold digit_of, digit. split.
  - destruct (48 <=? nat_of_ascii c) eqn:A; [|discriminate]. destruct (nat_of_ascii c <=? 57) eqn:B; [|discriminate]. cbn [andb]. intros [= <-].
    apply Nat.leb_le in A. apply Nat.leb_le in B. exists (nat_of_ascii c - 48). split; [lia|]. split; [|reflexivity].
    replace (48 + (nat_of_ascii c - 48)) with (nat_of_ascii c) by lia. now rewrite ascii_nat_embedding.
  - intros (n & L & -> & ->). rewrite nat_ascii_embedding by lia. assert (48 <=? 48 + n = true) as -> by (apply Nat.leb_le; lia).
    assert (48 + n <=? 57 = true) as -> by (apply Nat.leb_le; lia). cbn [andb]. do 2 f_equal. lia.
Qed.
Lemma digits_value_spec s z : digits_value 0 s = Some z <-> digits_are s z.
Proof.
  revert z. induction s as [|c s IH] using rev_ind; intros z.
  - cbn. split; [intros [= <-]; constructor|]. intros H. inversion H; [reflexivity|]. now destruct s.
  - rewrite digits_value_app. split.
    + destruct (digits_value 0 s) as [v|] eqn:E; [|discriminate]. cbn [digits_value]. destruct (digit_of c) as [d|] eqn:D; [|discriminate]. intros [= <-].
      apply digit_of_spec in D as (n & L & -> & ->). constructor; [|exact L]. now apply IH.
    + intros H. inversion H as [Q|s' v d S L Q1 Q2]; [now destruct s|]. apply app_inj_tail in Q1 as [-> <-]. apply IH in S. rewrite S. cbn [digits_value].
      rewrite (proj2 (digit_of_spec (digit d) (Z.of_nat d))) by eauto. reflexivity.
Qed.
Lemma digits_no c s z : digits_are (c :: s) z -> c <> "-"%char /\ c <> "+"%char.
Proof.
  intros H. apply digits_value_spec in H. cbn [digits_value] in H. destruct (digit_of c) as [d|] eqn:D; [|discriminate].
  split; intros ->; vm_compute in D; discriminate.
Qed.
Lemma signed_spec {X} (opp : X -> X) (P : text -> X -> Prop) (f : text -> res X) w x :
  (forall s y, f s = Ok y <-> P s y) -> (forall c s y, P (c :: s) y -> c <> "-"%char /\ c <> "+"%char) ->
  (let (neg, s) := unsigned w in y <- f s ;; Ok (if neg : bool then opp y else y)) = Ok x <-> signed opp P w x.
Proof.
  intros F N. unfold signed, unsigned. destruct w as [|c s].
  - split.
    + destruct (f []) as [y|] eqn:E; [|discriminate]. cbn [bind]. intros [= <-]. left. now apply F.
    + intros [H|[(t & Q & _)|(t & y & Q & _)]]; try discriminate. apply F in H. now rewrite H.
  - destruct (Ascii.eqb c "-") eqn:E1; [|destruct (Ascii.eqb c "+") eqn:E2].
    + apply Ascii.eqb_eq in E1. subst c. split.
      * destruct (f s) as [y|] eqn:E; [|discriminate]. cbn [bind]. intros [= <-]. right. right. exists s, y. split; [reflexivity|]. split; [now apply F|reflexivity].
      * intros [H|[(t & Q & _)|(t & y & Q & H & ->)]]; [now destruct (N _ _ _ H)|discriminate|]. injection Q as <-. apply F in H. now rewrite H.
    + apply Ascii.eqb_eq in E2. subst c. split.
      * destruct (f s) as [y|] eqn:E; [|discriminate]. cbn [bind]. intros [= <-]. right. left. exists s. split; [reflexivity|]. now apply F.
      * intros [H|[(t & Q & H)|(t & y & Q & H & ->)]]; [now destruct (N _ _ _ H)| |discriminate]. injection Q as <-. apply F in H. now rewrite H.
    + apply Ascii.eqb_neq in E1, E2. split.
      * destruct (f (c :: s)) as [y|] eqn:E; [|discriminate]. cbn [bind]. intros [= <-]. left. now apply F.
      * intros [H|[(t & Q & _)|(t & y & Q & _)]]; [apply F in H; now rewrite H| |]; injection Q as -> _; [now destruct E2|now destruct E1].
Qed.
Lemma parse_int_spec w z : parse_int w = Ok z <-> signed Z.opp whole_number w z.
Proof.
  rewrite <- (signed_spec Z.opp whole_number (fun s => match s with [] => Err ValueError | _ => match digits_value 0 s with Some v => Ok v | None => Err ValueError end end)).
  - unfold parse_int. destruct (unsigned w) as [neg [|c s]]; [reflexivity|]. destruct (digits_value 0 (c :: s)); reflexivity.
  - intros s y. unfold whole_number. rewrite <- digits_value_spec. destruct s as [|c s]; [split; [discriminate|intros [H _]; now destruct H]|].
    destruct (digits_value 0 (c :: s)); split; try (intros [= <-]; split; [discriminate|reflexivity]); try discriminate; intros [_ H]; congruence.
  - intros c s y [_ H]. exact (digits_no _ _ _ H).
Qed.
Lemma until_point_spec s : match until_point s with (a, None) => s = a | (a, Some f) => s = a ++ "."%char :: f end /\ ~ In "."%char (fst (until_point s)).
Proof.
  induction s as [|c s IH]; [split; [reflexivity|auto]|]. cbn [until_point]. destruct (Ascii.eqb c ".") eqn:E.
  - apply Ascii.eqb_eq in E. subst c. split; [reflexivity|auto].
  - apply Ascii.eqb_neq in E. destruct (until_point s) as [a [f|]]; destruct IH as [-> N]; (split; [reflexivity|]); cbn [fst] in *; intros [Q|I]; auto.
Qed.
Lemma until_point_at a f : ~ In "."%char a -> until_point (a ++ "."%char :: f) = (a, Some f).
Proof.
  induction a as [|c a IH]; intros N; [reflexivity|]. cbn [app until_point]. destruct (Ascii.eqb c ".") eqn:E; [apply Ascii.eqb_eq in E; subst c; destruct N; now left|].
  rewrite IH; [reflexivity|]. intros I. apply N. now right.
Qed.
Lemma until_point_none a : ~ In "."%char a -> until_point a = (a, None).
Proof.
  induction a as [|c a IH]; intros N; [reflexivity|]. cbn [until_point]. destruct (Ascii.eqb c ".") eqn:E; [apply Ascii.eqb_eq in E; subst c; destruct N; now left|].
  rewrite IH; [reflexivity|]. intros I. apply N. now right.
Qed.
Lemma digits_no_point s z : digits_are s z -> ~ In "."%char s.
Proof.
  induction 1 as [|s v d D IH L]; [auto|]. intros I. apply in_app_or in I as [I|[I|[]]]; [auto|].
  assert (nat_of_ascii (digit d) = nat_of_ascii ".") as Q by now rewrite I. unfold digit in Q. rewrite nat_ascii_embedding in Q by lia. change (nat_of_ascii ".") with 46 in Q. lia.
Qed.
Lemma parse_float_spec w q : parse_float w = Ok q <-> signed Qopp decimal_number w q.
Proof.
  rewrite <- (signed_spec Qopp decimal_number (fun s => let (a, b) := until_point s in let f := match b with Some f => f | None => [] end in
     match a ++ f with [] => Err ValueError | ds => match digits_value 0 ds with Some v => Ok (Qdiv (inject_Z v) (inject_Z (10 ^ Z.of_nat (length f))%Z)) | None => Err ValueError end end)).
  - unfold parse_float. destruct (unsigned w) as [neg s]. destruct (until_point s) as [a b]. cbn zeta. destruct (a ++ _) as [|c ds]; [reflexivity|]. destruct (digits_value 0 (c :: ds)); reflexivity.
  - intros s y. unfold decimal_number. split.
    + destruct (until_point_spec s) as [U N]. destruct (until_point s) as [a b]. cbn zeta. set (f := match b with Some f => f | None => [] end).
      destruct (a ++ f) as [|c ds] eqn:A; [discriminate|]. destruct (digits_value 0 (c :: ds)) as [v|] eqn:V; [|discriminate]. intros [= <-].
      exists a, f, v. rewrite A. split; [destruct b; subst f; [right; exact U|left; auto]|]. split; [discriminate|]. split; [now apply digits_value_spec|reflexivity].
    + intros (a & f & v & W & NE & D & ->). assert (~ In "."%char (a ++ f)) as NP by exact (digits_no_point _ _ D).
      assert (exists b, until_point s = (a, b) /\ match b with Some f => f | None => [] end = f) as (b & -> & B).
      { destruct W as [[-> ->]| ->].
        - exists None. split; [|reflexivity]. rewrite app_nil_r in NP. now apply until_point_none.
        - exists (Some f). split; [|reflexivity]. apply until_point_at. intros I. apply NP. apply in_or_app. now left. }
      cbn zeta. rewrite B.
      apply digits_value_spec in D. destruct (a ++ f) as [|c ds]; [now destruct NE|]. now rewrite D.
  - intros c s y (a & f & v & W & NE & D & _). destruct a as [|x a].
    + destruct W as [[W W']|W]; [discriminate|]. injection W as -> _. split; discriminate.
    + assert (c = x) as -> by (destruct W as [[W _]|W]; injection W as -> _; reflexivity). cbn [app] in D. exact (digits_no _ _ _ D).
Qed.
Lemma append_value_spec c v c' : append_value c v = Ok c' <-> added v c c'.
Proof.
  unfold append_value, added, cell_added. destruct c as [lab des dat ov], c' as [lab' des' dat' ov']. cbn [label descr data overall]. destruct dat as [l|l|ty l].
  - cbn [bind]. split; [intros [= -> -> <- ->]; auto|]. intros (-> & -> & -> & H). destruct dat'; [now subst|contradiction..].
  - destruct (parse_int v) as [z|e] eqn:E; cbn [bind].
    + apply parse_int_spec in E. split; [intros [= -> -> <- ->]; eauto 6|]. intros (-> & -> & -> & H). destruct dat'; [contradiction| |contradiction].
      destruct H as (z' & S & ->). apply parse_int_spec in S. apply parse_int_spec in E. now assert (z' = z) as -> by congruence.
    + split; [discriminate|]. intros (_ & _ & _ & H). destruct dat'; [contradiction| |contradiction]. destruct H as (z' & S & ->). apply parse_int_spec in S. congruence.
  - destruct (parse_float v) as [z|e] eqn:E; cbn [bind].
    + apply parse_float_spec in E. split; [intros [= -> -> <- ->]; eauto 8|]. intros (-> & -> & -> & H). destruct dat'; [contradiction|contradiction|].
      destruct H as (-> & z' & S & ->). apply parse_float_spec in S. apply parse_float_spec in E. now assert (z' = z) as -> by congruence.
    + split; [discriminate|]. intros (_ & _ & _ & H). destruct dat'; [contradiction|contradiction|]. destruct H as (_ & z' & S & ->). apply parse_float_spec in S. congruence.
Qed.
Lemma append_row_spec t : forall vs t', append_row t vs = Ok t' <-> map fst t' = map fst t /\ row_read (values t) vs (values t').
Proof.
  induction t as [|(k, c) t IH]; intros vs t'.
  - split; [destruct vs; intros [= <-]; split; auto; constructor|]. intros [Q _]. destruct t'; [destruct vs; reflexivity|discriminate].
  - destruct vs as [|v vs].
    + split; [intros [= <-]; split; [reflexivity|constructor]|]. intros [Q R]. cbn [append_row]. f_equal. inversion R as [|cs A B C|]; subst.
      assert (forall (a b : table), map fst a = map fst b -> values a = values b -> a = b) as K.
      { induction a as [|[x y] a IHa]; intros [|[x' y'] b]; cbn; try discriminate; auto. intros [= -> H1] [= -> H2]. f_equal. auto. }
      symmetry. apply K; auto.
    + cbn [append_row]. destruct (append_value c v) as [c'|e] eqn:E; cbn [bind].
      * destruct (append_row t vs) as [t''|e] eqn:E2; cbn [bind].
        -- pose proof (proj1 (IH vs t'') E2) as [Q R]. split.
           ++ intros [= <-]. cbn [map fst values snd]. split; [now f_equal|]. constructor; auto. now apply append_value_spec.
           ++ intros [Q' R']. destruct t' as [|(k', x) t']; [discriminate|]. cbn [map fst] in Q'. injection Q' as -> Q'. cbn [values map snd] in R'. inversion R'; subst.
              match goal with H : added _ _ _ |- _ => apply append_value_spec in H; assert (x = c') as -> by congruence end.
              pose proof (proj2 (IH vs t') (conj Q' ltac:(eassumption))) as E3. rewrite E2 in E3. injection E3 as ->. reflexivity.
        -- split; [discriminate|]. intros [Q' R']. destruct t' as [|(k', x) t']; [discriminate|]. cbn [map fst] in Q'. injection Q' as -> Q'. cbn [values map snd] in R'. inversion R'; subst.
           pose proof (proj2 (IH vs t') (conj Q' ltac:(eassumption))) as E3. rewrite E2 in E3. discriminate.
      * split; [discriminate|]. intros [Q' R']. destruct t' as [|(k', x) t']; [discriminate|]. cbn [values map snd] in R'. inversion R'; subst. match goal with H : added _ _ _ |- _ => apply append_value_spec in H; congruence end.
Qed.

Lemma row_read_nil cs x : row_read cs [] x -> x = cs.
Proof. intros H. inversion H; congruence. Qed.
Lemma read_body body : forall t rest s t', Forall (fun l => ~ starts_with_dashes l) body -> starts_with_dashes s ->
  (read_loop 1 t (body ++ s :: rest) = Ok t' <-> map fst t' = map fst t /\ rows_read (values t) body (values t')).
Proof.
  induction body as [|l body IH]; intros t rest s t' N S; cbn [app read_loop].
  - rewrite (sep_not_blank _ S), (proj2 (sep_spec s) S). cbn [Nat.add Nat.eqb]. split; [intros [= <-]; split; [reflexivity|constructor]|].
    intros [Q R]. assert (values t' = values t) as V by (inversion R; congruence). f_equal. clear R. revert t' Q V. clear. induction t as [|[k c] t IH]; intros [|[k' c'] t']; cbn; try discriminate; auto. intros [= -> H1] [= -> H2]. f_equal. auto.
  - pose proof (Forall_inv N) as Nl. pose proof (Forall_inv_tail N) as Nb. destruct (forallb blank l) eqn:B.
    + rewrite (IH t rest s t' Nb S). assert (splits l []) as SP by (rewrite <- (blank_split _ B); apply split_splits). split; intros [Q R]; (split; [exact Q|]).
      * econstructor; [exact SP|constructor|exact R].
      * inversion R; subst. match goal with H : splits l _ |- _ => apply splits_split in H; rewrite (blank_split _ B) in H; subst end.
        match goal with H : row_read _ [] _ |- _ => apply row_read_nil in H; subst end. assumption.
    + destruct (is_separator l) eqn:Sp; [apply sep_spec in Sp; now destruct Nl|]. cbn [Nat.eqb].
      destruct (append_row t (split l)) as [t1|e] eqn:A; cbn [bind].
      * rewrite (IH t1 rest s t' Nb S). apply append_row_spec in A as [Q1 R1]. rewrite Q1. split; intros [Q R]; (split; [exact Q|]).
        -- econstructor; [apply split_splits|exact R1|exact R].
        -- inversion R; subst. match goal with H : splits l _ |- _ => apply splits_split in H; subst end.
           assert (forall cs ws a b, row_read cs ws a -> row_read cs ws b -> a = b) as FUN.
           { clear. intros cs ws a b H. revert b. induction H as [ws|cs|c cs w ws c' cs' A R IH]; intros b Hb; inversion Hb; subst; auto.
             f_equal; [|now apply IH]. apply append_value_spec in A. match goal with H : added _ _ _ |- _ => apply append_value_spec in H end. congruence. }
           match goal with H : row_read _ _ ?x |- _ => assert (x = values t1) as <- by (eapply FUN; eassumption) || fail end. assumption.
      * split; [discriminate|]. intros [Q R]. exfalso. inversion R; subst. match goal with H : splits l _ |- _ => apply splits_split in H; subst end.
        match goal with H : row_read _ (split l) ?x |- _ => rename H into RR end.
        assert (forall (ks : table) ws x, row_read (values ks) ws x -> exists ks', map fst ks' = map fst ks /\ values ks' = x) as MK.
        { clear. intros ks ws. revert ws. induction ks as [|[k c] ks IH]; intros ws x R; inversion R; subst.
          - exists []. auto.
          - exists []. auto.
          - exists ((k, c) :: ks). auto.
          - match goal with H : row_read _ _ cs' |- _ => destruct (IH _ _ H) as (ks' & Q & V) end. exists ((k, c') :: ks'). cbn. split; [now f_equal|]. f_equal. exact V. }
        destruct (MK _ _ _ RR) as (ks' & Qk & Vk). rewrite <- Vk in RR. pose proof (proj2 (append_row_spec t (split l) ks') (conj Qk RR)) as Z. rewrite A in Z. discriminate.
Qed.
Lemma read_head head : forall t s r, Forall (fun l => ~ starts_with_dashes l) head -> starts_with_dashes s ->
  read_loop 0 t (head ++ s :: r) = read_loop 1 t r.
Proof.
  induction head as [|l head IH]; intros t s r N S; cbn [app read_loop].
  - rewrite (sep_not_blank _ S), (proj2 (sep_spec s) S). reflexivity.
  - destruct (forallb blank l); [exact (IH t s r (Forall_inv_tail N) S)|]. destruct (is_separator l) eqn:Sp; [apply sep_spec in Sp; now destruct (Forall_inv N)|].
    exact (IH t s r (Forall_inv_tail N) S).
Qed.
Lemma first_sep ls : Forall (fun l => ~ starts_with_dashes l) ls \/ exists a s b, ls = a ++ s :: b /\ Forall (fun l => ~ starts_with_dashes l) a /\ starts_with_dashes s.
Proof.
  induction ls as [|l ls IH]; [left; constructor|]. destruct (is_separator l) eqn:S.
  - right. exists [], l, ls. split; [reflexivity|]. split; [constructor|now apply sep_spec].
  - assert (~ starts_with_dashes l) as N by (intros H; apply sep_spec in H; congruence).
    destruct IH as [F|(a & s & b & -> & F & D)]; [left; now constructor|]. right. exists (l :: a), s, b. split; [reflexivity|]. split; [now constructor|exact D].
Qed.
Lemma read_all t ls t' : read_loop 0 t ls = Ok t' <->
  exists head s body s' rest, ls = head ++ s :: body ++ s' :: rest /\ Forall (fun l => ~ starts_with_dashes l) head /\ starts_with_dashes s /\
    Forall (fun l => ~ starts_with_dashes l) body /\ starts_with_dashes s' /\ map fst t' = map fst t /\ rows_read (values t) body (values t').
Proof.
  split.
  - intros H. assert (separator_lines ls) as Sep by (destruct (read_two _ _ _ _ H (Nat.le_0_l 1)) as (_ & X); auto).
    destruct (first_sep ls) as [F|(head & s & b & -> & Fh & S)].
    { destruct Sep as (a & s & x & s' & c & -> & S & _). rewrite Forall_forall in F. now destruct (F s (in_elt _ _ _)). }
    rewrite (read_head head t s b Fh S) in H. destruct (read_two _ _ _ _ H (le_n 1)) as (X & _). destruct (X eq_refl) as (a' & s0 & b' & Q & S0). clear X.
    destruct (first_sep b) as [F|(body & s' & rest & -> & Fb & S')]; [subst b; rewrite Forall_forall in F; now destruct (F s0 (in_elt _ _ _))|].
    apply (read_body body t rest s' t' Fb S') in H as [H1 H2]. exists head, s, body, s', rest. auto 9.
  - intros (head & s & body & s' & rest & -> & Fh & S & Fb & S' & Q & R). rewrite (read_head head t s _ Fh S). apply read_body; auto.
Qed.
