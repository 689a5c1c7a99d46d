(** Invariants of the Munkres state machine and the effect of each step. *)
From Verif Require Import Py PyLemmas Munkres_model Munkres_proof1.
Set Implicit Arguments.

Section Inv.
Variable n : nat.
Variable maxint : Z.
Hypothesis maxint_pos : (0 < maxint)%Z.
Variable c0 : nat -> nat -> Z.     (* the padded cost matrix *)

Notation ce := (ent 0%Z).
Notation me := (ent 0).
Definition rcv (s : mstate) i := nth i (row_covered s) false.
Definition ccv (s : mstate) j := nth j (col_covered s) false.

Record shape (s : mstate) : Prop := {
  sh_c : sq n (cost s); sh_m : sq n (marked s);
  sh_rc : length (row_covered s) = n; sh_cc : length (col_covered s) = n;
  sh_p : length (path s) = n * 2 }.
Definition dual (c : mat Z) := exists u v : nat -> Z, forall i j, i < n -> j < n ->
  (ce c i j = c0 i j - u i - v j /\ 0 <= ce c i j)%Z.
Definition matching (m : mat nat) :=
  (forall i j j', i < n -> j < n -> j' < n -> me m i j = 1 -> me m i j' = 1 -> j = j') /\
  (forall i i' j, i < n -> i' < n -> j < n -> me m i j = 1 -> me m i' j = 1 -> i = i').
(* marked cells are zeros *)
Definition zeros (s : mstate) := forall i j, i < n -> j < n ->
  me (marked s) i j = 1 \/ me (marked s) i j = 2 -> ce (cost s) i j = 0%Z.
Definition stars (m : mat nat) := filter (fun p => me m (fst p) (snd p) =? 1) (cells n).
Lemma in_stars m i j : In (i, j) (stars m) <-> i < n /\ j < n /\ me m i j = 1.
Proof. clear c0. unfold stars. rewrite filter_In, in_cells. cbn. rewrite Nat.eqb_eq. tauto. Qed.

Record base (s : mstate) : Prop := {
  b_shape : shape s; b_dual : dual (cost s); b_match : matching (marked s); b_zero : zeros s }.

(** Inv3: what holds on entry of step 3: nothing covered, no primes. *)
Definition inv3 s := base s /\ (forall i, rcv s i = false) /\ (forall j, ccv s j = false) /\
  (forall i j, i < n -> j < n -> me (marked s) i j <> 2).

Fixpoint chain (m : mat nat) (L : list nat) : Prop :=
  match L with
  | [] => True
  | r :: L' => (exists c, c < n /\ me m r c = 2 /\ (forall i, i < n -> me m i c = 1 -> In i L')) /\ chain m L'
  end.
Definition one_prime (m : mat nat) i := forall j j', j < n -> j' < n -> me m i j = 2 -> me m i j' = 2 -> j = j'.

(** Inv4: what holds on entry of step 4 and 6; L = covered rows, last covered first. *)
Record inv4 (L : list nat) (s : mstate) : Prop := {
  i4_base : base s;
  i4_few : length (stars (marked s)) < n;
  i4_nodup : NoDup L;
  i4_L : forall i, In i L <-> i < n /\ rcv s i = true;
  i4_star : forall i j, i < n -> j < n -> me (marked s) i j = 1 -> rcv s i = negb (ccv s j);
  i4_col : forall j, j < n -> ccv s j = true -> exists i, i < n /\ me (marked s) i j = 1;
  i4_row : forall i, i < n -> rcv s i = true -> exists j, j < n /\ me (marked s) i j = 1;
  i4_prime : forall i j, i < n -> j < n -> me (marked s) i j = 2 -> rcv s i = true /\ ccv s j = false;
  i4_one : forall i, i < n -> one_prime (marked s) i;
  i4_chain : chain (marked s) L }.

Record inv5 (L : list nat) (s : mstate) : Prop := {
  i5_base : base s;
  i5_nodup : NoDup L;
  i5_L : forall i, In i L -> i < n;
  i5_zr : fst (z0 s) < n; i5_zc : snd (z0 s) < n;
  i5_z : me (marked s) (fst (z0 s)) (snd (z0 s)) = 2;
  i5_fresh : ~ In (fst (z0 s)) L;
  i5_nostar : forall j, j < n -> me (marked s) (fst (z0 s)) j <> 1;
  i5_next : forall i, i < n -> me (marked s) i (snd (z0 s)) = 1 -> In i L;
  i5_one : forall i, i < n -> one_prime (marked s) i;
  i5_chain : chain (marked s) L }.

(** Step 1 *)
Lemma fold_min_le l x y : In y (x :: l) -> (fold_left Z.min l x <= y)%Z.
Proof.
  revert x y; induction l as [|z l IH]; intros x y; cbn [fold_left].
  - intros [->|[]]; lia.
  - intros [->|[->|H]].
    + specialize (IH (Z.min y z) (Z.min y z) ltac:(cbn; auto)). lia.
    + specialize (IH (Z.min x y) (Z.min x y) ltac:(cbn; auto)). lia.
    + apply IH. cbn; auto.
Qed.
Lemma min_list_ok (l : list Z) : l <> [] -> exists v, min_list l = Ok v /\ forall y, In y l -> (v <= y)%Z.
Proof. destruct l as [|x l]; [congruence|]. intros _. eexists; split; [reflexivity|]. intros; now apply fold_min_le. Qed.

Lemma row_sub (c : mat Z) i minval : sq n c -> i < n ->
  exists c', foldM (fun c j => v <- mget c i j ;; mset c i j (v - minval)%Z) c (seq 0 n) = Ok c' /\ sq n c' /\
   forall i' j', ce c' i' j' = if (i' =? i) && (j' <? n) then (ce c i' j' - minval)%Z else ce c i' j'.
Proof.
  intros Hc Hi.
  destruct (@foldM_seq_inv _ (fun c j => v <- mget c i j ;; mset c i j (v - minval)%Z)
    (fun k c' => sq n c' /\ forall i' j', ce c' i' j' = if (i' =? i) && (j' <? k) then (ce c i' j' - minval)%Z else ce c i' j')
    0 n c) as (c' & E & H).
  - split; auto. intros. destruct (Nat.ltb_spec j' 0); [lia|]. now rewrite andb_false_r.
  - intros j c1 Hj [S1 H1]. rewrite (mget_ok 0%Z S1 Hi) by lia. cbn [bind].
    destruct (@mset_ok _ 0%Z n c1 i j (ce c1 i j - minval)%Z S1 Hi ltac:(lia)) as (c2 & E2 & S2 & H2).
    exists c2; split; auto. split; auto. intros i' j'. rewrite H2, !H1.
    destruct (Nat.eqb_spec i' i) as [->|N]; cbn [andb]; auto.
    rewrite Nat.eqb_refl. cbn [andb].
    destruct (Nat.eqb_spec j' j) as [->|N].
    + destruct (Nat.ltb_spec j j); [lia|]. destruct (Nat.ltb_spec j (S j)); [|lia]. auto.
    + destruct (Nat.ltb_spec j' j); destruct (Nat.ltb_spec j' (S j)); auto; lia.
  - eauto.
Qed.
Lemma step1_ok s : shape s -> 0 < n -> (forall i j, i < n -> j < n -> ce (cost s) i j = c0 i j) ->
  exists s', step1 n s = Ok s' /\ shape s' /\ dual (cost s') /\ marked s' = marked s /\
    row_covered s' = row_covered s /\ col_covered s' = col_covered s.
Proof.
  intros Sh Hn Hc. unfold step1.
  destruct (@foldM_seq_inv (mat Z) (fun c i =>
         row <- get c i ;; minval <- min_list row ;;
         foldM (fun c j => v <- mget c i j ;; mset c i j (v - minval)%Z) c (seq 0 n))
    (fun k c' => sq n c' /\ exists u : nat -> Z, forall i j, i < n -> j < n ->
        if i <? k then (ce c' i j = c0 i j - u i /\ 0 <= ce c' i j)%Z else ce c' i j = c0 i j)
    0 n (cost s)) as (c' & E & S' & u & H).
  - split; [apply Sh|]. exists (fun _ => 0%Z). intros. cbn. auto.
  - intros i c1 Hi [S1 (u & H1)]. rewrite (get_ok c1 [] (i:=i)) by (destruct S1; lia). cbn [bind].
    assert (Li : length (nth i c1 []) = n) by (apply S1; lia).
    destruct (@min_list_ok (nth i c1 [])) as (mv & Em & Hm).
    { intros C. rewrite C in Li. cbn in Li. lia. }
    rewrite Em; cbn [bind]. destruct (row_sub mv S1 (i:=i)) as (c2 & E2 & S2 & H2); [lia|].
    exists c2; split; auto. split; auto. exists (fun i' => if i' =? i then mv else u i').
    intros i' j' Hi' Hj'. rewrite H2. specialize (H1 i' j' Hi' Hj').
    destruct (Nat.eqb_spec i' i) as [->|N]; cbn [andb].
    + destruct (Nat.ltb_spec i i); [lia|]. destruct (Nat.ltb_spec i (S i)); [|lia].
      destruct (Nat.ltb_spec j' n); [|lia]. rewrite <- H1. split; [lia|].
      assert (mv <= ce c1 i j')%Z; [|lia]. apply Hm. unfold ent. apply nth_In. lia.
    + destruct (Nat.ltb_spec i' i); destruct (Nat.ltb_spec i' (S i)); try lia; auto.
  - unfold mat in *. rewrite E. cbn [bind]. eexists; split; [reflexivity|]. cbn [with_cost cost marked row_covered col_covered].
    destruct Sh. split; [constructor; auto|]. split; [|auto].
    exists u, (fun _ => 0%Z). intros i j Hi Hj. specialize (H i j Hi Hj).
    destruct (Nat.ltb_spec i (0 + n)); [|lia]. lia.
Qed.

(** clear_covers *)
Lemma clear_ok s : shape s -> exists s', clear_covers n s = Ok s' /\ shape s' /\ cost s' = cost s /\
  marked s' = marked s /\ (forall i, rcv s' i = false) /\ (forall j, ccv s' j = false).
Proof.
  intros Sh. unfold clear_covers. destruct (clear_loop _ (sh_rc Sh)) as (rc & E1 & L1 & H1).
  destruct (clear_loop _ (sh_cc Sh)) as (cc & E2 & L2 & H2). rewrite E1; cbn [bind]. rewrite E2; cbn [bind].
  eexists; split; [reflexivity|]. cbn. destruct Sh. repeat split; auto; try apply sh_c0; try apply sh_m0.
Qed.

(** Step 2 *)
Definition inv2 s := base s /\
  (forall i j, i < n -> j < n -> me (marked s) i j <> 2) /\
  (forall i j, i < n -> j < n -> me (marked s) i j = 1 -> rcv s i = true /\ ccv s j = true).
Lemma cov_get s i : shape s -> i < n -> get (row_covered s) i = Ok (rcv s i).
Proof. intros Sh Hi. apply get_ok. rewrite sh_rc; auto. Qed.
Lemma ccov_get s i : shape s -> i < n -> get (col_covered s) i = Ok (ccv s i).
Proof. intros Sh Hi. apply get_ok. rewrite sh_cc; auto. Qed.

Lemma step2_cell_ok s i j : inv2 s -> i < n -> j < n -> exists s', step2_cell i s j = Ok s' /\ inv2 s'.
Proof.
  intros (B & NP & CV) Hi Hj. unfold step2_cell. destruct B as [Sh D M Z].
  rewrite (mget_ok 0%Z (sh_c Sh) Hi Hj). cbn [bind].
  assert (I : inv2 s) by (split; [constructor|]; auto).
  destruct (Z.eqb_spec (ce (cost s) i j) 0) as [E0|]; [|eauto].
  rewrite (ccov_get Sh Hj). cbn [bind]. destruct (ccv s j) eqn:Cj; cbn [negb]; [eauto|].
  rewrite (cov_get Sh Hi). cbn [bind]. destruct (rcv s i) eqn:Ri; cbn [negb]; [eauto|].
  destruct (mset_ok 0 1 (sh_m Sh) Hi Hj) as (m & Em & Sm & Hm). rewrite Em; cbn [bind].
  destruct (@set_ok _ (col_covered s) j true false) as (cc & Ec & Lc & Hc); [rewrite sh_cc; auto|].
  destruct (@set_ok _ (row_covered s) i true false) as (rc & Er & Lr & Hr); [rewrite sh_rc; auto|].
  rewrite Ec; cbn [bind]. rewrite Er; cbn [bind]. eexists; split; [reflexivity|].
  assert (ROW : forall j', j' < n -> me (marked s) i j' = 1 -> False).
  { intros j' H' E'. destruct (CV i j'); auto. congruence. }
  assert (COL : forall i', i' < n -> me (marked s) i' j = 1 -> False).
  { intros i' H' E'. destruct (CV i' j); auto. congruence. }
  split; [constructor|].
  - destruct Sh. constructor; cbn; auto; congruence.
  - exact D.
  - cbn. destruct M as [M1 M2]. split; intros a b b' Ha Hb Hb'; rewrite !Hm.
    + destruct (Nat.eqb_spec a i) as [->|]; cbn; [|eauto].
      destruct (Nat.eqb_spec b j), (Nat.eqb_spec b' j); cbn; intros; subst; auto; exfalso; eauto.
    + destruct (Nat.eqb_spec b' j) as [->|]; rewrite ?andb_true_r, ?andb_false_r; [|eauto].
      destruct (Nat.eqb_spec a i), (Nat.eqb_spec b i); cbn; intros; subst; auto; exfalso; eauto.
  - intros a b Ha Hb. cbn. rewrite Hm. destruct (Nat.eqb_spec a i) as [->|], (Nat.eqb_spec b j) as [->|]; cbn; auto.
  - split; cbn; intros a b Ha Hb; rewrite Hm.
    + destruct ((a =? i) && (b =? j)); [congruence|auto].
    + unfold rcv, ccv; cbn. rewrite Hr, Hc.
      destruct (Nat.eqb_spec a i) as [->|], (Nat.eqb_spec b j) as [->|]; cbn; intros E; auto;
        [exfalso; eauto|exfalso; eauto|apply CV; auto].
Qed.
Lemma step2_ok s : base s -> (forall i j, i < n -> j < n -> me (marked s) i j = 0) ->
  exists s', step2 n s = Ok s' /\ inv3 s'.
Proof.
  intros B Z. unfold step2.
  rewrite (foldM_prod (fun s i j => step2_cell i s j)). fold (cells n).
  destruct (@foldM_inv mstate (nat*nat) (fun s p => step2_cell (fst p) s (snd p)) inv2 (cells n) s) as (s1 & E1 & B1 & NP & _).
  - split; auto. split; intros i j Hi Hj; rewrite Z; auto; discriminate.
  - intros [i j] s1 Hin I. apply in_cells in Hin. cbn. apply step2_cell_ok; tauto.
  - rewrite E1; cbn [bind]. destruct (clear_ok (b_shape B1)) as (s2 & E2 & Sh & Ec & Em & R & C).
    exists s2; split; auto. destruct B1 as [S1 D1 M1 Z1]. split; [constructor|]; auto.
    + now rewrite Ec.
    + now rewrite Em.
    + intros i j Hi Hj. rewrite Ec, Em. auto.
    + rewrite Em. auto.
Qed.

(** Step 3 *)
Lemma filter_snoc {X} (f : X -> bool) l x : filter f (l ++ [x]) = filter f l ++ (if f x then [x] else []).
Proof. rewrite filter_app. cbn. destruct (f x); auto. Qed.
Lemma step3_ok s : inv3 s -> exists s', step3 n s = Ok (s', if n <=? length (stars (marked s)) then 7 else 4) /\
  marked s' = marked s /\ base s' /\ (length (stars (marked s)) < n -> inv4 [] s').
Proof.
  intros (B & R & C & NP). unfold step3.
  rewrite (foldM_prod (fun st i j => step3_cell (marked s) i st j)). fold (cells n).
  destruct (@foldM_prefix (list bool * nat) (nat*nat) (fun st p => step3_cell (marked s) (fst p) st (snd p))
    (fun done st => length (fst st) = n /\
       snd st = length (filter (fun p => me (marked s) (fst p) (snd p) =? 1) done) /\
       forall j, nth j (fst st) false = true <-> exists i, In (i, j) done /\ me (marked s) i j = 1)
    (cells n) (col_covered s, 0)) as ([cc k] & E & L & K & H).
  - cbn. split; [apply B|]. split; auto. intros j. unfold ccv in C. rewrite C. split; [discriminate|].
    intros (i & [] & _).
  - intros done [i j] rest [cc k] E (L & K & H). cbn [fst snd] in *.
    assert (Hij : i < n /\ j < n) by (apply in_cells; rewrite E; apply in_or_app; cbn; auto).
    destruct Hij as [Hi Hj]. unfold step3_cell. cbn [fst snd].
    rewrite (mget_ok 0 (sh_m (b_shape B)) Hi Hj). cbn [bind].
    destruct (Nat.eqb_spec (me (marked s) i j) 1) as [E1|N1].
    + destruct (@set_ok _ cc j true false) as (cc' & Ec & Lc & Hc); [lia|]. rewrite Ec. cbn [bind].
      eexists; split; [reflexivity|]. cbn. split; [lia|]. split.
      * rewrite filter_snoc. cbn. rewrite E1. cbn. rewrite app_length. cbn. lia.
      * intros j'. rewrite Hc. destruct (Nat.eqb_spec j' j) as [->|N].
        -- split; auto. intros _. exists i. rewrite in_app_iff. cbn. auto.
        -- rewrite H. split; intros (i' & H1 & H2); exists i'; rewrite in_app_iff in *; cbn in *; intuition congruence.
    + eexists; split; [reflexivity|]. cbn. split; [lia|]. split.
      * rewrite filter_snoc. cbn. destruct (Nat.eqb_spec (me (marked s) i j) 1); [congruence|]. now rewrite app_nil_r.
      * intros j'. rewrite H. split; intros (i' & H1 & H2); exists i'; rewrite in_app_iff in *; cbn in *; intuition congruence.
  - rewrite E; cbn [bind fst snd] in *. rewrite K. fold (stars (marked s)). eexists; split; [reflexivity|]. cbn.
    split; auto. cbn [fst snd] in *.
    assert (B' : base (with_covers s (row_covered s) cc)).
    { destruct B as [Sh D M Z]. constructor; auto. destruct Sh. constructor; cbn; auto. }
    split; auto. intros Few. constructor; auto; cbn.
    + constructor.
    + intros i. unfold rcv; cbn. fold (rcv s i). rewrite R. intuition discriminate.
    + intros i j Hi Hj E1. unfold rcv, ccv; cbn. fold (rcv s i). rewrite R.
      assert (X : nth j cc false = true) by (apply H; exists i; rewrite in_cells; auto). now rewrite X.
    + intros j Hj X. apply H in X as (i & X & Y). apply in_cells in X. exists i; tauto.
    + intros i Hi. unfold rcv; cbn. fold (rcv s i). rewrite R. discriminate.
    + intros i j Hi Hj X. exfalso. exact (NP i j Hi Hj X).
    + intros i Hi j j' Hj Hj' X. exfalso. exact (NP i j Hi Hj X).
    + exact I.
Qed.

(** Step 4 *)
Lemma zero_row_ok s i : shape s -> i < n -> exists o, foldM (zero_cell s i) None (seq 0 n) = Ok o /\
  match o with
  | Some j => j < n /\ ce (cost s) i j = 0%Z /\ rcv s i = false /\ ccv s j = false
  | None => forall j, j < n -> rcv s i = false -> ccv s j = false -> ce (cost s) i j <> 0%Z
  end.
Proof.
  intros Sh Hi.
  destruct (@foldM_seq_inv _ (zero_cell s i) (fun k o => match o with
    | Some j => j < n /\ ce (cost s) i j = 0%Z /\ rcv s i = false /\ ccv s j = false
    | None => forall j, j < k -> rcv s i = false -> ccv s j = false -> ce (cost s) i j <> 0%Z
    end) 0 n None) as (o & E & H).
  - intros; lia.
  - intros j o Hj H. unfold zero_cell. rewrite (mget_ok 0%Z (sh_c Sh) Hi) by lia. cbn [bind].
    assert (KEEP : (rcv s i = false -> ccv s j = false -> ce (cost s) i j <> 0%Z) ->
      match o with
      | Some j => j < n /\ ce (cost s) i j = 0%Z /\ rcv s i = false /\ ccv s j = false
      | None => forall j', j' < S j -> rcv s i = false -> ccv s j' = false -> ce (cost s) i j' <> 0%Z
      end).
    { intros N. destruct o; auto. intros j' Hj'. destruct (Nat.eq_dec j' j) as [->|]; auto. apply H; lia. }
    destruct (Z.eqb_spec (ce (cost s) i j) 0) as [E0|N0].
    2:{ eexists; split; [reflexivity|]. apply KEEP. auto. }
    rewrite (cov_get Sh Hi). cbn [bind]. destruct (rcv s i) eqn:Ri; cbn [negb].
    { eexists; split; [reflexivity|]. apply KEEP. discriminate. }
    rewrite (ccov_get Sh) by lia. cbn [bind]. destruct (ccv s j) eqn:Cj; cbn [negb].
    { eexists; split; [reflexivity|]. apply KEEP. discriminate. }
    eexists; split; [reflexivity|]. cbn. repeat split; auto. lia.
  - eauto.
Qed.
Lemma find_a_zero_ok s : shape s -> exists o, find_a_zero n s = Ok o /\
  match o with
  | Some (i, j) => i < n /\ j < n /\ ce (cost s) i j = 0%Z /\ rcv s i = false /\ ccv s j = false
  | None => forall i j, i < n -> j < n -> rcv s i = false -> ccv s j = false -> ce (cost s) i j <> 0%Z
  end.
Proof.
  intros Sh. unfold find_a_zero.
  assert (G : forall rows, (forall i, In i rows -> i < n) -> exists o, find_a_zero_from n s rows = Ok o /\
    match o with
    | Some (i, j) => i < n /\ j < n /\ ce (cost s) i j = 0%Z /\ rcv s i = false /\ ccv s j = false
    | None => forall i j, In i rows -> j < n -> rcv s i = false -> ccv s j = false -> ce (cost s) i j <> 0%Z
    end).
  { induction rows as [|i rows IH]; intros HR; cbn [find_a_zero_from].
    - eexists; split; [reflexivity|]. cbn. tauto.
    - destruct (zero_row_ok Sh (i:=i)) as (o & E & H); [apply HR; cbn; auto|]. rewrite E; cbn [bind].
      destruct o as [j|].
      + eexists; split; [reflexivity|]. cbn. split; [apply HR; cbn; auto|tauto].
      + destruct IH as (o & E' & H'); [intros; apply HR; cbn; auto|]. exists o; split; auto.
        destruct o as [[i' j']|]; auto. intros i' j' [<-|Hin]; auto. }
  destruct (G (seq 0 n)) as (o & E & H); [intros i; rewrite in_seq; lia|].
  exists o; split; auto. destruct o as [[i j]|]; auto. intros i j Hi. apply H. apply in_seq. lia.
Qed.
Lemma first_in_row_ok m mark i : sq n m -> i < n -> exists o, first_in_row m mark i (seq 0 n) = Ok o /\
  match o with
  | Some j => j < n /\ me m i j = mark
  | None => forall j, j < n -> me m i j <> mark
  end.
Proof.
  intros Sm Hi.
  assert (G : forall cols, (forall j, In j cols -> j < n) -> exists o, first_in_row m mark i cols = Ok o /\
   match o with
   | Some j => j < n /\ me m i j = mark
   | None => forall j, In j cols -> me m i j <> mark
   end).
  { induction cols as [|j cols IH]; intros HR; cbn [first_in_row].
    - eexists; split; [reflexivity|]. cbn. tauto.
    - rewrite (mget_ok 0 Sm Hi) by (apply HR; cbn; auto). cbn [bind].
      destruct (Nat.eqb_spec (me m i j) mark) as [E|N].
      + eexists; split; [reflexivity|]. split; auto. apply HR; cbn; auto.
      + destruct IH as (o & E' & H'); [intros; apply HR; cbn; auto|]. exists o; split; auto.
        destruct o; auto. intros j' [<-|Hin]; auto. }
  destruct (G (seq 0 n)) as (o & E & H); [intros j; rewrite in_seq; lia|].
  exists o; split; auto. destruct o as [j|]; auto. intros j Hj. apply H. apply in_seq. lia.
Qed.
Lemma first_in_col_ok m mark j : sq n m -> j < n -> exists o, first_in_col m mark j (seq 0 n) = Ok o /\
  match o with
  | Some i => i < n /\ me m i j = mark
  | None => forall i, i < n -> me m i j <> mark
  end.
Proof.
  intros Sm Hj.
  assert (G : forall rows, (forall i, In i rows -> i < n) -> exists o, first_in_col m mark j rows = Ok o /\
   match o with
   | Some i => i < n /\ me m i j = mark
   | None => forall i, In i rows -> me m i j <> mark
   end).
  { induction rows as [|i rows IH]; intros HR; cbn [first_in_col].
    - eexists; split; [reflexivity|]. cbn. tauto.
    - rewrite (mget_ok 0 Sm (i:=i)) by (auto; apply HR; cbn; auto). cbn [bind].
      destruct (Nat.eqb_spec (me m i j) mark) as [E|N].
      + eexists; split; [reflexivity|]. split; auto. apply HR; cbn; auto.
      + destruct IH as (o & E' & H'); [intros; apply HR; cbn; auto|]. exists o; split; auto.
        destruct o; auto. intros i' [<-|Hin]; auto. }
  destruct (G (seq 0 n)) as (o & E & H); [intros i; rewrite in_seq; lia|].
  exists o; split; auto. destruct o as [i|]; auto. intros i Hi. apply H. apply in_seq. lia.
Qed.

Lemma chain_ext m m' L : (forall i, In i L -> i < n) ->
  (forall i j, i < n -> j < n -> me m' i j = 1 <-> me m i j = 1) ->
  (forall i j, In i L -> j < n -> me m i j = 2 -> me m' i j = 2) ->
  chain m L -> chain m' L.
Proof.
  intros HL HS HP. induction L as [|r L IH]; cbn; auto. intros [(c & Hc & E & H) H2]. split.
  - exists c. split; auto. split; [apply HP; cbn; auto|]. intros i Hi E'. apply H; auto. apply HS; auto.
  - apply IH; auto.
    + intros; apply HL; cbn; auto.
    + intros; apply HP; cbn; auto.
Qed.
Lemma stars_ext m m' : (forall i j, i < n -> j < n -> me m' i j = 1 <-> me m i j = 1) -> stars m' = stars m.
Proof.
  intros H. unfold stars. apply filter_ext_in. intros [i j] Hin. apply in_cells in Hin as [Hi Hj]. cbn.
  apply eq_true_iff_eq. rewrite !Nat.eqb_eq. auto.
Qed.
Lemma matching_ext m m' : (forall i j, i < n -> j < n -> me m' i j = 1 <-> me m i j = 1) -> matching m -> matching m'.
Proof.
  intros H [A B]. split.
  - intros i j j' Hi Hj Hj' E1 E2. apply H in E1; auto. apply H in E2; auto. eauto.
  - intros i i' j Hi Hi' Hj E1 E2. apply H in E1; auto. apply H in E2; auto. eauto.
Qed.

Definition no_zero (s : mstate) := forall i j, i < n -> j < n -> rcv s i = false -> ccv s j = false -> ce (cost s) i j <> 0%Z.
Lemma L_len L : NoDup L -> (forall i, In i L -> i < n) -> length L <= n.
Proof.
  intros N H. rewrite <- (seq_length n 0). apply NoDup_incl_length; auto. intros i Hi. apply in_seq. specialize (H i Hi). lia.
Qed.

Lemma step4_ok fuel : forall L s, inv4 L s -> n + 1 <= fuel + length L ->
  (exists s' L', step4 n fuel s = Ok (s', 5) /\ inv5 L' s' /\ stars (marked s') = stars (marked s)) \/
  (exists s' L', step4 n fuel s = Ok (s', 6) /\ inv4 L' s' /\ no_zero s' /\ cost s' = cost s /\
     stars (marked s') = stars (marked s) /\ (length L < length L' \/ (s' = s /\ L' = L))).
Proof.
  induction fuel as [|fuel IH]; intros L s I F.
  - assert (length L <= n) by (apply L_len; [apply I|]; intros i Hi; apply I in Hi; tauto). lia.
  - cbn [step4]. destruct I as [B Few ND HL HStar HCol HRow HPrime HOne HChain].
    destruct B as [Sh D M Zs].
    destruct (find_a_zero_ok Sh) as (z & Ez & Hz). rewrite Ez; cbn [bind]. destruct z as [[r c]|].
    + destruct Hz as (Hr & Hc & Z & Rr & Cc).
      assert (N1 : me (marked s) r c <> 1).
      { intros E. specialize (HStar r c Hr Hc E). rewrite Rr, Cc in HStar. discriminate. }
      assert (RL : ~ In r L) by (rewrite HL; intros [_ C]; congruence).
      destruct (mset_ok 0 2 (sh_m Sh) Hr Hc) as (m & Em & Sm & Hm). rewrite Em; cbn [bind].
      assert (STAR : forall i j, i < n -> j < n -> me m i j = 1 <-> me (marked s) i j = 1).
      { intros i j Hi Hj. rewrite Hm. destruct (Nat.eqb_spec i r) as [->|], (Nat.eqb_spec j c) as [->|]; cbn; try tauto.
        split; [discriminate|congruence]. }
      assert (B1 : base (with_marked s m)).
      { constructor; cbn; auto.
        - destruct Sh. constructor; cbn; auto.
        - eapply matching_ext; eauto.
        - intros i j Hi Hj. cbn. rewrite Hm. destruct (Nat.eqb_spec i r) as [->|], (Nat.eqb_spec j c) as [->|]; cbn [andb]; auto; apply Zs; auto. }
      assert (ONE : forall i, i < n -> one_prime m i).
      { intros i Hi j j' Hj Hj'. rewrite !Hm. destruct (Nat.eqb_spec i r) as [->|]; cbn; [|apply HOne; auto].
        assert (NO : forall j, j < n -> me (marked s) r j <> 2).
        { intros j1 Hj1 E. destruct (HPrime r j1 Hr Hj1 E). congruence. }
        destruct (Nat.eqb_spec j c), (Nat.eqb_spec j' c); subst; auto; intros; exfalso;
          match goal with X : me (marked s) r ?k = 2 |- _ => exact (NO k ltac:(assumption) X) end. }
      assert (CH : chain m L).
      { eapply chain_ext; [| exact STAR | | exact HChain].
        - intros i Hi. apply HL in Hi; tauto.
        - intros i j Hi Hj E. rewrite Hm. destruct (Nat.eqb_spec i r) as [->|]; [tauto|]. auto. }
      assert (NEXT : forall i, i < n -> me m i c = 1 -> In i L).
      { intros i Hi E. apply STAR in E; auto. apply HL. split; auto. rewrite (HStar i c); auto. now rewrite Cc. }
      unfold find_star_in_row. destruct (@first_in_row_ok m 1 r Sm Hr) as (o & Eo & Ho). rewrite Eo; cbn [bind].
      destruct o as [c1|].
      * destruct Ho as [Hc1 E1].
        assert (E1' : me (marked s) r c1 = 1) by (apply STAR; auto).
        destruct (@set_ok _ (row_covered s) r true false) as (rc & Er & Lr & Hrc); [rewrite sh_rc; auto|].
        destruct (@set_ok _ (col_covered s) c1 false false) as (cc & Ec & Lc & Hcc); [rewrite sh_cc; auto|].
        cbn [with_marked row_covered col_covered]. rewrite Er; cbn [bind]. rewrite Ec; cbn [bind].
        set (s2 := with_covers (with_marked s m) rc cc).
        assert (RC : forall i, rcv s2 i = if i =? r then true else rcv s i) by (intros; apply Hrc).
        assert (CC : forall j, ccv s2 j = if j =? c1 then false else ccv s j) by (intros; apply Hcc).
        assert (I2 : inv4 (r :: L) s2).
        { constructor; cbn [s2 with_covers with_marked marked cost].
          - destruct B1 as [[] ? ? ?]. constructor; auto. constructor; cbn in *; auto; congruence.
          - rewrite (stars_ext _ _ STAR). auto.
          - constructor; auto.
          - intros i. rewrite RC. cbn. rewrite HL. destruct (Nat.eqb_spec i r) as [->|]; [tauto|].
            split; [intros [->|]; [tauto|auto]|auto].
          - intros i j Hi Hj E. rewrite RC, CC. apply STAR in E; auto.
            destruct (Nat.eqb_spec i r) as [->|Ni].
            + assert (j = c1) as -> by (apply (proj1 M r j c1); auto). now rewrite Nat.eqb_refl.
            + destruct (Nat.eqb_spec j c1) as [->|Nj]; [|auto]. exfalso; apply Ni. apply (proj2 M i r c1); auto.
          - intros j Hj. rewrite CC. destruct (Nat.eqb_spec j c1); [discriminate|]. intros E.
            destruct (HCol j Hj E) as (i & Hi & E'). exists i; split; auto. apply STAR; auto.
          - intros i Hi. rewrite RC. destruct (Nat.eqb_spec i r) as [->|]; [eauto|]. intros E.
            destruct (HRow i Hi E) as (j & Hj & E'). exists j; split; auto. apply STAR; auto.
          - intros i j Hi Hj. rewrite Hm, RC, CC. destruct (Nat.eqb_spec i r) as [->|]; cbn.
            + destruct (Nat.eqb_spec j c) as [->|].
              * intros _. split; auto. destruct (c =? c1); auto.
              * intros E. destruct (HPrime r j Hr Hj E). congruence.
            + intros E. destruct (HPrime i j Hi Hj E) as [X Y]. split; auto. destruct (j =? c1); auto.
          - exact ONE.
          - cbn [chain]. split; auto. exists c. split; auto. split; auto.
            rewrite Hm, !Nat.eqb_refl. reflexivity. }
        destruct (IH (r :: L) s2 I2) as [(s' & L' & E' & H1 & H2)|(s' & L' & E' & H1 & H2 & H3 & H4 & H5)].
        { cbn [length]. lia. }
        -- left. exists s', L'. split; auto. split; auto. rewrite H2. cbn. apply stars_ext; auto.
        -- right. exists s', L'. split; auto. split; auto. split; auto. split; auto. split.
           ++ rewrite H4. cbn. apply stars_ext; auto.
           ++ left. destruct H5 as [H5|[_ ->]]; cbn [length] in *; lia.
      * left. exists (with_z0 (with_marked s m) (r, c)), L. split; [reflexivity|]. split; [|apply stars_ext; auto].
        constructor; cbn; auto.
        -- destruct B1 as [[] ? ? ?]. constructor; auto. constructor; auto.
        -- intros i Hi. apply HL in Hi; tauto.
        -- rewrite Hm, !Nat.eqb_refl. reflexivity.
    + right. exists s, L. split; auto. split; [constructor; auto; constructor; auto|]. split; auto.
Qed.
End Inv.
