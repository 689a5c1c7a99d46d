(** C39: the statistics of graph banks and parallel graph corpora. *)
From Coq Require Import String QArith Permutation.
From Verif Require Import Py PyLemmas Stats_spec Stats_model Stats_proof.
Open Scope string_scope.
Open Scope list_scope.
Open Scope nat_scope.


Section Props.
Variable N : Type.
Variable neqb : N -> N -> bool.
Hypothesis neq : forall x y, neqb x y = true <-> x = y.
(** A graph has each node once. *)
Definition proper (c : corpus N) : Prop := Forall (Forall (fun g => NoDup (dkeys (nodes (c_graph c g))))) (c_banks c).
Implicit Types (c : corpus N) (o : options).

(** The rows are the counts of the specification: the row of the corpus, and a row for each bank in use. *)
Theorem stats_exact : exists punct, decides punct /\ forall o c r rs, proper c -> corpus_stats neqb o c = Ok (r, rs) ->
  r = pgc_counts_of neqb punct o (c_graph c) (c_pairs c) /\
  rs = map (gb_counts_of neqb punct o (c_graph c) (c_pairs c)) (c_banks c).
Proof.
  exists (contains punctuation). split; [apply punct_decides|]. intros o c r rs W E. pose proof (corpus_all neqb neq o c W) as C. rewrite E in C. tauto.
Qed.
(** When there are statistics: the links that count need existing nodes and one of the five relations, and the
    threshold must be off unless nothing counts. *)
Theorem stats_defined : exists punct, decides punct /\ forall o c, proper c ->
  (exists x, corpus_stats neqb o c = Ok x) <->
  Forall (pair_ok neqb punct o (c_graph c)) (c_pairs c) /\
  (threshold o = true -> forall b g, In b (c_banks c) -> In g b -> reached neqb o (c_graph c) (c_pairs c) g = false).
Proof.
  exists (contains punctuation). split; [apply punct_decides|]. intros o c W. rewrite <- (all_ok_dec neqb neq o c W). unfold all_ok.
  assert (X : Forall (Forall (fun g => reached neqb o (c_graph c) (c_pairs c) g = false)) (c_banks c) <->
    forall b g, In b (c_banks c) -> In g b -> reached neqb o (c_graph c) (c_pairs c) g = false).
  { rewrite Forall_forall. split; intros H b; [intros g Hb; specialize (H _ Hb); rewrite Forall_forall in H; apply H|].
    intros Hb. rewrite Forall_forall. intros g. now apply H. }
  rewrite X. reflexivity.
Qed.
Theorem stats_errors : forall o c e, proper c -> corpus_stats neqb o c = Err e ->
  In e [KeyError; TypeError; AssertionError; NotImplementedError; UserWarning].
Proof. intros o c e W E. pose proof (corpus_all neqb neq o c W) as C. rewrite E in C. apply C. Qed.
(** Several corpora: a row for each, in order, and the rows of all their banks. *)
Theorem stats_of_files : forall o cs rows banks, pgc_stats neqb o cs = Ok (rows, banks) ->
  exists rs, Forall2 (fun c x => corpus_stats neqb o c = Ok x) cs rs /\ rows = map fst rs /\ banks = concat (map snd rs).
Proof. exact (@stats_all _ neqb). Qed.

(** Accounting. *)
Theorem relations_add_up : forall o c r rs, proper c -> corpus_stats neqb o c = Ok (r, rs) ->
  cnp r = ceq r + cre r + cgen r + cspec r + cint r.
Proof.
  intros o c r rs W E. pose proof (corpus_all neqb neq o c W) as C. rewrite E in C. destruct C as ((F & _) & -> & _). now apply relations_sum.
Qed.
Theorem pairs_add_up : forall o c r rs, proper c -> corpus_stats neqb o c = Ok (r, rs) ->
  cgpfu r <= cgp r /\ cgpfp r <= cgp r /\ cgpur r <= cgp r /\ cgp r <= cgpfu r + cgpfp r + cgpur r.
Proof.
  intros o c r rs W E. pose proof (corpus_all neqb neq o c W) as C. rewrite E in C. destruct C as (_ & -> & _). apply row_bounds.
Qed.
Theorem default_pairs : forall o c r rs, proper c -> corpus_stats neqb o c = Ok (r, rs) ->
  with_failed o = false -> with_unaligned_roots o = false -> cgpfu r = cgp r /\ cgpfp r = 0 /\ cgpur r = 0.
Proof.
  intros o c r rs W E. pose proof (corpus_all neqb neq o c W) as C. rewrite E in C. destruct C as (_ & -> & _). now apply row_strict.
Qed.
Theorem banks_add_up : forall o c r rs b, proper c -> corpus_stats neqb o c = Ok (r, rs) -> In b rs ->
  cg b = cga b + cgu b /\ cga b = cgsa b + cgma b /\ cn b = cna b + cnu b /\ cgur b <= cg b /\ cgur b <= cga b.
Proof.
  intros o c r rs b W E I. pose proof (corpus_all neqb neq o c W) as C. rewrite E in C. destruct C as (_ & _ & ->).
  apply in_map_iff in I as (gs & <- & _). apply bank_sums.
Qed.
(** Percentages. *)
Theorem pgc_percents_in_range : forall o c r rs, proper c -> corpus_stats neqb o c = Ok (r, rs) ->
  let p := pgc_percentages r in
  Forall in_percent [pgpfu p; pgpfp p; pgpur p; peq p; pre p; pgen p; pspec p; pint p] /\
  (0 < cnp r -> (peq p + pre p + pgen p + pspec p + pint p == 100)%Q).
Proof.
  intros o c r rs W E. pose proof (relations_add_up _ _ _ _ W E) as R. destruct (pairs_add_up _ _ _ _ W E) as (B1 & B2 & B3 & _). cbn zeta.
  cbn [pgc_percentages pgpfu pgpfp pgpur peq pre pgen pspec pint]. split; [repeat constructor; apply percent_range; lia|].
  intros P. destruct (cnp r) as [|k] eqn:K; [lia|]. cbn [Nat.eqb]. unfold percent.
  assert (Z : (0 < inject_Z (Z.of_nat (S k)))%Q) by (change 0%Q with (inject_Z 0); rewrite <- Zlt_Qlt; lia).
  transitivity ((inject_Z (Z.of_nat (ceq r + cre r + cgen r + cspec r + cint r)) / inject_Z (Z.of_nat (S k))) * 100)%Q.
  - rewrite !Nat2Z.inj_add, !inject_Z_plus. field. intros X. rewrite X in Z. discriminate.
  - rewrite <- R. field. intros X. rewrite X in Z. discriminate.
Qed.
Theorem gb_percents_in_range : forall o c r rs b, proper c -> corpus_stats neqb o c = Ok (r, rs) -> In b rs ->
  let p := gb_percentages b in
  Forall in_percent [pga p; pgsa p; pgma p; pgur p; pna p] /\ (with_unaligned_graphs o = true -> in_percent (pgfp p)).
Proof.
  intros o c r rs b W E I. destruct (banks_add_up _ _ _ _ b W E I) as (B1 & B2 & B3 & B4 & _). cbn zeta.
  cbn [gb_percentages pga pgsa pgma pgur pgfp pna]. split; [repeat constructor; apply percent_range; lia|].
  intros X. apply percent_range. pose proof (corpus_all neqb neq o c W) as C. rewrite E in C. destruct C as (_ & _ & ->).
  apply in_map_iff in I as (gs & <- & _). now apply bank_failed.
Qed.
(** The values of the percentages and averages, also of the overall rows (a row of sums). *)
Theorem percent_values : forall r b,
  (let p := pgc_percentages r in
   pgpfu p == pct (cgpfu r) (cgp r) /\ pgpfp p == pct (cgpfp r) (cgp r) /\ pgpur p == pct (cgpur r) (cgp r) /\ peq p == pct (ceq r) (cnp r) /\
   pre p == pct (cre r) (cnp r) /\ pgen p == pct (cgen r) (cnp r) /\ pspec p == pct (cspec r) (cnp r) /\ pint p == pct (cint r) (cnp r))%Q /\
  (let p := gb_percentages b in
   pga p == pct (cga b) (cg b) /\ pgsa p == pct (cgsa b) (cga b) /\ pgma p == pct (cgma b) (cga b) /\ pgur p == pct (cgur b) (cg b) /\
   pgfp p == pct (cgfp b) (cg b) /\ pna p == pct (cna b) (cn b) /\ atg p == ratio (ct b) (cg b) /\ ang p == ratio (cn b) (cg b))%Q.
Proof.
  intros r b. cbn [pgc_percentages gb_percentages pgpfu pgpfp pgpur peq pre pgen pspec pint pga pgsa pgma pgur pgfp pna atg ang].
  repeat split; try apply percent_pct; unfold ratio, divide; destruct (cg b); reflexivity.
Qed.
(** The overall rows: the same accounting for the sums over all rows. *)
Theorem overall_adds_up : forall o cs rows banks, Forall proper cs -> pgc_stats neqb o cs = Ok (rows, banks) ->
  let r := overall_pgc rows in let b := overall_gb banks in
  cnp r = ceq r + cre r + cgen r + cspec r + cint r /\ cgpfu r <= cgp r /\ cgpfp r <= cgp r /\ cgpur r <= cgp r /\
  cg b = cga b + cgu b /\ cga b = cgsa b + cgma b /\ cn b = cna b + cnu b /\ cgur b <= cg b.
Proof.
  intros o cs rows banks W E. apply stats_all in E as (rs & F & -> & ->).
  assert (A : Forall (fun r => cnp r = ceq r + cre r + cgen r + cspec r + cint r /\ cgpfu r <= cgp r /\ cgpfp r <= cgp r /\ cgpur r <= cgp r) (map fst rs)).
  { induction F as [|c (r, b) cs rs H F IH]; cbn; constructor; inversion W; subst; auto. split; [eapply relations_add_up; eauto|]. destruct (pairs_add_up o c r b) as (? & ? & ? & _); auto. }
  assert (B : Forall (fun b => cg b = cga b + cgu b /\ cga b = cgsa b + cgma b /\ cn b = cna b + cnu b /\ cgur b <= cg b) (concat (map snd rs))).
  { clear A. induction F as [|c (r, b) cs rs H F IH]; cbn; [constructor|]. inversion W; subst. apply Forall_app. split; auto.
    rewrite Forall_forall. intros x Hx. destruct (banks_add_up o c r b x) as (? & ? & ? & ? & _); auto. }
  cbn. unfold sum_by. clear F W. split.
  { induction A as [|x l (H & _) A IH]; [reflexivity|]. cbn [map]. rewrite !list_sum_cons. lia. }
  split; [|split; [|split]]; try (induction A as [|x l (_ & H1 & H2 & H3) A IH]; [auto|]; cbn [map]; rewrite !list_sum_cons; lia).
  split; [|split; [|split]]; (induction B as [|x l (H1 & H2 & H3 & H4) B IH]; [auto|]; cbn [map]; rewrite !list_sum_cons; lia).
Qed.
(** The overall counts are the sums of the columns; the overall percentages and averages are those of the sums,
    and none if there is nothing to divide by. *)
Definition is_ratio (x : option Q) (q : Q) (n : nat) : Prop := match x with None => n = 0 | Some p => 0 < n /\ (p == q)%Q end.
Theorem overall_values : forall rows banks,
  let r := overall_pgc rows in let b := overall_gb banks in let total {A} (f : A -> nat) l := list_sum (map f l) in
  cgp r = total cgp rows /\ cgpfu r = total cgpfu rows /\ cgpfp r = total cgpfp rows /\ cgpur r = total cgpur rows /\ cnp r = total cnp rows /\
  ceq r = total ceq rows /\ cre r = total cre rows /\ cgen r = total cgen rows /\ cspec r = total cspec rows /\ cint r = total cint rows /\
  cg b = total cg banks /\ cga b = total cga banks /\ cgu b = total cgu banks /\ cgsa b = total cgsa banks /\ cgma b = total cgma banks /\
  cgur b = total cgur banks /\ cgfp b = total cgfp banks /\ ct b = total ct banks /\ cn b = total cn banks /\ cna b = total cna banks /\ cnu b = total cnu banks.
Proof. intros rows banks. cbv zeta. repeat split. Qed.
Theorem overall_percents : forall rows banks,
  (let r := overall_pgc rows in
   match fst (overall_pgc_percents rows) with
   | None => cgp r = 0
   | Some (fu, fp, ur) => 0 < cgp r /\ (fu == pct (cgpfu r) (cgp r) /\ fp == pct (cgpfp r) (cgp r) /\ ur == pct (cgpur r) (cgp r))%Q
   end /\
   match snd (overall_pgc_percents rows) with
   | None => cnp r = 0
   | Some (eq, re, gen, spec, int) => 0 < cnp r /\
       (eq == pct (ceq r) (cnp r) /\ re == pct (cre r) (cnp r) /\ gen == pct (cgen r) (cnp r) /\ spec == pct (cspec r) (cnp r) /\ int == pct (cint r) (cnp r))%Q
   end) /\
  (let b := overall_gb banks in let p := overall_gb_percents banks in
   is_ratio (o_pga p) (pct (cga b) (cg b)) (cg b) /\ is_ratio (o_pgfp p) (pct (cgfp b) (cg b)) (cg b) /\ is_ratio (o_pgur p) (pct (cgur b) (cg b)) (cg b) /\
   is_ratio (o_pgsa p) (pct (cgsa b) (cga b)) (cga b) /\ is_ratio (o_pgma p) (pct (cgma b) (cga b)) (cga b) /\ is_ratio (o_pna p) (pct (cna b) (cn b)) (cn b) /\
   is_ratio (o_atg p) (ratio (ct b) (cg b)) (cg b) /\ is_ratio (o_ang p) (ratio (cn b) (cg b)) (cg b)).
Proof.
  intros rows banks. cbv zeta. unfold overall_pgc_percents, overall_gb_percents, is_ratio. cbv zeta.
  cbn [o_pga o_pgfp o_pgur o_pgsa o_pgma o_pna o_atg o_ang fst snd].
  generalize (overall_pgc rows) as r, (overall_gb banks) as b. intros r b.
  assert (PP : forall a n, 0 < n -> (percent a n == pct a n)%Q) by (intros a [|n] H; [lia|reflexivity]).
  assert (DD : forall a n, 0 < n -> (divide a n == ratio a n)%Q) by (intros a [|n] H; [lia|reflexivity]).
  assert (Z : forall n, (n =? 0) = false -> 0 < n) by (intros n H; apply Nat.eqb_neq in H; lia).
  split; [split|].
  - destruct (cgp r =? 0) eqn:E; [now apply Nat.eqb_eq|]. apply Z in E. auto 10.
  - destruct (cnp r =? 0) eqn:E; [now apply Nat.eqb_eq|]. apply Z in E. auto 10.
  - destruct (cg b =? 0) eqn:E1; [apply Nat.eqb_eq in E1|apply Z in E1]; (destruct (cga b =? 0) eqn:E2; [apply Nat.eqb_eq in E2|apply Z in E2]);
      (destruct (cn b =? 0) eqn:E3; [apply Nat.eqb_eq in E3|apply Z in E3]); repeat split; auto.
Qed.
(** Options that leave out less only add. *)
Theorem weaker_options : forall o o' c r rs r' rs', proper c -> weaker o o' ->
  corpus_stats neqb o c = Ok (r, rs) -> corpus_stats neqb o' c = Ok (r', rs') ->
  (cgp r <= cgp r' /\ cnp r <= cnp r' /\ ceq r <= ceq r' /\ cre r <= cre r' /\ cgen r <= cgen r' /\ cspec r <= cspec r' /\ cint r <= cint r') /\
  Forall2 (fun b b' => cg b <= cg b' /\ cga b <= cga b' /\ ct b <= ct b' /\ cn b <= cn b' /\ cna b <= cna b') rs rs'.
Proof.
  intros o o' c r rs r' rs' W L E E'. pose proof (corpus_all neqb neq o c W) as C. rewrite E in C. destruct C as (_ & -> & ->).
  pose proof (corpus_all neqb neq o' c W) as C. rewrite E' in C. destruct C as (_ & -> & ->). split.
  - pose proof (rows_mono neqb (c_graph c) L (c_pairs c)) as X. cbv zeta in X. tauto.
  - clear E E'. induction (c_banks c) as [|b l IH]; cbn [map]; constructor; auto. now apply banks_mono.
Qed.
(** The order of the pairs and of the graphs in a bank does not matter. *)
Theorem stats_order : forall o c c' r rs r' rs', proper c -> proper c' ->
  c_graph c' = c_graph c -> Permutation (c_pairs c) (c_pairs c') -> Forall2 (@Permutation nat) (c_banks c) (c_banks c') ->
  corpus_stats neqb o c = Ok (r, rs) -> corpus_stats neqb o c' = Ok (r', rs') -> r' = r /\ rs' = rs.
Proof.
  intros o c c' r rs r' rs' W W' G P PB E E'. pose proof (corpus_all neqb neq o c W) as C. rewrite E in C. destruct C as (_ & -> & ->).
  pose proof (corpus_all neqb neq o c' W') as C. rewrite E' in C. destruct C as (_ & -> & ->). rewrite G. split.
  - symmetry. now apply counts_perm.
  - clear E E'. induction PB as [|b b' l l' Hb Hl IH]; [reflexivity|]. cbn [map]. f_equal; [|exact IH]. symmetry. now apply gb_perm.
Qed.
(** Statistics of banks alone. *)
Theorem bank_only : exists punct, decides punct /\ forall e f p t files,
  Forall (fun x => Forall (fun g => NoDup (dkeys (nodes (fst x g)))) (snd x)) files ->
  match gb_stats neqb e f p t files with
  | Ok rs => rs = map (fun x => gb_counts_of neqb punct {| with_empty := e; with_failed := f; with_punc := p; with_unaligned_roots := true; threshold := t; with_unaligned_graphs := true |} (fst x) [] (snd x)) files /\
      Forall (fun b => cga b = 0 /\ cgu b = cg b /\ cgur b = 0 /\ cgfp b <= cg b /\ cna b = 0 /\ cnu b = cn b) rs
  | Err e => e = UserWarning /\ t = true /\ exists x g, In x files /\ In g (snd x) /\ (f = true \/ failed (fst x g) = false)
  end.
Proof.
  exists (contains punctuation). split; [apply punct_decides|]. intros e f p t files F. unfold gb_stats. set (o := Build_options e f p true t true).
  induction F as [|x files H F IH]; cbn [mapM map]; [auto|].
  assert (M : same_marks neqb (fst x) o (no_marks N) []) by (repeat split).
  pose proof (bank_ok neq M H) as B. destruct (graph_stats neqb (fst x) o (no_marks N) (snd x)) as [r|err]; cbn [bind].
  2: { destruct B as (X & Y & ->). split; [auto|]. split; [exact X|].
       destruct (existsb (fun g => reached neqb o (fst x) [] g) (snd x)) eqn:EX.
       - apply existsb_exists in EX as (g & G & R). exists x, g. split; [cbn; auto|]. split; auto. unfold reached, not_failed in R. cbn in R. apply andb_true_iff in R as (R & _). apply orb_true_iff in R as [R|R]; auto. apply negb_true_iff in R. auto.
       - exfalso. apply Y. rewrite Forall_forall. intros g G. destruct (reached neqb o (fst x) [] g) eqn:R; auto. assert (Z : existsb (fun g => reached neqb o (fst x) [] g) (snd x) = true) by (apply existsb_exists; eauto). congruence. }
  destruct B as (X & ->). destruct (mapM _ files) as [rs|err]; cbn [bind].
  - destruct IH as (-> & IH). split; auto. constructor; auto. destruct (bank_alone neqb o (fst x) (snd x)) as (A1 & A2 & A3 & A4 & A5 & A6 & A7).
    repeat split; auto. apply bank_failed. reflexivity.
  - destruct IH as (-> & IH1 & y & g & I1 & I2 & I3). split; auto. split; auto. exists y, g. cbn; auto.
Qed.
End Props.
Arguments proper {N}.

(** Findings, on a corpus of graphs with nodes named by numbers. *)
Definition g_ok : graph nat := {| failed := false; root := 1; tokens := ["a"; "b"; "."]; nodes := [(1, ["a"; "b"; "."]); (2, ["a"]); (3, ["."]); (4, [])] |}.
Definition g_bad : graph nat := {| failed := true; root := 1; tokens := ["a"]; nodes := [(1, ["a"])] |}.
Definition opts (e f p ur t ug : bool) := {| with_empty := e; with_failed := f; with_punc := p; with_unaligned_roots := ur; threshold := t; with_unaligned_graphs := ug |}.
Definition pair_of (s t : nat) l : gpair nat := {| source := s; target := t; alignment := l |}.
Definition corpus_of (pairs : list (gpair nat)) banks : corpus nat :=
  {| c_graph := fun g => if g <? 5 then g_ok else g_bad; c_pairs := pairs; c_banks := banks |}.
Definition sample := corpus_of
  [pair_of 0 1 [((1, 1), Some "restates"); ((2, 2), Some "equals"); ((3, 3), Some "equals")];
   pair_of 0 2 [((2, 2), Some "equals")]; pair_of 3 5 [((1, 1), Some "intersects")]] [[0; 3]; [1; 2; 5; 4]].

Example sample_proper : proper sample.
Proof. repeat constructor; cbn; intuition discriminate. Qed.
Example sample_stats : corpus_stats Nat.eqb (opts false true false true false true) sample =
  Ok ({| cgp := 3; cgpfu := 1; cgpfp := 1; cgpur := 1; cnp := 4; ceq := 2; cre := 1; cgen := 0; cspec := 0; cint := 1 |},
      [{| cg := 2; cga := 2; cgu := 0; cgsa := 1; cgma := 1; cgur := 1; cgfp := 0; ct := 4; cn := 4; cna := 3; cnu := 1 |};
       {| cg := 4; cga := 3; cgu := 1; cgsa := 3; cgma := 0; cgur := 1; cgfp := 1; ct := 7; cn := 7; cna := 4; cnu := 3 |}]).
Proof. vm_compute. reflexivity. Qed.
Example sample_weaker : weaker (opts false false false false false false) (opts false true false true false true) /\
  exists x, corpus_stats Nat.eqb (opts false false false false false false) sample = Ok x.
Proof. split; [repeat split; exact I|]. eexists. vm_compute. reflexivity. Qed.
Example sample_files : exists x, pgc_stats Nat.eqb (opts true true true true false true) [sample; sample] = Ok x /\ length (fst x) = 2 /\ length (snd x) = 4.
Proof. eexists. split; [vm_compute; reflexivity|]. split; reflexivity. Qed.
Example sample_bank : exists rs, gb_stats Nat.eqb false true false false [(c_graph sample, [0; 5])] = Ok rs /\ map cg rs = [2] /\ map cgfp rs = [1].
Proof. eexists. split; [vm_compute; reflexivity|]. split; reflexivity. Qed.
(** A link to a missing node is an error only if its pair counts; a threshold always is, if something counts. *)
Example missing_node : corpus_stats Nat.eqb (opts false false false true false false) (corpus_of [pair_of 0 1 [((9, 1), Some "equals")]] []) = Err KeyError /\
  (exists x, corpus_stats Nat.eqb (opts false false false false false false) (corpus_of [pair_of 0 1 [((9, 1), Some "equals")]] []) = Ok x) /\
  corpus_stats Nat.eqb (opts false false false false true false) sample = Err NotImplementedError.
Proof. split; [reflexivity|]. split; [eexists|]; vm_compute; reflexivity. Qed.

(** "PGFP" is not always a percentage: a failed graph without alignments is not counted as a graph (CG). *)
Theorem failed_percent_refuted : exists o (c : corpus nat) r b, proper c /\ corpus_stats Nat.eqb o c = Ok (r, [b]) /\ ~ in_percent (pgfp (gb_percentages b)).
Proof.
  exists (opts false true false false false false), (corpus_of [pair_of 0 1 [((1, 1), Some "equals")]] [[0; 5; 6; 7]]).
  eexists _, _. split; [repeat constructor; cbn; intuition discriminate|]. split; [vm_compute; reflexivity|].
  intros (_ & H). revert H. vm_compute. intros H. now apply H.
Qed.
(** A graph in several pairs is still counted as single aligned, if it is the source (target) of just one. *)
Theorem single_aligned_refuted : exists o (c : corpus nat) r b, proper c /\ corpus_stats Nat.eqb o c = Ok (r, [b]) /\
  (exists p q r', c_pairs c = [p; q; r'] /\ source p = 0 /\ target q = 0 /\ target r' = 0) /\ c_banks c = [[0]] /\ cgsa b = 1 /\ cgma b = 0.
Proof.
  exists (opts false false false false false false), (corpus_of [pair_of 0 1 [((1, 1), Some "equals")]; pair_of 2 0 [((1, 1), Some "equals")]; pair_of 3 0 [((1, 1), Some "equals")]] [[0]]).
  eexists _, _. split; [repeat constructor; cbn; intuition discriminate|]. split; [vm_compute; reflexivity|].
  split; [do 3 eexists; repeat split|]. repeat split.
Qed.
(** A graph with aligned roots in one pair counts among those with unaligned roots because of another pair. *)
Theorem unaligned_root_somewhere : exists o (c : corpus nat) r b, proper c /\ corpus_stats Nat.eqb o c = Ok (r, [b]) /\
  cgpfu r = 1 /\ cgpur r = 1 /\ c_banks c = [[0]] /\ cgur b = 1.
Proof.
  exists (opts false false false true false false), (corpus_of [pair_of 0 1 [((1, 1), Some "equals")]; pair_of 0 2 [((2, 2), Some "equals")]] [[0]]).
  eexists _, _. split; [repeat constructor; cbn; intuition discriminate|]. split; [vm_compute; reflexivity|]. repeat split.
Qed.

Print Assumptions stats_exact.
Print Assumptions stats_defined.
Print Assumptions stats_errors.
Print Assumptions stats_of_files.
Print Assumptions relations_add_up.
Print Assumptions pairs_add_up.
Print Assumptions default_pairs.
Print Assumptions banks_add_up.
Print Assumptions pgc_percents_in_range.
Print Assumptions gb_percents_in_range.
Print Assumptions percent_values.
Print Assumptions overall_adds_up.
Print Assumptions overall_values.
Print Assumptions overall_percents.
Print Assumptions weaker_options.
Print Assumptions stats_order.
Print Assumptions bank_only.
Print Assumptions failed_percent_refuted.
Print Assumptions single_aligned_refuted.
Print Assumptions unaligned_root_somewhere.
