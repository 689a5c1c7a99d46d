(** C52: whole evaluations: AlignEval over several pairs of corpora, its statistics and its report. *)
From Coq Require Import String Ascii QArith Permutation.
From Verif Require Import Py Align_model Eval_spec Eval_model Eval_proof Table_spec Evalrun_spec Evalrun_model Evalrun_proof.
Open Scope list_scope.
Open Scope nat_scope.

(** Histories of a session: [added h] are the pairs of corpora of the Adds of h, [names_given h] the names given
    with them; [well] Adds have corpora of the same length with known relations (such as any history of
    add_align/del_align calls makes, see C31). *)

(** After any history of additions and evaluations an evaluation reports, for each relation and for "any
    relation", the counts in all corpora, their mean and variance, and precision, recall and F: from the total
    counts (micro), as mean over corpora (macro), with their variances; and overall, the sums over all
    relations, the measures from these sums (micro) and the mean over relations (macro). *)
Theorem results_exact :
  forall (N R : Type) (neqb : N -> N -> bool) (reqb : R -> R -> bool) (truthy : R -> bool),
  (forall x y, neqb x y = true <-> x = y) -> (forall x y, reqb x y = true <-> x = y) ->
  forall relations : list R, (forall r, In r relations -> truthy r = true) -> NoDup relations -> relations <> [] ->
  forall h, Forall (@well N R relations) h -> added h <> [] ->
  let total r := counted_in_all neqb reqb r (added h) in let overall := counted_overall neqb reqb relations (added h) in
  exists e, evaluate reqb relations (after neqb reqb truthy relations h) = Ok e /\
    last (after neqb reqb truthy relations (h ++ [Run N R])) = Some (length (added h), e) /\
    (forall k, (k = None \/ exists r, In r relations /\ k = Some r) -> exists t, dget (keqb reqb) (e_tables e) k = Some t /\
       (forall c, c_sum (cstats t c) = three_at c (total k)) /\
       (forall m, (m_micro (mstats t m) == measure_of m (total k))%Q) /\
       right_stats (map (counted neqb reqb k) (added h)) (stats_of t)) /\
    (forall c, e_sums e c = three_at c overall) /\
    (forall m, (e_micro e m == measure_of m overall)%Q) /\
    (forall m, is_mean (map (fun r => measure_of m (total (Some r))) relations) (e_macro e m)).
Proof.
  intros N R neqb reqb truthy Hn Hr relations T ND NE h W A. destruct (results (relations := relations) neqb reqb truthy Hn Hr T W A ND NE) as (e & E & Tb & _ & Sm & Mi & Ma).
  exists e. split; [exact E|]. split; [|split; [|auto]].
  - rewrite after_snoc. cbn [act]. unfold run_eval. rewrite E. cbn [bind last]. now rewrite (f2_length (after_rows neqb reqb truthy Hn Hr T W)).
  - intros k K. destruct (Tb k) as (t & D & C & S & M); [now apply keys_in|]. exists t. auto.
Qed.
Print Assumptions results_exact.

(** Precision, recall and F are between 0 and 1, everywhere. *)
Theorem results_in_range :
  forall (N R : Type) (neqb : N -> N -> bool) (reqb : R -> R -> bool) (truthy : R -> bool),
  (forall x y, neqb x y = true <-> x = y) -> (forall x y, reqb x y = true <-> x = y) ->
  forall relations : list R, (forall r, In r relations -> truthy r = true) -> NoDup relations -> relations <> [] ->
  forall h, Forall (@well N R relations) h -> added h <> [] ->
  exists e, evaluate reqb relations (after neqb reqb truthy relations h) = Ok e /\ forall m,
    (0 <= e_micro e m <= 1)%Q /\ (0 <= e_macro e m <= 1)%Q /\
    forall k t, dget (keqb reqb) (e_tables e) k = Some t -> (0 <= m_micro (mstats t m) <= 1)%Q /\ (0 <= m_macro (mstats t m) <= 1)%Q.
Proof.
  intros N R neqb reqb truthy Hn Hr relations T ND NE h W A. destruct (results (relations := relations) neqb reqb truthy Hn Hr T W A ND NE) as (e & E & Tb & Tn & Sm & Mi & Ma).
  exists e. split; [exact E|]. intros m. split; [|split].
  - rewrite Mi. destruct (overall_bounded neqb reqb truthy Hn Hr T W). now apply measure_range.
  - apply (mean_range (l := map (fun r => measure_of m (counted_in_all neqb reqb (Some r) (added h))) relations)); [destruct relations; [congruence|discriminate]| |apply Ma].
    apply Forall_forall. intros v H. apply in_map_iff in H. destruct H as (r & <- & H).
    destruct (sum3_bounded neqb reqb truthy Hn Hr T (Some r) W) as [B1 B2]; [now apply (in_keys reqb truthy)|]. now apply measure_range.
  - intros k t D. destruct (in_dec (k_dec reqb truthy Hr) k (keys reqb relations)) as [K|K]; [|rewrite (Tn k K) in D; discriminate].
    destruct (Tb k K) as (t' & D' & _ & [_ S] & M). rewrite D in D'. injection D' as <-. split.
    + rewrite M. destruct (sum3_bounded neqb reqb truthy Hn Hr T k W K). now apply measure_range.
    + destruct (S m) as [Mm _]. apply (mean_range (l := map (measure_of m) (map (counted neqb reqb k) (added h)))); [destruct (added h); [congruence|discriminate]| |exact Mm].
      apply Forall_forall. intros v H. apply in_map_iff in H. destruct H as (c & <- & H). destruct (each_bounded neqb reqb truthy Hn Hr T k c W K H). now apply measure_range.
Qed.
Print Assumptions results_in_range.

(** Summed over all relations, true and predicted alignments are those for "any relation"; common ones are at
    most as many. *)
Theorem sums_over_relations :
  forall (N R : Type) (neqb : N -> N -> bool) (reqb : R -> R -> bool) (truthy : R -> bool),
  (forall x y, neqb x y = true <-> x = y) -> (forall x y, reqb x y = true <-> x = y) ->
  forall relations : list R, (forall r, In r relations -> truthy r = true) -> NoDup relations -> relations <> [] ->
  forall h, Forall (@well N R relations) h -> added h <> [] ->
  exists e t, evaluate reqb relations (after neqb reqb truthy relations h) = Ok e /\ dget (keqb reqb) (e_tables e) None = Some t /\
    e_sums e KTrue = c_sum (cstats t KTrue) /\ e_sums e KPred = c_sum (cstats t KPred) /\ e_sums e KCommon <= c_sum (cstats t KCommon).
Proof.
  intros N R neqb reqb truthy Hn Hr relations T ND NE h W A. destruct (results (relations := relations) neqb reqb truthy Hn Hr T W A ND NE) as (e & E & Tb & _ & Sm & _).
  destruct (Tb None) as (t & D & C & _); [apply keys_in; auto|]. exists e, t. split; [exact E|]. split; [exact D|]. rewrite !Sm, !C. exact (totals neqb reqb truthy Hn Hr W ND).
Qed.
Print Assumptions sums_over_relations.

(** Only the graph pairs matter: how they are divided over corpora, their order, the names, and evaluations
    in between, do not change sums and micro averages, nor the overall results. *)
Theorem division_irrelevant :
  forall (N R : Type) (neqb : N -> N -> bool) (reqb : R -> R -> bool) (truthy : R -> bool),
  (forall x y, neqb x y = true <-> x = y) -> (forall x y, reqb x y = true <-> x = y) ->
  forall relations : list R, (forall r, In r relations -> truthy r = true) -> NoDup relations -> relations <> [] ->
  forall h h', Forall (@well N R relations) h -> Forall (@well N R relations) h' -> added h <> [] -> added h' <> [] ->
  Permutation (graph_pairs (added h)) (graph_pairs (added h')) ->
  exists e e', evaluate reqb relations (after neqb reqb truthy relations h) = Ok e /\ evaluate reqb relations (after neqb reqb truthy relations h') = Ok e' /\
    (forall c, e_sums e c = e_sums e' c) /\ (forall m, (e_micro e m == e_micro e' m)%Q) /\ (forall m, (e_macro e m == e_macro e' m)%Q) /\
    (forall k t, dget (keqb reqb) (e_tables e) k = Some t -> exists t', dget (keqb reqb) (e_tables e') k = Some t' /\
       (forall c, c_sum (cstats t c) = c_sum (cstats t' c)) /\ (forall m, (m_micro (mstats t m) == m_micro (mstats t' m))%Q)).
Proof.
  intros N R neqb reqb truthy Hn Hr relations T ND NE h h' W W' A A' P.
  destruct (results (relations := relations) neqb reqb truthy Hn Hr T W A ND NE) as (e & E & Tb & Tn & Sm & Mi & Ma).
  destruct (results (relations := relations) neqb reqb truthy Hn Hr T W' A' ND NE) as (e' & E' & Tb' & _ & Sm' & Mi' & Ma').
  pose proof (division neqb reqb _ _ P) as D. assert (O : counted_overall neqb reqb relations (added h) = counted_overall neqb reqb relations (added h')) by (unfold counted_overall; f_equal; apply map_ext; intros r; apply D).
  exists e, e'. split; [exact E|]. split; [exact E'|]. split; [intros c; now rewrite Sm, Sm', O|]. split; [intros m; now rewrite Mi, Mi', O|]. split.
  - intros m. specialize (Ma m). specialize (Ma' m).
    assert (X : map (fun r => measure_of m (counted_in_all neqb reqb (Some r) (added h))) relations = map (fun r => measure_of m (counted_in_all neqb reqb (Some r) (added h'))) relations) by (apply map_ext; intros r; now rewrite D).
    rewrite <- X in Ma'. unfold is_mean in *. rewrite <- Ma in Ma'. rewrite map_length in Ma'. symmetry. apply (Qmult_inj_r _ _ (q_of (length relations))); [|exact Ma'].
    assert (0 < q_of (length relations))%Q by (apply qnat_pos; destruct relations; [congruence|cbn; apply Nat.lt_0_succ]). intros Z. rewrite Z in H. now apply Qlt_irrefl in H.
  - intros k t K. destruct (in_dec (k_dec reqb truthy Hr) k (keys reqb relations)) as [I|I]; [|rewrite (Tn k I) in K; discriminate].
    destruct (Tb k I) as (t0 & K0 & C & _ & M). rewrite K in K0. injection K0 as <-. destruct (Tb' k I) as (t' & K' & C' & _ & M'). exists t'. split; [exact K'|].
    specialize (D k). unfold counted_in_all in D. split; [intros c; now rewrite C, C', D|intros m; now rewrite M, M', D].
Qed.
Print Assumptions division_irrelevant.

(** Evaluating in between is harmless in any history, also one with failures. *)
Theorem evaluations_in_between :
  forall (N R : Type) (neqb : N -> N -> bool) (reqb : R -> R -> bool) (truthy : R -> bool) (relations : list R) (h : list (action N R)),
  let s := after neqb reqb truthy relations h in
  let s' := after neqb reqb truthy relations (filter (fun a => match a with Add _ _ _ => true | Run _ _ => false end) h) in
  rows s = rows s' /\ names s = names s' /\ evaluate reqb relations s = evaluate reqb relations s'.
Proof.
  intros N R neqb reqb truthy relations h. cbv zeta. destruct (runs_do_not_matter neqb reqb truthy relations h (new_session R) (new_session R) eq_refl eq_refl) as [A B].
  split; [exact A|]. split; [exact B|]. apply evaluate_rows. exact A.
Qed.
Print Assumptions evaluations_in_between.

(** An addition of corpora of different length raises AssertionError and changes nothing. *)
Theorem unequal_refused :
  forall (N R : Type) (neqb : N -> N -> bool) (reqb : R -> R -> bool) (truthy : R -> bool) (relations : list R) s (ts ps : list (digraph N R)) name,
  length ts <> length ps -> add neqb reqb truthy relations s ts ps name = (s, Some AssertionError).
Proof. intros. now apply add_unequal. Qed.
Print Assumptions unequal_refused.

(** Any other addition adds one name and one row, also one that fails, which it does if some relation is
    unknown: then it raises KeyError. *)
Theorem add_one_row :
  forall (N R : Type) (neqb : N -> N -> bool) (reqb : R -> R -> bool) (truthy : R -> bool),
  (forall x y, neqb x y = true <-> x = y) -> (forall x y, reqb x y = true <-> x = y) ->
  forall (relations : list R) s (ts ps : list (digraph N R)) name, length ts = length ps ->
  exists n w x, add neqb reqb truthy relations s ts ps name = ({| names := names s ++ [n]; rows := rows s ++ [w]; last := last s |}, x) /\
    (forall k, In k (dkeys w) <-> k = None \/ exists r, In r relations /\ k = Some r) /\
    (forall c l, name = Some (c :: l) -> n = c :: l) /\
    (name = None \/ name = Some [] -> exists t, numeral (Z.of_nat (length (rows s) + 1)) t /\ n = txt "part" ++ t) /\
    ((exists g e, (In g ts \/ In g ps) /\ In e (edges g) /\ ~ In (snd e) relations) -> x = Some KeyError) /\
    (Forall (goodg relations) ts -> Forall (goodg relations) ps -> (forall r, In r relations -> truthy r = true) -> x = None).
Proof.
  intros N R neqb reqb truthy Hn Hr relations s ts ps name L. destruct (add_ok neqb reqb truthy Hr relations s ts ps name L) as (w & x & E & K & V).
  exists (the_name s name), w, x. split; [exact E|]. split; [intros k; rewrite K; now apply keys_in|]. split; [intros c l ->; reflexivity|]. split; [|split].
  - intros Hnm. exists (show_nat (length (rows s) + 1)). split; [apply show_nat_numeral|]. destruct Hnm as [->| ->]; reflexivity.
  - intros (g & e & G & I & U). destruct (paired ts ps g L G) as (q & Q & Hq).
    rewrite (eval_unknown neqb reqb truthy Hr relations ts ps q e L Q) in V; [exact V|destruct Hq as [->| ->]; auto|exact U].
  - intros G1 G2 T. destruct (eval_row_ok neqb reqb truthy Hn Hr T G1 G2 L) as (w' & E' & _). rewrite E' in V. now destruct V.
Qed.
Print Assumptions add_one_row.

(** In any history, also with failures: as many names as rows, and the rows have the same relations. *)
Theorem names_and_rows :
  forall (N R : Type) (neqb : N -> N -> bool) (reqb : R -> R -> bool) (truthy : R -> bool), (forall x y, reqb x y = true <-> x = y) ->
  forall (relations : list R) (h : list (action N R)), let s := after neqb reqb truthy relations h in
  length (names s) = length (rows s) /\ forall w, In w (rows s) -> forall k, In k (dkeys w) <-> k = None \/ exists r, In r relations /\ k = Some r.
Proof.
  intros N R neqb reqb truthy Hr relations h. cbv zeta. destruct (after_sound neqb reqb truthy Hr relations h) as [A B]. split; [exact A|].
  intros w H k. rewrite Forall_forall in B. rewrite (B w H). now apply keys_in.
Qed.
Print Assumptions names_and_rows.

(** An evaluation raises ZeroDivisionError if nothing was added or there are no relations, and else succeeds;
    it is never wrong that way after a failed addition. *)
Theorem evaluation_fails_iff :
  forall (N R : Type) (neqb : N -> N -> bool) (reqb : R -> R -> bool) (truthy : R -> bool), (forall x y, reqb x y = true <-> x = y) ->
  forall (relations : list R) (h : list (action N R)), let s := after neqb reqb truthy relations h in
  (evaluate reqb relations s = Err ZeroDivisionError <-> rows s = [] \/ relations = []) /\ (forall e, evaluate reqb relations s = Err e -> e = ZeroDivisionError).
Proof.
  intros N R neqb reqb truthy Hr relations h. cbv zeta. split; [|intros e; now apply (evaluate_err reqb truthy)]. split.
  - intros E. destruct (rows (after neqb reqb truthy relations h)) as [|r l] eqn:Er; [now left|]. destruct relations as [|q relations]; [now right|]. exfalso.
    destruct (@evaluate_ok R reqb truthy Hr (q :: relations) (after neqb reqb truthy (q :: relations) h)) as (e & E' & _); [congruence|discriminate|congruence].
  - intros [Z|Z]; [now apply (evaluate_no_rows reqb truthy)|now apply (evaluate_no_relations reqb truthy)].
Qed.
Print Assumptions evaluation_fails_iff.

(** The report after an evaluation: line by line the names, counts, statistics and measures (as percentages with
    two decimals). *)
Theorem report_exact :
  forall (N R : Type) (neqb : N -> N -> bool) (reqb : R -> R -> bool) (truthy : R -> bool),
  (forall x y, neqb x y = true <-> x = y) -> (forall x y, reqb x y = true <-> x = y) ->
  forall relations : list R, (forall r, In r relations -> truthy r = true) -> NoDup relations -> relations <> [] ->
  forall (rel_text : R -> text) (upper : text -> text) (root root_percent : Q -> text), (forall r, In r relations -> upper (rel_text r) <> []) ->
  forall h, Forall (@well N R relations) h -> added h <> [] ->
  exists ls nms st macro, write reqb relations rel_text upper root root_percent (after neqb reqb truthy relations (h ++ [Run N R])) = Ok ls /\
    named 1 (names_given h) nms /\
    (forall k, (k = None \/ exists r, In r relations /\ k = Some r) -> right_stats (map (counted neqb reqb k) (added h)) (st k)) /\
    (forall m, is_mean (map (fun r => measure_of m (counted_in_all neqb reqb (Some r) (added h))) relations) (macro m)) /\
    Forall2 (shows_line root root_percent)
      (report nms relations rel_text (fun r => upper (rel_text r)) (fun k => map (counted neqb reqb k) (added h)) st macro) ls.
Proof.
  intros N R neqb reqb truthy Hn Hr relations T ND NE rel_text upper root root_percent U h W A.
  destruct (write_ok neqb reqb truthy Hn Hr T rel_text upper root root_percent W A ND NE U) as (e & st & ls & nms & _ & E & Nm & St & M1 & M2 & M3 & F).
  exists ls, nms, st, (e_macro e). split; [exact E|]. split; [exact Nm|]. split; [intros k K; apply St; now apply keys_in|]. split; [intros []; assumption|exact F].
Qed.
Print Assumptions report_exact.

(** A row of the report reads as the words of its name and its numbers, if these have less than 14 characters. *)
Theorem report_rows_read :
  forall root root_percent w name cs l ws, shows_line root root_percent (Row w name cs) l -> splits name ws -> Forall (fits root root_percent) cs ->
  exists texts, Forall2 (shows_cell root root_percent) cs texts /\ splits l (ws ++ texts).
Proof. exact row_reads. Qed.
Print Assumptions report_rows_read.

(** No report without an evaluation, nor if anything was added after it. *)
Theorem report_needs_evaluation :
  forall (N R : Type) (neqb : N -> N -> bool) (reqb : R -> R -> bool) (truthy : R -> bool), (forall x y, reqb x y = true <-> x = y) ->
  forall (relations : list R) (rel_text : R -> text) (upper : text -> text) (root root_percent : Q -> text) (h : list (action N R)),
  let write h := write reqb relations rel_text upper root root_percent (after neqb reqb truthy relations h) in
  (forall ts ps name, length ts = length ps -> write (h ++ [Add ts ps name]) = Err KeyError) /\
  (names (after neqb reqb truthy relations h) = [] -> write h = Err ValueError) /\
  (Forall (fun a => a <> Run N R) h -> names (after neqb reqb truthy relations h) <> [] -> write h = Err KeyError).
Proof.
  intros N R neqb reqb truthy Hr relations rel_text upper root root_percent h. cbv zeta. split; [|split].
  - intros ts ps name L. now apply write_later.
  - intros E. now apply write_unnamed.
  - intros F NE. apply write_no_run; [|exact NE]. apply (no_run_last neqb reqb truthy Hr); [reflexivity|]. clear NE. induction F as [|a h Ha _ IH]; [reflexivity|]. cbn [filter]. destruct a; [cbn [is_add]; now rewrite IH|congruence].
Qed.
Print Assumptions report_needs_evaluation.

(** ** A concrete session: two pairs of corpora, relations 1 and 2 *)
Definition calls (l : list (nat * nat * nat)) : list (op nat nat) := map (fun e => Align_model.Add (fst (fst e)) (snd (fst e)) (snd e)) l.
Definition g (l : list (nat * nat * nat)) : digraph nat nat := run_matching Nat.eqb (empty_digraph nat nat) (calls l).
Definition ev := evaluate (R := nat) Nat.eqb [1; 2].
Definition af (h : list (action nat nat)) := after Nat.eqb Nat.eqb (fun r => negb (r =? 0)) [1; 2] h.
Definition first := Add [g [(1, 11, 1); (2, 12, 2); (3, 13, 1)]; g [(1, 11, 2)]] [g [(1, 11, 1); (2, 12, 1); (4, 14, 2)]; g []] (Some (txt "one.pgc")).
Definition second := Add [g [(5, 15, 2)]] [g [(5, 15, 2); (6, 16, 2)]] None.
Definition bad := Add [g [(1, 11, 1); (7, 17, 3); (8, 18, 1)]] [g [(1, 11, 1)]] None.
Definition numbers (h : list (action nat nat)) : res (list nat * list Q) :=
  e <- ev (af h) ;; Ok (map (e_sums e) [KTrue; KPred; KCommon], map Qred (map (e_micro e) [MPrec; MRec; MF] ++ map (e_macro e) [MPrec; MRec; MF])).
Lemma good_graph rels l : forallb (fun e => existsb (Nat.eqb (snd e)) rels) l = true -> goodg rels (g l).
Proof.
  intros F. apply (goodg_reachable Nat.eqb Nat.eqb_eq). intros s t r H. unfold calls in H. apply in_map_iff in H. destruct H as (e & E & H). injection E as _ _ <-.
  rewrite forallb_forall in F. specialize (F e H). apply existsb_exists in F. destruct F as (x & I & E). apply Nat.eqb_eq in E. now rewrite E.
Qed.
Example session_well : Forall (@well nat nat [1; 2]) [first; Run nat nat; second] /\ added [first; Run nat nat; second] <> [].
Proof.
  split; [|discriminate].
  assert (W : forall ls ls' n, forallb (fun l => forallb (fun e => existsb (Nat.eqb (snd e)) [1; 2]) l) (ls ++ ls') = true -> length ls = length ls' -> well (N := nat) [1; 2] (Add (map g ls) (map g ls') n)).
  { intros ls ls' n F L. rewrite forallb_forall in F. split; [|split; [|now rewrite !map_length]]; apply Forall_map, Forall_forall; intros l H; apply good_graph, F; apply in_app_iff; auto. }
  apply Forall_cons; [exact (W [[(1, 11, 1); (2, 12, 2); (3, 13, 1)]; [(1, 11, 2)]] [[(1, 11, 1); (2, 12, 1); (4, 14, 2)]; []] (Some (txt "one.pgc")) eq_refl eq_refl)|].
  apply Forall_cons; [exact I|]. apply Forall_cons; [exact (W [[(5, 15, 2)]] [[(5, 15, 2); (6, 16, 2)]] None eq_refl eq_refl)|]. constructor.
Qed.
Example session_results : numbers [first; Run nat nat; second] = Ok ([5; 5; 2], [2 # 5; 2 # 5; 2 # 5; 5 # 12; 5 # 12; 5 # 12]%Q).
Proof. vm_compute. reflexivity. Qed.
Example session_report :
  match write Nat.eqb [1; 2] (fun r => if r =? 1 then txt "equals" else txt "restates") (fun s => s) (fun _ => txt "?") (fun _ => txt "?") (af [first; second; Run nat nat]) with
  | Ok ls => map (fun i => string_of_list_ascii (nth i ls [])) [1; 4; 6; 7; 9; 18; 29]
  | Err _ => []
  end =
  ["Alignment only (regardlless of relation)";
   "Name:                  True:         Pred:       Common:";
   "one.pgc                    4             3             2";
   "part2                      1             2             1";
   "Sum:                       5             5             3";
   "part2                  50.00        100.00         66.67";
   "Alignment per relation"]%string.
Proof. vm_compute. reflexivity. Qed.
(** What a user might expect of a failing addition, that it leaves the evaluation as it was, is false of the
    code: the name and the counts up to the failure stay. *)
Theorem failed_add_harmless_refuted :
  ~ (forall (h : list (action nat nat)) ts ps name, snd (add Nat.eqb Nat.eqb (fun r => negb (r =? 0)) [1; 2] (af h) ts ps name) <> None ->
     numbers (h ++ [Add ts ps name]) = numbers h /\ names (af (h ++ [Add ts ps name])) = names (af h)).
Proof.
  intros H. destruct (H [first] [g [(1, 11, 1); (7, 17, 3); (8, 18, 1)]] [g [(1, 11, 1)]] None) as [E _]; [vm_compute; discriminate|].
  vm_compute in E. discriminate E.
Qed.
Print Assumptions failed_add_harmless_refuted.
Example failed_add_counts : numbers [first] = Ok ([4; 3; 1], [1 # 3; 1 # 4; 2 # 7; 1 # 4; 1 # 4; 1 # 4]%Q) /\ numbers [first; bad] = Ok ([5; 3; 2], [2 # 3; 2 # 5; 1 # 2; 1 # 2; 1 # 3; 2 # 5]%Q).
Proof. split; vm_compute; reflexivity. Qed.
(** With a repeated relation the overall macro average is not the mean over the relations: the code pairs the
    relations with the tables, of which there are fewer. *)
Theorem repeated_relations_refuted :
  ~ (forall (relations : list nat) (h : list (action nat nat)) e, relations <> [] -> Forall (@well nat nat relations) h -> added h <> [] ->
     evaluate Nat.eqb relations (after Nat.eqb Nat.eqb (fun r => negb (r =? 0)) relations h) = Ok e ->
     forall m, is_mean (map (fun r => measure_of m (counted_in_all Nat.eqb Nat.eqb (Some r) (added h))) relations) (e_macro e m)).
Proof.
  intros H. specialize (H [1; 1; 1] [Add [g [(1, 11, 1)]] [g [(1, 11, 1)]] None]).
  destruct (evaluate Nat.eqb [1; 1; 1] (after Nat.eqb Nat.eqb (fun r => negb (r =? 0)) [1; 1; 1] [Add [g [(1, 11, 1)]] [g [(1, 11, 1)]] None])) as [e|] eqn:E; [|vm_compute in E; discriminate E].
  assert (G : goodg [1; 1; 1] (g [(1, 11, 1)])) by now apply good_graph.
  specialize (H e ltac:(discriminate)). assert (X := H ltac:(constructor; [split; [constructor; [exact G|constructor]|split; [constructor; [exact G|constructor]|reflexivity]]|constructor]) ltac:(discriminate) eq_refl MPrec).
  assert (M : Qeq_bool (e_macro e MPrec) (2 # 3) = true) by (vm_compute in E; injection E as <-; vm_compute; reflexivity).
  apply Qeq_bool_iff in M. unfold is_mean in X. rewrite M in X. vm_compute in X. discriminate X.
Qed.
Print Assumptions repeated_relations_refuted.
