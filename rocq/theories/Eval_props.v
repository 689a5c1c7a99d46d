(** C31: evaluation of predicted against true alignments (daeso.pgc.evaluate) *)
From Coq Require Import QArith.
From Verif Require Import Py Align_model Eval_model Eval_spec Eval_proof.
Open Scope nat_scope.

(** A graph pair as produced by any history of add_align/del_align calls whose labels are among
    [relations]: well-formed alignment graph, known labels (see [eval_reachable] below). *)

(** C31. Evaluation succeeds on corpora of equal length with known relations and the counts are exactly
    the numbers of alignment triples: per relation, true = triples with that relation in the true
    corpus, pred = in the predicted corpus, common = triples in both; for "any relation" the
    relation is ignored (common = node pairs aligned in both). *)
Theorem evaluation_counts_exact :
  forall (N R : Type) (neqb : N -> N -> bool) (reqb : R -> R -> bool) (truthy : R -> bool),
  (forall x y, neqb x y = true <-> x = y) -> (forall x y, reqb x y = true <-> x = y) ->
  forall relations : list R, (forall r, In r relations -> truthy r = true) ->
  forall ts ps : list (digraph N R),
  Forall (goodg relations) ts -> Forall (goodg relations) ps -> length ts = length ps ->
  let T := map (@edges N R) ts in let P := map (@edges N R) ps in
  exists w, eval_row neqb reqb truthy relations ts ps = Ok w /\
   (forall k, known reqb relations k = false -> dget (keqb reqb) w k = None) /\
   (forall r, In r relations -> exists c, dget (keqb reqb) w (Some r) = Some c /\
      c_true c = over_pairs (fun t _ => n_rel reqb r t) T P /\
      c_pred c = over_pairs (fun _ p => n_rel reqb r p) T P /\
      c_common c = over_pairs (n_both_rel neqb reqb r) T P) /\
   (exists c, dget (keqb reqb) w None = Some c /\
      c_true c = over_pairs (fun t _ => length t) T P /\
      c_pred c = over_pairs (fun _ p => length p) T P /\
      c_common c = over_pairs (n_both_any neqb) T P).
Proof. exact eval_row_ok. Qed.
Print Assumptions evaluation_counts_exact.

(** C31. common <= true and common <= pred, for every relation and for "any relation". *)
Theorem evaluation_common_bounded :
  forall (N R : Type) (neqb : N -> N -> bool) (reqb : R -> R -> bool) (truthy : R -> bool),
  (forall x y, neqb x y = true <-> x = y) -> (forall x y, reqb x y = true <-> x = y) ->
  forall relations : list R, (forall r, In r relations -> truthy r = true) ->
  forall (ts ps : list (digraph N R)) w k c,
  Forall (goodg relations) ts -> Forall (goodg relations) ps ->
  eval_row neqb reqb truthy relations ts ps = Ok w -> dget (keqb reqb) w k = Some c ->
  c_common c <= c_true c /\ c_common c <= c_pred c.
Proof. exact eval_row_common. Qed.
Print Assumptions evaluation_common_bounded.

(** C31. Exchanging the two corpora exchanges true and pred (hence precision and recall). *)
Theorem evaluation_exchange :
  forall (N R : Type) (neqb : N -> N -> bool) (reqb : R -> R -> bool) (truthy : R -> bool),
  (forall x y, neqb x y = true <-> x = y) -> (forall x y, reqb x y = true <-> x = y) ->
  forall relations : list R, (forall r, In r relations -> truthy r = true) ->
  forall (ts ps : list (digraph N R)) w w',
  Forall (goodg relations) ts -> Forall (goodg relations) ps ->
  eval_row neqb reqb truthy relations ts ps = Ok w ->
  eval_row neqb reqb truthy relations ps ts = Ok w' ->
  forall k c, dget (keqb reqb) w k = Some c ->
  exists c', dget (keqb reqb) w' k = Some c' /\
    c_true c' = c_pred c /\ c_pred c' = c_true c /\ c_common c' = c_common c /\
    prec c' = rec c /\ rec c' = prec c.
Proof. exact eval_exchange. Qed.
Print Assumptions evaluation_exchange.

(** C31. Comparing a corpus with itself: precision = recall = 1 for each relation that occurs. *)
Theorem evaluation_of_itself_is_perfect :
  forall (N R : Type) (neqb : N -> N -> bool) (reqb : R -> R -> bool) (truthy : R -> bool),
  (forall x y, neqb x y = true <-> x = y) -> (forall x y, reqb x y = true <-> x = y) ->
  forall relations : list R, (forall r, In r relations -> truthy r = true) ->
  forall (ts : list (digraph N R)) w k c,
  Forall (goodg relations) ts ->
  eval_row neqb reqb truthy relations ts ts = Ok w -> dget (keqb reqb) w k = Some c ->
  c_common c = c_true c /\ c_common c = c_pred c /\
  (0 < c_true c -> (prec c == 1 /\ rec c == 1)%Q).
Proof. exact eval_self. Qed.
Print Assumptions evaluation_of_itself_is_perfect.

(** C31. The any-relation totals are the sums over the relations (for common: at least the sum, the
    difference being the pairs aligned in both with different relations). *)
Theorem evaluation_any_relation_totals :
  forall (N R : Type) (neqb : N -> N -> bool) (reqb : R -> R -> bool) (truthy : R -> bool),
  (forall x y, neqb x y = true <-> x = y) -> (forall x y, reqb x y = true <-> x = y) ->
  forall relations : list R, (forall r, In r relations -> truthy r = true) ->
  forall (ts ps : list (digraph N R)) w, NoDup relations ->
  Forall (goodg relations) ts -> Forall (goodg relations) ps ->
  eval_row neqb reqb truthy relations ts ps = Ok w ->
  cnt reqb w c_true None = list_sum (map (fun r => cnt reqb w c_true (Some r)) relations) /\
  cnt reqb w c_pred None = list_sum (map (fun r => cnt reqb w c_pred (Some r)) relations) /\
  list_sum (map (fun r => cnt reqb w c_common (Some r)) relations) <= cnt reqb w c_common None.
Proof. exact eval_row_totals. Qed.
Print Assumptions evaluation_any_relation_totals.

(** C31. Corpora of different length are refused; any alignment with an unknown relation is a KeyError. *)
Theorem evaluation_refuses_unequal_lengths :
  forall (N R : Type) (neqb : N -> N -> bool) (reqb : R -> R -> bool) (truthy : R -> bool)
    (relations : list R) (ts ps : list (digraph N R)), length ts <> length ps ->
  eval_row neqb reqb truthy relations ts ps = Err AssertionError.
Proof. exact eval_row_length_err. Qed.
Print Assumptions evaluation_refuses_unequal_lengths.
Theorem evaluation_refuses_unknown_relations :
  forall (N R : Type) (neqb : N -> N -> bool) (reqb : R -> R -> bool) (truthy : R -> bool),
  (forall x y, reqb x y = true <-> x = y) ->
  forall (relations : list R) (ts ps : list (digraph N R)) (q : digraph N R * digraph N R) (e : (N * N) * R),
  length ts = length ps -> In q (combine ts ps) ->
  In e (edges (fst q)) \/ In e (edges (snd q)) -> ~ In (snd e) relations ->
  eval_row neqb reqb truthy relations ts ps = Err KeyError.
Proof. exact eval_unknown. Qed.
Print Assumptions evaluation_refuses_unknown_relations.

(** C31. Precision, recall and F are in [0,1], F lies between precision and recall, and a weight outside
    [0,1] is refused.  By [evaluation_common_bounded] all rows of a table meet the hypotheses. *)
Theorem evaluation_measures_in_range : forall (beta : Q) (c : counts),
  c_common c <= c_true c -> c_common c <= c_pred c ->
  (0 <= prec c /\ prec c <= 1)%Q /\ (0 <= rec c /\ rec c <= 1)%Q /\
  ((0 <= beta)%Q -> (beta <= 1)%Q ->
    exists F, f_score beta c = Ok F /\ (0 <= F /\ F <= 1)%Q /\
    ((prec c <= F /\ F <= rec c) \/ (rec c <= F /\ F <= prec c))%Q) /\
  ((beta < 0 \/ 1 < beta)%Q -> f_score beta c = Err AssertionError).
Proof. exact measures_all. Qed.
Print Assumptions evaluation_measures_in_range.

(** C31. Micro and macro means of a non-empty table are in range too; an empty table raises. *)
Theorem evaluation_means_in_range : forall rows : list counts,
  (forall c, In c rows -> c_common c <= c_true c /\ c_common c <= c_pred c) ->
  (rows = [] -> forall m, macro_mean m rows = Err ZeroDivisionError) /\
  (rows <> [] -> (exists x, macro_mean prec rows = Ok x /\ (0 <= x /\ x <= 1)%Q) /\
                 (exists x, macro_mean rec rows = Ok x /\ (0 <= x /\ x <= 1)%Q)) /\
  (0 <= prec (sum_counts rows) /\ prec (sum_counts rows) <= 1)%Q /\
  (0 <= rec (sum_counts rows) /\ rec (sum_counts rows) <= 1)%Q.
Proof. exact means_all. Qed.
Print Assumptions evaluation_means_in_range.

(** C31. The values: precision is common/pred, recall common/true (0 if undefined), F solves
    F (b^2 P + R) = (b^2 + 1) P R and is 0 if that says nothing. *)
Theorem evaluation_measure_values : forall (beta : Q) (c : counts),
  (prec c == ratio (c_common c) (c_pred c))%Q /\ (rec c == ratio (c_common c) (c_true c))%Q /\
  ((0 <= beta)%Q -> (beta <= 1)%Q -> exists F, f_score beta c = Ok F /\
     (F * (beta * beta * prec c + rec c) == (beta * beta + 1) * prec c * rec c)%Q /\
     ((beta * beta * prec c + rec c == 0)%Q -> (F == 0)%Q)).
Proof. exact measure_values. Qed.
Print Assumptions evaluation_measure_values.
(** C31. The macro mean of any measure is the average over the rows; the variance about any mean (micro or
    macro) is the sum of squared differences over n - 1, and 0 for one row. *)
Theorem evaluation_mean_values : forall (m : counts -> Q) (rows : list counts), rows <> [] ->
  exists x, macro_mean m rows = Ok x /\ (x * q_of (length rows) == q_total m rows)%Q.
Proof. exact mean_values. Qed.
Print Assumptions evaluation_mean_values.
Theorem evaluation_variance_values : forall (values : list Q) (mean : Q),
  (length values = 1 -> (variance values mean == 0)%Q) /\
  (2 <= length values -> (variance values mean * q_of (length values - 1) == q_total (fun v => (v - mean) * (v - mean)) values)%Q).
Proof. exact variance_values. Qed.
Print Assumptions evaluation_variance_values.
(** C31. The counts behind a micro mean are the sums over the rows. *)
Theorem evaluation_micro_counts : forall rows c rest, rows = c :: rest ->
  c_true (sum_counts rows) = c_true c + c_true (sum_counts rest) /\
  c_pred (sum_counts rows) = c_pred c + c_pred (sum_counts rest) /\
  c_common (sum_counts rows) = c_common c + c_common (sum_counts rest) /\
  sum_counts [] = {| c_true := 0; c_pred := 0; c_common := 0 |}.
Proof. intros rows c rest ->. now repeat split. Qed.
Print Assumptions evaluation_micro_counts.

(** Every graph pair built by calls with known labels meets [goodg]. *)
Theorem eval_reachable :
  forall (N R : Type) (neqb : N -> N -> bool), (forall x y, neqb x y = true <-> x = y) ->
  forall (relations : list R) (ops : list (op N R)),
  (forall s t r, In (Add s t r) ops -> In r relations) ->
  goodg relations (run_matching neqb (empty_digraph N R) ops).
Proof. exact goodg_reachable. Qed.
Print Assumptions eval_reachable.

Example evaluation_ex :
  let g ops := run_matching Nat.eqb (empty_digraph nat nat) ops in
  let t := g [Add 1 1 1; Add 2 2 2; Add 3 3 1] in
  let p := g [Add 1 1 1; Add 2 2 1; Add 4 4 2] in
  eval_row Nat.eqb Nat.eqb (fun r => negb (r =? 0)) [1; 2] [t; t] [p; t] =
  Ok [(None, {| c_true := 6; c_pred := 6; c_common := 5 |});
      (Some 1, {| c_true := 4; c_pred := 4; c_common := 3 |});
      (Some 2, {| c_true := 2; c_pred := 2; c_common := 1 |})].
Proof. vm_compute. reflexivity. Qed.

(** Three rows: F of the first, the macro mean and the variance of the precisions 1/2, 1 and 0. *)
Example evaluation_values_ex :
  let c1 := {| c_true := 4; c_pred := 2; c_common := 1 |} in
  let c2 := {| c_true := 2; c_pred := 2; c_common := 2 |} in
  let c3 := {| c_true := 2; c_pred := 0; c_common := 0 |} in
  (exists F, f_score 1 c1 = Ok F /\ F == 1 # 3)%Q /\ (exists x, macro_mean prec [c1; c2; c3] = Ok x /\ x == 1 # 2)%Q /\
  (variance [prec c1; prec c2; prec c3] (1 # 2) == 1 # 4)%Q.
Proof. split; [eexists; split; reflexivity|]. split; [eexists; split; reflexivity|reflexivity]. Qed.
