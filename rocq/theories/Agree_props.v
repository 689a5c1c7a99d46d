(** C32: inter-annotator agreement (daeso.pgc.agreement) *)
From Coq Require Import QArith Permutation.
From Verif Require Import Py Align_model Align_proof Eval_model Eval_proof Corpus_model Agree_spec Agree_model Agree_proof.
Open Scope nat_scope.

(** C32. For two or more annotators with different names and corpora of the same length with known relations:
    each ordered pair of annotators is compared exactly once; the cell of row t and column p is the measure
    of evaluating p's corpus against t's; the column figures and the overall figures are the mean and the
    sample variance of exactly the compared scores (those off the diagonal).  [k] is None for "any relation". *)
Theorem agreement_table_correct :
  forall (N R L : Type) (neqb : N -> N -> bool), (forall x y, neqb x y = true <-> x = y) ->
  forall (reqb : R -> R -> bool), (forall x y, reqb x y = true <-> x = y) ->
  forall (truthy : R -> bool) (leqb lleb : L -> L -> bool), (forall x y, leqb x y = true <-> x = y) ->
  forall relations : list R, (forall r, In r relations -> truthy r = true) ->
  forall (corpora : list (list (digraph N R))) (ann : list L) (len : nat),
  length ann = length corpora -> NoDup ann -> 2 <= length ann ->
  Forall (fun c => Forall (goodg relations) c /\ length c = len) corpora ->
  exists evals, cross_evaluate neqb reqb truthy leqb relations corpora ann = Ok evals /\
  map fst evals = ordered_pairs leqb ann /\
  forall k, k = None \/ (exists r, k = Some r /\ In r relations) ->
  exists w : L -> L -> counts,
   (forall i j t p, nth_error ann i = Some t -> nth_error ann j = Some p -> t <> p ->
      exists ct cp row, nth_error corpora i = Some ct /\ nth_error corpora j = Some cp /\
      eval_row neqb reqb truthy relations ct cp = Ok row /\ dget (keqb reqb) row k = Some (w t p)) /\
   forall measure : counts -> Q, let v t p := measure (w t p) in
   exists T, tableize reqb leqb lleb k measure evals = Ok T /\
   Permutation (labels T) ann /\
   (forall t p, In t ann -> In p ann -> t <> p -> cell leqb (cells T) t p = Ok (v t p)) /\
   (forall c, In c ann -> exists x, dget leqb (means T) c = Some x /\ x == qmean (column leqb v ann c))%Q /\
   (overall T == qmean (all_scores leqb v ann))%Q /\
   (forall c, In c ann -> exists x, dget leqb (vars T) c = Some x /\ x == qvar (column leqb v ann c))%Q /\
   (overall_var T == qvar (all_scores leqb v ann))%Q.
Proof. exact agreement_all. Qed.
Print Assumptions agreement_table_correct.

(** There are N*(N-1) compared pairs, among them every pair of different annotators once in each order. *)
Theorem agreement_number_of_comparisons : forall (L : Type) (leqb : L -> L -> bool), (forall x y, leqb x y = true <-> x = y) ->
  forall ann : list L, NoDup ann ->
  length (ordered_pairs leqb ann) = length ann * (length ann - 1) /\
  (forall t p, In (t, p) (ordered_pairs leqb ann) <-> In t ann /\ In p ann /\ t <> p).
Proof. intros L leqb leq ann ND. split; [now apply ordered_pairs_len|]. intros. now apply in_ordered_pairs. Qed.
Print Assumptions agreement_number_of_comparisons.

(** A mean lies between the smallest and the largest score, and a variance is not negative. *)
Theorem agreement_mean_in_range : forall (lo hi : Q) (l : list Q), l <> [] -> (forall x, In x l -> lo <= x /\ x <= hi)%Q ->
  (lo <= qmean l /\ qmean l <= hi)%Q /\ (0 <= qvar l)%Q.
Proof. intros. split; [now apply qmean_bounds|now apply qvar_nonneg]. Qed.
Print Assumptions agreement_mean_in_range.

(** C32. The recall table is the transposed precision table, and their overall means are equal. *)
Theorem agreement_precision_recall_duality :
  forall (N R L : Type) (neqb : N -> N -> bool), (forall x y, neqb x y = true <-> x = y) ->
  forall (reqb : R -> R -> bool), (forall x y, reqb x y = true <-> x = y) ->
  forall (truthy : R -> bool) (leqb lleb : L -> L -> bool), (forall x y, leqb x y = true <-> x = y) ->
  forall relations : list R, (forall r, In r relations -> truthy r = true) ->
  forall (corpora : list (list (digraph N R))) (ann : list L) (len : nat) evals k Tp Tr,
  length ann = length corpora -> NoDup ann -> 2 <= length ann ->
  Forall (fun c => Forall (goodg relations) c /\ length c = len) corpora ->
  cross_evaluate neqb reqb truthy leqb relations corpora ann = Ok evals ->
  k = None \/ (exists r, k = Some r /\ In r relations) ->
  tableize reqb leqb lleb k prec evals = Ok Tp -> tableize reqb leqb lleb k rec evals = Ok Tr ->
  (overall Tp == overall Tr)%Q /\
  (forall t p, In t ann -> In p ann -> t <> p -> exists x, cell leqb (cells Tp) t p = Ok x /\ cell leqb (cells Tr) p t = Ok x).
Proof. exact prec_rec_mean. Qed.
Print Assumptions agreement_precision_recall_duality.

(** C32. With fewer than two annotators nothing is compared and making the tables raises ZeroDivisionError. *)
Theorem agreement_needs_two_annotators :
  forall (N R L : Type) (neqb : N -> N -> bool) (reqb : R -> R -> bool) (truthy : R -> bool) (leqb lleb : L -> L -> bool),
  (forall x y, leqb x y = true <-> x = y) ->
  forall (relations : list R) (corpora : list (list (digraph N R))) (ann : list L) evals k m, length ann < 2 ->
  cross_evaluate neqb reqb truthy leqb relations corpora ann = Ok evals ->
  evals = [] /\ tableize reqb leqb lleb k m evals = Err ZeroDivisionError.
Proof. exact too_few. Qed.
Print Assumptions agreement_needs_two_annotators.

(** C32. Two annotators of the same name are never compared with each other: that comparison is silently lost. *)
Theorem agreement_same_name_refuted : exists (corpora : list (list (digraph nat nat))) (ann : list nat),
  length ann = length corpora /\ 2 <= length ann /\
  cross_evaluate Nat.eqb Nat.eqb (fun _ => true) Nat.eqb [1] corpora ann = Ok [].
Proof. exists [[empty_digraph nat nat]; [empty_digraph nat nat]], [7; 7]. repeat split; cbn; auto. Qed.
Print Assumptions agreement_same_name_refuted.

(** C32. The words-only option keeps exactly the alignments between two terminal nodes. *)
Theorem words_only_exact : forall (N R : Type) (neqb : N -> N -> bool), (forall x y, neqb x y = true <-> x = y) ->
  forall (reqb : R -> R -> bool) (nonterm_s nonterm_t : N -> bool) (g : digraph N R), wf g -> tight g ->
  exists g', words_only_pair neqb reqb nonterm_s nonterm_t g = Ok g' /\ wf g' /\ tight g' /\
  forall e, In e (edges g') <-> In e (edges g) /\ nonterm_s (fst (fst e)) = false /\ nonterm_t (snd (fst e)) = false.
Proof. exact words_only_ok. Qed.
Print Assumptions words_only_exact.

Example agreement_ex :
  let g ops := run_matching Nat.eqb (empty_digraph nat nat) ops in
  let a := g [Add 1 1 1; Add 2 2 1; Add 3 3 1] in
  let b := g [Add 1 1 1; Add 2 2 1] in
  let c := g [Add 1 1 1; Add 4 4 1; Add 3 3 1] in
  match cross_evaluate Nat.eqb Nat.eqb (fun _ => true) Nat.eqb [1] [[a]; [b]; [c]] [30; 10; 20] with
  | Ok ev => match tableize Nat.eqb Nat.eqb Nat.leb None prec ev with
    | Ok T => (map fst ev, labels T, map (fun x => (fst x, Qred (snd x))) (means T), Qred (overall T),
               map (fun x => (fst x, Qred (snd x))) (vars T), Qred (overall_var T))
    | Err _ => ([], [], [], 0%Q, [], 0%Q) end
  | Err _ => ([], [], [], 0%Q, [], 0%Q) end =
  ([(30, 10); (30, 20); (10, 30); (10, 20); (20, 30); (20, 10)], [10; 20; 30],
   [(10, (3 # 4)%Q); (20, (1 # 2)%Q); (30, (2 # 3)%Q)], (23 # 36)%Q, [(10, (1 # 8)%Q); (20, (1 # 18)%Q); (30, 0%Q)], (53 # 1080)%Q).
Proof. vm_compute. reflexivity. Qed.
Example words_only_ex :
  match words_only_pair Nat.eqb Nat.eqb (Nat.eqb 2) (Nat.eqb 5) (run_matching Nat.eqb (empty_digraph nat nat) [Add 1 1 1; Add 2 2 1; Add 5 3 1; Add 6 5 1]) with
  | Ok g => edges g | Err _ => [] end = [((1,1),1); ((5,3),1)].
Proof. vm_compute. reflexivity. Qed.
