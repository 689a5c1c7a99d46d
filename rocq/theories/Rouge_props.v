(** C09: ROUGE scores (daeso.string.rouge) *)
From Coq Require Import QArith.
From Verif Require Import Py Lcs_spec Ngram_spec Ngram_model Sim_spec Rouge_spec Ngram_proof Rouge_model Rouge_proof.
Open Scope nat_scope.

(** C09. rouge_ngram is the number of candidate n-grams (with multiplicity) that occur among the reference
    n-grams, over the number of reference n-grams (0 if there are none); it is 0 exactly if nothing occurs,
    and at most 1 if there are no more candidate n-grams than reference n-grams. *)
Theorem rouge_ngram_value : forall (G : Type) (geqb : G -> G -> bool), (forall x y, geqb x y = true <-> x = y) ->
  forall (cs rs : list G) (n : nat), hits rs cs n ->
  rouge_ngram geqb cs rs = frac n (length rs) /\ (0 <= rouge_ngram geqb cs rs)%Q /\
  (length cs <= length rs -> (rouge_ngram geqb cs rs <= 1)%Q) /\
  ((rouge_ngram geqb cs rs == 0)%Q <-> n = 0).
Proof. exact rouge_ngram_all. Qed.
Print Assumptions rouge_ngram_value.
(** rouge_n: the number of windows of n tokens of the candidate that are also a window of a reference,
    over the number of windows of all references (0 if there are none). *)
Theorem rouge_n_value : forall (A : Type) (eqb : A -> A -> bool), (forall x y, eqb x y = true <-> x = y) ->
  forall (p : A) (cand : list A) (refs : list (list A)) (n m : nat) cs rss,
  windows n cand cs -> Forall2 (windows n) refs rss -> hits (concat rss) cs m ->
  rouge_n eqb p cand refs n = frac m (length (concat rss)).
Proof. exact rouge_n_val. Qed.
Print Assumptions rouge_n_value.
(** C09. A ROUGE-N score above 1 is possible: repeating a word of the reference is rewarded every time. *)
Theorem rouge_n_at_most_one_refuted : Qeq (rouge_n Nat.eqb 0 [7; 7; 7; 7] [[7; 8]] 1) 2.
Proof. vm_compute. reflexivity. Qed.
Print Assumptions rouge_n_at_most_one_refuted.

(** C09. rouge_l: for non-empty sequences the F-measure of a longest common subsequence l, with precision
    |l|/|candidate| and recall |l|/|reference|; in [0,1]; 0 exactly if no token is shared; equal to the
    precision for beta = 0; and otherwise 1 exactly for equal sequences. *)
Theorem rouge_l_value : forall (A : Type) (eqb : A -> A -> bool), (forall x y, eqb x y = true <-> x = y) ->
  forall (cand ref : list A) (beta : Q), cand <> [] -> ref <> [] ->
  exists l F, longest_common l cand ref /\ rouge_l eqb cand ref beta = Ok F /\
  is_fmeasure beta (frac (length l) (length cand)) (frac (length l) (length ref)) F /\
  (0 <= F /\ F <= 1)%Q /\ ((F == 0)%Q <-> forall x, ~ (In x cand /\ In x ref)) /\
  ((beta == 0)%Q -> (F == frac (length l) (length cand))%Q) /\
  (~ (beta == 0)%Q -> ((F == 1)%Q <-> cand = ref)).
Proof. exact rouge_l_ok. Qed.
Print Assumptions rouge_l_value.
(** C09. ... and ZeroDivisionError if one of them is empty. *)
Theorem rouge_l_of_empty_raises : forall (A : Type) (eqb : A -> A -> bool), (forall x y, eqb x y = true <-> x = y) ->
  forall (cand ref : list A) (beta : Q), cand = [] \/ ref = [] -> rouge_l eqb cand ref beta = Err ZeroDivisionError.
Proof. exact rouge_l_err. Qed.
Print Assumptions rouge_l_of_empty_raises.

(** C09. rouge_s: with at least two tokens each, the F-measure of the m different skip bigrams that both
    have, with recall over the first and precision over the second sequence; in [0,1]; for beta <> 0 it is 1
    exactly if the skip bigrams are the same and none is repeated.  Otherwise ZeroDivisionError. *)
Theorem rouge_s_value : forall (A : Type) (eqb : A -> A -> bool), (forall x y, eqb x y = true <-> x = y) ->
  forall (t1 t2 : list A) (limit : option nat) (beta : Q), 2 <= length t1 -> 2 <= length t2 ->
  exists m F, exactly (fun g => In g (skip_bigram_slices t1 limit) /\ In g (skip_bigram_slices t2 limit)) m /\
  rouge_s eqb t1 t2 limit beta = Ok F /\
  is_fmeasure beta (frac m (length (skip_bigram_slices t2 limit))) (frac m (length (skip_bigram_slices t1 limit))) F /\
  (0 <= F /\ F <= 1)%Q /\ ((F == 0)%Q <-> m = 0) /\
  (~ (beta == 0)%Q -> ((F == 1)%Q <-> same_set (skip_bigram_slices t1 limit) (skip_bigram_slices t2 limit))).
Proof. exact rouge_s_ok. Qed.
Print Assumptions rouge_s_value.
Theorem rouge_s_of_short_raises : forall (A : Type) (eqb : A -> A -> bool) (t1 t2 : list A) (limit : option nat) (beta : Q),
  length t1 < 2 \/ length t2 < 2 -> rouge_s eqb t1 t2 limit beta = Err ZeroDivisionError.
Proof. exact rouge_s_err. Qed.
Print Assumptions rouge_s_of_short_raises.
(** C09. With beta = 1 rouge_s is symmetric. *)
Theorem rouge_s_symmetric : forall (A : Type) (eqb : A -> A -> bool), (forall x y, eqb x y = true <-> x = y) ->
  forall (t1 t2 : list A) (limit : option nat), match rouge_s eqb t1 t2 limit 1, rouge_s eqb t2 t1 limit 1 with
  | Ok F, Ok F' => (F == F')%Q | Err e, Err e' => e = e' | _, _ => False end.
Proof. exact rouge_s_swap. Qed.
Print Assumptions rouge_s_symmetric.
(** C09. rouge_su: the same with the marker in front of both sequences, so that single tokens count too. *)
Theorem rouge_su_value : forall (A : Type) (eqb : A -> A -> bool), (forall x y, eqb x y = true <-> x = y) ->
  forall (t1 t2 : list A) (limit : option nat) (beta : Q) (marker : A), t1 <> [] -> t2 <> [] ->
  exists m F, exactly (fun g => In g (skip_bigram_slices (marker :: t1) limit) /\ In g (skip_bigram_slices (marker :: t2) limit)) m /\
  rouge_su eqb t1 t2 limit beta marker = Ok F /\
  is_fmeasure beta (frac m (length (skip_bigram_slices (marker :: t2) limit))) (frac m (length (skip_bigram_slices (marker :: t1) limit))) F.
Proof.
  intros A eqb H t1 t2 limit beta marker N1 N2. unfold rouge_su.
  destruct (@rouge_s_ok A eqb H ([marker] ++ t1) ([marker] ++ t2) limit beta) as (m & F & X & E & Y & _).
  - destruct t1; cbn; [congruence|lia].
  - destruct t2; cbn; [congruence|lia].
  - exists m, F. auto.
Qed.
Print Assumptions rouge_su_value.
(** C09. rouge_su returns a number in [0,1] exactly for two non-empty sequences; otherwise ZeroDivisionError. *)
Theorem rouge_su_range : forall (A : Type) (eqb : A -> A -> bool), (forall x y, eqb x y = true <-> x = y) ->
  forall (t1 t2 : list A) (limit : option nat) (beta : Q) (marker : A),
  (t1 <> [] -> t2 <> [] -> exists F, rouge_su eqb t1 t2 limit beta marker = Ok F /\ (0 <= F /\ F <= 1)%Q) /\
  (t1 = [] \/ t2 = [] -> rouge_su eqb t1 t2 limit beta marker = Err ZeroDivisionError).
Proof.
  intros A eqb H t1 t2 limit beta marker. unfold rouge_su. split.
  - intros N1 N2. destruct (@rouge_s_ok A eqb H ([marker] ++ t1) ([marker] ++ t2) limit beta) as (m & F & _ & E & _ & R & _).
    + destruct t1; cbn; [congruence|lia].
    + destruct t2; cbn; [congruence|lia].
    + eauto.
  - intros N. apply rouge_s_err. destruct N as [->| ->]; cbn; lia.
Qed.
Print Assumptions rouge_su_range.

Example rouge_ex : hits [[1;2]; [2;3]] [[1;2]; [1;2]; [9;9]] 2 /\
  match rouge_l Nat.eqb [1;2;3;4] [1;3;5] 1 with Ok F => Qred F | _ => 0%Q end = (4 # 7)%Q /\
  match rouge_s Nat.eqb [1;2;3] [1;3;2] None 1 with Ok F => Qred F | _ => 0%Q end = (2 # 3)%Q /\
  match rouge_su Nat.eqb [1;2;3] [1;3;2] None 1 0 with Ok F => Qred F | _ => 0%Q end = (5 # 6)%Q.
Proof.
  split; [|vm_compute; repeat split; reflexivity].
  apply h_yes; [cbn; auto|]. apply h_yes; [cbn; auto|]. apply h_no; [cbn; intuition discriminate|]. apply h_nil.
Qed.
Example rouge_n_ex : windows 2 [1;2;3] [[1;2];[2;3]] /\ rouge_n Nat.eqb 0 [1;2;3] [[2;3;4];[1;2]] 2 = frac 2 3.
Proof. split; [exact (n_gram_windows [1;2;3] 2 0)|vm_compute; reflexivity]. Qed.
