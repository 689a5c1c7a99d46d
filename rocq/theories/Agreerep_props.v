(** C54: the printed report of inter-annotator agreement (daeso.pgc.agreement) *)
From Coq Require Import String Ascii QArith Lia Permutation Sorted.
From Verif Require Import Py Align_model Align_proof Eval_spec Eval_model Eval_proof Corpus_model Table_spec Number_model Table_model
  Evalrun_spec Evalrun_model Agree_spec Agree_model Agreerep_spec Agreerep_model Agreerep_proof.
Open Scope list_scope.
Open Scope nat_scope.

(** C54. A printed standard deviation is the square root, rounded to the nearest hundredth, whatever the variance:
    scale 100 for a root, 10000 for a root in percent.  (This is the printing that C52 leaves open.) *)
Theorem printed_root_exact : forall (scale : Z) (q : Q), (0 <= q)%Q -> root_two_decimals scale q (show_root scale q).
Proof. exact show_root_exact. Qed.
Print Assumptions printed_root_exact.

(** C54. For two or more annotators with different names and corpora of the same length with known relations the
    report is written, and it is the expected one: for each relation and measure a table with a row and a column
    for each annotator in sorted order, whose cells are the scores of the column's corpus against the row's corpus,
    recounted from the alignments, and below it the means and standard deviations of exactly those scores. *)
Theorem agreement_report_correct :
  forall (N R : Type) (neqb : N -> N -> bool), (forall x y, neqb x y = true <-> x = y) ->
  forall (reqb : R -> R -> bool), (forall x y, reqb x y = true <-> x = y) ->
  forall (truthy : R -> bool) (lleb : text -> text -> bool), (forall x y, lleb x y = true \/ lleb y x = true) ->
  forall (rel_text : R -> text) (relations : list R), (forall r, In r relations -> truthy r = true) ->
  forall (corpora : list (list (digraph N R))) (given : option (list text)) (len : nat) (ann : list text),
  annotator_names given (length corpora) ann -> length ann = length corpora -> NoDup ann -> 2 <= length ann ->
  Forall (fun c => Forall (goodg relations) c /\ length c = len) corpora ->
  forall corpus_of : text -> list (list (triple N R)),
  (forall i name c, nth_error ann i = Some name -> nth_error corpora i = Some c -> corpus_of name = map (@edges N R) c) ->
  forall keys measures, (forall k, In k keys -> k = None \/ (exists r, k = Some r /\ In r relations)) ->
  exists ls lines, agreement_report neqb reqb truthy lleb rel_text relations corpora given keys measures = Ok lines /\
    Permutation ls ann /\ Sorted (fun x y => lleb x y = true) ls /\
    Forall2 shows_aline (agreement_lines text_eqb rel_text keys measures ann ls
      (fun k m t p => measure_of m (counted neqb reqb k (corpus_of t, corpus_of p)))) lines.
Proof.
  intros N R neqb Hn reqb Hr truthy lleb Hl rel_text relations Ht corpora given len ann Ha Hlen ND Two G corpus_of Hc keys measures Hk.
  pose proof (@annotator_names_fun given (length corpora) _ _ Ha (names_spec given (length corpora))) as ->.
  exact (@report_ok N R neqb Hn reqb Hr truthy lleb Hl rel_text relations Ht corpora given len Hlen ND Two G corpus_of Hc keys measures Hk).
Qed.
Print Assumptions agreement_report_correct.

(** C54. If no name is longer than 11 characters, every such report has its columns straight: a row is a multiple
    of 12 characters long, and the cell of the j-th column is characters 12(j+1) to 12(j+2). *)
Theorem agreement_report_columns :
  forall (N R : Type) (neqb : N -> N -> bool), (forall x y, neqb x y = true <-> x = y) ->
  forall (reqb : R -> R -> bool), (forall x y, reqb x y = true <-> x = y) ->
  forall (truthy : R -> bool) (rel_text : R -> text) (relations : list R), (forall r, In r relations -> truthy r = true) ->
  forall (corpora : list (list (digraph N R))) (given : option (list text)) (len : nat) (ann : list text),
  annotator_names given (length corpora) ann -> length ann = length corpora -> NoDup ann -> 2 <= length ann ->
  Forall (fun c => Forall (goodg relations) c /\ length c = len) corpora ->
  forall corpus_of : text -> list (list (triple N R)),
  (forall i name c, nth_error ann i = Some name -> nth_error corpora i = Some c -> corpus_of name = map (@edges N R) c) ->
  forall keys measures, (forall k, In k keys -> k = None \/ (exists r, k = Some r /\ In r relations)) ->
  Forall (fun a => length a <= 11) ann ->
  forall ls lines, Permutation ls ann ->
  let spec := agreement_lines text_eqb rel_text keys measures ann ls (fun k m t p => measure_of m (counted neqb reqb k (corpus_of t, corpus_of p))) in
  Forall2 shows_aline spec lines ->
  forall i name cs l, nth_error spec i = Some (ARow name cs) -> nth_error lines i = Some l -> fixed_columns name cs l.
Proof.
  intros N R neqb Hn reqb Hr truthy rel_text relations Ht corpora given len ann Ha Hlen ND Two G corpus_of Hc keys measures Hk.
  pose proof (@annotator_names_fun given (length corpora) _ _ Ha (names_spec given (length corpora))) as ->.
  exact (@columns_ok N R neqb Hn reqb Hr truthy (fun _ _ => true) (fun _ _ => or_introl eq_refl) rel_text relations Ht corpora given len Hlen ND Two G corpus_of Hc keys measures Hk).
Qed.
Print Assumptions agreement_report_columns.

(** C54. With a longer name it has not: the row of that annotator is shifted, however long the name is. *)
Theorem agreement_report_long_name_refuted : forall name cs l, 12 <= length name -> Forall small cs -> shows_aline (ARow name cs) l -> ~ fixed_columns name cs l.
Proof.
  intros name cs l L S (ts & F & ->) (W & _). destruct (cells_at S F) as [E _]. rewrite app_length, E in W. unfold label_text, right in W. rewrite !app_length in W. cbn [List.length] in W. lia.
Qed.
Print Assumptions agreement_report_long_name_refuted.

(** C54. Names that are not given, or an empty list of them, are A1, A2, ..., and these are all different. *)
Theorem agreement_default_names : forall (given : option (list text)) (n : nat),
  annotator_names given n (names_or_default given n) /\ (given = None \/ given = Some [] -> NoDup (names_or_default given n)).
Proof. intros given n. split; [apply names_spec|]. intros [->| ->]; apply default_nodup. Qed.
Print Assumptions agreement_default_names.

(** C54. The F tables are symmetric, and the recall table is the precision table with rows and columns exchanged. *)
Theorem agreement_report_symmetry :
  forall (N R : Type) (neqb : N -> N -> bool), (forall x y, neqb x y = true <-> x = y) ->
  forall (reqb : R -> R -> bool), (forall x y, reqb x y = true <-> x = y) ->
  forall (k : option R) (a b : list (list (triple N R))), Forall (fun l => NoDup (map fst l)) a -> Forall (fun l => NoDup (map fst l)) b ->
  measure_of MF (counted neqb reqb k (b, a)) = measure_of MF (counted neqb reqb k (a, b)) /\
  measure_of MPrec (counted neqb reqb k (b, a)) = measure_of MRec (counted neqb reqb k (a, b)).
Proof. exact measures_swap. Qed.
Print Assumptions agreement_report_symmetry.

(** Three annotators. *)
Definition g (l : list (nat * nat * nat)) : digraph nat nat := run_matching Nat.eqb (empty_digraph nat nat) (map (fun e => Align_model.Add (fst (fst e)) (snd (fst e)) (snd e)) l).
Definition three_corpora := [[g [(1, 1, 1); (2, 2, 1); (3, 3, 1)]]; [g [(1, 1, 1); (2, 2, 1)]]; [g [(1, 1, 1); (4, 4, 1); (3, 3, 1)]]].
Fixpoint text_leb (s t : text) : bool :=
  match s, t with
  | [], _ => true
  | _ :: _, [] => false
  | a :: s', b :: t' => (nat_of_ascii a <? nat_of_ascii b) || ((nat_of_ascii a =? nat_of_ascii b) && text_leb s' t')
  end.
Example agreement_report_ex :
  match agreement_report Nat.eqb Nat.eqb (fun _ => true) text_leb (fun _ => txt "equals") [1] three_corpora (Some [txt "Zoe"; txt "Bob"; txt "Ann"]) [None; Some 1] [MPrec; MRec; MF] with
  | Ok ls => map string_of_list_ascii (firstn 15 ls)
  | Err _ => []
  end =
  ["================================================================================";
   "Agreement on relation __any_rel__";
   "================================================================================";
   "";
   "PREC";
   "";
   "                    Ann:        Bob:        Zoe:    overall:";
   "------------------------------------------------------------";
   "        Ann:                   50.00       66.67";
   "        Bob:       33.33                   66.67";
   "        Zoe:       66.67      100.00            ";
   "------------------------------------------------------------";
   "       mean:       50.00       75.00       66.67       63.89";
   "         SD:       23.57       35.36        0.00       22.15";
   ""]%string.
Proof. vm_compute. reflexivity. Qed.
Example agreement_report_hypotheses : Forall (fun c => Forall (goodg [1]) c /\ length c = 1) three_corpora /\ NoDup [txt "Zoe"; txt "Bob"; txt "Ann"] /\
  forall x y, text_leb x y = true \/ text_leb y x = true.
Proof.
  split; [|split].
  - assert (W : forall l, forallb (fun e => snd e =? 1) l = true -> goodg [1] (g l)).
    { intros l F. apply (goodg_reachable Nat.eqb Nat.eqb_eq). intros s t r H. apply in_map_iff in H. destruct H as (e & E & H). injection E as _ _ <-.
      rewrite forallb_forall in F. specialize (F e H). apply Nat.eqb_eq in F. left. now symmetry. }
    apply Forall_forall. intros c [<-|[<-|[<-|[]]]]; (split; [|reflexivity]); (constructor; [apply W; reflexivity|constructor]).
  - repeat (constructor; [cbn; intuition discriminate|]). constructor.
  - induction x as [|a x IH]; intros [|b y]; cbn [text_leb]; auto. destruct (Nat.ltb_spec (nat_of_ascii a) (nat_of_ascii b)) as [A|A]; [now left|]. destruct (Nat.ltb_spec (nat_of_ascii b) (nat_of_ascii a)) as [B|B]; [now right|].
    assert (E : nat_of_ascii a = nat_of_ascii b) by lia. rewrite E, Nat.eqb_refl. cbn. apply IH.
Qed.
