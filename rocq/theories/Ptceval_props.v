(** C44: evaluation and comparison of text alignments (lib/daeso/ptc/evaluate.py, diff.py). *)
From Coq Require Import String QArith Permutation Ascii.
From Verif Require Import Py PyLemmas Sim_spec Ielem_spec Ielem_model Ielem_proof Hdoc_spec Hdoc_model Hdoc_proof Hdoc_props
  Ptceval_spec Ptceval_model Ptceval_proof.
From Verif Require Sim_proof.
Open Scope string_scope.
Open Scope list_scope.
Open Scope nat_scope.

(** The three counts are the numbers of different aligned pairs. *)
Theorem count_alignment_exact : forall tc pc t n m c, count_alignment tc pc t = (n, m, c) ->
  exactly (aligned tc t) n /\ exactly (aligned pc t) m /\ exactly (fun p => aligned tc t p /\ aligned pc t p) c /\ c <= n /\ c <= m.
Proof. exact count_ok. Qed.
Theorem count_alignment_swap : forall tc pc t n m c, count_alignment tc pc t = (n, m, c) -> count_alignment pc tc t = (m, n, c).
Proof.
  intros tc pc t n m c E. destruct (count_alignment pc tc t) as [[m' n'] c'] eqn:F.
  destruct (count_ok E) as [A1 [A2 [A3 _]]]. destruct (count_ok F) as [B1 [B2 [B3 _]]].
  assert (m' = m) by (eapply (exactly_fun (fun p => iff_refl _)); eassumption).
  assert (n' = n) by (eapply (exactly_fun (fun p => iff_refl _)); eassumption).
  assert (c' = c) by (eapply (exactly_fun (fun p => and_comm _ _)); eassumption).
  now subst.
Qed.
(** The scores. *)
Theorem compute_scores_values : forall t p c, c <= t -> c <= p ->
  exists f, compute_scores t p c = (frac p t, precision t p c, recall t p c, f) /\ (f == f_score t p c)%Q /\
    (0 <= precision t p c <= 1 /\ 0 <= recall t p c <= 1 /\ 0 <= f <= 1)%Q.
Proof.
  intros t p c H1 H2. destruct (scores_ok H1 H2) as [f [E F]]. exists f. split; [exact E|]. split; [exact F|].
  unfold precision, recall. repeat split; try (apply Sim_proof.frac_range; assumption); rewrite F; apply Sim_proof.frac_range; lia.
Qed.
(** F is 1 exactly when the corpora align the same pairs, and some; 0 exactly when they share none. *)
Theorem f_score_extremes : forall tc pc t n m c r p q f, count_alignment tc pc t = (n, m, c) -> compute_scores n m c = (r, p, q, f) ->
  ((f == 1)%Q <-> (exists x, aligned tc t x) /\ (forall x, aligned tc t x <-> aligned pc t x)) /\
  ((f == 0)%Q <-> forall x, aligned tc t x -> ~ aligned pc t x).
Proof.
  intros tc pc t n m c r p q f E S. destruct (count_ok E) as [[l [N [I L]]] [[k [M [J K]]] [[h [O [H G]]] [Ln Lm]]]].
  destruct (scores_ok Ln Lm) as [f' [S' F]]. rewrite S in S'. injection S' as _ _ _ ->. unfold f_score in F. split.
  - rewrite F, Sim_proof.frac_one. split.
    + intros [Q P]. assert (c = n) by lia. assert (c = m) by lia. split.
      * destruct l as [|x l]; [cbn in L; lia|]. exists x. apply I. now left.
      * intros x. split; intros X; apply H.
        -- refine (NoDup_length_incl (l' := l) O _ _ x _); [lia|intros y Y; apply I; now apply H|now apply I].
        -- refine (NoDup_length_incl (l' := k) O _ _ x _); [lia|intros y Y; apply J; now apply H|now apply J].
    + intros [[x X] Q]. assert (c = n) by (subst; apply Nat.le_antisymm; [trivial|apply NoDup_incl_length; [trivial|]; intros y Y; apply I in Y; apply H; split; [trivial|now apply Q]]).
      assert (c = m) by (subst; apply Nat.le_antisymm; [trivial|apply NoDup_incl_length; [trivial|]; intros y Y; apply J in Y; apply H; split; [now apply Q|trivial]]).
      apply I in X. destruct l; [destruct X|cbn in L; lia].
  - rewrite F, Sim_proof.frac_zero. split.
    + intros Q x X Y. assert (Z : In x h) by now apply H. assert (P : c = 0) by lia. rewrite P in G. destruct h; [destruct Z|discriminate].
    + intros Q. left. destruct h as [|x h]; [cbn in G; lia|]. exfalso. destruct (proj1 (H x)) as [X Y]; [now left|]. exact (Q x X Y).
Qed.
(** One row per pair of corpora that has a label, in order; the overall row scores the sums. *)
Theorem eval_alignment_rows : forall pairs labels t rows overall, eval_alignment pairs labels t = (rows, overall) ->
  Forall2 (fun pl r => forall n m c, count_alignment (fst (fst pl)) (snd (fst pl)) t = (n, m, c) ->
                       r = ((n, m, c), compute_scores n m c, snd pl)) (combine pairs labels) rows /\
  let n1 := list_sum (map (fun r => fst (fst (fst (fst r)))) rows) in
  let n2 := list_sum (map (fun r => snd (fst (fst (fst r)))) rows) in
  let n3 := list_sum (map (fun r => snd (fst (fst r))) rows) in
  overall = ((n1, n2, n3), compute_scores n1 n2 n3) /\ n3 <= n1 /\ n3 <= n2.
Proof.
  intros pairs labels t rows overall E. unfold eval_alignment in E. fold (eval_step t) in E. rewrite eval_fold in E. injection E as <- <-.
  cbn [app Nat.add]. cbv zeta. rewrite !map_map. split.
  - induction (combine pairs labels) as [|pl l IH]; constructor; [|trivial]. intros n m c C. unfold row. now rewrite C.
  - split; [reflexivity|]. generalize (combine pairs labels). intros l.
    assert (R : forall x, snd (fst (fst (row t x))) <= fst (fst (fst (fst (row t x)))) /\ snd (fst (fst (row t x))) <= snd (fst (fst (fst (row t x))))).
    { intros x. unfold row. cbn [fst snd]. destruct (count_alignment _ _ t) as [[n m] c] eqn:C. cbn [fst snd]. exact (proj2 (proj2 (proj2 (count_ok C)))). }
    induction l as [|a l IH]; cbn [map list_sum fold_right]; [auto|]. specialize (R a). unfold list_sum in IH. lia.
Qed.
(** "The score of a corpus against another one is 1 only if they align the same elements" is false
    for links by number: all of them count as one alignment. *)
Theorem links_by_number_score_one : forall tc pc t, (exists x, aligned tc t x) -> (exists x, aligned pc t x) ->
  (forall l, In l (tc ++ pc) -> f_from_id l = None /\ f_to_id l = None) -> count_alignment tc pc t = (1, 1, 1).
Proof.
  intros tc pc t [x X] [y Y] H. destruct (count_alignment tc pc t) as [[n m] c] eqn:E. destruct (count_ok E) as [A [B [C _]]].
  assert (U : forall k z, aligned k t z -> incl k (tc ++ pc) -> z = (None, None)).
  { intros k z [l [L [_ [_ [L1 L2]]]]] In. destruct (H l (In l L)) as [H1 H2]. destruct z; cbn in *. congruence. }
  assert (I1 : incl tc (tc ++ pc)) by (intros z Z; apply in_app_iff; now left). assert (I2 : incl pc (tc ++ pc)) by (intros z Z; apply in_app_iff; now right).
  rewrite (U _ _ X I1) in X. rewrite (U _ _ Y I2) in Y.
  assert (One : exactly (fun z : option string * option string => z = (None, None)) 1).
  { exists [(None, None)]. split; [repeat constructor; intros []|]. split; [|reflexivity]. intros z. split; [intros [<-|[]]; reflexivity|intros ->; now left]. }
  assert (n = 1) by (eapply (@exactly_fun _ _ _ _ _); [|exact A|exact One]; intros z; split; [intros Q; eapply U; eauto|intros ->; trivial]).
  assert (m = 1) by (eapply (@exactly_fun _ _ _ _ _); [|exact B|exact One]; intros z; split; [intros Q; eapply U; eauto|intros ->; trivial]).
  assert (c = 1) by (eapply (@exactly_fun _ _ _ _ _); [|exact C|exact One]; intros z; split; [intros [Q _]; eapply U; eauto|intros ->; split; trivial]).
  now subst.
Qed.

Section DiffProps.
Variable char : Type.
Notation elem := (elem char).
Notation index := (index char).
Notation aligns x e := (a_aligns (st x (uid e))).

(** The comparison fails exactly when a document has no element with the tag. *)
Theorem print_diff_fails : forall (tx px : index) t x, print_diff tx px t = Err x <->
  x = KeyError /\ (dget String.eqb (counts tx) t = None \/ dget String.eqb (counts px) t = None).
Proof.
  intros tx px t x. unfold print_diff, dread. destruct (dget String.eqb (counts tx) t), (dget String.eqb (counts px) t); cbn [bind]; split; try discriminate; try (intros [_ [A|A]]; discriminate A);
  try (intros E; injection E as <-; auto); intros [-> _]; reflexivity.
Qed.
(** Otherwise the differences are numbered from 1, and are exactly: alignments of the k-th element
    in the one corpus to an id to which the k-th element in the other corpus is not aligned. *)
Theorem print_diff_exact : forall (tx px : index) t tl pl, dget String.eqb (counts tx) t = Some tl -> dget String.eqb (counts px) t = Some pl ->
  exists ds, print_diff tx px t = Ok (combine (seq 1 (length ds)) ds) /\
    (forall d, In d ds <-> exists k f g, nth_error tl k = Some f /\ nth_error pl k = Some g /\
      ((d_true d = true /\ d_from d = id_of f /\ (exists u, In u (aligns tx f) /\ id_of u = d_to d) /\ ~ exists u, In u (aligns px g) /\ id_of u = d_to d) \/
       (d_true d = false /\ d_from d = id_of g /\ (exists u, In u (aligns px g) /\ id_of u = d_to d) /\ ~ exists u, In u (aligns tx f) /\ id_of u = d_to d))) /\
    (NoDup (map (@id_of char) tl) -> NoDup (map (@id_of char) pl) ->
     (forall f, In f tl -> NoDup (map (@id_of char) (aligns tx f))) -> (forall f, In f pl -> NoDup (map (@id_of char) (aligns px f))) -> NoDup ds).
Proof.
  intros tx px t tl pl A B. exists (diffs tx px tl pl). split; [now apply print_diff_ok|]. split; [|apply diffs_nodup].
  intros d. rewrite diffs_in. split; intros [k [f [g [K1 [K2 H]]]]]; exists k, f, g; split; trivial; split; trivial; now apply diff_elem_in.
Qed.
(** Exchanging the corpora gives the same differences with the sides exchanged. *)
Theorem print_diff_swap : forall (tx px : index) t ds, print_diff tx px t = Ok ds -> exists ds', print_diff px tx t = Ok ds' /\
  Permutation (map (fun d => {| d_true := negb (d_true (snd d)); d_from := d_from (snd d); d_to := d_to (snd d) |}) ds) (map snd ds').
Proof.
  intros tx px t ds E. destruct (dget String.eqb (counts tx) t) as [tl|] eqn:A, (dget String.eqb (counts px) t) as [pl|] eqn:B;
    try (unfold print_diff, dread in E; rewrite A, ?B in E; discriminate E).
  rewrite (print_diff_ok _ _ _ A B) in E. injection E as <-. rewrite (print_diff_ok _ _ _ B A). eexists. split; [reflexivity|].
  assert (X : forall l : list difference, map snd (combine (seq 1 (length l)) l) = l).
  { intros l. generalize 1. induction l as [|a l IH]; intros n; [reflexivity|]. cbn [length seq combine map snd]. now rewrite IH. }
  rewrite X. rewrite <- (diffs_swap tx px tl pl). rewrite <- (X (diffs tx px tl pl)) at 3. rewrite map_map. reflexivity.
Qed.
(** A corpus does not differ from itself. *)
Theorem print_diff_self : forall (tx : index) t ds, print_diff tx tx t = Ok ds -> ds = [].
Proof.
  intros tx t ds E. destruct (dget String.eqb (counts tx) t) as [tl|] eqn:A; [|unfold print_diff, dread in E; rewrite A in E; discriminate].
  rewrite (print_diff_ok _ _ _ A A) in E. injection E as <-.
  assert (X : diffs tx tx tl tl = []).
  { unfold diffs. clear A. induction tl as [|a tl IH]; [reflexivity|]. cbn [combine flat_map fst snd]. rewrite diff_elem_self. exact IH. }
  now rewrite X.
Qed.
(** Two corpora over the same documents, whose links name elements by id: the differences are
    exactly the links of the one corpus from elements with the tag, for which the other has no link
    with the same ids. *)
Theorem print_diff_links : forall space nl (fr tr : elem) fx tx tlinks tpairs plinks ppairs tfx ttx pfx ptx t ds,
  distinct fr -> distinct tr -> updated space nl fr fx -> updated space nl tr tx ->
  Forall2 (connects (@named_id char) fr tr) tlinks tpairs -> Forall2 (connects (@named_id char) fr tr) plinks ppairs ->
  inject_id tlinks fx tx = Ok (tfx, ttx) -> inject_id plinks fx tx = Ok (pfx, ptx) ->
  print_diff tfx pfx t = Ok ds ->
  let has links i j := exists l, In l links /\ l_from_tag l = t /\ l_from l = i /\ l_to l = j in
  forall d, In d (map snd ds) <->
    (d_true d = true /\ has tlinks (d_from d) (d_to d) /\ ~ has plinks (d_from d) (d_to d)) \/
    (d_true d = false /\ has plinks (d_from d) (d_to d) /\ ~ has tlinks (d_from d) (d_to d)).
Proof.
  intros space nl fr tr fx tx tlinks tpairs plinks ppairs tfx ttx pfx ptx t ds D1 D2 U1 U2 F1 F2 J1 J2 E has d.
  destruct (updated_tabs D1 U1) as [C1 [N1 [_ Z1]]]. destruct (updated_tabs D2 U2) as [_ [N2 _]].
  rewrite (inject_id_ok N1 N2 F1) in J1. injection J1 as J1. rewrite (inject_id_ok N1 N2 F2) in J2. injection J2 as J2.
  assert (K1 : counts tfx = counts fx) by (change tfx with (fst (tfx, ttx)); rewrite <- J1; apply apply_counts).
  assert (K2 : counts pfx = counts fx) by (change pfx with (fst (pfx, ptx)); rewrite <- J2; apply apply_counts).
  specialize (C1 t). destruct (dget String.eqb (counts fx) t) as [tl|] eqn:A; [|unfold print_diff, dread in E; rewrite K1, A in E; discriminate].
  rewrite (print_diff_ok _ _ _ (eq_trans (f_equal (fun c => dget String.eqb c t) K1) A) (eq_trans (f_equal (fun c => dget String.eqb c t) K2) A)) in E. injection E as <-.
  assert (X : forall l : list difference, map snd (combine (seq 1 (length l)) l) = l).
  { intros l. generalize 1. induction l as [|a l IH]; intros n; [reflexivity|]. cbn [length seq combine map snd]. now rewrite IH. }
  rewrite X, diffs_in.
  assert (T : forall e, In e tl <-> In e (doc_order fr) /\ tag e = t).
  { intros e. rewrite C1. unfold tagged. rewrite filter_In. now rewrite String.eqb_eq. }
  assert (A1 : forall e, In e tl -> aligns tfx e = targets tpairs e).
  { intros e I. apply T in I. destruct I as [I _]. destruct (apply_aligns tpairs (fx, tx) (uid e)) as [Q _]. rewrite J1 in Q. cbn [fst] in Q. rewrite Q. now rewrite Z1. }
  assert (A2 : forall e, In e tl -> aligns pfx e = targets ppairs e).
  { intros e I. apply T in I. destruct I as [I _]. destruct (apply_aligns ppairs (fx, tx) (uid e)) as [Q _]. rewrite J2 in Q. cbn [fst] in Q. rewrite Q. now rewrite Z1. }
  assert (G : forall links pairs e j, Forall2 (connects (@named_id char) fr tr) links pairs -> In e tl ->
            ((exists u, In u (targets pairs e) /\ id_of u = j) <-> has links (id_of e) j)).
  { intros links pairs e j F I. apply T in I. destruct I as [I1 I2]. apply (@target_links char fr tr); trivial. }
  assert (W : forall links pairs i j, Forall2 (connects (@named_id char) fr tr) links pairs -> has links i j -> exists e, In e tl /\ id_of e = i).
  { intros links pairs i j F [l [L [L1 [L2 L3]]]]. clear - F L L1 L2 T. induction F as [|a b ls ps H _ IH]; [destruct L|].
    destruct L as [->|L]; [|auto]. destruct H as [[H1 [H2 [H3 _]]] _]. exists (fst b). split; [apply T; split; congruence|congruence]. }
  split.
  - intros [k [f [g [H1 [H2 H]]]]]. assert (f = g) by congruence. subst g. apply nth_error_In in H1. apply diff_elem_in in H.
    rewrite (A1 _ H1), (A2 _ H1) in H. pose proof (G _ _ f (d_to d) F1 H1) as G1. pose proof (G _ _ f (d_to d) F2 H1) as G2.
    destruct H as [[Q1 [Q2 [Q3 Q4]]]|[Q1 [Q2 [Q3 Q4]]]]; rewrite Q2; tauto.
  - intros H. assert (Y : exists e, In e tl /\ id_of e = d_from d) by (destruct H as [[_ [H _]]|[_ [H _]]]; [exact (W _ _ _ _ F1 H)|exact (W _ _ _ _ F2 H)]).
    destruct Y as [e [I Q]]. destruct (In_nth_error _ _ I) as [k K]. exists k, e, e. split; [exact K|]. split; [exact K|]. apply diff_elem_in.
    rewrite (A1 _ I), (A2 _ I). pose proof (G _ _ e (d_to d) F1 I) as G1. pose proof (G _ _ e (d_to d) F2 I) as G2. rewrite Q in *. tauto.
Qed.
End DiffProps.

Definition il a b : link (option string) := {| l_from_tag := "s"; l_from := Some a; l_to_tag := "s"; l_to := Some b |}.
Definition fl a b : file_link := {| f_from_tag := Some "s"; f_to_tag := Some "s"; f_from_id := Some a; f_to_id := Some b |}.
(** Three true and two predicted alignments, one in common. *)
Example counted : count_alignment [fl "1" "2"; fl "1" "2"; fl "2" "3"; fl "4" "4"] [fl "9" "9"; fl "4" "4"] "s" = (3, 2, 1).
Proof. reflexivity. Qed.
Example scored : let '(_, p, r, f) := compute_scores 3 2 1 in (p == 1 # 2 /\ r == 1 # 3 /\ f == 2 # 5)%Q.
Proof. vm_compute. repeat split. Qed.
(** Links by number. *)
Definition nl_ : file_link := {| f_from_tag := Some "s"; f_to_tag := Some "s"; f_from_id := None; f_to_id := None |}.
Example by_number : count_alignment [nl_; nl_; nl_] [nl_] "s" = (1, 1, 1).
Proof. reflexivity. Qed.
(** Documents with two <s> each, ids a and b. *)
Definition xdoc : index ascii * index ascii := match inject_id [il "a" "a"; il "b" "b"] (up tgt) (up tgt) with Ok p => p | Err _ => (up tgt, up tgt) end.
Definition ydoc : index ascii * index ascii := match inject_id [il "b" "b"; il "b" "a"] (up tgt) (up tgt) with Ok p => p | Err _ => (up tgt, up tgt) end.
Example diff_example : print_diff (fst xdoc) (fst ydoc) "s" =
  Ok [(1, {| d_true := true; d_from := Some "a"; d_to := Some "a" |}); (2, {| d_true := false; d_from := Some "b"; d_to := Some "a" |})].
Proof. vm_compute. reflexivity. Qed.
Example x_connects : Forall2 (connects (@named_id ascii) tgt tgt) [il "a" "a"; il "b" "b"] [(e_s1, e_s1); (e_s2, e_s2)].
Proof.
  constructor; [|constructor; [|constructor]]; split; cbn [fst snd]; (split; [simpl; tauto|]); repeat split; intros d I T K;
  assert (H : In d [tgt; e_s1; e_s2]) by exact I; destruct H as [<-|[<-|[<-|[]]]]; try reflexivity; discriminate.
Qed.
(** "A corpus that links to an element with another tag is reported" is false: only the ids of the
    aligned elements are compared. *)
Definition tgt2 : elem ascii := Elem 3 "d" (Some "a") None None [e_s1; e_s2].
Definition at_root : link (option string) := {| l_from_tag := "s"; l_from := Some "a"; l_to_tag := "d"; l_to := Some "a" |}.
Theorem print_diff_tags_refuted :
  ~ (forall (fx tx tfx ttx pfx ptx : index ascii) tlinks plinks,
      updated none_space "010"%char tgt fx -> updated none_space "010"%char tgt2 tx ->
      inject_id tlinks fx tx = Ok (tfx, ttx) -> inject_id plinks fx tx = Ok (pfx, ptx) ->
      print_diff tfx pfx "s" = Ok [] -> forall l, In l tlinks -> l_from_tag l = "s" -> In l plinks).
Proof.
  intros H. destruct (inject_id [at_root] (up tgt) (up tgt2)) as [[a b]|] eqn:E1; [|vm_compute in E1; discriminate].
  destruct (inject_id [il "a" "a"] (up tgt) (up tgt2)) as [[c d]|] eqn:E2; [|vm_compute in E2; discriminate].
  assert (G : print_diff a c "s" = Ok []).
  { replace a with (fst (match inject_id [at_root] (up tgt) (up tgt2) with Ok p => p | Err _ => (a, b) end)) by now rewrite E1.
    replace c with (fst (match inject_id [il "a" "a"] (up tgt) (up tgt2) with Ok p => p | Err _ => (c, d) end)) by now rewrite E2.
    vm_compute. reflexivity. }
  destruct (H (up tgt) (up tgt2) a b c d _ _ (up_updated tgt) (up_updated tgt2) E1 E2 G at_root (or_introl eq_refl) eq_refl) as [Q|[]]. discriminate Q.
Qed.

Print Assumptions count_alignment_exact.
Print Assumptions count_alignment_swap.
Print Assumptions compute_scores_values.
Print Assumptions f_score_extremes.
Print Assumptions eval_alignment_rows.
Print Assumptions links_by_number_score_one.
Print Assumptions print_diff_fails.
Print Assumptions print_diff_exact.
Print Assumptions print_diff_swap.
Print Assumptions print_diff_self.
Print Assumptions print_diff_links.
Print Assumptions print_diff_tags_refuted.
