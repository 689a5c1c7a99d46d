(** Property C30: pgc_diff. *)
From Coq Require Import Permutation Sorted.
From Verif Require Import Py PyLemmas Align_model Align_spec Align_proof Diff_spec Diff_model Diff_proof.
Local Ltac unpack := repeat match goal with H : exists _, _ |- _ => destruct H | H : _ /\ _ |- _ => destruct H end.
(** Whatever is aligned in either corpus falls under exactly one verdict, and exchanging the corpora
    exchanges "only in the first" and "only in the second". *)
Theorem verdicts_partition (N R : Type) (rdec : forall x y : R, {x = y} + {x <> y}) (a b : alignment N R) s t :
  (a s t <> None \/ b s t <> None) ->
  exists v, reported (fun _ => True) a b v s t /\ forall w, reported (fun _ => True) a b w s t -> w = v.
Proof.
  intros H. destruct (a s t) as [r|] eqn:A, (b s t) as [r'|] eqn:B; [destruct (rdec r r') as [->|NE]; [exists Identical|exists Different]|exists Only1|exists Only2|tauto];
    (split; [cbn; rewrite A, B; eauto 8|]); intros [| | |]; cbn; rewrite ?A, ?B; auto; intros K; unpack; congruence.
Qed.
Theorem verdicts_mirror (N R : Type) (a b : alignment N R) v s t :
  reported (fun _ => True) a b v s t <-> reported (fun _ => True) b a (mirror v) s t.
Proof. destruct v; cbn; split; try (intros (r & H1 & _ & H2); eauto; fail); try (intros (r & r' & H1 & _ & H2 & H3); exists r', r; auto). Qed.
Section Props.
Variables N R G : Type.
Variable neqb : N -> N -> bool.
Hypothesis neqb_eq : forall x y, neqb x y = true <-> x = y.
Variable reqb : R -> R -> bool.
Hypothesis reqb_eq : forall x y, reqb x y = true <-> x = y.
Variable rtrue : R -> bool.
Variable toint : N -> res Z.
Variable geqb : G -> G -> bool.
Variables term_s term_t : G -> N -> bool.
Notation ga := (get_align neqb).
Notation pgc_diff := (pgc_diff neqb reqb rtrue toint geqb term_s term_t).
(** A graph pair as users make it, with non-empty relations. *)
Definition made (p : gp N R G) : Prop :=
  exists ops, gp_align p = run_matching neqb (empty_digraph N R) ops /\ forall s t r, ga (gp_align p) s t = Some r -> rtrue r = true.
Definition numbered (p : gp N R G) : Prop := forall s t, ga (gp_align p) s t <> None -> exists z, toint s = Ok z.
Definition filter_of (relations rels1 : list R) : R -> Prop :=
  fun r => match relations with [] => rels1 = [] \/ In r rels1 | _ => In r relations end.
(** What is printed for one pair. *)
Record block_of (show_ident : bool) (chosen : R -> Prop) (p1 p2 : gp N R G) (b : list (item N R)) : Prop := {
  exactly : forall v s t, In (v, (s, t)) (map (fun it => (it_sec it, it_nodes it)) b) <->
            (v = Identical -> show_ident = true) /\ reported chosen (ga (gp_align p1)) (ga (gp_align p2)) v s t;
  once : NoDup (map (fun it => (it_sec it, it_nodes it)) b);
  both_relations : forall it, In it b -> it_rel1 it = ga (gp_align p1) (fst (it_nodes it)) (snd (it_nodes it)) /\
                                         it_rel2 it = ga (gp_align p2) (fst (it_nodes it)) (snd (it_nodes it));
  by_section : exists ls, b = concat ls /\
     Forall2 (fun v l => Forall (fun it => it_sec it = v) l /\
        Sorted (fun a b => (match toint (fst a) with Ok z => z | Err _ => 0 end <= match toint (fst b) with Ok z => z | Err _ => 0 end)%Z) (map (@it_nodes N R) l))
       ((if show_ident then [Identical] else []) ++ [Different; Only1; Only2]) ls
}.
Lemma made_good p : made p -> pair_good rtrue p.
Proof.
  intros (ops & E & T). assert (good (gp_align p)) as (W & _).
  { rewrite E. apply (@run_good N R neqb neqb_eq ops _ (@no_alignment N R)); [apply good_empty|apply rep_empty]. }
  split; auto. intros [[s t] r] He. apply (T s t). now apply (ga_in neqb neqb_eq).
Qed.
(** If pgc_diff returns, the report is one block per pair, the items are numbered 1, 2, 3, ... throughout,
    and each block lists each chosen alignment once under its verdict, ordered by source node. *)
Theorem diff_reports_exactly show_ident relations rels1 c1 c2 out :
  Forall made c1 -> Forall made c2 ->
  pgc_diff false show_ident relations rels1 c1 c2 = (out, None) ->
  length c1 = length c2 /\
  exists blocks, out = concat blocks /\ map (@it_no N R) out = seq 1 (length out) /\
    Forall2 (fun ps b => geqb (gp_graphs (fst ps)) (gp_graphs (snd ps)) = true /\
                         block_of show_ident (filter_of relations rels1) (fst ps) (snd ps) b) (combine c1 c2) blocks.
Proof.
  intros M1 M2. unfold Diff_model.pgc_diff. destruct (length c1 =? length c2) eqn:L; [|discriminate]. apply Nat.eqb_eq in L. intros E. split; [exact L|]. revert E.
  set (rs := match relations with [] => rels1 | _ => _ end) in *.
  pose proof (@diff_pairs_spec N R G neqb neqb_eq reqb reqb_eq rtrue toint geqb term_s term_t show_ident rs (combine c1 c2) 0 []) as P.
  rewrite Forall_forall in M1, M2.
  assert (forall p1 p2 : gp N R G, In (p1, p2) (combine c1 c2) -> pair_good rtrue p1 /\ pair_good rtrue p2) as HG.
  { intros p1 p2 K. pose proof (in_combine_l _ _ _ _ K). pose proof (in_combine_r _ _ _ _ K). auto using made_good. }
  specialize (P HG). destruct (diff_pairs _ _ _ _ _ _ _ _ _ _ _ _ _) as [o [e|]]; [discriminate|]. intros [= <-].
  destruct P as (bs & -> & F & NO). exists bs. cbn [app] in *. split; [auto|]. split; [exact NO|].
  eapply f2_impl; [|exact F]. cbn beta. intros ps b [H1 [B1 B2 B3 (ls & B4 & B5)]]. split; auto. constructor; auto.
  - intros v s t. rewrite B1. unfold filter_of, chosen, rs. destruct relations as [|r0 rs0]; [reflexivity|].
    assert (forall r, (r0 :: rs0 = [] \/ In r (r0 :: rs0)) <-> In r (r0 :: rs0)) as C by (intros r; split; [intros [?|?]; [discriminate|auto]|auto]).
    destruct v; cbn [reported]; setoid_rewrite C; reflexivity.
  - exists ls. auto.
Qed.
(** It returns if the corpora are comparable and the source nodes have integer ids. *)
Theorem diff_returns show_ident relations rels1 c1 c2 :
  Forall made c1 -> Forall made c2 -> Forall numbered c1 -> Forall numbered c2 ->
  length c1 = length c2 -> (forall p1 p2, In (p1, p2) (combine c1 c2) -> geqb (gp_graphs p1) (gp_graphs p2) = true) ->
  snd (pgc_diff false show_ident relations rels1 c1 c2) = None.
Proof.
  intros M1 M2 N1 N2 L EG. unfold Diff_model.pgc_diff. apply Nat.eqb_eq in L. rewrite L.
  set (rs := match relations with [] => rels1 | _ => _ end) in *.
  pose proof (@diff_pairs_spec N R G neqb neqb_eq reqb reqb_eq rtrue toint geqb term_s term_t show_ident rs (combine c1 c2) 0 []) as P.
  rewrite Forall_forall in M1, M2, N1, N2.
  assert (forall p1 p2 : gp N R G, In (p1, p2) (combine c1 c2) -> pair_good rtrue p1 /\ pair_good rtrue p2) as HG.
  { intros p1 p2 K. pose proof (in_combine_l _ _ _ _ K). pose proof (in_combine_r _ _ _ _ K). auto using made_good. }
  specialize (P HG). destruct (diff_pairs _ _ _ _ _ _ _ _ _ _ _ _ _) as [o [e|]]; [|reflexivity]. exfalso.
  destruct P as (p1 & p2 & K & [E|(s & t & X & Y)]).
  - rewrite EG in E by auto. discriminate.
  - pose proof (in_combine_l _ _ _ _ K). pose proof (in_combine_r _ _ _ _ K).
    destruct X as [X|X]; [destruct (N1 p1 H s t X) as [z Z]|destruct (N2 p2 H0 s t X) as [z Z]]; exact (Y z Z).
Qed.
(** It refuses corpora of different lengths. *)
Theorem diff_refuses words_only show_ident relations rels1 c1 c2 : length c1 <> length c2 ->
  pgc_diff words_only show_ident relations rels1 c1 c2 = ([], Some AssertionError).
Proof. intros H. unfold Diff_model.pgc_diff. apply Nat.eqb_neq in H. now rewrite H. Qed.
(** With words_only it fails as soon as the first corpus has an alignment to report ... *)
Theorem diff_words_only_fails show_ident relations rels1 p1 p2 c1 c2 :
  made p1 -> (exists s t r, ga (gp_align p1) s t = Some r /\ filter_of relations rels1 r) ->
  length c1 = length c2 -> geqb (gp_graphs p1) (gp_graphs p2) = true ->
  pgc_diff true show_ident relations rels1 (p1 :: c1) (p2 :: c2) = ([], Some AttributeError).
Proof.
  intros M (s & t & r & E & C) L EG. unfold Diff_model.pgc_diff. cbn [length combine]. rewrite L, Nat.eqb_refl. cbn [diff_pairs]. rewrite EG.
  set (rs := match relations with [] => rels1 | _ => _ end) in *.
  assert (In ((s, t), r) (alignments reqb (gp_align p1) rs)) as H.
  { apply (@alignments_in N R neqb neqb_eq reqb reqb_eq rtrue toint); [exact (proj1 (made_good p1 M))|]. split; auto. unfold chosen, rs, filter_of in *. destruct relations; auto. }
  destruct (alignments reqb (gp_align p1) rs) as [|[n r2] l]; [destruct H|]. reflexivity.
Qed.
End Props.
(** ... and otherwise it leaves out exactly what it should report: the alignments of words. *)
Definition words_only_reports_words : Prop :=
  forall (c1 c2 : list (gp nat nat nat)) out s t,
    pgc_diff Nat.eqb Nat.eqb (fun _ => true) (fun n => Ok (Z.of_nat n)) Nat.eqb (fun _ _ => true) (fun _ _ => true) true true [] [] c1 c2 = (out, None) ->
    (exists i p1 p2, nth_error c1 i = Some p1 /\ nth_error c2 i = Some p2 /\ get_align Nat.eqb (gp_align p2) s t <> None /\ get_align Nat.eqb (gp_align p1) s t = None) ->
    In (s, t) (map (@it_nodes nat nat) out).
Theorem words_only_reports_words_refuted : ~ words_only_reports_words.
Proof.
  intros H. specialize (H [{| gp_graphs := 0; gp_align := empty_digraph nat nat |}]
     [{| gp_graphs := 0; gp_align := run_matching Nat.eqb (empty_digraph nat nat) [Add 1 2 5] |}] [] 1 2 eq_refl). destruct H.
  exists 0. eexists. eexists. split; [reflexivity|]. split; [reflexivity|]. split; [discriminate|reflexivity].
Qed.
(** With a relation filter the report is not symmetric: an alignment relabelled from a relation outside the
    filter to one inside it is not reported at all. *)
Definition filter_is_symmetric : Prop :=
  forall (c1 c2 : list (gp nat nat nat)) rels out1 out2,
    let d := pgc_diff Nat.eqb Nat.eqb (fun _ => true) (fun n => Ok (Z.of_nat n)) Nat.eqb (fun _ _ => true) (fun _ _ => true) false true rels [] in
    d c1 c2 = (out1, None) -> d c2 c1 = (out2, None) -> length out1 = length out2.
Theorem filter_is_symmetric_refuted : ~ filter_is_symmetric.
Proof.
  intros H. specialize (H [{| gp_graphs := 0; gp_align := run_matching Nat.eqb (empty_digraph nat nat) [Add 1 2 6] |}]
     [{| gp_graphs := 0; gp_align := run_matching Nat.eqb (empty_digraph nat nat) [Add 1 2 5] |}] [5] _ _ eq_refl eq_refl). discriminate H.
Qed.
Print Assumptions verdicts_partition.
Print Assumptions verdicts_mirror.
Print Assumptions diff_reports_exactly.
Print Assumptions diff_returns.
Print Assumptions diff_refuses.
Print Assumptions diff_words_only_fails.
Print Assumptions words_only_reports_words_refuted.
Print Assumptions filter_is_symmetric_refuted.

(** Two pairs with every kind of difference. *)
Definition ex_gp (n : nat) ops : gp nat nat nat := {| gp_graphs := n; gp_align := run_matching Nat.eqb (empty_digraph nat nat) ops |}.
Definition ex_c1 := [ex_gp 0 [Add 9 1 5; Add 2 2 5; Add 3 3 6]; ex_gp 1 [Add 1 1 7]].
Definition ex_c2 := [ex_gp 0 [Add 9 1 5; Add 2 2 6; Add 4 4 6; Add 1 3 5]; ex_gp 1 [Add 1 1 7]].
Example ex_diff :
  pgc_diff Nat.eqb Nat.eqb (fun _ => true) (fun n => Ok (Z.of_nat n)) Nat.eqb (fun _ _ => true) (fun _ _ => true) false true [] [5; 6; 7] ex_c1 ex_c2 =
  ([{| it_no := 1; it_sec := Identical; it_nodes := (9, 1); it_rel1 := Some 5; it_rel2 := Some 5 |};
    {| it_no := 2; it_sec := Different; it_nodes := (2, 2); it_rel1 := Some 5; it_rel2 := Some 6 |};
    {| it_no := 3; it_sec := Only1; it_nodes := (3, 3); it_rel1 := Some 6; it_rel2 := None |};
    {| it_no := 4; it_sec := Only2; it_nodes := (1, 3); it_rel1 := None; it_rel2 := Some 5 |};
    {| it_no := 5; it_sec := Only2; it_nodes := (4, 4); it_rel1 := None; it_rel2 := Some 6 |};
    {| it_no := 6; it_sec := Identical; it_nodes := (1, 1); it_rel1 := Some 7; it_rel2 := Some 7 |}], None).
Proof. vm_compute. reflexivity. Qed.
