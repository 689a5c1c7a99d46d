(** C42: sparse loading of the graphs of a parallel graph corpus. *)
From Coq Require Import String Permutation.
From Verif Require Import Py PyLemmas Sparse_spec Sparse_model Sparse_proof.
Open Scope string_scope. Open Scope list_scope. Open Scope nat_scope.

Lemma valid_named n reqs : (forall r, In r reqs -> valid n r) <-> named n reqs.
Proof.
  unfold named, requested, valid. split.
  - intros H k (r & X & [<-|<-]); destruct (H r X) as (A & B & C & D); auto.
  - intros H r X. destruct (H (fst r)) as (A & B); [eauto|]. destruct (H (snd r)) as (C & D); [eauto|]. auto.
Qed.
Lemma prel_side G (h : heap G) reqs K R p k : Inv (G := G) (fun _ => None) reqs K R h \/ (exists file, Inv (G := G) file reqs K R h) ->
  side reqs p = Some k -> exists s, nth_error K s = Some k /\ side_ref h p = Some (sub R s).
Proof.
  intros HI. assert (F : Forall2 (prel K R) reqs (pairs h)) by (destruct HI as [I|(f & I)]; apply I). clear HI.
  unfold side, side_ref. destruct (nth_error reqs (fst p)) as [r|] eqn:E; cbn; [|discriminate].
  intros X. destruct (f2_nth_l _ F E) as (pr & -> & s & t & A & B & ->). cbn. destruct (snd p); [exists s|exists t]; split; auto; congruence.
Qed.

Section Props.
Variable G : Type.
Variable file : nat -> option (list (string * G)).
Variable items : list (string * ref) -> list (string * ref).
Variable bank_order : list nat -> list nat.
Hypothesis items_any : forall d, Permutation (items d) d.
Hypothesis banks_any : forall l, Permutation (bank_order l) l.

Local Notation sparse := (load_sparse file items bank_order).
Local Notation full := (load_all file bank_order).

(** Without loading graphs, the pairs can be read exactly if they name existing banks and non-empty ids, and
    there is a pair for each request and no graph at all. *)
Theorem read_pairs_succeeds n reqs : (exists h, read_pairs G n reqs = Ok h) <-> named n reqs.
Proof.
  pose proof (@read_spec G (fun _ => None) n reqs) as RS. rewrite <- valid_named. destruct (read_pairs G n reqs) as [h|e].
  - split; [intros _; apply RS|eauto].
  - split; [intros (h & E); discriminate|]. intros V. destruct RS as ((r & A & B) & _). destruct B. auto.
Qed.
(** All sides that ask for the same graph share one stub, different graphs have different stubs, and the stub
    carries the id. *)
Theorem stubs_shared n reqs h : read_pairs G n reqs = Ok h ->
  length (pairs h) = length reqs /\ graphs h = [] /\
  forall p q k j, side reqs p = Some k -> side reqs q = Some j ->
  exists s t, side_ref h p = Some (Stub s) /\ side_ref h q = Some (Stub t) /\
    stub_id h s = snd k /\ get_graph h (fst k) (snd k) = Ok (Stub s) /\ (s = t <-> k = j).
Proof.
  intros E. pose proof (@read_spec G (fun _ => None) n reqs) as RS. rewrite E in RS. destruct RS as (V & K & I & L & G0 & B).
  split; [symmetry; eapply f2_len; apply I|]. split; auto. intros p q k j Hp Hq.
  destruct (@prel_side G h reqs K none p k (or_introl I) Hp) as (s & A1 & A2).
  destruct (@prel_side G h reqs K none q j (or_introl I) Hq) as (t & B1 & B2).
  exists s, t. split; auto. split; auto. split; [eapply (i_id I); eauto|]. split.
  - unfold get_graph, dread. rewrite (proj2 (i_bank I (fst k) (snd k) (Stub s))); auto. exists s. destruct k; auto.
  - split; [intros ->; congruence|]. intros ->. eapply nodup_nth; eauto. apply I.
Qed.

(** Sparse loading succeeds exactly if moreover all bank files can be read, contain all graphs asked for, and
    no pair asks for one graph twice; whatever the order in which dicts are traversed. *)
Theorem sparse_succeeds n reqs :
  (exists h, sparse n reqs = Ok h) <-> named n reqs /\ readable file n /\ present file reqs /\ no_self reqs.
Proof.
  pose proof (@sparse_spec G file items items_any bank_order banks_any n reqs) as SP. rewrite <- valid_named.
  destruct (sparse n reqs) as [h|e].
  - split; [intros _|eauto]. destruct SP as (V & F & _). split; auto. split; [intros b Hb; apply (F b Hb)|].
    assert (N := proj1 (valid_named n reqs) V).
    split.
    + intros (b, i) Hk. destruct (N _ Hk) as (N1 & _). apply (F b N1). auto.
    + intros r Hr X. destruct (N (fst r)) as (N1 & _); [exists r; auto|]. destruct (F _ N1) as (_ & F2). apply (F2 (snd (fst r))).
      exists r. destruct r as ((b, i), k); cbn in *; auto.
  - split; [intros (h & X); discriminate|]. intros (V & R & P & NS).
    assert (N := proj1 (valid_named n reqs) V).
    destruct SP as [(_ & [(r & A & B)|(b & A & B)])|(_ & [(r & A & B)|(r & A & B)])]; exfalso.
    + destruct (V r A) as (V1 & V2 & _). lia.
    + apply B. split; [apply R; auto|]. intros i Hi. apply P; auto.
    + destruct (V r A) as (_ & _ & V1 & V2). tauto.
    + apply (NS r A B).
Qed.
(** When it fails: DaesoError for an unknown bank, an unreadable file or a missing graph; AssertionError for an
    empty id or a pair of a graph with itself. *)
Theorem sparse_errors n reqs e : sparse n reqs = Err e ->
  (e = DaesoError /\ ((exists k, requested reqs k /\ (n <= fst k \/ content file k = None)) \/ ~ readable file n)) \/
  (e = AssertionError /\ ((exists k, requested reqs k /\ snd k = "") \/ ~ no_self reqs)).
Proof.
  intros E. pose proof (@sparse_spec G file items items_any bank_order banks_any n reqs) as SP. rewrite E in SP.
  destruct SP as [(-> & [(r & A & B)|(b & A & B)])|(-> & [(r & A & B)|(r & A & B)])].
  - left. split; auto. left. destruct B as [B|B]; [exists (fst r)|exists (snd r)]; (split; [exists r; auto|auto]).
  - left. split; auto. unfold goodfile in B. destruct (file b) as [l|] eqn:F.
    + left. unfold requested.
      assert (X : exists r, In r reqs /\ exists k, (fst r = k \/ snd r = k) /\ content file k = None).
      { destruct (existsb (fun r => match content file (fst r), content file (snd r) with Some _, Some _ => false | _, _ => true end) reqs) eqn:EX.
        - apply existsb_exists in EX as (r & X & Y). exists r. split; auto.
          destruct (content file (fst r)) eqn:C1; [destruct (content file (snd r)) eqn:C2; [discriminate|]|]; eauto.
        - exfalso. apply B. split; [discriminate|]. intros i (r & X & Y) Z.
          assert (existsb (fun r => match content file (fst r), content file (snd r) with Some _, Some _ => false | _, _ => true end) reqs = true); [|congruence].
          apply existsb_exists. exists r. split; auto. destruct Y as [Y|Y]; rewrite Y, Z; auto. destruct (content file (fst r)); auto. }
      destruct X as (r & X & k & Y & Z). exists k. split; [exists r; auto|auto].
    + right. intros R. apply (R b A F).
  - right. split; auto. left. destruct B as [B|B]; [exists (fst r)|exists (snd r)]; (split; [exists r; auto|auto]).
  - right. split; auto. right. intros NS. apply (NS r A B).
Qed.
(** After sparse loading each side of each pair is bound to a real graph with the content of the file, sides
    share a graph object exactly if they ask for the same graph, and the bank gives that very object. *)
Theorem sparse_binds n reqs h : sparse n reqs = Ok h ->
  length (pairs h) = length reqs /\
  forall p q k j, side reqs p = Some k -> side reqs q = Some j ->
  exists g g', side_ref h p = Some (Graph g) /\ side_ref h q = Some (Graph g') /\
    graph_at h (Graph g) = content file k /\ content file k <> None /\ get_graph h (fst k) (snd k) = Ok (Graph g) /\ (g = g' <-> k = j).
Proof.
  intros E. pose proof (@sparse_spec G file items items_any bank_order banks_any n reqs) as SP. rewrite E in SP.
  destruct SP as (V & F & K & R & I & D & Gs).
  split; [symmetry; eapply f2_len; apply I|]. intros p q k j Hp Hq.
  destruct (@prel_side G h reqs K R p k (or_intror (ex_intro _ file I)) Hp) as (s & A1 & A2).
  destruct (@prel_side G h reqs K R q j (or_intror (ex_intro _ file I)) Hq) as (t & B1 & B2).
  unfold sub in *. destruct (R s) as [g|] eqn:Rs; [|now apply (D s k) in A1]. destruct (R t) as [g'|] eqn:Rt; [|now apply (D t j) in B1].
  exists g, g'. split; auto. split; auto. destruct (i_dom I _ Rs) as (k' & x & C1 & C2 & C3).
  assert (k' = k) by congruence. subst k'. cbn. rewrite C2, C3. split; auto. split; [discriminate|]. split.
  - unfold get_graph, dread. rewrite (proj2 (i_bank I (fst k) (snd k) (Graph g))); auto. exists s. unfold sub. rewrite Rs. destruct k; auto.
  - split; [intros <-|intros <-].
    + assert (s = t) by (eapply (i_inj I); eauto). congruence.
    + assert (s = t) by (eapply nodup_nth; eauto; apply I). congruence.
Qed.
(** A graph nobody asked for is not in the bank. *)
Theorem sparse_unrequested n reqs h b i : sparse n reqs = Ok h -> ~ requested reqs (b, i) -> get_graph h b i = Err KeyError.
Proof.
  intros E H. pose proof (@sparse_spec G file items items_any bank_order banks_any n reqs) as SP. rewrite E in SP.
  destruct SP as (V & F & K & R & I & D & Gs). unfold get_graph, dread. destruct (dget String.eqb (bank h b) i) as [r|] eqn:X; auto.
  apply (i_bank I) in X as (s & X & _). exfalso. apply H, (i_req I). eapply nth_error_In; eauto.
Qed.
(** Only the graphs asked for were made (each as often as it occurs in its file). *)
Theorem sparse_only n reqs h : sparse n reqs = Ok h ->
  Permutation (graphs h) (flat_map (wanted_graphs file reqs) (seq 0 n)).
Proof.
  intros E. pose proof (@sparse_spec G file items items_any bank_order banks_any n reqs) as SP. rewrite E in SP.
  destruct SP as (V & F & K & R & I & D & ->). now apply Permutation_flat_map.
Qed.

(** Loading everything succeeds without the last condition (and ids may be empty). *)
Theorem full_succeeds n reqs :
  (exists h, full n reqs = Ok h) <-> (forall k, requested reqs k -> fst k < n) /\ readable file n /\ present file reqs.
Proof.
  pose proof (@all_spec G file bank_order banks_any n reqs) as SP.
  destruct (full n reqs) as [h|e].
  - split; [intros _|eauto]. destruct SP as (A & B & _).
    split; [|split; auto]; intros k (r & X & [<-|<-]); destruct (B r X) as (C & D & C' & D'); auto.
  - split; [intros (h & X); discriminate|]. intros (N & R & P). exfalso. destruct SP as (_ & [(b & X & Y)|(r & X & Y)]).
    + apply (R b X Y).
    + apply Y. split; [apply N; exists r; auto|]. split; [apply N; exists r; auto|]. split; apply P; exists r; auto.
Qed.
(** Sparse and full loading give the same graphs, shared in the same way. *)
Theorem sparse_as_full n reqs h : sparse n reqs = Ok h ->
  exists h', full n reqs = Ok h' /\ length (pairs h') = length (pairs h) /\
  forall p q a b, side_ref h p = Some a -> side_ref h q = Some b ->
  exists a' b', side_ref h' p = Some a' /\ side_ref h' q = Some b' /\ graph_at h' a' = graph_at h a /\ (a' = b' <-> a = b).
Proof.
  intros E. assert (S : exists h, sparse n reqs = Ok h) by eauto. apply sparse_succeeds in S as (N & R & P & NS).
  assert (S' : exists h', full n reqs = Ok h') by (apply full_succeeds; split; [intros k Hk; now apply N|auto]).
  destruct S' as (h' & E'). exists h'. split; auto. destruct (sparse_binds n reqs h E) as (LP & SB).
  pose proof (@all_spec G file bank_order banks_any n reqs) as SP. rewrite E' in SP.
  destruct SP as (_ & _ & done & D & h0 & F & G0 & B0 & FR). rewrite LP. split; [symmetry; eapply f2_len; eauto|].
  assert (SIDE : forall p a, side_ref h p = Some a -> exists k, side reqs p = Some k).
  { intros p a. unfold side_ref, side. destruct (nth_error (pairs h) (fst p)) eqn:X; [|discriminate]. intros _.
    apply nth_lt in X. rewrite LP in X. apply nth_error_Some in X. destruct (nth_error reqs (fst p)); [cbn; eauto|congruence]. }
  assert (FS : forall p k, side reqs p = Some k -> exists g, side_ref h' p = Some (Graph g) /\ get_graph h0 (fst k) (snd k) = Ok (Graph g)).
  { intros p k. unfold side, side_ref. destruct (nth_error reqs (fst p)) as [r|] eqn:X; [|discriminate]. cbn. intros Y.
    destruct (f2_nth_l _ FR X) as (pr & -> & g & g' & -> & Z1 & Z2). cbn. injection Y as <-. destruct (snd p); eauto. }
  intros p q a b Ha Hb. destruct (SIDE p a Ha) as (k & Hk). destruct (SIDE q b Hb) as (j & Hj).
  destruct (SB p q k j Hk Hj) as (g & g' & X1 & X2 & X3 & X4 & _ & X5). destruct (FS p k Hk) as (f & Y1 & Y2). destruct (FS q j Hj) as (f' & Z1 & Z2).
  assert (a = Graph g) by congruence. assert (b = Graph g') by congruence. subst a b.
  exists (Graph f), (Graph f'). split; auto. split; auto. 
  assert (BD : forall x, side reqs p = Some x \/ side reqs q = Some x -> fst x < n).
  { intros x [X|X]; apply N; unfold side in X; [destruct (nth_error reqs (fst p)) as [r|] eqn:Y|destruct (nth_error reqs (fst q)) as [r|] eqn:Y]; try discriminate;
      cbn in X; injection X as <-; apply nth_error_In in Y; exists r; (split; [auto|]); [destruct (snd p)|destruct (snd q)]; auto. }
  split.
  - cbn in *. rewrite X3, G0. pose proof (@full_get G file done h0 (fst k) (snd k) F (proj2 (D _) (BD k (or_introl Hk)))) as FG.
    rewrite <- surjective_pairing in FG. destruct (content file k) as [x|]; [|congruence]. destruct FG as (g0 & FG1 & FG2). congruence.
  - transitivity (k = j); [|split; [intros W; apply X5 in W; congruence|intros W; apply X5; congruence]].
    split; [|intros <-; congruence]. intros W. injection W as <-.
    unfold get_graph, dread in Y2, Z2. destruct (dget String.eqb (bank h0 (fst k)) (snd k)) eqn:U1; [|discriminate].
    destruct (dget String.eqb (bank h0 (fst j)) (snd j)) eqn:U2; [|discriminate]. injection Y2 as ->. injection Z2 as ->.
    pose proof (f_inj F _ _ _ _ U1 U2) as W. now rewrite <- !surjective_pairing in W.
Qed.
End Props.

(** A small corpus: two banks, three pairs; the first and second pair share their source. *)
Definition ex_file (b : nat) : option (list (string * nat)) :=
  match b with 0 => Some [("a", 10); ("b", 11); ("c", 12)] | 1 => Some [("a", 20); ("x", 21); ("x", 22)] | _ => None end.
Definition ex_reqs : list request := [((0, "a"), (1, "x")); ((0, "a"), (1, "a")); ((0, "c"), (0, "a"))].
Example ex_sparse : exists h, load_sparse ex_file (@rev _) (@rev _) 2 ex_reqs = Ok h /\
  pairs h = [(Graph 3, Graph 2); (Graph 3, Graph 0); (Graph 4, Graph 3)] /\ graphs h = [20; 21; 22; 10; 12].
Proof. eexists. vm_compute. auto. Qed.
Example ex_perm : forall A (d : list A), Permutation (rev d) d.
Proof. intros. symmetry. apply Permutation_rev. Qed.

(** A pair of a graph with itself can be loaded with everything, but not sparsely. *)
Theorem self_pair_refuted : ~ (forall G (file : nat -> option (list (string * G))) n reqs,
  (forall k, requested reqs k -> snd k <> "") -> (exists h, load_all file (@rev _) n reqs = Ok h) ->
  exists h, load_sparse file (@rev _) (@rev _) n reqs = Ok h).
Proof.
  intros H. specialize (H nat ex_file 2 [((0, "a"), (0, "a"))]). destruct H as (h & H).
  - intros k (r & [<-|[]] & [<-|<-]); discriminate.
  - eexists. vm_compute. reflexivity.
  - vm_compute in H. discriminate.
Qed.
Print Assumptions read_pairs_succeeds.
Print Assumptions stubs_shared.
Print Assumptions sparse_succeeds.
Print Assumptions sparse_errors.
Print Assumptions sparse_binds.
Print Assumptions sparse_unrequested.
Print Assumptions sparse_only.
Print Assumptions full_succeeds.
Print Assumptions sparse_as_full.
Print Assumptions self_pair_refuted.
