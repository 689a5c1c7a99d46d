(** Property C28: purging duplicate graph banks. *)
From Coq Require Import Permutation.
From Verif Require Import Py PyLemmas Purge_spec Purge_model Purge_proof.
Section Props.
Variable Path : Type.
Variable path_eqb : Path -> Path -> bool.
Hypothesis path_eqb_eq : forall x y, path_eqb x y = true <-> x = y.
Variable path : nat -> Path.
Variable inode : Path -> option nat.
Variable order : list nat -> list nat.
Hypothesis order_any : forall l, Permutation l (order l).
Variable alignments : nat -> nat.
Notation same := (same path_eqb path inode).
Notation undecidable := (undecidable path_eqb path inode).
Notation first_same := (first_same path_eqb path inode).
Notation purge := (purge path_eqb path inode order alignments).

(** A purge of the corpus that returns leaves every pair with the first bank, in corpus order, that is the
    same file as the bank it had, whatever the order in which a dict lists its values. *)
Theorem purge_keeps_first_same h corpus h' :
  purge h corpus None = (h', None) ->
  forall p, In p corpus ->
    first_same (in_use h corpus) (fst (h p)) = Some (fst (h' p)) /\ first_same (in_use h corpus) (snd (h p)) = Some (snd (h' p)).
Proof.
  intros E p Hp. pose proof (@purge_all Path path_eqb path_eqb_eq path inode order order_any h corpus) as H.
  unfold Purge_model.purge in E. rewrite E in H. now apply H.
Qed.
(** Hence two banks of the purged corpus that are the same file are one object. *)
Theorem purge_leaves_no_duplicates h corpus h' :
  purge h corpus None = (h', None) ->
  forall b c, In b (in_use h' corpus) -> In c (in_use h' corpus) -> same b c = true -> b = c.
Proof.
  intros E b c Hb Hc S. pose proof (purge_keeps_first_same _ _ _ E) as K.
  assert (forall x, In x (in_use h' corpus) -> first_same (in_use h corpus) x = Some x) as F.
  { intros x Hx. apply in_flat_map in Hx as (p & Hp & [<-|[<-|[]]]); destruct (K p Hp) as [A B].
    - apply (@first_same_idem Path path_eqb path_eqb_eq path inode) in A. tauto.
    - apply (@first_same_idem Path path_eqb path_eqb_eq path inode) in B. tauto. }
  pose proof (F b Hb) as Fb. rewrite (@first_same_ext Path path_eqb path_eqb_eq path inode _ b c S), (F c Hc) in Fb. congruence.
Qed.
(** It returns exactly if the operating system can tell for every two banks in use whether they are the
    same file; otherwise it raises OSError. *)
Theorem purge_raises_iff h corpus :
  (snd (purge h corpus None) = None <-> (forall b c, In b (in_use h corpus) -> In c (in_use h corpus) -> undecidable b c = false)) /\
  (snd (purge h corpus None) = None \/ snd (purge h corpus None) = Some OSError).
Proof.
  pose proof (@purge_all Path path_eqb path_eqb_eq path inode order order_any h corpus) as H. unfold Purge_model.purge.
  destruct (purge_loop path_eqb path inode order h [] corpus) as [h' [e|]]; cbn [snd].
  - destruct H as (-> & (x & y & Hx & Hy & E) & _). split; auto. split; [discriminate|]. intros K. rewrite K in E; auto. discriminate.
  - split; auto. tauto.
Qed.
(** Whether it returns or raises: every pair still refers to the same files, pairs outside the corpus are untouched. *)
Theorem purge_keeps_files h corpus g p :
  same (fst (h p)) (fst (fst (purge h corpus g) p)) = true /\ same (snd (h p)) (snd (fst (purge h corpus g) p)) = true.
Proof.
  unfold Purge_model.purge. set (ps := match g with Some _ => _ | None => _ end).
  pose proof (@purge_all Path path_eqb path_eqb_eq path inode order order_any h ps) as H.
  destruct (purge_loop path_eqb path inode order h [] ps) as [h' [e|]]; cbn [fst].
  - destruct H as (_ & _ & k & I). exact (@inv_same _ _ path_eqb_eq _ _ _ _ _ p I).
  - destruct H as [I _]. exact (@inv_same _ _ path_eqb_eq _ _ _ _ _ p I).
Qed.
Theorem purge_local h corpus p : ~ In p corpus -> fst (purge h corpus None) p = h p.
Proof.
  intros Hp. pose proof (@purge_all Path path_eqb path_eqb_eq path inode order order_any h corpus) as H. unfold Purge_model.purge.
  destruct (purge_loop path_eqb path inode order h [] corpus) as [h' [e|]]; cbn [fst].
  - destruct H as (_ & _ & k & [_ I]). apply I. intros K. apply Hp. rewrite <- (firstn_skipn k corpus). apply in_or_app; auto.
  - now apply H.
Qed.
(** purge(graph_pair) deals with that pair alone ... *)
Theorem purge_one_pair h corpus p : alignments p <> 0 -> purge h corpus (Some p) = purge h [p] None.
Proof. intros H. unfold Purge_model.purge. apply Nat.eqb_neq in H. now rewrite H. Qed.
End Props.
(** ... but if the pair has no alignments the limit is ignored and the whole corpus is purged. *)
Definition limits_purge_to_pair : Prop :=
  forall (path : nat -> nat) inode order alignments h corpus p q, (forall l, Permutation l (order l)) ->
    q <> p -> fst (purge Nat.eqb path inode order alignments h corpus (Some p)) q = h q.
Theorem purge_one_pair_refuted : ~ limits_purge_to_pair.
Proof.
  intros H. specialize (H (fun _ => 5) (fun _ => None) (fun l => l) (fun _ => 0) (fun p => (2 * p, 2 * p + 1)) [0; 1] 0 1
    (fun l => Permutation_refl l)). discriminate H. lia.
Qed.
Print Assumptions purge_keeps_first_same.
Print Assumptions purge_leaves_no_duplicates.
Print Assumptions purge_raises_iff.
Print Assumptions purge_keeps_files.
Print Assumptions purge_local.
Print Assumptions purge_one_pair.
Print Assumptions purge_one_pair_refuted.

(** Three pairs: banks 1 and 4 have one path, 2 and 5 are links to one file; bank 9 leads nowhere. *)
Definition ex_path (b : nat) : nat := match b with 4 => 1 | _ => b end.
Definition ex_inode (p : nat) : option nat := match p with 1 => Some 100 | 2 => Some 200 | 5 => Some 200 | 9 => None | _ => Some p end.
Definition ex_banks (p : nat) : nat * nat := match p with 0 => (1, 2) | 1 => (4, 5) | 2 => (5, 7) | _ => (9, 1) end.
Example ex_purge :
  let r := purge Nat.eqb ex_path ex_inode (@rev nat) (fun _ => 1) ex_banks [0; 1; 2; 1] None in
  map (fst r) [0; 1; 2; 3] = [(1, 2); (1, 2); (2, 7); (9, 1)] /\ snd r = None.
Proof. split; reflexivity. Qed.
Example ex_purge_fails :
  let r := purge Nat.eqb ex_path ex_inode (@rev nat) (fun _ => 1) ex_banks [0; 1; 3; 2] None in
  map (fst r) [0; 1; 2; 3] = [(1, 2); (1, 2); (5, 7); (9, 1)] /\ snd r = Some OSError.
Proof. split; reflexivity. Qed.
