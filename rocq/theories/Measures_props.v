(** C68: the string measures of daeso.string agree with each other *)
From Coq Require Import ZArith.
From Verif Require Import Py Lev_model Lcs_model Lcs_spec Seqal_spec Seqal_model Measures_spec Measures_proof.
Open Scope nat_scope.

(** C68. Needleman-Wunsch with cost 0 for equal elements and -1 for a mismatch or a gap computes Levenshtein distances: every entry of its table
    is minus the distance of the two prefixes, and the alignment is an edit script of that length. *)
Theorem needleman_wunsch_is_levenshtein : forall (A : Type) (eqb : A -> A -> bool), (forall x y, eqb x y = true <-> x = y) -> forall s1 s2 : list A,
  exists t al d, needleman_wunsch (fun a b => if eqb a b then 0%Z else (-1)%Z) (fun _ => (-1)%Z) s1 s2 = Ok (t, al) /\ levenshtein eqb s1 s2 = Ok d /\
  increasing_in 0 (length s1) 0 (length s2) al /\ edits s1 s2 d al /\
  forall i j, i <= length s1 -> j <= length s2 -> exists e st,
    levenshtein eqb (firstn i s1) (firstn j s2) = Ok e /\ dget pos_eqb t (i, j) = Some ((- Z.of_nat e)%Z, st).
Proof. intros A eqb H s1 s2. destruct (nw_lev A eqb H s1 s2) as (t & al & d & E & I & L & K). exists t, al, d. tauto. Qed.
Print Assumptions needleman_wunsch_is_levenshtein.

(** C68. With 1 for equal elements and 0 otherwise, and no gap costs, every entry is the length of a longest common subsequence of the two prefixes, and the
    elements aligned form, in both sequences, one and the same longest common subsequence. *)
Theorem needleman_wunsch_is_lcs : forall (A : Type) (eqb : A -> A -> bool), (forall x y, eqb x y = true <-> x = y) -> forall s1 s2 : list A,
  exists t al, needleman_wunsch (fun a b => if eqb a b then 1%Z else 0%Z) (fun _ => 0%Z) s1 s2 = Ok (t, al) /\
  (forall i j, i <= length s1 -> j <= length s2 -> exists e st,
    lcs eqb (firstn i s1) (firstn j s2) = Ok e /\ dget pos_eqb t (i, j) = Some (Z.of_nat (length e), st)) /\
  exists u, map (fun p => nth_error s1 (fst p)) al = map Some u /\ map (fun p => nth_error s2 (snd p)) al = map Some u /\ longest_common u s1 s2.
Proof.
  intros A eqb H s1 s2. destruct (nw_common A eqb H (match_sim A eqb) 0%Z 1%Z 0%Z s1 s2 (fun i j => Z.of_nat (lcsf A eqb s1 s2 i j))) as (t & al & r & E & _ & K & U); auto; [intros; lia|].
  exists t, al. split; [exact E|]. split; [|exact U]. intros i j Hi Hj. destruct (K i j Hi Hj) as (e & st & Ee & Ed). exists e, st. split; [exact Ee|]. rewrite Ed. do 2 f_equal. lia.
Qed.
Print Assumptions needleman_wunsch_is_lcs.

(** C68. With 0 for equal elements, -2 for a mismatch and -1 for a gap (insertions and deletions only) it is minus the number of elements outside a
    longest common subsequence, which the alignment again consists of. *)
Theorem needleman_wunsch_is_indel_distance : forall (A : Type) (eqb : A -> A -> bool), (forall x y, eqb x y = true <-> x = y) -> forall s1 s2 : list A,
  exists t al r st, needleman_wunsch (fun a b => if eqb a b then 0%Z else (-2)%Z) (fun _ => (-1)%Z) s1 s2 = Ok (t, al) /\ lcs eqb s1 s2 = Ok r /\
  dget pos_eqb t (length s1, length s2) = Some ((- (Z.of_nat (length s1 - length r) + Z.of_nat (length s2 - length r)))%Z, st) /\
  exists u, map (fun p => nth_error s1 (fst p)) al = map Some u /\ map (fun p => nth_error s2 (snd p)) al = map Some u /\ longest_common u s1 s2.
Proof.
  intros A eqb H s1 s2. destruct (nw_common A eqb H (indel_sim A eqb) (-1)%Z 0%Z (-2)%Z s1 s2 (fun i j => (0 * Z.of_nat (lcsf A eqb s1 s2 i j) + -1 * (Z.of_nat i + Z.of_nat j - 2 * Z.of_nat (lcsf A eqb s1 s2 i j)))%Z)) as (t & al & r & E & Er & K & U); auto.
  destruct (K (length s1) (length s2)) as (e & st & Ee & Ed); auto. rewrite !firstn_all, Er in Ee. injection Ee as <-. exists t, al, r, st. split; [exact E|]. split; [exact Er|]. split; [|exact U]. rewrite Ed. do 2 f_equal.
  destruct (Lcs_proof.lcs_ok eqb H s1 s2) as (r' & Er' & (C1 & C2) & _). rewrite Er in Er'. injection Er' as <-. apply Lcs_proof.subseq_length in C1, C2. lia.
Qed.
Print Assumptions needleman_wunsch_is_indel_distance.

(** C68. Smith-Waterman with 1 for equal elements, 0 otherwise and no gap costs aligns as many equal elements as a longest common subsequence has, and
    raises IndexError exactly if the sequences have no element in common. *)
Theorem smith_waterman_is_lcs : forall (A : Type) (eqb : A -> A -> bool), (forall x y, eqb x y = true <-> x = y) -> forall (s1 s2 : list A) r, lcs eqb s1 s2 = Ok r ->
  match smith_waterman (fun a b => if eqb a b then 1%Z else 0%Z) (fun _ => 0%Z) s1 s2 with
  | Ok (_, al) => (exists x, In x s1 /\ In x s2) /\ exists m, pairs s1 s2 (length r) m al
  | Err e => e = IndexError /\ ~ exists x, In x s1 /\ In x s2
  end.
Proof.
  intros A eqb H s1 s2 r Er. pose proof (sw_lcs A eqb H s1 s2 r Er) as K. fold (match_sim A eqb).
  destruct (Lcs_proof.lcs_ok eqb H s1 s2) as (r' & Er' & (C1 & C2) & M). rewrite Er in Er'. injection Er' as <-.
  assert (In_sub : forall (u s : list A) x, subseq u s -> In x u -> In x s). { induction 1 as [|y u s S IH|y u s S IH]; cbn [In]; intuition. }
  assert (Sub_in : forall (s : list A) x, In x s -> subseq [x] s). { intros s x I. apply in_split in I as (l1 & l2 & ->). induction l1 as [|y l1 IH]; cbn [app]; [apply ss_take, Lcs_proof.subseq_nil|now apply ss_skip]. }
  unfold match_sim in K. destruct (smith_waterman _ _ _ _) as [[t al]|e].
  - destruct K as [N K]. split; auto. destruct r as [|x r]; [easy|]. exists x. split; eapply In_sub; eauto; now left.
  - destruct K as [-> ->]. split; auto. intros (x & I1 & I2). specialize (M [x]). cbn [length] in M. assert (1 <= 0); [|lia]. apply M. split; auto.
Qed.
Print Assumptions smith_waterman_is_lcs.

(** C68. Distance and common subsequence bound each other. *)
Theorem levenshtein_lcs_bounds : forall (A : Type) (eqb : A -> A -> bool), (forall x y, eqb x y = true <-> x = y) -> forall (s1 s2 : list A) d r,
  levenshtein eqb s1 s2 = Ok d -> lcs eqb s1 s2 = Ok r ->
  Nat.max (length s1) (length s2) - length r <= d /\ d <= (length s1 - length r) + (length s2 - length r).
Proof. intros A eqb H s1 s2 d r E1 E2. destruct (lev_lcs A eqb H s1 s2 d r E1 E2) as (L1 & L2 & L3). lia. Qed.
Print Assumptions levenshtein_lcs_bounds.

(** examples; both bounds can be met and both can be missed *)
Example measures_ex1 : levenshtein Nat.eqb [1;2;3;4] [1;3;9;4] = Ok 2 /\ lcs Nat.eqb [1;2;3;4] [1;3;9;4] = Ok [1;3;4] /\
  option_map snd (match needleman_wunsch (fun a b => if Nat.eqb a b then 0%Z else (-1)%Z) (fun _ => (-1)%Z) [1;2;3;4] [1;3;9;4] with Ok p => dget pos_eqb (fst p) (4, 4) | Err _ => None end) <> None /\
  option_map snd (match needleman_wunsch (fun a b => if Nat.eqb a b then 1%Z else 0%Z) (fun _ => 0%Z) [1;2;3;4] [1;3;9;4] with Ok p => Some p | Err _ => None end) = Some [(0, 0); (2, 1); (3, 3)].
Proof. vm_compute. repeat split; congruence. Qed.
Example measures_ex2 : levenshtein Nat.eqb [1;2] [3;4] = Ok 2 /\ lcs Nat.eqb [1;2] [3;4] = Ok [].
Proof. vm_compute. auto. Qed.
Example measures_ex3 : edits [1;2] [3;2;4] 2 [(0, 0); (1, 1)].
Proof. exists 1, 1. split; [|reflexivity]. apply pairs_other; [intros (a & H1 & H2); cbn in *; congruence|]. apply pairs_same; [exists 2; auto|constructor]. Qed.
