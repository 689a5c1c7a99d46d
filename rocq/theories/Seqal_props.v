(** C11-C13: sequence alignment (daeso.string.needleman_wunsch, smith_waterman, waterman_eggert) *)
From Verif Require Import Py Seqal_spec Seqal_model Seqal_proof Seqal_proof2.
Open Scope nat_scope.

(** C11. Needleman-Wunsch with one gap cost per sequence: every entry (i, j) of the table is the best score of a global
    alignment of the first i and the first j elements, and the returned alignment is a best global alignment. *)
Theorem needleman_wunsch_optimal : forall (A : Type) (sim : A -> A -> Z) (gap : A -> Z) (s1 s2 : list A) (g1 g2 : Z),
  (forall a, In a s1 -> gap a = g1) -> (forall a, In a s2 -> gap a = g2) ->
  exists t al, needleman_wunsch sim gap s1 s2 = Ok (t, al) /\
  (forall i j, i <= length s1 -> j <= length s2 -> exists c, dget pos_eqb t (i, j) = Some c /\ best_global sim gap s1 s2 i j (fst c)) /\
  increasing_in 0 (length s1) 0 (length s2) al /\
  forall al', increasing_in 0 (length s1) 0 (length s2) al' ->
    (score sim gap s1 s2 0 (length s1) 0 (length s2) al' <= score sim gap s1 s2 0 (length s1) 0 (length s2) al)%Z.
Proof.
  intros A sim gap s1 s2 g1 g2 G1 G2. destruct (nw_total sim gap s1 s2 G1 G2) as (t & al & H1 & H2 & H3 & _ & H4). exists t, al. auto.
Qed.
Print Assumptions needleman_wunsch_optimal.

(** C11. Finding: with a gap cost that depends on the element (which the interface offers) the result need not be optimal:
    the borders charge i times the cost of the i-th element instead of the sum of the costs. *)
Theorem needleman_wunsch_element_gaps_refuted : exists (sim : nat -> nat -> Z) (gap : nat -> Z) (s1 s2 : list nat) t al al',
  (forall a, (gap a < 0)%Z) /\ needleman_wunsch sim gap s1 s2 = Ok (t, al) /\ increasing_in 0 (length s1) 0 (length s2) al' /\
  (score sim gap s1 s2 0 (length s1) 0 (length s2) al < score sim gap s1 s2 0 (length s1) 0 (length s2) al')%Z.
Proof.
  exists (fun a b => if Nat.eqb a b then 5%Z else 0%Z), (fun a => if Nat.eqb a 1 then (-10)%Z else (-1)%Z), [1; 0; 2], [2].
  do 2 eexists. exists [(0, 0)]. split; [intros a; destruct (Nat.eqb a 1); reflexivity|]. split; [vm_compute; reflexivity|].
  split; [cbn; lia|]. vm_compute. reflexivity.
Qed.
Print Assumptions needleman_wunsch_element_gaps_refuted.

(** C12. Smith-Waterman, for arbitrary non-positive gap costs: a best local alignment if there is one with a positive score, and
    IndexError exactly if there is none. *)
Theorem smith_waterman_optimal : forall (A : Type) (sim : A -> A -> Z) (gap : A -> Z) (s1 s2 : list A),
  (forall a, In a s1 \/ In a s2 -> (gap a <= 0)%Z) ->
  match smith_waterman sim gap s1 s2 with
  | Ok (_, al) => exists x, local_score sim gap s1 s2 al x /\ (0 < x)%Z /\ forall al' x', local_score sim gap s1 s2 al' x' -> (x' <= x)%Z
  | Err e => e = IndexError /\ forall al' x', local_score sim gap s1 s2 al' x' -> (x' <= 0)%Z
  end.
Proof. exact sw_total. Qed.
Print Assumptions smith_waterman_optimal.

(** C13. Waterman-Eggert with a limit: it ends, with at most [limit] alignments (and as many tables), each increasing in both
    coordinates and within the sequences. *)
Theorem waterman_eggert_limited : forall (A : Type) (sim : A -> A -> Z) (gap : A -> Z) (s1 s2 : list A) (fuel limit : nat),
  1 <= limit -> limit <= fuel ->
  exists ss als, waterman_eggert sim gap s1 s2 fuel limit = Ok (ss, als) /\ length ss = length als /\ length als <= limit /\
  forall al, In al als -> exists i0 i1 j0 j1, i1 <= length s1 /\ j1 <= length s2 /\ increasing_in i0 i1 j0 j1 al.
Proof.
  intros A sim gap s1 s2 fuel limit H1 H2. destruct (we_total sim gap s1 s2 H1 H2) as ([ss als] & E). exists ss, als. split; [exact E|].
  destruct (we_inv sim gap s1 s2 fuel limit E) as (L & F & LM). split; [exact L|]. split; [auto|]. now apply Forall_forall.
Qed.
Print Assumptions waterman_eggert_limited.
(** C13. Its first alignment is a best local alignment; there is none exactly if no local alignment has a positive score. *)
Theorem waterman_eggert_first_optimal : forall (A : Type) (sim : A -> A -> Z) (gap : A -> Z) (s1 s2 : list A) (fuel limit : nat) ss als,
  (forall a, In a s1 \/ In a s2 -> (gap a <= 0)%Z) -> waterman_eggert sim gap s1 s2 fuel limit = Ok (ss, als) ->
  match als with
  | [] => forall al' x', local_score sim gap s1 s2 al' x' -> (x' <= 0)%Z
  | al :: _ => exists x, local_score sim gap s1 s2 al x /\ (0 < x)%Z /\ forall al' x', local_score sim gap s1 s2 al' x' -> (x' <= x)%Z
  end.
Proof. intros A sim gap s1 s2 fuel limit ss als. apply we_first. Qed.
Print Assumptions waterman_eggert_first_optimal.
(** C13. Finding: the alignments are not disjoint; here (1, 1) is aligned twice ("aa" with "aa", match 1, mismatch -1, gap -1). *)
Theorem waterman_eggert_disjoint_refuted : exists (sim : nat -> nat -> Z) (gap : nat -> Z) (s1 s2 : list nat) ss al als,
  (forall a, (gap a < 0)%Z) /\ waterman_eggert sim gap s1 s2 100 0 = Ok (ss, al :: als) /\
  exists p al', In p al /\ In al' als /\ In p al'.
Proof.
  exists (fun a b => if Nat.eqb a b then 1%Z else (-1)%Z), (fun _ => (-1)%Z), [0; 0], [0; 0]. do 3 eexists. split; [reflexivity|].
  split; [vm_compute; reflexivity|]. exists (1, 1), [(1, 1)]. cbn. auto 10.
Qed.
Print Assumptions waterman_eggert_disjoint_refuted.
(** C13. Finding: without a limit the search need not end.  "ab" with "ac", match 3, mismatch -3, gap -1: no amount of fuel
    suffices (from the second round on it finds the empty alignment again and again). *)
Theorem waterman_eggert_terminates_refuted : exists (sim : nat -> nat -> Z) (gap : nat -> Z) (s1 s2 : list nat),
  (forall a, (gap a < 0)%Z) /\ forall fuel, waterman_eggert sim gap s1 s2 fuel 0 = Err OutOfFuel.
Proof. exists stuck_sim, stuck_gap, [0; 1], [0; 2]. split; [reflexivity|exact stuck]. Qed.
Print Assumptions waterman_eggert_terminates_refuted.

(** C11. Ties.  Each score is the best of the three ways to get there; of equally good ways the table keeps "leave out an element of the
    first sequence", then "leave out one of the second", and aligns only if that is better than both. *)
Theorem needleman_wunsch_ties : forall (A : Type) (sim : A -> A -> Z) (gap : A -> Z) (s1 s2 : list A) t al i j,
  needleman_wunsch sim gap s1 s2 = Ok (t, al) -> i < length s1 -> j < length s2 ->
  exists u d l x st a b, dget pos_eqb t (i, S j) = Some u /\ dget pos_eqb t (i, j) = Some d /\ dget pos_eqb t (S i, j) = Some l /\
    dget pos_eqb t (S i, S j) = Some (x, st) /\ nth_error s1 i = Some a /\ nth_error s2 j = Some b /\
    let up := (fst u + gap a)%Z in let diagonal := (fst d + sim a b)%Z in let left := (fst l + gap b)%Z in
    x = Z.max up (Z.max diagonal left) /\ (st = StU <-> x = up) /\ (st = StL <-> x = left /\ x <> up) /\ (st = StD <-> x <> up /\ x <> left).
Proof.
  intros A sim gap s1 s2 t al i j H Hi Hj. destruct (nw_steps _ sim gap s1 s2 t al i j H Hi Hj) as (u & d & l & a & b & U & D & L & Na & Nb & E). rewrite nw_tie in E. cbv zeta in E.
  exists u, d, l. do 2 eexists. exists a, b. do 3 (split; [eassumption|]). split; [exact E|]. do 2 (split; [assumption|]). cbv zeta. split; [reflexivity|].
  set (x := Z.max _ _). destruct (Z.eqb_spec x (fst u + gap a)); [|destruct (Z.eqb_spec x (fst l + gap b))]; repeat split; intros; try congruence; tauto.
Qed.
Print Assumptions needleman_wunsch_ties.
(** C12. Ties of Smith-Waterman: the same, with "end here" before leaving out an element of the second sequence. *)
Theorem smith_waterman_ties : forall (A : Type) (sim : A -> A -> Z) (gap : A -> Z) (s1 s2 : list A) t al i j,
  smith_waterman sim gap s1 s2 = Ok (t, al) -> i < length s1 -> j < length s2 ->
  exists u d l x st a b, dget pos_eqb t (i, S j) = Some u /\ dget pos_eqb t (i, j) = Some d /\ dget pos_eqb t (S i, j) = Some l /\
    dget pos_eqb t (S i, S j) = Some (x, st) /\ nth_error s1 i = Some a /\ nth_error s2 j = Some b /\
    let up := (fst u + gap a)%Z in let diagonal := (fst d + sim a b)%Z in let left := (fst l + gap b)%Z in
    x = Z.max 0 (Z.max up (Z.max diagonal left)) /\ (st = StU <-> x = up) /\ (st = StT <-> x = 0%Z /\ x <> up) /\
    (st = StL <-> x = left /\ x <> up /\ x <> 0%Z) /\ (st = StD <-> x <> up /\ x <> left /\ x <> 0%Z).
Proof.
  intros A sim gap s1 s2 t al i j H Hi Hj. destruct (sw_steps _ sim gap s1 s2 t i j (sw_matrix _ _ _ _ _ _ _ H) Hi Hj) as (u & d & l & a & b & U & D & L & Na & Nb & E). rewrite sw_tie in E. cbv zeta in E.
  exists u, d, l. do 2 eexists. exists a, b. do 3 (split; [eassumption|]). split; [exact E|]. do 2 (split; [assumption|]). cbv zeta. split; [reflexivity|].
  set (x := Z.max _ _). destruct (Z.eqb_spec x (fst u + gap a)); [|destruct (Z.eqb_spec x 0); [|destruct (Z.eqb_spec x (fst l + gap b))]]; repeat split; intros; try congruence; tauto.
Qed.
Print Assumptions smith_waterman_ties.
(** C12. With negative gap costs the alignment ends at the last of the positions with the best score. *)
Theorem smith_waterman_last_end : forall (A : Type) (sim : A -> A -> Z) (gap : A -> Z) (s1 s2 : list A) t al,
  (forall a, In a s1 \/ In a s2 -> (gap a < 0)%Z) -> smith_waterman sim gap s1 s2 = Ok (t, al) ->
  exists i j al' x, al = al' ++ [(i, j)] /\ (exists st, dget pos_eqb t (S i, S j) = Some (x, st)) /\ (0 < x)%Z /\
    forall p y st, dget pos_eqb t p = Some (y, st) -> (y < x)%Z \/ y = x /\ (fst p < S i \/ fst p = S i /\ snd p <= S j).
Proof. intros A sim gap s1 s2 t al. apply sw_end. Qed.
Print Assumptions smith_waterman_last_end.
(** An element may be left out although aligning it is as good: [0] and [0] with similarity -2 and gaps of -1. *)
Example nw_tie_example : option_map snd (match needleman_wunsch (fun _ _ => (-2)%Z) (fun _ : nat => (-1)%Z) [0] [0] with Ok p => Some p | Err _ => None end) = Some [].
Proof. vm_compute. reflexivity. Qed.
Example sw_end_example : option_map snd (match smith_waterman (fun a b => if Nat.eqb a b then 1%Z else (-1)%Z) (fun _ : nat => (-1)%Z) [5; 7; 5] [5] with Ok p => Some p | Err _ => None end) = Some [(2, 0)].
Proof. vm_compute. reflexivity. Qed.
(** examples: "the cat" style alignments with match 2, mismatch -1, gap -1 *)
Definition ex_sim (a b : nat) : Z := if Nat.eqb a b then 2%Z else (-1)%Z.
Definition ex_gap (a : nat) : Z := (-1)%Z.
Example nw_example : exists t, needleman_wunsch ex_sim ex_gap [1; 2; 3; 4] [1; 3; 4] = Ok (t, [(0, 0); (2, 1); (3, 2)]).
Proof. eexists. vm_compute. reflexivity. Qed.
Example sw_example : exists t, smith_waterman ex_sim ex_gap [9; 1; 2; 3] [1; 2; 8] = Ok (t, [(1, 0); (2, 1)]).
Proof. eexists. vm_compute. reflexivity. Qed.
Example sw_none : smith_waterman ex_sim ex_gap [1] [2] = Err IndexError. Proof. reflexivity. Qed.
Example we_example : exists ss, waterman_eggert ex_sim ex_gap [1; 2; 7; 3; 4] [3; 4; 9; 9; 1; 2] 10 2 = Ok (ss, [[(3, 0); (4, 1)]; [(0, 4); (1, 5)]]).
Proof. eexists. vm_compute. reflexivity. Qed.
