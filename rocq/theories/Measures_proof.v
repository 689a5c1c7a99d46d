(** Proofs: the string measures agree with each other. *)
From Coq Require Import List ZArith Bool Arith Lia.
From Verif Require Import Py PyLemmas Lev_model Lev_spec Lev_proof Lcs_model Lcs_spec Lcs_proof Seqal_spec Seqal_model Seqal_proof Seqal_proof2 Measures_spec.
Import ListNotations.
Open Scope nat_scope.
Section S.
Variable A : Type.
Variable eqb : A -> A -> bool.
Hypothesis eqb_spec : forall x y, eqb x y = true <-> x = y.
Section N.
Variables (sim : A -> A -> Z) (g : Z) (s1 s2 : list A).
Let gap (_ : A) : Z := g.
Lemma nw_cells (f : nat -> nat -> Z) : (forall j, j <= length s2 -> f 0 j = (g * Z.of_nat j)%Z) -> (forall i, i <= length s1 -> f i 0 = (g * Z.of_nat i)%Z) ->
  (forall i j a b, nth_error s1 i = Some a -> nth_error s2 j = Some b ->
     f (S i) (S j) = Z.max (f i (S j) + g) (Z.max (f i j + sim a b) (f (S i) j + g))) ->
  exists t al, needleman_wunsch sim gap s1 s2 = Ok (t, al) /\ increasing_in 0 (length s1) 0 (length s2) al /\
    best_global sim gap s1 s2 (length s1) (length s2) (score sim gap s1 s2 0 (length s1) 0 (length s2) al) /\
    forall i j, i <= length s1 -> j <= length s2 -> exists st, dget pos_eqb t (i, j) = Some (f i j, st).
Proof.
  intros F0 F1 FS. destruct (nw_total sim gap s1 s2 (g1 := g) (g2 := g)) as (t & al & E & K & I & B); [reflexivity|reflexivity|].
  exists t, al. do 3 (split; [assumption|]).
  assert (B0 : forall j, j <= length s2 -> exists st, dget pos_eqb t (0, j) = Some (f 0 j, st)).
  { intros j Hj. destruct (K 0 j) as ([x st] & Ex & [(al' & Ia & Sa) _]); [lia|lia|]. exists st. rewrite Ex. do 2 f_equal. cbn [fst] in Sa. rewrite <- Sa.
    apply inc_flat_row in Ia. subst al'. rewrite score_nil. rewrite gaps_empty by lia. rewrite (gaps_const gap s2 (g := g)); auto. rewrite F0 by auto. lia. }
  assert (B1 : forall i, i <= length s1 -> exists st, dget pos_eqb t (i, 0) = Some (f i 0, st)).
  { intros i Hj. destruct (K i 0) as ([x st] & Ex & [(al' & Ia & Sa) _]); [lia|lia|]. exists st. rewrite Ex. do 2 f_equal. cbn [fst] in Sa. rewrite <- Sa.
    apply inc_flat_col in Ia. subst al'. rewrite score_nil. rewrite (gaps_empty gap s2) by lia. rewrite (gaps_const gap s1 (g := g)); auto. rewrite F1 by auto. lia. }
  induction i as [|i IHi]; [intros j _ Hj; auto|]. induction j as [|j IHj]; intros Hi Hj; [auto|].
  destruct (nw_steps _ sim gap s1 s2 t al i j E) as (u & d & l & a & b & U & D & L & Na & Nb & X); [lia|lia|]. rewrite nw_tie in X. cbv zeta in X.
  destruct (IHi (S j)) as (st1 & V1); [lia|lia|]. destruct (IHi j) as (st2 & V2); [lia|lia|]. destruct IHj as (st3 & V3); [lia|lia|].
  rewrite V1 in U. rewrite V2 in D. rewrite V3 in L. injection U as <-. injection D as <-. injection L as <-. cbn [fst] in X. unfold gap in X.
  rewrite <- (FS i j a b Na Nb) in X. eauto.
Qed.
End N.
Lemma pairs_total s1 s2 (sim : A -> A -> Z) x y : (forall a, sim a a = x) -> (forall a b, a <> b -> sim a b = y) -> forall al i0 j0,
  increasing_in i0 (length s1) j0 (length s2) al -> exists n m, pairs s1 s2 n m al /\ n + m = length al /\
  total (map (sim_at sim s1 s2) al) = (x * Z.of_nat n + y * Z.of_nat m)%Z.
Proof.
  intros Hx Hy. induction al as [|[i j] al IH]; intros i0 j0 H; cbn [increasing_in] in H.
  - exists 0, 0. split; [constructor|]. cbn. lia.
  - destruct H as [H1 H2]. destruct (IH _ _ H2) as (n & m & P & L & T). destruct (nth_error s1 i) as [a|] eqn:Ea; [|apply nth_error_None in Ea; lia].
    destruct (nth_error s2 j) as [b|] eqn:Eb; [|apply nth_error_None in Eb; lia]. cbn [map]. unfold total in *. cbn [fold_right]. rewrite T. unfold sim_at at 1. cbn [fst snd]. rewrite Ea, Eb.
    destruct (eqb a b) eqn:E.
    + apply eqb_spec in E as ->. exists (S n), m. split; [constructor; auto; exists b; auto|]. cbn [length]. split; [lia|]. rewrite Hx. lia.
    + assert (a <> b) as N by (intros ->; rewrite (proj2 (eqb_spec b b) eq_refl) in E; discriminate). exists n, (S m). split; [constructor; auto; intros (c & C1 & C2); cbn [fst snd] in *; congruence|].
      cbn [length]. split; [lia|]. rewrite Hy by auto. lia.
Qed.
(** constant gaps *)
Lemma gaps_used (gap : A -> Z) g s (used : list nat) : (forall a, gap a = g) -> NoDup used -> forall k, k <= length s -> (forall u, In u used -> u < k) ->
  gaps gap s used 0 k = (g * (Z.of_nat k - Z.of_nat (length used)))%Z.
Proof.
  intros G N k. revert used N. induction k as [|k IH]; intros used N Hk B.
  - rewrite gaps_empty by lia. destruct used as [|u us]; [cbn; lia|]. specialize (B u (or_introl eq_refl)). lia.
  - rewrite gaps_snoc by lia. destruct (existsb (Nat.eqb k) used) eqn:E.
    + apply used_spec in E. apply in_split in E as (l1 & l2 & ->).
      assert (gaps gap s (l1 ++ k :: l2) 0 k = gaps gap s (l1 ++ l2) 0 k) as ->.
      { apply gaps_ext. intros u Hu. rewrite !in_app_iff. cbn [In]. split; [|tauto]. intros [|[|]]; auto. lia. }
      pose proof (NoDup_remove_1 _ _ _ N) as N1. pose proof (NoDup_remove_2 _ _ _ N) as N2.
      rewrite IH; auto; [|lia|].
      * rewrite !app_length. cbn [length]. lia.
      * intros u Hu. assert (u < S k) by (apply B; rewrite in_app_iff in *; cbn [In]; tauto). assert (u <> k) by (intros ->; tauto). lia.
    + rewrite IH; auto; [|lia|].
      * unfold gat. destruct (nth_error s k) eqn:Ek; [|apply nth_error_None in Ek; lia]. rewrite G. lia.
      * intros u Hu. assert (u <> k). { intros ->. apply used_spec in Hu. congruence. } specialize (B u Hu). lia.
Qed.
Lemma inc_nodup al : forall i0 i1 j0 j1, increasing_in i0 i1 j0 j1 al -> NoDup (map fst al) /\ NoDup (map snd al).
Proof.
  induction al as [|[i j] al IH]; intros i0 i1 j0 j1 H; cbn [increasing_in] in H; cbn [map]; [split; constructor|]. destruct H as [H1 H2]. destruct (IH _ _ _ _ H2) as [N1 N2].
  split; constructor; auto; intros I; apply in_map_iff in I as (p & E & Hp); pose proof (inc_range _ _ _ _ _ H2 p Hp); cbn [fst snd] in *; lia.
Qed.
Lemma score_const (sim : A -> A -> Z) g s1 s2 x y al : (forall a, sim a a = x) -> (forall a b, a <> b -> sim a b = y) -> increasing_in 0 (length s1) 0 (length s2) al ->
  exists n m, pairs s1 s2 n m al /\ n + m = length al /\
  score sim (fun _ => g) s1 s2 0 (length s1) 0 (length s2) al = (x * Z.of_nat n + y * Z.of_nat m + g * (Z.of_nat (length s1) + Z.of_nat (length s2) - 2 * Z.of_nat (length al)))%Z.
Proof.
  intros Hx Hy I. destruct (pairs_total s1 s2 sim x y Hx Hy al 0 0 I) as (n & m & P & L & T). exists n, m. split; [exact P|]. split; [exact L|].
  unfold score. rewrite T. destruct (inc_nodup _ _ _ _ _ I) as [N1 N2].
  rewrite (gaps_used (fun _ => g) g s1 (map fst al)), (gaps_used (fun _ => g) g s2 (map snd al)); auto.
  - rewrite !map_length. lia.
  - intros u Hu. apply in_map_iff in Hu as (p & <- & Hp). apply (inc_range _ _ _ _ _ I p Hp).
  - intros u Hu. apply in_map_iff in Hu as (p & <- & Hp). apply (inc_range _ _ _ _ _ I p Hp).
Qed.
(** levenshtein *)
Definition levf s1 s2 i j : Z := match levenshtein eqb (firstn i s1) (firstn j s2) with Ok d => (- Z.of_nat d)%Z | Err _ => 0%Z end.
Lemma levf_mind s1 s2 i j : exists d, levf s1 s2 i j = (- Z.of_nat d)%Z /\ mind d (firstn i s1) (firstn j s2) /\ levenshtein eqb (firstn i s1) (firstn j s2) = Ok d.
Proof. destruct (levenshtein_mind eqb eqb_spec (firstn i s1) (firstn j s2)) as (d & E & M). exists d. unfold levf. rewrite E. auto. Qed.
Lemma firstn_snoc (s : list A) i a : nth_error s i = Some a -> firstn (S i) s = firstn i s ++ [a].
Proof.
  intros E. assert (i < length s) as L by (apply nth_error_Some; congruence). destruct (firstn_S_snoc s L) as (x & E' & ->). congruence.
Qed.
Definition edit_sim (a b : A) : Z := if eqb a b then 0%Z else (-1)%Z.
Lemma nw_lev s1 s2 : exists t al d, needleman_wunsch edit_sim (fun _ => (-1)%Z) s1 s2 = Ok (t, al) /\ increasing_in 0 (length s1) 0 (length s2) al /\
  levenshtein eqb s1 s2 = Ok d /\ edits s1 s2 d al /\
  forall i j, i <= length s1 -> j <= length s2 -> exists e st, levenshtein eqb (firstn i s1) (firstn j s2) = Ok e /\ dget pos_eqb t (i, j) = Some ((- Z.of_nat e)%Z, st).
Proof.
  destruct (nw_cells edit_sim (-1)%Z s1 s2 (levf s1 s2)) as (t & al & E & I & B & K).
  - intros j Hj. destruct (levf_mind s1 s2 0 j) as (d & -> & M & _). cbn [firstn] in M. pose proof (mind_fun M (mind_nil_l _)) as ->. rewrite firstn_length. lia.
  - intros i Hj. destruct (levf_mind s1 s2 i 0) as (d & -> & M & _). cbn [firstn] in M. pose proof (mind_fun M (mind_nil_r _)) as ->. rewrite firstn_length. lia.
  - intros i j a b Ea Eb. destruct (levf_mind s1 s2 i (S j)) as (d1 & -> & M1 & _). destruct (levf_mind s1 s2 i j) as (d2 & -> & M2 & _).
    destruct (levf_mind s1 s2 (S i) j) as (d3 & -> & M3 & _). destruct (levf_mind s1 s2 (S i) (S j)) as (d4 & -> & M4 & _).
    rewrite (firstn_snoc s1 i a Ea) in *. rewrite (firstn_snoc s2 j b Eb) in *.
    pose proof (mind_fun M4 (mind_snoc eqb eqb_spec a b M3 M1 M2)) as ->. unfold edit_sim. destruct (eqb a b); cbn [negb]; lia.
  - destruct (K (length s1) (length s2)) as (st & Ed); auto. destruct (levf_mind s1 s2 (length s1) (length s2)) as (d & Ld & _ & Le). rewrite !firstn_all in Le.
    exists t, al, d. split; [exact E|]. split; [exact I|]. split; [exact Le|]. split.
    + destruct (score_const edit_sim (-1)%Z s1 s2 0%Z (-1)%Z al) as (n & m & P & L & Sc); auto.
      { intros a. unfold edit_sim. now rewrite (proj2 (eqb_spec a a) eq_refl). }
      { intros a b N. unfold edit_sim. destruct (eqb a b) eqn:Eab; auto. apply eqb_spec in Eab. easy. }
      exists n, m. split; [exact P|]. destruct (nw_total edit_sim (fun _ => (-1)%Z) s1 s2 (g1 := (-1)%Z) (g2 := (-1)%Z)) as (t' & al' & E' & K' & _); auto.
      rewrite E in E'. injection E' as <- <-. destruct (K' (length s1) (length s2)) as (c & Ec & [(al1 & I1 & S1) B2]); auto. rewrite Ed in Ec. injection Ec as <-. cbn [fst] in *.
      destruct B as [_ B3]. specialize (B3 _ I1). specialize (B2 _ I). lia.
    + intros i j Hi Hj. destruct (levf_mind s1 s2 i j) as (e & Lf & _ & Lv). destruct (K i j Hi Hj) as (st' & Ec). rewrite Lf in Ec. eauto.
Qed.
(** lcs *)
Definition lcsf s1 s2 i j : nat := match lcs eqb (firstn i s1) (firstn j s2) with Ok r => length r | Err _ => 0 end.
Lemma lcsf_max s1 s2 i j : exists r, lcs eqb (firstn i s1) (firstn j s2) = Ok r /\ lcsf s1 s2 i j = length r /\ maxlen (length r) (firstn i s1) (firstn j s2).
Proof. destruct (lcs_ok eqb eqb_spec (firstn i s1) (firstn j s2)) as (r & E & M). exists r. unfold lcsf. rewrite E. split; auto. split; auto. now apply longest_len. Qed.
Lemma maxlen_mono_r k l s t (x : A) : maxlen k s t -> maxlen l s (t ++ [x]) -> k <= l <= k + 1.
Proof. intros H1 H2. apply maxlen_sym in H1, H2. eapply maxlen_mono; eauto. Qed.
Lemma lcsf_0l s1 s2 j : lcsf s1 s2 0 j = 0.
Proof. destruct (lcsf_max s1 s2 0 j) as (r & _ & -> & M). cbn [firstn] in M. exact (maxlen_fun M (maxlen_nil_l _)). Qed.
Lemma lcsf_0r s1 s2 i : lcsf s1 s2 i 0 = 0.
Proof. destruct (lcsf_max s1 s2 i 0) as (r & _ & -> & M). cbn [firstn] in M. exact (maxlen_fun M (maxlen_nil_r _)). Qed.
Lemma lcsf_step s1 s2 i j a b : nth_error s1 i = Some a -> nth_error s2 j = Some b ->
  lcsf s1 s2 i j <= lcsf s1 s2 i (S j) <= lcsf s1 s2 i j + 1 /\ lcsf s1 s2 i j <= lcsf s1 s2 (S i) j <= lcsf s1 s2 i j + 1 /\
  lcsf s1 s2 (S i) (S j) = if eqb a b then lcsf s1 s2 i j + 1 else Nat.max (lcsf s1 s2 i (S j)) (lcsf s1 s2 (S i) j).
Proof.
  intros Ea Eb. destruct (lcsf_max s1 s2 i (S j)) as (d1 & _ & -> & M1). destruct (lcsf_max s1 s2 i j) as (d2 & _ & -> & M2).
  destruct (lcsf_max s1 s2 (S i) j) as (d3 & _ & -> & M3). destruct (lcsf_max s1 s2 (S i) (S j)) as (d4 & _ & -> & M4).
  rewrite (firstn_snoc s1 i a Ea) in *. rewrite (firstn_snoc s2 j b Eb) in *.
  split; [eapply maxlen_mono_r; eauto|]. split; [eapply maxlen_mono; eauto|]. destruct (eqb a b) eqn:E.
  - apply eqb_spec in E as ->. exact (maxlen_fun M4 (maxlen_mat b M2)).
  - assert (a <> b) as N by (intros ->; rewrite (proj2 (eqb_spec b b) eq_refl) in E; discriminate). exact (maxlen_fun M4 (maxlen_mis N M1 M3)).
Qed.
(** the pairs of the alignment are those whose cell is reached diagonally *)
Lemma trace_diag t : forall fuel i j al al', nw_trace fuel t i j al = Ok al' -> forall p, In p al' -> In p al \/
  (exists x, dget pos_eqb t (S (fst p), S (snd p)) = Some (x, StD)) \/ exists q x, dget pos_eqb t q = Some (x, StD) /\ (fst q = 0 \/ snd q = 0).
Proof.
  induction fuel as [|f IH]; intros i j al al' H p Hp; cbn [nw_trace] in H; destruct (Nat.ltb_spec 0 (i + j)); try discriminate; [injection H as <-; auto| |injection H as <-; auto].
  destruct (cread t i j) as [[x st]|] eqn:E; [|discriminate]. cbn [bind snd] in H. apply get_read in E.
  destruct st; try (apply (IH _ _ _ _ H p Hp)). destruct (IH _ _ _ _ H p Hp) as [[<-|I]|I]; auto. right.
  destruct i as [|i]; [right; exists (0, j), x; auto|]. destruct j as [|j]; [right; exists (S i, 0), x; auto|]. left. exists x. cbn [fst snd]. now replace (S (S i - 1)) with (S i) by lia; replace (S (S j - 1)) with (S j) by lia.
Qed.
Lemma nw_diag sim gap (s1 s2 : list A) t al : needleman_wunsch sim gap s1 s2 = Ok (t, al) -> forall p, In p al ->
  exists x, dget pos_eqb t (S (fst p), S (snd p)) = Some (x, StD).
Proof.
  unfold needleman_wunsch. destruct (nw_border_ok gap s1 s2) as (b & -> & B). cbn [bind].
  destruct (@fill_ok _ sim gap s1 s2 _ _ _ _ (nw_pcell sim gap s1 s2) _ B) as (t' & -> & F). cbn [bind].
  destruct (nw_trace _ _ _ _ _) as [al0|] eqn:T; [|discriminate]. cbn [bind]. intros E. injection E as -> <-. intros p Hp.
  destruct (trace_diag _ _ _ _ _ _ T p Hp) as [[]|[D|(q & x & D & Z)]]; auto. exfalso.
  destruct (filled_border F) as [B1 B2]. destruct F as [[(_ & R) _] _].
  assert (fst q <= length s1 /\ snd q <= length s2) as [Q1 Q2]. { apply R. apply (dget_in pos_eqb pos_eq) in D. apply in_map_iff. eexists. split; [|exact D]. reflexivity. }
  destruct q as [i j]. cbn [fst snd] in *. destruct Z as [-> | ->].
  - specialize (B2 j Q2). apply get_read in B2. rewrite D in B2. unfold ntop in B2. destruct j; [discriminate|]. destruct (nth_error s2 j); discriminate.
  - specialize (B1 i Q1). apply get_read in B1. rewrite D in B1. unfold nleft in B1. destruct i; [discriminate|]. destruct (nth_error s1 i); discriminate.
Qed.
Lemma no_mismatch sim gap (s1 s2 : list A) t al : needleman_wunsch sim gap s1 s2 = Ok (t, al) -> increasing_in 0 (length s1) 0 (length s2) al ->
  (forall i j a b xu xd xl su sd sl, nth_error s1 i = Some a -> nth_error s2 j = Some b -> a <> b -> dget pos_eqb t (i, S j) = Some (xu, su) -> dget pos_eqb t (i, j) = Some (xd, sd) ->
     dget pos_eqb t (S i, j) = Some (xl, sl) -> (xd + sim a b <= xu + gap a)%Z) ->
  forall n m, pairs s1 s2 n m al -> m = 0.
Proof.
  intros H I W n m P. assert (forall p, In p al -> same_at s1 s2 p) as K.
  { intros [i j] Hp. destruct (inc_range _ _ _ _ _ I _ Hp) as [R1 R2]. cbn [fst snd] in *. destruct (nw_diag _ _ _ _ _ _ H _ Hp) as (x & D). cbn [fst snd] in D.
    destruct (nw_steps _ sim gap s1 s2 t al i j H) as ([xu su] & [xd sd] & [xl sl] & a & b & U & Dd & L & Na & Nb & X); [lia|lia|]. rewrite nw_tie in X. cbv zeta in X. cbn [fst] in X.
    destruct (eqb a b) eqn:E; [apply eqb_spec in E as ->; exists b; auto|].
    assert (a <> b) as N by (intros ->; rewrite (proj2 (eqb_spec b b) eq_refl) in E; discriminate). specialize (W i j a b _ _ _ _ _ _ Na Nb N U Dd L).
    rewrite D in X. exfalso. set (x0 := Z.max _ _) in X. destruct (Z.eqb_spec x0 (xu + gap a)); [discriminate|]. destruct (Z.eqb_spec x0 (xl + gap b)); [discriminate|]. lia. }
  clear - P K. induction P as [|n m p al S P IH|n m p al S P IH]; auto.
  - apply IH. intros q Hq. apply K. now right.
  - exfalso. apply S, K. now left.
Qed.
(** the elements aligned *)
Lemma all_same s1 s2 al : forall i0 j0 n, increasing_in i0 (length s1) j0 (length s2) al -> pairs s1 s2 n 0 al ->
  exists u : list A, map (fun p => nth_error s1 (fst p)) al = map Some u /\ map (fun p => nth_error s2 (snd p)) al = map Some u /\ subseq u (skipn i0 s1) /\ subseq u (skipn j0 s2).
Proof.
  assert (Sk : forall (s u : list A) i k a, k <= i -> nth_error s i = Some a -> subseq u (skipn (S i) s) -> subseq (a :: u) (skipn k s)).
  { intros s u i k a Hk E Hu. revert k s E Hk Hu. induction i as [|i IH]; intros k [|y s] E Hk Hu; try discriminate; cbn [nth_error] in E.
    - injection E as ->. replace k with 0 by lia. cbn [skipn] in *. now constructor.
    - destruct k as [|k]; [|cbn [skipn]; apply IH; auto; lia]. cbn [skipn]. constructor. specialize (IH 0 s E). cbn [skipn] in IH. apply IH; auto; lia. }
  induction al as [|[i j] al IH]; intros i0 j0 n I P.
  - exists []. repeat split; apply subseq_nil.
  - inversion P as [|n' m' p' al' (a & Ea & Eb) P'|]; subst. cbn [increasing_in] in I. destruct I as [I1 I2]. destruct (IH _ _ _ I2 P') as (u & U1 & U2 & U3 & U4). cbn [fst snd] in *.
    exists (a :: u). cbn [map fst snd]. rewrite U1, U2, Ea, Eb. repeat split; [eapply (Sk s1 u i)|eapply (Sk s2 u j)]; eauto; lia.
Qed.
Definition match_sim (a b : A) : Z := if eqb a b then 1%Z else 0%Z.
Definition indel_sim (a b : A) : Z := if eqb a b then 0%Z else (-2)%Z.
Lemma nw_common sim g x y s1 s2 (f : nat -> nat -> Z) : (forall a b, sim a b = if eqb a b then x else y) -> (x = 1 /\ y = 0 /\ g = 0 \/ x = 0 /\ y = -2 /\ g = -1)%Z ->
  (forall i j, f i j = (x * Z.of_nat (lcsf s1 s2 i j) + g * (Z.of_nat i + Z.of_nat j - 2 * Z.of_nat (lcsf s1 s2 i j)))%Z) ->
  exists t al r, needleman_wunsch sim (fun _ => g) s1 s2 = Ok (t, al) /\ lcs eqb s1 s2 = Ok r /\
    (forall i j, i <= length s1 -> j <= length s2 -> exists e st, lcs eqb (firstn i s1) (firstn j s2) = Ok e /\
       dget pos_eqb t (i, j) = Some ((x * Z.of_nat (length e) + g * (Z.of_nat i + Z.of_nat j - 2 * Z.of_nat (length e)))%Z, st)) /\
    exists u, map (fun p => nth_error s1 (fst p)) al = map Some u /\ map (fun p => nth_error s2 (snd p)) al = map Some u /\ longest_common u s1 s2.
Proof.
  intros Hs Hg Hf. destruct (nw_cells sim g s1 s2 f) as (t & al & E & I & B & K).
  - intros j Hj. rewrite Hf, lcsf_0l. lia.
  - intros i Hi. rewrite Hf, lcsf_0r. lia.
  - intros i j a b Ea Eb. destruct (lcsf_step s1 s2 i j a b Ea Eb) as (L1 & L2 & L3). rewrite !Hf, L3, Hs. destruct Hg as [(-> & -> & ->)|(-> & -> & ->)]; destruct (eqb a b); lia.
  - destruct (lcs_ok eqb eqb_spec s1 s2) as (r & Er & Lr). exists t, al, r. split; [exact E|]. split; [exact Er|].
    assert (forall i j, i <= length s1 -> j <= length s2 -> exists e st, lcs eqb (firstn i s1) (firstn j s2) = Ok e /\
       dget pos_eqb t (i, j) = Some ((x * Z.of_nat (length e) + g * (Z.of_nat i + Z.of_nat j - 2 * Z.of_nat (length e)))%Z, st)) as KK.
    { intros i j Hi Hj. destruct (lcsf_max s1 s2 i j) as (e & Lv & Lf & _). destruct (K i j Hi Hj) as (st' & Ec). rewrite Hf, Lf in Ec. eauto. }
    split; [exact KK|].
    destruct (score_const sim g s1 s2 x y al) as (n & m & P & L & Sc); auto.
    { intros a. rewrite Hs. now rewrite (proj2 (eqb_spec a a) eq_refl). }
    { intros a b N. rewrite Hs. destruct (eqb a b) eqn:Eab; auto. apply eqb_spec in Eab. easy. }
    assert (m = 0) as ->.
    { eapply (no_mismatch _ _ _ _ _ _ E I); [|exact P]. intros i j a b xu xd xl su sd sl Na Nb N U D _.
      assert (i < length s1) by (apply nth_error_Some; congruence). assert (j < length s2) by (apply nth_error_Some; congruence).
      destruct (K i (S j)) as (? & K1); [lia|lia|]. destruct (K i j) as (? & K2); [lia|lia|]. rewrite U in K1. rewrite D in K2. injection K1 as -> _. injection K2 as -> _.
      destruct (lcsf_step s1 s2 i j a b Na Nb) as (L1 & _). rewrite !Hf, Hs. destruct (eqb a b) eqn:Eab; [apply eqb_spec in Eab; easy|]. destruct Hg as [(-> & -> & ->)|(-> & -> & ->)]; lia. }
    assert (n = length r) as ->.
    { destruct (KK (length s1) (length s2)) as (e & st & Ee & Ec); auto. rewrite !firstn_all, Er in Ee. injection Ee as <-.
      destruct (nw_total sim (fun _ => g) s1 s2 (g1 := g) (g2 := g)) as (t' & al' & E' & K' & _); auto.
      rewrite E in E'. injection E' as <- <-. destruct (K' (length s1) (length s2)) as (c & Ec' & [(al1 & I1 & S1) B2]); auto. assert (Ecc : Some c = Some ((x * Z.of_nat (length r) + g * (Z.of_nat (length s1) + Z.of_nat (length s2) - 2 * Z.of_nat (length r)))%Z, st)) by congruence. apply (f_equal (fun o => match o with Some p => fst p | None => 0%Z end)) in Ecc. cbn beta iota delta [fst] in Ecc. rewrite Ecc in *.
      destruct B as [_ B3]. specialize (B3 _ I1). specialize (B2 _ I). destruct Hg as [(-> & -> & ->)|(-> & -> & ->)]; lia. }
    destruct (all_same s1 s2 al 0 0 (length r) I P) as (u & U1 & U2 & U3 & U4). cbn [skipn] in *. exists u. split; [exact U1|]. split; [exact U2|]. split; [split; auto|].
    assert (length u = length r) as ->. { unfold pos in *. transitivity (length al); [|lia]. rewrite <- (map_length (fun p => nth_error s1 (fst p)) al), U1. now rewrite map_length. }
    apply Lr.
Qed.
(** bounds *)
Lemma al_common k s t : al (A := A) k s t -> exists u, common u s t /\ length s <= length u + k /\ length t <= length u + k.
Proof.
  induction 1 as [|k s t y H (u & [U1 U2] & L)|k s t x H (u & [U1 U2] & L)|k s t x H (u & [U1 U2] & L)|k s t x y H (u & [U1 U2] & L)]; rewrite ?app_length; cbn [length].
  - exists []. repeat split; auto using subseq_nil.
  - exists u. split; [split; auto using subseq_app_l|lia].
  - exists u. split; [split; auto using subseq_app_l|lia].
  - exists (u ++ [x]). rewrite app_length. cbn [length]. split; [split; auto using subseq_snoc|lia].
  - exists u. split; [split; auto using subseq_app_l|lia].
Qed.
Lemma sub_script u s : subseq (A := A) u s -> edit_script (length s - length u) s u.
Proof.
  intros H. assert (forall v, edit_script (length s - length u) (v ++ s) (v ++ u)) as K; [|exact (K [])].
  induction H as [|x u s H IH|x u s H IH]; intros v.
  - constructor.
  - pose proof (subseq_length H). cbn [length]. replace (S (length s) - length u) with (S (length s - length u)) by lia. econstructor; [apply edit_del|apply IH].
  - cbn [length]. replace (S (length s) - S (length u)) with (length s - length u) by lia. specialize (IH (v ++ [x])). now rewrite <- !app_assoc in IH.
Qed.
Lemma lev_lcs s1 s2 d r : levenshtein eqb s1 s2 = Ok d -> lcs eqb s1 s2 = Ok r ->
  length s1 <= d + length r /\ length s2 <= d + length r /\ d + 2 * length r <= length s1 + length s2.
Proof.
  intros E1 E2. destruct (levenshtein_mind eqb eqb_spec s1 s2) as (d' & E1' & M). rewrite E1 in E1'. injection E1' as <-.
  destruct (lcs_ok eqb eqb_spec s1 s2) as (r' & E2' & C & X). rewrite E2 in E2'. injection E2' as <-. pose proof M as M0. destruct M as [M1 _].
  destruct (al_common _ _ _ M1) as (u & Cu & L1 & L2). specialize (X u Cu). split; [lia|]. split; [lia|].
  apply mind_dist in M0. destruct M0 as [_ M2]. destruct C as [C1 C2]. pose proof (subseq_length C1). pose proof (subseq_length C2).
  specialize (M2 _ (script_trans (sub_script _ _ C1) (script_sym (sub_script _ _ C2)))). lia.
Qed.
(** local alignment without gap costs *)
Lemma inc_lower al : forall i0 i1 j0 j1 k l, increasing_in i0 i1 j0 j1 al -> k <= i0 -> l <= j0 -> increasing_in k i1 l j1 al.
Proof. destruct al as [|[i j] al]; cbn [increasing_in]; intros; [lia|]. split; [lia|]. tauto. Qed.
Lemma gaps_zero (s : list A) used k0 k1 : gaps (fun _ => 0%Z) s used k0 k1 = 0%Z.
Proof.
  unfold gaps. induction (seq k0 (k1 - k0)) as [|k l IH]; auto. cbn [map]. unfold total in *. cbn [fold_right]. rewrite IH.
  destruct (existsb (Nat.eqb k) used); auto. destruct (nth_error s k); auto.
Qed.
Lemma sw_lcs s1 s2 r : lcs eqb s1 s2 = Ok r -> 
  match smith_waterman match_sim (fun _ => 0%Z) s1 s2 with
  | Ok (_, al) => r <> [] /\ exists m, pairs s1 s2 (length r) m al
  | Err e => e = IndexError /\ r = []
  end.
Proof.
  intros Er. destruct (nw_common match_sim 0%Z 1%Z 0%Z s1 s2 (fun i j => Z.of_nat (lcsf s1 s2 i j))) as (t & al & r' & E & Er' & K & u & _); auto.
  { intros i j. lia. } rewrite Er in Er'. injection Er' as <-.
  destruct (nw_total match_sim (fun _ => 0%Z) s1 s2 (g1 := 0%Z) (g2 := 0%Z)) as (t' & al' & E' & K' & _); auto. rewrite E in E'. injection E' as <- <-.
  destruct (K (length s1) (length s2)) as (e & st & Ee & Ec); auto. rewrite !firstn_all, Er in Ee. injection Ee as <-.
  destruct (K' (length s1) (length s2)) as (c & Ec' & [(al1 & I1 & S1) B2]); auto.
  assert (Ecc : Some c = Some ((1 * Z.of_nat (length r) + 0 * (Z.of_nat (length s1) + Z.of_nat (length s2) - 2 * Z.of_nat (length r)))%Z, st)) by congruence.
  apply (f_equal (fun o => match o with Some p => fst p | None => 0%Z end)) in Ecc. cbn beta iota delta [fst] in Ecc. unfold cell in *. rewrite Ecc in *.
  assert (Up : forall al2 x, local_score match_sim (fun _ => 0%Z) s1 s2 al2 x -> increasing_in 0 (length s1) 0 (length s2) al2 /\ score match_sim (fun _ => 0%Z) s1 s2 0 (length s1) 0 (length s2) al2 = x).
  { intros al2 x (i0 & i1 & j0 & j1 & L & I & Sx). split.
    - apply inc_lower with i0 j0; try lia. eapply inc_wider; eauto; lia.
    - rewrite <- Sx. unfold score. now rewrite !gaps_zero. }
  assert (Lo : local_score match_sim (fun _ => 0%Z) s1 s2 al1 (Z.of_nat (length r))).
  { exists 0, (length s1), 0, (length s2). split; [lia|]. split; auto. lia. }
  pose proof (@sw_total A match_sim (fun _ => 0%Z) s1 s2) as T. destruct (smith_waterman match_sim (fun _ => 0%Z) s1 s2) as [[ts al2]|e].
  - destruct T as (x & Lx & Px & Mx); [lia|]. pose proof (Mx _ _ Lo). destruct (Up _ _ Lx) as [I2 S2]. pose proof (B2 _ I2).
    split; [intros ->; cbn [length] in *; lia|]. destruct (score_const match_sim 0%Z s1 s2 1%Z 0%Z al2) as (n & m & P & L & Sc); auto.
    { intros a. unfold match_sim. now rewrite (proj2 (eqb_spec a a) eq_refl). }
    { intros a b N. unfold match_sim. destruct (eqb a b) eqn:Eab; auto. apply eqb_spec in Eab. easy. }
    exists m. replace (length r) with n by lia. exact P.
  - destruct T as (-> & Mx); [lia|]. split; auto. specialize (Mx _ _ Lo). destruct r; auto. cbn [length] in Mx. lia.
Qed.
End S.
