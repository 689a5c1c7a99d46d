(** Ties of the sequence aligners. *)
From Coq Require Import List ZArith Bool Arith Lia.
From Verif Require Import Py PyLemmas Seqal_spec Seqal_model Seqal_proof.
Import ListNotations.
Open Scope nat_scope.
Section S.
Variable A : Type.
Variables (sim : A -> A -> Z) (gap : A -> Z).
Variables (s1 s2 : list A).
Lemma get_read t i j c : cread t i j = Ok c -> dget pos_eqb t (i, j) = Some c.
Proof. unfold cread, dread. destruct (dget _ _ _); congruence. Qed.
Lemma nw_tie u d l : nw_post ((u, StU), (d, StD), (l, StL)) =
  let x := Z.max u (Z.max d l) in (x, if (x =? u)%Z then StU else if (x =? l)%Z then StL else StD).
Proof.
  unfold nw_post, max2, cell_ltb. cbn [fst snd letter]. cbn [Nat.ltb Nat.leb]. rewrite !andb_false_r, !orb_false_r. cbv zeta.
  destruct (Z.ltb_spec u d); cbn [fst snd letter orb Nat.ltb Nat.leb andb].
  - destruct (Z.ltb_spec d l); cbn [orb].
    + replace (Z.max u (Z.max d l)) with l by lia. destruct (Z.eqb_spec l u); [lia|]. now rewrite Z.eqb_refl.
    + destruct (Z.eqb_spec d l); cbn [andb]; replace (Z.max u (Z.max d l)) with d by lia; (destruct (Z.eqb_spec d u); [lia|]); subst; [now rewrite Z.eqb_refl|]. destruct (Z.eqb_spec d l); [lia|reflexivity].
  - destruct (Z.ltb_spec u l); cbn [orb].
    + replace (Z.max u (Z.max d l)) with l by lia. destruct (Z.eqb_spec l u); [lia|]. now rewrite Z.eqb_refl.
    + rewrite andb_false_r. replace (Z.max u (Z.max d l)) with u by lia. now rewrite Z.eqb_refl.
Qed.
Lemma sw_tie u d l : sw_post ((u, StU), (d, StD), (l, StL)) =
  let x := Z.max 0 (Z.max u (Z.max d l)) in (x, if (x =? u)%Z then StU else if (x =? 0)%Z then StT else if (x =? l)%Z then StL else StD).
Proof.
  change (max2 (nw_post ((u, StU), (d, StD), (l, StL))) (0%Z, StT) = let x := Z.max 0 (Z.max u (Z.max d l)) in (x, if (x =? u)%Z then StU else if (x =? 0)%Z then StT else if (x =? l)%Z then StL else StD)).
  rewrite nw_tie. cbv zeta. set (x := Z.max u (Z.max d l)). unfold max2, cell_ltb. cbn [fst snd].
  destruct (Z.ltb_spec x 0); cbn [orb].
  - rewrite Z.max_l by lia. destruct (Z.eqb_spec 0 u); [lia|]. reflexivity.
  - rewrite Z.max_r by lia. destruct (Z.eqb_spec x u); cbn [letter Nat.ltb Nat.leb]; [now rewrite andb_false_r|].
    destruct (Z.eqb_spec x 0) as [E0|]; cbn [andb]; auto. rewrite E0. destruct (Z.eqb_spec 0 l); reflexivity.
Qed.
Lemma nw_steps t al i j : needleman_wunsch sim gap s1 s2 = Ok (t, al) -> i < length s1 -> j < length s2 ->
  exists u d l a b, dget pos_eqb t (i, S j) = Some u /\ dget pos_eqb t (i, j) = Some d /\ dget pos_eqb t (S i, j) = Some l /\
    nth_error s1 i = Some a /\ nth_error s2 j = Some b /\
    dget pos_eqb t (S i, S j) = Some (nw_post (((fst u + gap a)%Z, StU), ((fst d + sim a b)%Z, StD), ((fst l + gap b)%Z, StL))).
Proof.
  unfold needleman_wunsch. destruct (nw_border_ok gap s1 s2) as (b & -> & B). cbn [bind].
  destruct (@fill_ok _ sim gap s1 s2 _ _ _ _ (nw_pcell sim gap s1 s2) _ B) as (t' & -> & F). cbn [bind].
  destruct (nw_trace _ _ _ _ _) as [al0|]; [|discriminate]. cbn [bind]. intros E Hi Hj. injection E as -> _.
  destruct (filled_inner F (i := i) (j := j)) as (u & d & l & a & b' & Eu & Ed & El & Ea & Eb & E); auto.
  exists u, d, l, a, b'. rewrite (get_read _ _ _ _ Eu), (get_read _ _ _ _ Ed), (get_read _ _ _ _ El), (get_read _ _ _ _ E). repeat split; auto.
Qed.
Lemma sw_matrix t al : smith_waterman sim gap s1 s2 = Ok (t, al) -> filled sim gap s1 s2 sw_post sleft stop t.
Proof.
  unfold smith_waterman. destruct (matrix_ok sim gap s1 s2) as (t' & -> & F). cbn [bind].
  destruct (last_sorted _) as [[c [i j]]|]; [|discriminate]. destruct (sw_trace _ _ _ _ _); [|discriminate]. cbn [bind]. intros E. injection E as -> _. exact F.
Qed.
Lemma sw_steps t i j : filled sim gap s1 s2 sw_post sleft stop t -> i < length s1 -> j < length s2 ->
  exists u d l a b, dget pos_eqb t (i, S j) = Some u /\ dget pos_eqb t (i, j) = Some d /\ dget pos_eqb t (S i, j) = Some l /\
    nth_error s1 i = Some a /\ nth_error s2 j = Some b /\
    dget pos_eqb t (S i, S j) = Some (sw_post (((fst u + gap a)%Z, StU), ((fst d + sim a b)%Z, StD), ((fst l + gap b)%Z, StL))).
Proof.
  intros F Hi Hj. destruct (filled_inner F (i := i) (j := j)) as (u & d & l & a & b' & Eu & Ed & El & Ea & Eb & E); auto.
  exists u, d, l, a, b'. rewrite (get_read _ _ _ _ Eu), (get_read _ _ _ _ Ed), (get_read _ _ _ _ El), (get_read _ _ _ _ E). repeat split; auto.
Qed.
(** the last entry after sorting *)
Lemma step_eq a b : step_eqb a b = true <-> a = b.
Proof. destruct a, b; cbn; split; congruence. Qed.
Lemma letter_inj a b : letter a = letter b -> a = b.
Proof. destruct a, b; cbn; congruence. Qed.
Definition key (e : cell * pos) : Z * (nat * (nat * nat)) := (fst (fst e), (letter (snd (fst e)), (fst (snd e), snd (snd e)))).
Definition le4 (x y : Z * (nat * (nat * nat))) : Prop :=
  (fst x < fst y)%Z \/ fst x = fst y /\ (fst (snd x) < fst (snd y) \/ fst (snd x) = fst (snd y) /\
    (fst (snd (snd x)) < fst (snd (snd y)) \/ fst (snd (snd x)) = fst (snd (snd y)) /\ snd (snd (snd x)) <= snd (snd (snd y)))).
Lemma entry_le x y : if entry_ltb x y then le4 (key x) (key y) else le4 (key y) (key x).
Proof.
  destruct x as [[x a] [i j]], y as [[y b] [i' j']]. unfold entry_ltb, cell_ltb, cell_eqb, pos_ltb, le4, key. cbn [fst snd].
  destruct (Z.ltb_spec x y); cbn [orb]; [left; lia|]. destruct (Z.eqb_spec x y) as [->|]; cbn [orb andb]; [|left; lia].
  destruct (Nat.ltb_spec (letter a) (letter b)); cbn [orb]; [right; split; auto|].
  destruct (step_eqb a b) eqn:E; cbn [andb].
  - apply step_eq in E. subst b. destruct (Nat.ltb_spec i i'); cbn [orb]; [right; split; auto; right; split; auto|].
    destruct (Nat.eqb_spec i i') as [->|]; cbn [andb]; [|right; split; auto; right; split; auto; left; lia].
    destruct (Nat.ltb_spec j j'); right; split; auto; right; split; auto; right; split; auto; lia.
  - right. split; auto. left. assert (letter a <> letter b); [|lia]. intros L. apply letter_inj in L. subst. rewrite (proj2 (step_eq b b) eq_refl) in E. discriminate.
Qed.
Lemma le4_trans x y z : le4 x y -> le4 y z -> le4 x z.
Proof. unfold le4. destruct x as [? [? [? ?]]], y as [? [? [? ?]]], z as [? [? [? ?]]]. cbn [fst snd]. lia. Qed.
Lemma le4_refl x : le4 x x.
Proof. unfold le4. destruct x as [? [? [? ?]]]. cbn [fst snd]. lia. Qed.
Lemma last_sorted_max l x : last_sorted l = Some x -> forall y, In y l -> le4 (key y) (key x).
Proof.
  unfold last_sorted. revert x.
  assert (G : forall m, (match fold_left (fun m x => match m with None => Some x | Some y => if entry_ltb x y then m else Some x end) l m with
      | None => m = None /\ l = [] | Some x => (forall y, m = Some y -> le4 (key y) (key x)) /\ forall y, In y l -> le4 (key y) (key x) end)).
  { induction l as [|z l IH]; intros m; cbn [fold_left].
    - destruct m; auto. split; [|intros y []]. intros y E. injection E as ->. apply le4_refl.
    - specialize (IH (match m with None => Some z | Some y => if entry_ltb z y then m else Some z end)).
      destruct (fold_left _ l _) as [x|].
      + destruct IH as [I1 I2]. destruct m as [y|].
        * pose proof (entry_le z y) as E. destruct (entry_ltb z y).
          -- split; [intros y' Q; injection Q as <-; auto|]. intros y' [<-|Q]; auto. eapply le4_trans; [exact E|auto].
          -- split; [intros y' Q; injection Q as <-; eapply le4_trans; [exact E|auto]|]. intros y' [<-|Q]; auto.
        * split; [discriminate|]. intros y' [<-|Q]; auto.
      + destruct IH as [I1 _]. destruct m as [y|]; [destruct (entry_ltb z y)|]; discriminate. }
  intros x E. specialize (G None). rewrite E in G. apply G.
Qed.
Lemma sw_end t al : (forall a, In a s1 \/ In a s2 -> (gap a < 0)%Z) -> smith_waterman sim gap s1 s2 = Ok (t, al) ->
  exists i j al' x, al = al' ++ [(i, j)] /\ (exists st, dget pos_eqb t (S i, S j) = Some (x, st)) /\ (0 < x)%Z /\
    forall p y st, dget pos_eqb t p = Some (y, st) -> (y < x)%Z \/ y = x /\ (fst p < S i \/ fst p = S i /\ snd p <= S j).
Proof.
  intros G E. pose proof (sw_matrix _ _ E) as F. unfold smith_waterman in E. destruct (matrix_ok sim gap s1 s2) as (t' & Em & F'). rewrite Em in E. cbn [bind] in E.
  set (ps := map _ _) in E. destruct (last_sorted ps) as [[c [i j]]|] eqn:L; [|discriminate].
  assert (t' = t). { destruct (sw_trace _ _ _ _ _); [|discriminate]. cbn in E. now injection E. } subst t'. clear F'.
  pose proof (last_sorted_max _ _ L) as M. pose proof (last_sorted_ok ps) as LS. rewrite L in LS. destruct LS as [I _].
  unfold ps in I. apply in_map_iff in I as ([p c'] & Q & I). cbn in Q. injection Q as -> ->. apply filter_In in I as [I Pc]. cbn in Pc. apply Z.ltb_lt in Pc.
  destruct (@item_cell _ s1 s2 t (i, j) c (proj1 (proj1 F)) I) as (Hi & Hj & Ec). cbn [fst snd] in *.
  assert (P1 : forall i j c, cread t i j = Ok c -> (0 < fst c)%Z -> In (c, (i, j)) ps).
  { intros i' j' c' Ec' Hc. unfold ps. apply in_map_iff. exists ((i', j'), c'). split; auto. apply filter_In. split; [now apply cell_item|]. now apply Z.ltb_lt. }
  destruct (filled_border F) as [BL BT].
  destruct i as [|i]; [rewrite BT in Ec by lia; apply ok_inj in Ec; subst c; destruct j; cbn in Pc; lia|].
  destruct j as [|j]; [rewrite BL in Ec by lia; apply ok_inj in Ec; subst c; cbn in Pc; lia|].
  destruct (filled_inner F (i := i) (j := j)) as (u & d & l & a & b & Eu & Ed & El & Ea & Eb & Ex); [lia|lia|].
  rewrite Ec in Ex. apply ok_inj in Ex. rewrite sw_tie in Ex. cbv zeta in Ex.
  assert (Ga : (gap a < 0)%Z) by (apply G; left; eapply nth_error_In; eauto). assert (Gb : (gap b < 0)%Z) by (apply G; right; eapply nth_error_In; eauto).
  set (x := Z.max 0 (Z.max (fst u + gap a) (Z.max (fst d + sim a b) (fst l + gap b)))) in *.
  assert (Mx : forall i j c', cread t i j = Ok c' -> (fst c' <= x)%Z).
  { intros i' j' c' Ec'. destruct (Z.le_gt_cases (fst c') 0) as [|Hp]; [rewrite Ex in Pc; cbn in Pc; lia|]. specialize (M _ (P1 _ _ _ Ec' Hp)). rewrite Ex in M. unfold le4, key in M. cbn [fst snd] in M. lia. }
  pose proof (Mx _ _ _ Eu) as Mu. pose proof (Mx _ _ _ El) as Ml.
  assert (Sd : c = (x, StD)). { rewrite Ex. rewrite Ex in Pc. cbn [fst] in Pc. f_equal. destruct (Z.eqb_spec x (fst u + gap a)); [lia|]. destruct (Z.eqb_spec x 0); [lia|]. destruct (Z.eqb_spec x (fst l + gap b)); [lia|reflexivity]. }
  rewrite Sd in Pc, M, Ec. cbn [fst] in Pc. clear Ex Sd I L.
  assert (Lt : forall i' j' c', cread t i' j' = Ok c' -> (fst c' < x)%Z \/ fst c' = x /\ snd c' = StD /\ (i' < S i \/ i' = S i /\ j' <= S j)).
  { intros i' j' c' Ec'. destruct (Z.le_gt_cases x (fst c')) as [Hx|]; [|now left]. pose proof (Mx _ _ _ Ec'). assert (fst c' = x) by lia. right. split; auto.
    assert (Hp : (0 < fst c')%Z) by lia. pose proof (M _ (P1 _ _ _ Ec' Hp)) as K. unfold le4, key in K. cbn [fst snd letter] in K.
    assert (Sl : letter (snd c') = 0) by lia. split; [apply letter_inj; exact Sl|]. rewrite Sl in K. lia. }
  cbn [Nat.add sw_trace] in E. rewrite Ec in E. cbn [bind fst snd] in E. rewrite (proj2 (Z.ltb_lt 0 x) Pc) in E. cbn [Nat.sub] in E. rewrite !Nat.sub_0_r in E.
  destruct (@filled_any _ _ _ _ _ _ _ _ t i j F) as (c' & Ec'); [lia|lia|].
  assert (T : exists al', al = al' ++ [(i, j)]).
  { destruct (@sw_trace_ok _ sim gap s1 s2 t F (i + S j) i j c' [(i, j)]) as (al' & i0 & j0 & Et & _ & _); auto; [lia|lia|lia|]. unfold pos in *. rewrite Et in E. cbn [bind] in E. injection E as <-. eauto. }
  destruct T as [al' ->]. exists i, j, al', x. split; auto. split; [exists StD; now apply get_read|]. split; auto.
  intros [i' j'] y st D. destruct (Lt i' j' (y, st)) as [|(A1 & _ & B1)]; cbn [fst snd] in *; auto. unfold cread, dread. now rewrite D.
Qed.
End S.
