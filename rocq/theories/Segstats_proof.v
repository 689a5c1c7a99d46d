From Coq Require Import String Ascii QArith Lia.
From Verif Require Import Py PyLemmas Table_spec Table_model Table_proof Segstats_spec Segstats_model Segrows_proof.
Open Scope string_scope.
Open Scope list_scope.
Open Scope nat_scope.

(** Tables and files as dicts. *)
Lemma kind_eqb_spec a b : kind_eqb a b = true <-> a = b.
Proof. destruct a, b; cbn; split; congruence. Qed.
Lemma teqb_spec x y : pair_eqb kind_eqb text_eqb x y = true <-> x = y.
Proof.
  destruct x as (a, s), y as (b, t). unfold pair_eqb. cbn [fst snd]. rewrite andb_true_iff, kind_eqb_spec, text_eqb_spec. split; [intros (-> & ->); auto|intros [= -> ->]; auto].
Qed.
Section Dict.
Variables (K V : Type) (keqb : K -> K -> bool).
Hypothesis keq : forall x y, keqb x y = true <-> x = y.
Lemma get_set (d : list (K * V)) k v : dget keqb (dset keqb d k v) k = Some v.
Proof. induction d as [|(k', v') d IH]; cbn [dset dget]; [now rewrite (proj2 (keq k k) eq_refl)|]. destruct (keqb k k') eqn:E; cbn [dget]; rewrite E; auto. Qed.
Lemma get_other (d : list (K * V)) k v x : x <> k -> dget keqb (dset keqb d k v) x = dget keqb d x.
Proof.
  intros N. induction d as [|(k', v') d IH]; cbn [dset dget].
  - destruct (keqb x k) eqn:E; auto. apply keq in E. contradiction.
  - destruct (keqb k k') eqn:E; cbn [dget]; [|now rewrite IH]. apply keq in E. subst k'. destruct (keqb x k) eqn:X; auto. apply keq in X. contradiction.
Qed.
End Dict.
Definition fget_set := get_set text text text_eqb text_eqb_spec.
Definition fget_other := get_other text text text_eqb text_eqb_spec.
Definition tget_set := get_set (kind * text) table (pair_eqb kind_eqb text_eqb) teqb_spec.
Definition tget_other := get_other (kind * text) table (pair_eqb kind_eqb text_eqb) teqb_spec.
Lemma empty_no_rows t : is_empty t = true <-> no_rows (values t).
Proof. unfold is_empty, no_rows. rewrite forallb_forall, Forall_forall. split; intros H c C; specialize (H c C); now apply Nat.eqb_eq. Qed.
Lemma write_other t fn fs n : n <> fn -> dget text_eqb (write_table t fn fs) n = dget text_eqb fs n.
Proof. intros N. unfold write_table. destruct (is_empty t); auto using fget_other. Qed.
Lemma write_here t fn fs : is_table t (dget text_eqb fs fn) (dget text_eqb (write_table t fn fs) fn).
Proof.
  unfold write_table, is_table. destruct (is_empty t) eqn:E; [left; split; auto; now apply empty_no_rows|]. right. split; [|apply fget_set]. intros X. apply empty_no_rows in X. congruence.
Qed.

(** Good tables. *)
Lemma good_columns k t cs : good k t -> Forall2 same_column (blank_table k) cs -> Forall2 same_column (values t) cs.
Proof. intros (_ & K & _) H. eapply f2_trans; [apply column_trans| |exact H]. eapply f2_sym; [apply column_sym|exact K]. Qed.
Lemma append_none cs ds : Forall2 same_column cs ds -> no_rows ds -> same_rows cs (append_rows cs ds).
Proof.
  unfold append_rows. induction 1 as [|c d cs ds (A & B) F IH]; cbn [combine map]; [constructor|]. intros N. inversion N; subst. constructor; [|apply IH; auto]. cbn [fst snd label data]. split; [auto|].
  unfold size in *. destruct (data c), (data d); cbn in *; try easy; destruct l0; try discriminate; rewrite app_nil_r; auto. split; auto. apply f2_refl, shown_refl.
Qed.
Lemma no_rows_same cs ds : same_rows cs ds -> no_rows cs -> no_rows ds.
Proof. unfold no_rows. induction 1 as [|c d cs ds (A & B) F IH]; constructor; inversion H; subst; auto. rewrite <- (same_size c d B). auto. Qed.
Lemma blank_no_rows k : no_rows (blank_table k).
Proof. destruct k; repeat constructor. Qed.
Lemma holds_columns k o cs : holds k o cs -> Forall2 same_column (blank_table k) cs.
Proof.
  destruct o as [s|]; cbn [holds]; [|apply rows_columns]. intros (t & _ & (_ & K & _) & R). eapply f2_trans; [apply column_trans|exact K|now apply rows_columns].
Qed.
Lemma good_rows k t : map fst t = map label (blank_table k) -> forall cs, same_rows cs (values t) -> Forall2 same_column (blank_table k) cs -> readable cs -> good k t.
Proof.
  intros E cs R K RD. split; [exact E|]. split; [eapply f2_trans; [apply column_trans|exact K|now apply rows_columns]|eapply readable_same; eauto].
Qed.
Lemma read_sub k t0 n fs cs : good k t0 -> plain t0 -> holds k (dget text_eqb fs n) cs ->
  exists t1, read_subtable t0 n fs = Ok t1 /\ good k t1 /\ plain t1 /\ same_rows (values t1) (append_rows (values t0) cs).
Proof.
  intros G P H. pose proof (good_columns _ _ _ G (holds_columns _ _ _ H)) as K. unfold read_subtable. destruct (dget text_eqb fs n) as [s|].
  - destruct H as (t & -> & GT & R). destruct G as (G1 & G2 & G3).
    assert (K2 : Forall2 same_column (values t0) (values t)). { eapply f2_trans; [apply column_trans|exact K|]. eapply f2_sym; [apply column_sym|now apply rows_columns]. }
    destruct (read_table t0 t true K2) as (t1 & E & F & S & PL); [apply GT|]. exists t1. split; [exact E|].
    assert (S2 : same_rows (values t1) (append_rows (values t0) cs)) by (eapply rows_trans; [exact S|]; apply append_rows_same; auto using rows_refl).
    split; [|auto]. apply good_rows with (cs := append_rows (values t0) (values t)); [congruence|now apply rows_sym| |].
    + eapply f2_trans; [apply column_trans|exact G2|]. now apply append_columns.
    + apply readable_append; auto. apply GT.
  - cbn [holds] in H. exists t0. split; [reflexivity|]. split; [auto|]. split; [auto|]. apply append_none; auto. eapply no_rows_same; eauto using blank_no_rows.
Qed.
Lemma new_good k : exists e, new k = Ok e /\ good k e /\ plain e /\ same_rows (values e) (blank_table k).
Proof.
  destruct (new_ok k) as (e & E & F & S & P). exists e. split; [exact E|]. split; [|auto using rows_sym].
  apply good_rows with (cs := blank_table k); auto; [apply f2_refl; intros c; split; auto; destruct (data c); cbn; auto|apply blank_readable].
Qed.
Lemma finish_ok k key fn (fs : files) (ts : tables) T : dget teqb ts (k, key) = Some T -> good k T -> plain T ->
  exists fs' T', finish k key fn (fs, ts) = Ok (fs', dset teqb ts (k, key) T') /\ good k T' /\ same_rows (values T') (values T) /\ summed k (values T') /\
    (forall n, n <> fn -> dget text_eqb fs' n = dget text_eqb fs n) /\ is_table T' (dget text_eqb fs fn) (dget text_eqb fs' fn).
Proof.
  intros D (G1 & G2 & G3) P. destruct (summarize_ok k T G1 G2 P) as (T' & E & F & S & U). exists (write_table T' fn fs), T'.
  unfold finish. unfold dread. rewrite D. cbn [bind]. rewrite E. cbn [bind]. split; [reflexivity|].
  split; [apply good_rows with (cs := values T); auto; [congruence|now apply rows_sym]|]. split; [auto|]. split; [auto|]. split; [intros n; apply write_other|apply write_here].
Qed.
Lemma table_held k t before now : good k t -> is_table t before now -> held k before -> held k now.
Proof.
  intros G [(_ & ->)|(_ & ->)] H; [exact H|]. exists (values t). exists t. split; [auto|]. split; [auto|apply rows_refl].
Qed.
Lemma fold_append_same rs : forall cs ds, same_rows cs ds -> same_rows (fold_left append_rows rs cs) (fold_left append_rows rs ds).
Proof. induction rs as [|r rs IH]; intros cs ds H; cbn [fold_left]; auto. apply IH. apply append_rows_same; auto using rows_refl. Qed.
Lemma table_total k T parts rs before now : good k T -> summed k (values T) -> Forall2 (holds k) parts rs -> same_rows (values T) (all_rows k rs) -> is_table T before now -> is_total k parts before now.
Proof.
  intros G S F R I. exists rs. split; [exact F|]. destruct I as [(N & ->)|(N & ->)]; [left|right]; (split; [|eauto 10]).
  - eapply no_rows_same; eauto.
  - intros X. apply N. eapply no_rows_same; [apply rows_sym; exact R|exact X].
Qed.

Section Run.
Variable stats : text -> bool -> res (table * table).
Variable seg_dir : text.
Variable targets : list text.
Notation sg := (seg seg_dir).
Notation target := (is_target targets).
Notation fget := (dget text_eqb).
Notation tget := (dget teqb).
Definition part_dir (a s : text) : text := path_join (path_join (path_join (stripped seg_dir) (lit "pgc")) a) s.
Definition stats_of (a s : text) : res (table * table) := stats (part_dir a s) (text_eqb a (lit "na")).
Notation pick := table_of.
Definition part_now (a s : text) (k : kind) (before now : option text) : Prop :=
  if target a s then exists r, stats_of a s = Ok r /\ is_table (pick k r) before now else now = before.
Definition stats_good (a s : text) : Prop := target a s = true -> exists r, stats_of a s = Ok r /\ forall k, good k (pick k r).
Lemma read_into_ok k key fn (fs : files) (ts : tables) T cs : tget ts (k, key) = Some T -> good k T -> plain T -> holds k (fget fs fn) cs ->
  exists T', read_into k key fn (fs, ts) = Ok (fs, dset teqb ts (k, key) T') /\ good k T' /\ plain T' /\ same_rows (values T') (append_rows (values T) cs).
Proof.
  intros D G P H. destruct (read_sub k T fn fs cs G P H) as (T' & E & R). exists T'. unfold read_into, dread. rewrite D. cbn [bind]. rewrite E. auto.
Qed.
Lemma part_ok a s (fs : files) (ts : tables) T : (forall k, tget ts (k, a) = Some (T k)) -> (forall k, good k (T k)) -> (forall k, plain (T k)) -> stats_good a s ->
  part_fn sg a s Pgc <> part_fn sg a s Gb -> (forall k, held k (fget fs (part_fn sg a s k))) ->
  exists fs' ts' T', part_step stats seg_dir targets a (fs, ts) s = Ok (fs', ts') /\
    (forall n, (forall k, n <> part_fn sg a s k) -> fget fs' n = fget fs n) /\
    (forall k, part_now a s k (fget fs (part_fn sg a s k)) (fget fs' (part_fn sg a s k))) /\
    (forall k, tget ts' (k, a) = Some (T' k)) /\ (forall k, good k (T' k)) /\ (forall k, plain (T' k)) /\
    (forall x, snd x <> a -> tget ts' x = tget ts x) /\
    (forall k, exists cs, holds k (fget fs' (part_fn sg a s k)) cs /\ same_rows (values (T' k)) (append_rows (values (T k)) cs)).
Proof.
  intros HT HG HP SG NE HH.
  set (nP := part_fn sg a s Pgc) in *. set (nG := part_fn sg a s Gb) in *.
  assert (X : exists fs', (if target a s then r <- stats_of a s ;; Ok (write_table (snd r) nG (write_table (fst r) nP fs)) else Ok fs) = Ok fs' /\
    (forall n, (forall k, n <> part_fn sg a s k) -> fget fs' n = fget fs n) /\
    (forall k, part_now a s k (fget fs (part_fn sg a s k)) (fget fs' (part_fn sg a s k))) /\
    (forall k, held k (fget fs' (part_fn sg a s k)))).
  { unfold part_now. unfold stats_good in SG. destruct (target a s).
    - destruct SG as (r & E & GD); [auto|]. rewrite E. cbn [bind]. eexists. split; [reflexivity|]. 
      assert (Y : forall k, is_table (pick k r) (fget fs (part_fn sg a s k)) (fget (write_table (snd r) nG (write_table (fst r) nP fs)) (part_fn sg a s k))).
      { intros [|]; cbn [table_of]; fold nP nG.
        - rewrite write_other by auto. apply write_here.
        - rewrite <- (write_other (fst r) nP fs nG) by auto. apply write_here. }
      split; [intros n N; rewrite !write_other; auto; [apply (N Pgc)|apply (N Gb)]|]. split; [intros k; exists r; auto|].
      intros k. eapply table_held; [apply GD|apply Y|apply HH].
    - exists fs. repeat split; auto. }
  destruct X as (fs' & E & FR & PN & HD). unfold part_step. unfold stats_of, part_dir in E. fold nP nG. rewrite E. cbn [bind].
  destruct (HD Pgc) as (cp & CP). destruct (HD Gb) as (cg & CG). fold nP in CP. fold nG in CG.
  destruct (read_into_ok Pgc a nP fs' ts (T Pgc) cp) as (T1 & E1 & G1 & P1 & R1); auto. rewrite E1. cbn [bind].
  destruct (read_into_ok Gb a nG fs' (dset teqb ts (Pgc, a) T1) (T Gb) cg) as (T2 & E2 & G2 & P2 & R2); auto; [rewrite tget_other by discriminate; auto|].
  exists fs', (dset teqb (dset teqb ts (Pgc, a) T1) (Gb, a) T2), (fun k => match k with Pgc => T1 | Gb => T2 end). split; [exact E2|]. split; [auto|]. split; [auto|].
  split; [intros [|]; [rewrite tget_other by discriminate; apply tget_set|apply tget_set]|]. split; [intros [|]; auto|]. split; [intros [|]; auto|].
  split; [intros (k, x) N; cbn [snd] in N; rewrite !tget_other by congruence; auto|]. intros [|]; [exists cp|exists cg]; auto.
Qed.
Lemma parts_ok a l : forall (fs : files) (ts : tables) T, (forall k, tget ts (k, a) = Some (T k)) -> (forall k, good k (T k)) -> (forall k, plain (T k)) -> Forall (stats_good a) l ->
  NoDup l -> (forall k k' s s', In s l -> In s' l -> part_fn sg a s k = part_fn sg a s' k' -> s = s' /\ k = k') -> (forall k s, In s l -> held k (fget fs (part_fn sg a s k))) ->
  exists fs' ts' T', foldM (part_step stats seg_dir targets a) (fs, ts) l = Ok (fs', ts') /\
    (forall n, (forall k s, In s l -> n <> part_fn sg a s k) -> fget fs' n = fget fs n) /\
    (forall k s, In s l -> part_now a s k (fget fs (part_fn sg a s k)) (fget fs' (part_fn sg a s k))) /\
    (forall k, tget ts' (k, a) = Some (T' k)) /\ (forall k, good k (T' k)) /\ (forall k, plain (T' k)) /\
    (forall x, snd x <> a -> tget ts' x = tget ts x) /\
    (forall k, exists rs, Forall2 (holds k) (map (fun s => fget fs' (part_fn sg a s k)) l) rs /\ same_rows (values (T' k)) (fold_left append_rows rs (values (T k)))).
Proof.
  induction l as [|s l IH]; intros fs ts T HT HG HP SG ND INJ HH.
  - exists fs, ts, T. split; [reflexivity|]. split; [auto|]. split; [intros k s []|]. split; [auto|]. split; [auto|]. split; [auto|]. split; [auto|]. intros k. exists []. cbn. split; [constructor|apply rows_refl].
  - inversion SG; subst. inversion ND as [|? ? NI ND']; subst.
    destruct (part_ok a s fs ts T) as (fs1 & ts1 & T1 & E1 & F1 & N1 & A1 & B1 & C1 & D1 & R1); auto.
    { intros X. destruct (INJ Pgc Gb s s); cbn; auto. discriminate. } { intros k. apply HH. now left. }
    cbn [foldM]. rewrite E1. cbn [bind].
    assert (OTHER : forall k s', In s' l -> fget fs1 (part_fn sg a s' k) = fget fs (part_fn sg a s' k)).
    { intros k s' I. apply F1. intros k' X. destruct (INJ k k' s' s) as (-> & _); cbn; auto. }
    destruct (IH fs1 ts1 T1) as (fs2 & ts2 & T2 & E2 & F2 & N2 & A2 & B2 & C2 & D2 & R2); auto.
    { intros k k' u v I J. apply INJ; now right. } { intros k u I. rewrite OTHER by auto. apply HH. now right. }
    assert (HERE : forall k, fget fs2 (part_fn sg a s k) = fget fs1 (part_fn sg a s k)).
    { intros k. apply F2. intros k' s' I X. destruct (INJ k k' s s') as (-> & _); cbn; auto. }
    exists fs2, ts2, T2. split; [exact E2|]. split; [|split; [|split; [exact A2|split; [exact B2|split; [exact C2|split]]]]].
    + intros n N. rewrite F2 by (intros; apply N; now right). apply F1. intros. apply N. now left.
    + intros k u [<-|I]; [rewrite HERE; apply N1|]. rewrite <- OTHER by auto. auto.
    + intros x N. rewrite D2, D1; auto.
    + intros k. destruct (R1 k) as (cs & HC & S1). destruct (R2 k) as (rs & HR & S2). exists (cs :: rs). cbn [map]. split; [constructor; [now rewrite HERE|exact HR]|]. cbn [fold_left].
      eapply rows_trans; [exact S2|]. now apply fold_append_same.
Qed.
(** One annotation. *)
Section Annots.
Variable subsegs : list text.
Hypothesis subs : NoDup subsegs.
Notation all := (lit "all").
Lemma annot_ok a (fs : files) (ts : tables) T : a <> all -> (forall k, tget ts (k, all) = Some (T k)) -> (forall k, good k (T k)) -> (forall k, plain (T k)) -> Forall (stats_good a) subsegs ->
  (forall k k' s s', In s subsegs -> In s' subsegs -> part_fn sg a s k = part_fn sg a s' k' -> s = s' /\ k = k') ->
  (forall k k' s, In s subsegs -> annot_fn sg a k <> part_fn sg a s k') -> annot_fn sg a Pgc <> annot_fn sg a Gb ->
  (forall k s, In s subsegs -> held k (fget fs (part_fn sg a s k))) -> (forall k, held k (fget fs (annot_fn sg a k))) ->
  exists fs' ts' T', annot_step stats seg_dir targets subsegs (fs, ts) a = Ok (fs', ts') /\
    (forall n, (forall k, n <> annot_fn sg a k) -> (forall k s, In s subsegs -> n <> part_fn sg a s k) -> fget fs' n = fget fs n) /\
    (forall k s, In s subsegs -> part_now a s k (fget fs (part_fn sg a s k)) (fget fs' (part_fn sg a s k))) /\
    (forall k, is_total k (map (fun s => fget fs' (part_fn sg a s k)) subsegs) (fget fs (annot_fn sg a k)) (fget fs' (annot_fn sg a k))) /\
    (forall k, tget ts' (k, all) = Some (T' k)) /\ (forall k, good k (T' k)) /\ (forall k, plain (T' k)) /\
    (forall k, exists cs, holds k (fget fs' (annot_fn sg a k)) cs /\ same_rows (values (T' k)) (append_rows (values (T k)) cs)).
Proof.
  intros NA HT HG HP SG INJ PA AA HH HA. unfold annot_step.
  destruct (new_good Pgc) as (ep & EP & GP & PP & SP). destruct (new_good Gb) as (eg & EG & GG & PG & SGB). rewrite EP, EG. cbn [bind].
  set (E := fun k => match k with Pgc => ep | Gb => eg end).
  destruct (parts_ok a subsegs fs (dset teqb (dset teqb ts (Pgc, a) ep) (Gb, a) eg) E) as (fs1 & ts1 & T1 & E1 & F1 & N1 & A1 & B1 & C1 & D1 & R1); auto.
  { intros [|]; [rewrite tget_other by discriminate; apply tget_set|apply tget_set]. } { intros [|]; auto. } { intros [|]; auto. }
  assert (ALL1 : forall k, tget ts1 (k, all) = Some (T k)). { intros k. rewrite D1 by (cbn; auto). rewrite !tget_other by congruence. auto. }
  replace (foldM (part_step stats seg_dir targets a) (fs, dset teqb (dset teqb ts (Pgc, a) ep) (Gb, a) eg) subsegs) with (@Ok (files * tables) (fs1, ts1)) by (symmetry; exact E1). cbn [bind].
  destruct (finish_ok Pgc a (annot_fn sg a Pgc) fs1 ts1 (T1 Pgc) (A1 Pgc) (B1 Pgc) (C1 Pgc)) as (fs2 & U2 & E2 & G2 & S2 & M2 & F2 & I2).
  replace (finish Pgc a (annot_fn sg a Pgc) (fs1, ts1)) with (@Ok (files * tables) (fs2, dset teqb ts1 (Pgc, a) U2)) by (symmetry; exact E2). cbn [bind].
  assert (AN1 : forall k, fget fs1 (annot_fn sg a k) = fget fs (annot_fn sg a k)). { intros k. apply F1. intros k' s I. now apply PA. }
  assert (H2 : held Pgc (fget fs2 (annot_fn sg a Pgc))). { eapply table_held; [exact G2|exact I2|]. rewrite AN1. apply HA. }
  destruct H2 as (cp & CP).
  destruct (read_into_ok Pgc all (annot_fn sg a Pgc) fs2 (dset teqb ts1 (Pgc, a) U2) (T Pgc) cp) as (V2 & E3 & G3 & P3 & R3); auto; [rewrite tget_other by congruence; auto|].
  replace (read_into Pgc all (annot_fn sg a Pgc) (fs2, dset teqb ts1 (Pgc, a) U2)) with (@Ok (files * tables) (fs2, dset teqb (dset teqb ts1 (Pgc, a) U2) (Pgc, all) V2)) by (symmetry; exact E3). cbn [bind].
  set (ts2 := dset teqb (dset teqb ts1 (Pgc, a) U2) (Pgc, all) V2).
  destruct (finish_ok Gb a (annot_fn sg a Gb) fs2 ts2 (T1 Gb)) as (fs3 & U3 & E4 & G4 & S4 & M4 & F4 & I4); auto; [unfold ts2; rewrite !tget_other by congruence; auto|].
  replace (finish Gb a (annot_fn sg a Gb) (fs2, ts2)) with (@Ok (files * tables) (fs3, dset teqb ts2 (Gb, a) U3)) by (symmetry; exact E4). cbn [bind].
  assert (H4 : held Gb (fget fs3 (annot_fn sg a Gb))). { eapply table_held; [exact G4|exact I4|]. rewrite F2 by auto. rewrite AN1. apply HA. }
  destruct H4 as (cg & CG).
  destruct (read_into_ok Gb all (annot_fn sg a Gb) fs3 (dset teqb ts2 (Gb, a) U3) (T Gb) cg) as (V4 & E5 & G5 & P5 & R5); auto; [unfold ts2; rewrite !tget_other by congruence; auto|].
  assert (PARTS : forall k s, In s subsegs -> fget fs3 (part_fn sg a s k) = fget fs1 (part_fn sg a s k)).
  { intros k s I. rewrite F4, F2; auto; intros X; symmetry in X; revert X; now apply PA. }
  assert (MAPS : forall k, map (fun s => fget fs3 (part_fn sg a s k)) subsegs = map (fun s => fget fs1 (part_fn sg a s k)) subsegs).
  { intros k. apply map_ext_in. intros s I. now apply PARTS. }
  exists fs3, (dset teqb (dset teqb ts2 (Gb, a) U3) (Gb, all) V4), (fun k => match k with Pgc => V2 | Gb => V4 end). split; [exact E5|]. split; [|split; [|split; [|split; [|split; [|split]]]]].
  - intros n N M. rewrite F4, F2 by auto. apply F1. exact M.
  - intros k s I. rewrite PARTS by auto. now apply N1.
  - intros k. rewrite MAPS. destruct (R1 k) as (rs & FR & SR).
    assert (X : same_rows (fold_left append_rows rs (values (E k))) (all_rows k rs)) by (apply fold_append_same; destruct k; auto).
    destruct k.
    + rewrite (F4 (annot_fn sg a Pgc)) by auto. rewrite <- AN1. apply table_total with (T := U2) (rs := rs); auto. eapply rows_trans; [exact S2|]. eapply rows_trans; [exact SR|exact X].
    + rewrite <- AN1, <- (F2 (annot_fn sg a Gb)) by auto. apply table_total with (T := U3) (rs := rs); auto. eapply rows_trans; [exact S4|]. eapply rows_trans; [exact SR|exact X].
  - intros [|]; [unfold ts2; rewrite !tget_other by congruence; apply tget_set|apply tget_set].
  - intros [|]; auto.
  - intros [|]; auto.
  - intros [|]; [exists cp|exists cg]; split; auto. rewrite F4 by auto. exact CP.
Qed.
(** All annotations; the names do not clash. *)
Record distinct (annots : list text) : Prop :=
  { d_parts : forall a a' s s' k k', In a annots -> In a' annots -> In s subsegs -> In s' subsegs -> part_fn sg a s k = part_fn sg a' s' k' -> a = a' /\ s = s' /\ k = k';
    d_annots : forall a a' k k', In a annots -> In a' annots -> annot_fn sg a k = annot_fn sg a' k' -> a = a' /\ k = k';
    d_mixed : forall a a' s k k', In a annots -> In a' annots -> In s subsegs -> annot_fn sg a k <> part_fn sg a' s k';
    d_all : forall a s k k', In a annots -> all_fn sg k <> annot_fn sg a k' /\ (In s subsegs -> all_fn sg k <> part_fn sg a s k') }.
Lemma distinct_cons a l : distinct (a :: l) -> distinct l.
Proof. intros [A B C D]. constructor; intros; [eapply A|eapply B|eapply C|eapply D]; cbn; eauto. Qed.
Lemma annots_ok l : forall (fs : files) (ts : tables) T, NoDup l -> ~ In all l -> distinct l ->
  (forall k, tget ts (k, all) = Some (T k)) -> (forall k, good k (T k)) -> (forall k, plain (T k)) -> (forall a, In a l -> Forall (stats_good a) subsegs) ->
  (forall a k s, In a l -> In s subsegs -> held k (fget fs (part_fn sg a s k))) -> (forall a k, In a l -> held k (fget fs (annot_fn sg a k))) ->
  exists fs' ts' T', foldM (annot_step stats seg_dir targets subsegs) (fs, ts) l = Ok (fs', ts') /\
    (forall n, (forall a k, In a l -> n <> annot_fn sg a k) -> (forall a k s, In a l -> In s subsegs -> n <> part_fn sg a s k) -> fget fs' n = fget fs n) /\
    (forall a k s, In a l -> In s subsegs -> part_now a s k (fget fs (part_fn sg a s k)) (fget fs' (part_fn sg a s k))) /\
    (forall a k, In a l -> is_total k (map (fun s => fget fs' (part_fn sg a s k)) subsegs) (fget fs (annot_fn sg a k)) (fget fs' (annot_fn sg a k))) /\
    (forall k, tget ts' (k, all) = Some (T' k)) /\ (forall k, good k (T' k)) /\ (forall k, plain (T' k)) /\
    (forall k, exists rs, Forall2 (holds k) (map (fun a => fget fs' (annot_fn sg a k)) l) rs /\ same_rows (values (T' k)) (fold_left append_rows rs (values (T k)))).
Proof.
  induction l as [|a l IH]; intros fs ts T ND NA DI HT HG HP SG HH HA.
  - exists fs, ts, T. split; [reflexivity|]. split; [auto|]. split; [intros a k s []|]. split; [intros a k []|]. split; [auto|]. split; [auto|]. split; [auto|]. intros k. exists []. cbn. split; [constructor|apply rows_refl].
  - inversion ND as [|? ? NI ND']; subst. pose proof DI as [DP DA DM _].
    destruct (annot_ok a fs ts T) as (fs1 & ts1 & T1 & E1 & F1 & N1 & M1 & A1 & B1 & C1 & R1); auto.
    { intros ->. apply NA. now left. } { apply SG. now left. }
    { intros k k' s s' I J X. destruct (DP a a s s' k k') as (_ & H); cbn; auto. }
    { intros k k' s I. apply DM; cbn; auto. }
    { intros X. destruct (DA a a Pgc Gb); cbn; auto. discriminate. }
    { intros k s I. apply HH; cbn; auto. } { intros k. apply HA; cbn; auto. }
    cbn [foldM]. rewrite E1. cbn [bind].
    assert (OA : forall b k, In b l -> fget fs1 (annot_fn sg b k) = fget fs (annot_fn sg b k)).
    { intros b k I. apply F1; [intros k' X; destruct (DA b a k k') as (-> & _); cbn; auto|intros k' s J; apply DM; cbn; auto]. }
    assert (OP : forall b k s, In b l -> In s subsegs -> fget fs1 (part_fn sg b s k) = fget fs (part_fn sg b s k)).
    { intros b k s I J. apply F1; [intros k' X; symmetry in X; revert X; apply DM; cbn; auto|intros k' s' J' X; destruct (DP b a s s' k k') as (-> & _); cbn; auto]. }
    destruct (IH fs1 ts1 T1) as (fs2 & ts2 & T2 & E2 & F2 & N2 & M2 & A2 & B2 & C2 & R2); auto.
    { intros X. apply NA. now right. } { eapply distinct_cons; eauto. } { intros b I. apply SG. now right. }
    { intros b k s I J. rewrite OP by auto. apply HH; cbn; auto. } { intros b k I. rewrite OA by auto. apply HA; cbn; auto. }
    assert (HA2 : forall k, fget fs2 (annot_fn sg a k) = fget fs1 (annot_fn sg a k)).
    { intros k. apply F2; [intros b k' I X; destruct (DA a b k k') as (-> & _); cbn; auto|intros b k' s I J; apply DM; cbn; auto]. }
    assert (HP2 : forall k s, In s subsegs -> fget fs2 (part_fn sg a s k) = fget fs1 (part_fn sg a s k)).
    { intros k s J. apply F2; [intros b k' I X; symmetry in X; revert X; apply DM; cbn; auto|intros b k' s' I J' X; destruct (DP a b s s' k k') as (-> & _); cbn; auto]. }
    assert (MAPS : forall k, map (fun s => fget fs2 (part_fn sg a s k)) subsegs = map (fun s => fget fs1 (part_fn sg a s k)) subsegs).
    { intros k. apply map_ext_in. intros s I. now apply HP2. }
    exists fs2, ts2, T2. split; [exact E2|]. split; [|split; [|split; [|split; [exact A2|split; [exact B2|split; [exact C2|]]]]]].
    + intros n N M. rewrite F2; [apply F1|intros; apply N; now right|intros; apply M; cbn; auto]; [intros; apply N; now left|intros; apply M; cbn; auto].
    + intros b k s [<-|I] J; [rewrite HP2 by auto; now apply N1|]. rewrite <- OP by auto. auto.
    + intros b k [<-|I]; [rewrite HA2, MAPS; apply M1|]. rewrite <- OA by auto. auto.
    + intros k. destruct (R1 k) as (cs & HC & S1). destruct (R2 k) as (rs & HR & S2). exists (cs :: rs). cbn [map]. split; [constructor; [now rewrite HA2|exact HR]|]. cbn [fold_left].
      eapply rows_trans; [exact S2|]. now apply fold_append_same.
Qed.
Lemma seg_ok l (fs : files) : subsegs <> [] -> NoDup l -> ~ In all l -> distinct l -> (forall a, In a l -> Forall (stats_good a) subsegs) ->
  (forall a k s, In a l -> In s subsegs -> held k (fget fs (part_fn sg a s k))) -> (forall a k, In a l -> held k (fget fs (annot_fn sg a k))) ->
  exists fs', corpus_seg_stats stats seg_dir targets l subsegs fs = Ok fs' /\
    (forall n, (forall k, n <> all_fn sg k) -> (forall a k, In a l -> n <> annot_fn sg a k) -> (forall a k s, In a l -> In s subsegs -> n <> part_fn sg a s k) -> fget fs' n = fget fs n) /\
    (forall a k s, In a l -> In s subsegs -> part_now a s k (fget fs (part_fn sg a s k)) (fget fs' (part_fn sg a s k))) /\
    (forall a k, In a l -> is_total k (map (fun s => fget fs' (part_fn sg a s k)) subsegs) (fget fs (annot_fn sg a k)) (fget fs' (annot_fn sg a k))) /\
    (forall k, is_total k (map (fun a => fget fs' (annot_fn sg a k)) l) (fget fs (all_fn sg k)) (fget fs' (all_fn sg k))).
Proof.
  intros NE ND NA DI SG HH HA. unfold corpus_seg_stats. destruct subsegs as [|s0 ss] eqn:SS; [contradiction|]. rewrite <- SS in *. clear NE.
  destruct (new_good Pgc) as (ep & EP & GP & PP & SP). destruct (new_good Gb) as (eg & EG & GG & PG & SGB). rewrite EP, EG. cbn [bind].
  set (E := fun k => match k with Pgc => ep | Gb => eg end).
  destruct (annots_ok l fs [((Pgc, all), ep); ((Gb, all), eg)] E) as (fs1 & ts1 & T1 & E1 & F1 & N1 & M1 & A1 & B1 & C1 & R1); auto; try (intros [|]; auto; reflexivity).
  match goal with |- context [foldM ?f ?x ?y] => replace (foldM f x y) with (@Ok (files * tables) (fs1, ts1)) by (symmetry; exact E1) end. cbn [bind].
  assert (PA : all_fn sg Pgc <> all_fn sg Gb). { unfold all_fn. intros X. apply app_inv_head in X. rewrite !app_assoc in X. apply app_inv_head in X. discriminate X. }
  destruct DI as [_ _ _ DD].
  destruct (finish_ok Pgc all (all_fn sg Pgc) fs1 ts1 (T1 Pgc) (A1 Pgc) (B1 Pgc) (C1 Pgc)) as (fs2 & U2 & E2 & G2 & S2 & M2 & F2 & I2).
  replace (finish Pgc all (all_fn sg Pgc) (fs1, ts1)) with (@Ok (files * tables) (fs2, dset teqb ts1 (Pgc, all) U2)) by (symmetry; exact E2). cbn [bind].
  destruct (finish_ok Gb all (all_fn sg Gb) fs2 (dset teqb ts1 (Pgc, all) U2) (T1 Gb)) as (fs3 & U3 & E4 & G4 & S4 & M4 & F4 & I4); auto; [rewrite tget_other by discriminate; auto|].
  replace (finish Gb all (all_fn sg Gb) (fs2, dset teqb ts1 (Pgc, all) U2)) with (@Ok (files * tables) (fs3, dset teqb (dset teqb ts1 (Pgc, all) U2) (Gb, all) U3)) by (symmetry; exact E4). cbn [bind fst].
  assert (K3 : forall n, (forall k, n <> all_fn sg k) -> fget fs3 n = fget fs1 n). { intros n N. rewrite F4, F2; auto. }
  assert (K3a : forall a k, In a l -> fget fs3 (annot_fn sg a k) = fget fs1 (annot_fn sg a k)). { intros a k I. apply K3. intros k' X. symmetry in X. revert X. apply (DD a s0); auto. }
  assert (K3p : forall a k s, In a l -> In s subsegs -> fget fs3 (part_fn sg a s k) = fget fs1 (part_fn sg a s k)). { intros a k s I J. apply K3. intros k' X. symmetry in X. revert X. apply (DD a s); auto. }
  assert (K1 : forall k, fget fs1 (all_fn sg k) = fget fs (all_fn sg k)). { intros k. apply F1; [intros a k' I; apply (DD a s0); auto|intros a k' s I J; apply (DD a s); auto]. }
  exists fs3. split; [reflexivity|]. split; [|split; [|split]].
  - intros n N1' N2' N3'. rewrite K3 by auto. auto.
  - intros a k s I J. rewrite K3p by auto. auto.
  - intros a k I. rewrite K3a by auto. replace (map (fun s => fget fs3 (part_fn sg a s k)) subsegs) with (map (fun s => fget fs1 (part_fn sg a s k)) subsegs) by (apply map_ext_in; intros s J; symmetry; auto). auto.
  - intros k. replace (map (fun a => fget fs3 (annot_fn sg a k)) l) with (map (fun a => fget fs1 (annot_fn sg a k)) l) by (apply map_ext_in; intros s J; symmetry; auto).
    destruct (R1 k) as (rs & FR & SR).
    assert (X : same_rows (fold_left append_rows rs (values (E k))) (all_rows k rs)) by (apply fold_append_same; destruct k; auto).
    destruct k.
    + rewrite (F4 (all_fn sg Pgc)) by auto. rewrite <- K1. apply table_total with (T := U2) (rs := rs); auto. eapply rows_trans; [exact S2|]. eapply rows_trans; [exact SR|exact X].
    + rewrite <- K1, <- (F2 (all_fn sg Gb)) by auto. apply table_total with (T := U3) (rs := rs); auto. eapply rows_trans; [exact S4|]. eapply rows_trans; [exact SR|exact X].
Qed.
End Annots.
End Run.

(** Names. *)
Lemma flat_map_nodup A B (f : A -> list B) l : NoDup (flat_map f l) -> (forall x, In x l -> NoDup (f x)) /\ (forall x y n, In x l -> In y l -> In n (f x) -> In n (f y) -> x = y).
Proof.
  induction l as [|a l IH]; cbn [flat_map]; intros H; [split; [intros ? []|intros ? ? ? []]|]. assert (H' := H). 
  assert (N1 : NoDup (f a)) by (clear -H; induction (f a) as [|b r IH]; [constructor|]; cbn in H; inversion H; subst; constructor; [rewrite in_app_iff in *; tauto|auto]).
  assert (N2 : NoDup (flat_map f l)) by (clear -H; induction (f a) as [|b r IH]; [auto|]; cbn in H; inversion H; subst; auto).
  assert (DJ : forall n, In n (f a) -> In n (flat_map f l) -> False).
  { clear -H. intros n I J. induction (f a) as [|b r IH]; [easy|]. cbn in H. inversion H; subst. rewrite in_app_iff in *. destruct I as [->|I]; [tauto|auto]. }
  destruct (IH N2) as (I1 & I2). split.
  - intros x [<-|I]; auto.
  - intros x y n [<-|I] [<-|J] X Y; [auto|exfalso; apply (DJ n X); apply in_flat_map; eauto|exfalso; apply (DJ n Y); apply in_flat_map; eauto|eauto].
Qed.
Lemma flat_map_nodup_list A B (f : A -> list B) l : NoDup (flat_map f l) -> (forall x, f x <> []) -> NoDup l.
Proof.
  intros H NE. induction l as [|a l IH]; constructor.
  - intros I. cbn in H. destruct (f a) as [|b r] eqn:E; [now apply (NE a)|]. cbn in H. inversion H; subst. apply H2. rewrite in_app_iff. right. apply in_flat_map. exists a. rewrite E. split; [auto|now left].
  - apply IH. cbn in H. clear -H. induction (f a) as [|b r IH]; [auto|]. cbn in H. inversion H; subst; auto.
Qed.
Lemma nodup_flat_map A B (f : A -> list B) l : NoDup l -> (forall x, In x l -> NoDup (f x)) -> (forall x y n, In x l -> In y l -> In n (f x) -> In n (f y) -> x = y) -> NoDup (flat_map f l).
Proof.
  induction 1 as [|a l NI ND IH]; intros F I; cbn [flat_map]; [constructor|].
  assert (X : forall m, NoDup m -> (forall n, In n m -> ~ In n (flat_map f l)) -> NoDup (m ++ flat_map f l)).
  { intros m. induction 1 as [|b m NB NM IHm]; intros D; cbn; [apply IH; [intros; apply F; now right|intros x y n Ix Iy; apply I; now right]|]. constructor; [rewrite in_app_iff; intros [?|?]; [auto|eapply D; [now left|eauto]]|]. apply IHm. intros n J. apply D. now right. }
  apply X; [apply F; now left|]. intros n J K. apply in_flat_map in K as (y & Y & N). assert (a = y) by (eapply I; [now left|now right|exact J|exact N]). now subst.
Qed.
Lemma map_nodup A B (f : A -> B) l : NoDup l -> (forall x y, In x l -> In y l -> f x = f y -> x = y) -> NoDup (map f l).
Proof.
  induction 1 as [|a l NI ND IH]; intros I; cbn [map]; constructor.
  - intros J. apply in_map_iff in J as (y & E & Y). apply NI. rewrite <- (I y a); cbn; auto.
  - apply IH. intros x y X Y. apply I; cbn; auto.
Qed.
Lemma nodup_map_inj A B (f : A -> B) l x y : NoDup (map f l) -> In x l -> In y l -> f x = f y -> x = y.
Proof.
  induction l as [|u l IH]; [easy|]. cbn [map]. intros HD. inversion HD as [|? ? HN' HD']; subst. intros [->|S] [->|S'] E; [auto| | |apply IH; auto]; exfalso; apply HN'; apply in_map_iff; eauto.
Qed.
Lemma part_fn_eq seg a s k : part_fn seg a s k = part_file seg a s k.
Proof. unfold part_fn, part_file, replace_slash, dots, dot_join. cbn [fold_left]. rewrite <- !app_assoc. reflexivity. Qed.
Lemma annot_fn_eq seg a k : annot_fn seg a k = annot_file seg a k.
Proof. unfold annot_fn, annot_file, dot_join. cbn [fold_left]. rewrite <- !app_assoc. reflexivity. Qed.
Lemma all_fn_eq seg k : all_fn seg k = all_file seg k.
Proof. reflexivity. Qed.
Lemma file_names_eq seg annots subsegs : file_names seg annots subsegs = flat_map (table_files seg annots subsegs) [Pgc; Gb].
Proof. reflexivity. Qed.
Lemma all_kinds k : In k [Pgc; Gb].
Proof. destruct k; cbn; auto. Qed.
Lemma names_distinct dir annots subsegs : NoDup (file_names (seg dir) annots subsegs) -> NoDup annots /\ (annots <> [] -> NoDup subsegs) /\ distinct dir subsegs annots.
Proof.
  rewrite file_names_eq. set (sg := seg dir). intros H. destruct (flat_map_nodup _ _ _ _ H) as (K1 & K2). clear H.
  assert (N1 : forall k, ~ In (all_file sg k) (flat_map (fun a => annot_file sg a k :: map (fun s => part_file sg a s k) subsegs) annots) /\ NoDup (flat_map (fun a => annot_file sg a k :: map (fun s => part_file sg a s k) subsegs) annots)).
  { intros k. specialize (K1 k (all_kinds k)). inversion K1; auto. }
  assert (IA : forall a k, In a annots -> In (annot_file sg a k) (table_files sg annots subsegs k)) by (intros a k I; right; apply in_flat_map; exists a; split; [auto|now left]).
  assert (IP : forall a s k, In a annots -> In s subsegs -> In (part_file sg a s k) (table_files sg annots subsegs k)) by (intros a s k I J; right; apply in_flat_map; exists a; split; [auto|right; apply in_map_iff; eauto]).
  assert (KIND : forall n k k', In n (table_files sg annots subsegs k) -> In n (table_files sg annots subsegs k') -> k = k') by (intros n k k' I J; eapply K2; eauto using all_kinds).
  split; [|split].
  - destruct (N1 Pgc) as (_ & H). eapply flat_map_nodup_list; [exact H|]. intros; discriminate.
  - destruct annots as [|a annots]; [easy|]. intros _. destruct (N1 Pgc) as (_ & H). apply flat_map_nodup in H as (H & _). specialize (H a (or_introl eq_refl)). inversion H; subst. eapply NoDup_map_inv; eauto.
  - constructor.
    + intros a a' s s' k k' A A' S S'. fold sg. rewrite !part_fn_eq. intros E. assert (k = k') by (apply (KIND (part_file sg a s k)); [auto|rewrite E; auto]). subst k'.
      destruct (N1 k) as (_ & H). destruct (flat_map_nodup _ _ _ _ H) as (H1 & H2).
      assert (a = a') by (apply (H2 a a' (part_file sg a s k)); auto; right; apply in_map_iff; eauto). subst a'. split; [auto|]. split; [|auto].
      specialize (H1 a A). inversion H1 as [|? ? HN HD]. exact (nodup_map_inj _ _ (fun s => part_file sg a s k) subsegs s s' HD S S' E).
    + intros a a' k k' A A'. fold sg. rewrite !annot_fn_eq. intros E. assert (k = k') by (apply (KIND (annot_file sg a k)); [auto|rewrite E; auto]). subst k'. split; [|auto].
      destruct (N1 k) as (_ & H). destruct (flat_map_nodup _ _ _ _ H) as (_ & H2). apply (H2 a a' (annot_file sg a k)); auto; [now left|left; auto].
    + intros a a' s k k' A A' S. fold sg. rewrite annot_fn_eq, part_fn_eq. intros E. assert (k = k') by (apply (KIND (annot_file sg a k)); [auto|rewrite E; auto]). subst k'.
      destruct (N1 k) as (_ & H). destruct (flat_map_nodup _ _ _ _ H) as (H1 & H2).
      assert (a = a') by (apply (H2 a a' (annot_file sg a k)); auto; [now left|right; rewrite E; apply in_map_iff; eauto]). subst a'. specialize (H1 a A). inversion H1 as [|? ? HN HD]; subst. apply HN. rewrite E. apply in_map_iff. eauto.
    + intros a s k k' A. fold sg. rewrite annot_fn_eq, part_fn_eq, all_fn_eq. split.
      * intros E. assert (k = k') by (apply (KIND (all_file sg k)); [now left|rewrite E; auto]). subst k'. destruct (N1 k) as (H & _). apply H. rewrite E. apply in_flat_map. exists a. split; [auto|now left].
      * intros S E. assert (k = k') by (apply (KIND (all_file sg k)); [now left|rewrite E; auto]). subst k'. destruct (N1 k) as (H & _). apply H. rewrite E. apply in_flat_map. exists a. split; [auto|right; apply in_map_iff; eauto].
Qed.
Lemma kinds_nodup : NoDup [Pgc; Gb].
Proof. constructor; [intros [X|[]]; discriminate|]. constructor; [easy|constructor]. Qed.
Lemma first_dot x y r q : ~ In dot x -> ~ In dot y -> x ++ dot :: r = y ++ dot :: q -> x = y /\ r = q.
Proof.
  revert y. induction x as [|c x IH]; intros [|d y] NX NY E; cbn in *.
  - now injection E.
  - injection E as <- E. exfalso. auto.
  - injection E as -> E. exfalso. auto.
  - injection E as <- E. destruct (IH y) as (-> & ->); auto.
Qed.
Lemma suffix_simple k : ~ In dot (suffix k) /\ ~ In slash (suffix k).
Proof. destruct k; cbn; split; intros H; repeat (destruct H as [H|H]; [discriminate|]); destruct H. Qed.
Lemma dots_simple s : ~ In slash s -> dots s = s.
Proof. unfold dots. induction s as [|c s IH]; intros H; cbn [map]; [auto|]. rewrite IH by (intros X; apply H; now right). destruct (Ascii.eqb_spec c slash); [exfalso; apply H; now left|auto]. Qed.
Lemma simple_names seg annots subsegs : ~ In slash seg -> NoDup annots -> NoDup subsegs -> Forall simple annots -> Forall simple subsegs -> NoDup (file_names seg annots subsegs).
Proof.
  intros SG NA NS FA FS. rewrite Forall_forall in FA, FS.
  assert (PF : forall a s k, In a annots -> In s subsegs -> part_file seg a s k = lit "stats." ++ seg ++ dot :: a ++ dot :: s ++ dot :: suffix k).
  { intros a s k A S. unfold part_file. cbn [app]. apply dots_simple. destruct (FA a A), (FS s S), (suffix_simple k). intros X.
    rewrite !in_app_iff in X. cbn [In] in X. rewrite !in_app_iff in X. cbn [In] in X. rewrite !in_app_iff in X. cbn [In] in X.
    destruct X as [X|[X|[X|[X|[X|[X|[X|X]]]]]]]; auto; try discriminate. cbn in X. repeat (destruct X as [X|X]; [discriminate|]); auto. }
  assert (AF : forall a k, annot_file seg a k = lit "stats." ++ seg ++ dot :: a ++ dot :: suffix k) by reflexivity.
  assert (LF : forall k, all_file seg k = lit "stats." ++ seg ++ dot :: suffix k) by reflexivity.
  assert (SUF : forall k k', suffix k = suffix k' -> k = k') by (intros [|] [|]; cbn; congruence).
  assert (STRIP : forall x y, lit "stats." ++ seg ++ dot :: x = lit "stats." ++ seg ++ dot :: y -> x = y).
  { intros x y E. apply app_inv_head in E. apply app_inv_head in E. congruence. }
  assert (IN : forall n k, In n (table_files seg annots subsegs k) -> exists x, n = lit "stats." ++ seg ++ dot :: x /\
            (x = suffix k \/ (exists a, In a annots /\ (x = a ++ dot :: suffix k \/ exists s, In s subsegs /\ x = a ++ dot :: s ++ dot :: suffix k)))).
  { intros n k [<-|I]; [rewrite LF; eauto|]. apply in_flat_map in I as (a & A & [<-|I]); [rewrite AF; eauto 10|]. apply in_map_iff in I as (s & <- & S). rewrite PF by auto. eauto 10. }
  assert (NODOT : forall k x r, suffix k = x ++ dot :: r -> False). { intros k x r E. apply (proj1 (suffix_simple k)). rewrite E. apply in_app_iff. right. now left. }
  assert (NS' : forall s x r, In s subsegs -> s = x ++ dot :: r -> False). { intros s x r I E. apply (proj1 (FS s I)). rewrite E. apply in_app_iff. right. now left. }
  assert (PARTS : forall a a' s s' k k', In a annots -> In a' annots -> In s subsegs -> In s' subsegs -> a ++ dot :: s ++ dot :: suffix k = a' ++ dot :: s' ++ dot :: suffix k' -> a = a' /\ s = s' /\ k = k').
  { intros a a' s s' k k' A A' S S' E. apply first_dot in E as (-> & E); [|apply (FA a A)|apply (FA a' A')]. apply first_dot in E as (-> & E); [|apply (FS s S)|apply (FS s' S')]. auto. }
  assert (ANN : forall a a' k k', In a annots -> In a' annots -> a ++ dot :: suffix k = a' ++ dot :: suffix k' -> a = a' /\ k = k').
  { intros a a' k k' A A' E. apply first_dot in E as (-> & E); [|apply (FA a A)|apply (FA a' A')]. auto. }
  assert (MIX : forall a a' s' k k', In a annots -> In a' annots -> a ++ dot :: suffix k = a' ++ dot :: s' ++ dot :: suffix k' -> False).
  { intros a a' s' k k' A A' E. apply first_dot in E as (-> & E); [|apply (FA a A)|apply (FA a' A')]. eapply NODOT; eauto. }
  rewrite file_names_eq. apply nodup_flat_map; [apply kinds_nodup| |].
  - intros k _. unfold table_files. constructor.
    + intros I. apply in_flat_map in I as (a & A & [E|I]); [rewrite AF, LF in E; apply STRIP in E; symmetry in E; eapply NODOT; eauto|].
      apply in_map_iff in I as (s & E & S). rewrite PF, LF in E by auto. apply STRIP in E. symmetry in E. eapply NODOT; eauto.
    + apply nodup_flat_map; [exact NA| |].
      * intros a A. constructor.
        -- intros I. apply in_map_iff in I as (s & E & S). rewrite PF, AF in E by auto. apply STRIP in E. symmetry in E. eapply MIX; [| |exact E]; auto.
        -- apply map_nodup; [exact NS|]. intros s s' S S' E. rewrite !PF in E by auto. apply STRIP in E. apply PARTS in E; auto. tauto.
      * intros a a' n A A' [<-|I] [E|J].
        -- rewrite !AF in E. apply STRIP in E. apply ANN in E; auto. destruct E. auto.
        -- apply in_map_iff in J as (s & E & S). rewrite PF, AF in E by auto. apply STRIP in E. symmetry in E. exfalso. eapply MIX; [| |exact E]; auto.
        -- subst n. apply in_map_iff in I as (s & E & S). rewrite PF, AF in E by auto. apply STRIP in E. symmetry in E. exfalso. eapply MIX; [| |exact E]; auto.
        -- apply in_map_iff in I as (s & <- & S). apply in_map_iff in J as (s' & E & S'). rewrite !PF in E by auto. apply STRIP in E. apply PARTS in E; auto. destruct E. auto.
  - intros k k' n _ _ I J. destruct (IN _ _ I) as (x & -> & X). destruct (IN _ _ J) as (y & E & Y). apply STRIP in E. subst y.
    destruct X as [->|(a & A & [->|(s & S & ->)])], Y as [E|(a' & A' & [E|(s' & S' & E)])].
    + auto.
    + exfalso. eapply NODOT; eauto.
    + exfalso. eapply NODOT; eauto.
    + exfalso. symmetry in E. eapply NODOT; eauto.
    + apply ANN in E; auto. tauto.
    + exfalso. eapply MIX; [| |exact E]; auto.
    + exfalso. symmetry in E. eapply NODOT; eauto.
    + exfalso. symmetry in E. eapply MIX; [| |exact E]; auto.
    + apply PARTS in E; auto. tauto.
Qed.

(** The directory. *)
Lemma rstrip_snoc s n : rstrip (s ++ repeat slash n) = rstrip s.
Proof.
  induction s as [|c s IH]; cbn [app rstrip]; [|now rewrite IH]. induction n as [|n IH]; cbn [repeat rstrip]; [auto|]. rewrite IH. reflexivity.
Qed.
Lemma rstrip_id s : ~ (exists b, s = b ++ [slash]) -> rstrip s = s.
Proof.
  induction s as [|c s IH]; intros H; cbn [rstrip]; [auto|]. rewrite IH by (intros (b & ->); apply H; now exists (c :: b)).
  destruct s; [|auto]. destruct (Ascii.eqb_spec c slash); [|auto]. exfalso. apply H. exists []. now subst.
Qed.
Lemma last_part_seg s w : ~ In slash s -> last_part w s = w ++ s.
Proof.
  revert w. induction s as [|c s IH]; intros w H; cbn [last_part]; [now rewrite app_nil_r|]. destruct (Ascii.eqb_spec c slash); [exfalso; apply H; now left|].
  rewrite IH by (intros X; apply H; now right). now rewrite <- app_assoc.
Qed.
Lemma last_part_up up s w : ~ In slash s -> last_part w (up ++ slash :: s) = s.
Proof.
  intros H. revert w. induction up as [|c up IH]; intros w; cbn [app last_part].
  - rewrite Ascii.eqb_refl. now apply last_part_seg.
  - destruct (Ascii.eqb c slash); apply IH.
Qed.
Lemma seg_base dir sg : segment dir sg -> exists base n, dir = base ++ repeat slash n /\ ~ (exists b, base = b ++ [slash]) /\ stripped dir = base /\ seg dir = sg.
Proof.
  intros (NS & n & up & -> & UP & EM). exists (up ++ sg), n.
  assert (NB : ~ (exists b, up ++ sg = b ++ [slash])).
  { intros (b & E). destruct sg as [|c sg _] using rev_ind; [rewrite (EM eq_refl) in E; now destruct b|]. rewrite app_assoc in E. apply app_inj_tail in E as (_ & ->). apply NS. apply in_app_iff. right. now left. }
  split; [now rewrite <- app_assoc|]. split; [exact NB|]. assert (ST : stripped (up ++ sg ++ repeat slash n) = up ++ sg) by (unfold stripped; rewrite app_assoc, rstrip_snoc; now apply rstrip_id).
  split; [exact ST|]. unfold seg. rewrite ST. destruct UP as [->|(u & ->)]; [now apply last_part_seg|]. rewrite <- app_assoc. now apply last_part_up.
Qed.
Lemma join_plain a b : a <> [] -> ~ (exists u, a = u ++ [slash]) -> hd_error b <> Some slash -> path_join a b = a ++ [slash] ++ b.
Proof.
  intros NE NS HB. destruct a as [|d u _] using rev_ind; [contradiction|]. unfold path_join. rewrite rev_app_distr. cbn [rev app].
  assert (D : Ascii.eqb d slash = false) by (apply Ascii.eqb_neq; intros ->; apply NS; eauto). rewrite D.
  destruct b as [|c b]; auto. cbn in HB. destruct (Ascii.eqb_spec c slash); auto. congruence.
Qed.
Lemma part_dir_path dir sg a s : segment dir sg -> joinable a s -> part_path dir a s (part_dir dir a s).
Proof.
  intros SG (NE & NA & HS). destruct (seg_base _ _ SG) as (base & n & E & NB & ST & _). exists base, n. split; [exact E|]. split; [exact NB|].
  unfold part_dir. rewrite ST.
  assert (P : path_join base (lit "pgc") = (match base with [] => [] | _ => base ++ [slash] end) ++ lit "pgc").
  { destruct base as [|c r]; [reflexivity|]. rewrite join_plain; [now rewrite <- !app_assoc|easy|auto|discriminate]. }
  rewrite P. set (b := match base with [] => [] | _ => base ++ [slash] end).
  rewrite (join_plain (b ++ lit "pgc") a); [|destruct b; discriminate| |].
  - rewrite join_plain; auto.
    + rewrite <- !app_assoc. reflexivity.
    + intros X. apply app_eq_nil in X. destruct X as (_ & X). discriminate.
    + intros (u & X). destruct a as [|d v _] using rev_ind; [contradiction|]. rewrite !app_assoc in X. apply app_inj_tail in X as (_ & ->). apply NA. apply in_app_iff. right. now left.
  - intros (u & X). change (lit "pgc") with ((lit "pg") ++ ["c"%char]) in X. rewrite app_assoc in X. apply app_inj_tail in X as (_ & X). discriminate.
  - destruct a as [|d v]; [contradiction|]. cbn. intros [= ->]. apply NA. now left.
Qed.
Lemma path_fun dir a s p q : part_path dir a s p -> part_path dir a s q -> p = q.
Proof.
  intros (b & n & E & NB & ->) (b' & n' & E' & NB' & ->). assert (b = b') as <-; [|auto].
  rewrite <- (rstrip_id b NB), <- (rstrip_id b' NB'), <- (rstrip_snoc b n), <- (rstrip_snoc b' n'). now rewrite <- E, <- E'.
Qed.
Lemma target_wanted targets a s : is_target targets a s = true <-> wanted targets a s.
Proof.
  unfold is_target, wanted, member. rewrite !orb_true_iff, !existsb_exists.
  assert (M : forall x l, (exists y, In y l /\ text_eqb x y = true) <-> In x l) by (intros x l; split; [intros (y & I & E); apply text_eqb_spec in E; now subst|intros I; exists x; split; [auto|now apply text_eqb_spec]]).
  rewrite !M. destruct targets as [|t targets].
  - split; [auto|]. intros _. left. left. left. now left.
  - split; [intros [[[H|H]|H]|H]; auto 10|intros [H|[H|[H|[H|H]]]]; auto 10]. discriminate.
Qed.

(** Counts. *)
Lemma sum_app l m : sum (l ++ m) = (sum l + sum m)%Z.
Proof. induction l as [|x l IH]; cbn [app sum fold_right]; [auto|]. unfold sum in *. cbn [fold_right]. rewrite IH. lia. Qed.
Lemma count_same lab cs ds : same_rows cs ds -> count_total lab cs = count_total lab ds.
Proof.
  unfold count_total. induction 1 as [|c d cs ds (A & B) F IH]; [auto|]. cbn [map]. rewrite A. unfold sum in *. cbn [fold_right]. rewrite IH. f_equal.
  destruct (data c), (data d); cbn in B; try easy; now subst.
Qed.
Lemma count_append lab cs ds : Forall2 same_column cs ds -> count_total lab (append_rows cs ds) = (count_total lab cs + count_total lab ds)%Z.
Proof.
  unfold count_total, append_rows. induction 1 as [|c d cs ds (A & B) F IH]; [auto|]. cbn [combine map fst snd label data]. unfold sum in *. cbn [fold_right]. rewrite IH, <- A.
  destruct (data c), (data d); cbn in B; try easy; cbn [append_cells]; try lia. destruct (list_eq_dec ascii_dec (label c) (lit lab)); [|lia]. fold (sum (l ++ l0)) (sum l) (sum l0). rewrite sum_app. lia.
Qed.
Lemma count_blank lab k : count_total lab (blank_table k) = 0%Z.
Proof.
  unfold count_total, blank_table. rewrite map_map. cbn [label data]. induction (columns k) as [|(l, ty) r IH]; [auto|]. cbn [map]. unfold sum in *. cbn [fold_right]. rewrite IH. cbn [fst snd].
  unfold no_cells. destruct (String.eqb ty "string"); [auto|]. destruct (String.eqb ty "count"); [|auto]. destruct list_eq_dec; auto.
Qed.
Lemma count_all lab k ts : Forall (fun t => Forall2 same_column (blank_table k) t) ts -> count_total lab (all_rows k ts) = sum (map (count_total lab) ts).
Proof.
  intros H. unfold all_rows.
  assert (X : forall cs, Forall2 same_column (blank_table k) cs -> count_total lab (fold_left append_rows ts cs) = (count_total lab cs + sum (map (count_total lab) ts))%Z); [|rewrite X; [rewrite count_blank; lia|apply f2_refl; intros c; split; auto; destruct (data c); cbn; auto]].
  induction H as [|t ts HT H IH]; intros cs K; cbn [fold_left map]; [cbn; lia|]. assert (KT : Forall2 same_column cs t) by (eapply f2_trans; [apply column_trans| |exact HT]; eapply f2_sym; [apply column_sym|exact K]).
  rewrite IH; [rewrite count_append by auto; unfold sum; cbn [fold_right]; lia|]. eapply f2_trans; [apply column_trans|exact K|]. now apply append_columns.
Qed.
Lemma holds_fun k o cs ds : holds k o cs -> holds k o ds -> same_rows cs ds.
Proof.
  intros A B. destruct o as [s|]; [|cbn [holds] in *; eapply rows_trans; [apply rows_sym; exact A|exact B]].
  destruct (new_good k) as (e & _ & G & P & S).
  destruct (read_sub k e [] [([], s)] cs G P A) as (t1 & E1 & _ & _ & R1). destruct (read_sub k e [] [([], s)] ds G P B) as (t2 & E2 & _ & _ & R2).
  rewrite E1 in E2. injection E2 as <-.
  assert (R : same_rows (append_rows (values e) cs) (append_rows (values e) ds)) by (eapply rows_trans; [apply rows_sym; exact R1|exact R2]).
  assert (NE : no_rows (values e)) by (eapply no_rows_same; [apply rows_sym; exact S|apply blank_no_rows]).
  pose proof (good_columns _ _ _ G (holds_columns _ _ _ A)) as KA. pose proof (good_columns _ _ _ G (holds_columns _ _ _ B)) as KB. clear -R NE KA KB.
  revert ds KB R. induction KA as [|c x es cs (LA & CA) F IH]; intros ds KB R; inversion KB as [|? y ? ds' (LB & CB) FB]; subst; [constructor|].
  unfold append_rows in R. cbn [combine map] in R. inversion R as [|? ? ? ? (RL & RC) RF]; subst. inversion NE as [|? ? NC NE']; subst. constructor; [|apply IH; auto]. split; [congruence|].
  cbn [fst snd label data] in RC. unfold size in NC. destruct (data c), (data x), (data y); cbn in *; try easy; destruct l; try discriminate; cbn in RC; auto. split; [congruence|tauto].
Qed.
Lemma total_rows k parts before now : is_total k parts before now -> before = None \/ (exists rs, Forall2 (holds k) parts rs /\ ~ no_rows (all_rows k rs)) -> exists rs, Forall2 (holds k) parts rs /\ holds k now (all_rows k rs).
Proof.
  intros (rs & F & H) B. exists rs. split; [exact F|]. destruct H as [(N & ->)|(N & t & -> & G & R & _)]; [|exists t; auto].
  destruct B as [->|(rs' & F' & N')]; [|exfalso].
  - cbn [holds]. assert (K : Forall2 same_column (blank_table k) (all_rows k rs)).
    { unfold all_rows. assert (X : forall cs, Forall2 same_column (blank_table k) cs -> Forall2 same_column (blank_table k) (fold_left append_rows rs cs)); [|apply X; apply f2_refl; intros c; split; auto; destruct (data c); cbn; auto].
      clear N. induction F as [|o r parts rs HR F IH]; intros cs KC; cbn [fold_left]; [auto|]. apply IH. eapply f2_trans; [apply column_trans|exact KC|]. apply append_columns.
      eapply f2_trans; [apply column_trans|eapply f2_sym; [apply column_sym|exact KC]|]. eapply holds_columns; eauto. }
    pose proof (blank_no_rows k) as Z. clear F. revert K N Z. generalize (blank_table k) (all_rows k rs). induction 1 as [|c d cs ds (A & B) F IH]; intros N Z; constructor; inversion N as [|? ? N1 N2]; inversion Z as [|? ? Z1 Z2]; subst; [|apply IH; auto]. split; [auto|].
    unfold size in *. destruct (data c), (data d); cbn in *; try easy; destruct l, l0; try discriminate; auto.
  - apply N'. eapply no_rows_same; [|exact N]. unfold all_rows. assert (S : Forall2 same_rows rs rs').
    { clear N N'. revert rs' F'. induction F as [|o r parts rs HR F IH]; intros rs' F'; inversion F'; subst; constructor; eauto using holds_fun. }
    assert (X : forall cs ds, same_rows cs ds -> same_rows (fold_left append_rows rs cs) (fold_left append_rows rs' ds)); [|apply X, rows_refl].
    clear -S. induction S as [|r r' rs rs' H S IH]; intros cs ds E; cbn [fold_left]; auto. apply IH. now apply append_rows_same.
Qed.
Lemma total_count k lab parts before now : is_total k parts before now -> before = None \/ (exists rs, Forall2 (holds k) parts rs /\ ~ no_rows (all_rows k rs)) ->
  forall z zs, has_count k lab now z -> Forall2 (has_count k lab) parts zs -> z = sum zs.
Proof.
  intros T B z zs (cs & HC & ->) HZ. destruct (total_rows _ _ _ _ T B) as (rs & F & H). rewrite (count_same lab _ _ (holds_fun _ _ _ _ HC H)). rewrite count_all.
  - f_equal. clear -F HZ. revert zs HZ. induction F as [|o r parts rs HR F IH]; intros zs HZ; inversion HZ as [|? z ? zs' (ds & HD & ->) HZ']; subst; [auto|]. cbn [map]. f_equal; auto. apply count_same. eapply holds_fun; eauto.
  - clear -F. induction F; constructor; eauto using holds_columns.
Qed.
