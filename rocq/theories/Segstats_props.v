(** C47: statistics of a corpus segment. *)
From Coq Require Import String Ascii QArith Lia.
From Verif Require Import Py PyLemmas Table_spec Table_model Table_proof Segstats_spec Segstats_model Segrows_proof Segstats_proof.
Open Scope string_scope.
Open Scope list_scope.
Open Scope nat_scope.
Notation get := (dget text_eqb).

Lemma no_annots stats dir targets s0 r (fs : files) : corpus_seg_stats stats dir targets [] (s0 :: r) fs = corpus_seg_stats stats dir targets [] [s0] fs.
Proof. unfold corpus_seg_stats. generalize (new Pgc) (new Gb). intros [p|?] [g|?]; reflexivity. Qed.
(** Every part that is asked for gets its two tables; every annotation gets the rows of its parts and their sums; the segment gets the
    rows of its annotations and their sums; no other file changes. *)
Theorem segment_stats : forall stats dir targets name annots subsegs fs (found : text -> text -> table * table),
  segment dir name -> subsegs <> [] -> NoDup (file_names name annots subsegs) -> ~ In (lit "all") annots ->
  (forall a s, In a annots -> In s subsegs -> joinable a s) ->
  (forall a s path, In a annots -> In s subsegs -> wanted targets a s -> part_path dir a s path ->
     exists w, (w = true <-> a = lit "na") /\ stats path w = Ok (found a s) /\ good Pgc (fst (found a s)) /\ good Gb (snd (found a s))) ->
  (forall a s k, In a annots -> In s subsegs -> held k (get fs (part_file name a s k))) -> (forall a k, In a annots -> held k (get fs (annot_file name a k))) ->
  exists fs', corpus_seg_stats stats dir targets annots subsegs fs = Ok fs' /\
    (forall n, ~ In n (file_names name annots subsegs) -> get fs' n = get fs n) /\
    (forall a s k, In a annots -> In s subsegs -> let before := get fs (part_file name a s k) in let now := get fs' (part_file name a s k) in
       (wanted targets a s -> is_table (table_of k (found a s)) before now) /\ (~ wanted targets a s -> now = before)) /\
    (forall a k, In a annots -> is_total k (map (fun s => get fs' (part_file name a s k)) subsegs) (get fs (annot_file name a k)) (get fs' (annot_file name a k))) /\
    (forall k, is_total k (map (fun a => get fs' (annot_file name a k)) annots) (get fs (all_file name k)) (get fs' (all_file name k))).
Proof.
  intros stats dir targets name annots subsegs fs found SG NE ND NA JO ST HP HA.
  destruct (seg_base _ _ SG) as (base & n & _ & _ & _ & SN).
  assert (FOUND : forall a s, In a annots -> In s subsegs -> is_target targets a s = true -> stats_of stats dir a s = Ok (found a s) /\ forall k, good k (table_of k (found a s))).
  { intros a s A S T. destruct (ST a s (part_dir dir a s)) as (w & W & E & G1 & G2); auto; [now apply target_wanted|eapply part_dir_path; eauto|].
    unfold stats_of. replace (text_eqb a (lit "na")) with w; [split; [exact E|intros [|]; auto]|]. pose proof (text_eqb_spec a (lit "na")). destruct w, (text_eqb a (lit "na")); intuition congruence. }
  assert (X : exists fs', corpus_seg_stats stats dir targets annots subsegs fs = Ok fs' /\
    (forall n, (forall k, n <> all_fn (seg dir) k) -> (forall a k, In a annots -> n <> annot_fn (seg dir) a k) -> (forall a k s, In a annots -> In s subsegs -> n <> part_fn (seg dir) a s k) -> get fs' n = get fs n) /\
    (forall a k s, In a annots -> In s subsegs -> part_now stats dir targets a s k (get fs (part_fn (seg dir) a s k)) (get fs' (part_fn (seg dir) a s k))) /\
    (forall a k, In a annots -> is_total k (map (fun s => get fs' (part_fn (seg dir) a s k)) subsegs) (get fs (annot_fn (seg dir) a k)) (get fs' (annot_fn (seg dir) a k))) /\
    (forall k, is_total k (map (fun a => get fs' (annot_fn (seg dir) a k)) annots) (get fs (all_fn (seg dir) k)) (get fs' (all_fn (seg dir) k)))).
  { destruct annots as [|a0 annots'] eqn:EA.
    - destruct subsegs as [|s0 r]; [contradiction|]. destruct (seg_ok stats dir targets [s0]) with (l := @nil text) (fs := fs) as (fs' & E & F); try (intros; contradiction); try discriminate; try (constructor; easy); try (constructor; [easy|constructor]); [easy|].
      exists fs'. split; [rewrite (no_annots _ _ _ _ r); exact E|]. destruct F as (F1 & _ & _ & F4). split; [intros m M _ _; apply F1; auto; easy|]. split; [easy|]. split; [easy|exact F4].
    - rewrite <- EA in *. rewrite <- SN in ND. destruct (names_distinct _ _ _ ND) as (N1 & N2 & N3). apply (seg_ok stats dir targets subsegs); auto.
      + apply N2. rewrite EA. discriminate.
      + intros a A. rewrite Forall_forall. intros s S T. exists (found a s). now apply FOUND.
      + intros a k s A S. rewrite part_fn_eq, SN. auto.
      + intros a k A. rewrite annot_fn_eq, SN. auto. }
  destruct X as (fs' & E & F & P & A & L). rewrite SN in *. exists fs'. split; [exact E|]. split; [|split; [|split]].
  - intros m M. rewrite file_names_eq in M. assert (M' : forall k, ~ In m (table_files name annots subsegs k)) by (intros k I; apply M; apply in_flat_map; exists k; auto using all_kinds).
    apply F.
    + intros k ->. apply (M' k). now left.
    + intros a k I ->. apply (M' k). right. rewrite annot_fn_eq. apply in_flat_map. exists a. split; [auto|now left].
    + intros a k s I J ->. apply (M' k). right. rewrite part_fn_eq. apply in_flat_map. exists a. split; [auto|right; apply in_map_iff; eauto].
  - intros a s k I J before now. specialize (P a k s I J). rewrite part_fn_eq in P. fold before now in P. unfold part_now in P. pose proof (target_wanted targets a s) as TW. destruct (is_target targets a s) eqn:T.
    + split; [|intros N; exfalso; tauto]. intros _. destruct P as (r & R & P). destruct (FOUND a s I J T) as (Y & _). rewrite Y in R. injection R as <-. exact P.
    + split; [intros N; exfalso; apply TW in N; discriminate|auto].
  - intros a k I. specialize (A a k I). rewrite annot_fn_eq in A. rewrite (map_ext _ (fun s => get fs' (part_file name a s k))) in A by (intros s; now rewrite part_fn_eq). exact A.
  - intros k. specialize (L k). rewrite (map_ext _ (fun a => get fs' (annot_file name a k))) in L by (intros a; now rewrite annot_fn_eq). exact L.
Qed.
(** The names of the files do not clash if the names of annotations and parts have no dots and slashes. *)
Theorem names_differ : forall name annots subsegs, ~ In slash name -> NoDup annots -> NoDup subsegs -> Forall simple annots -> Forall simple subsegs -> NoDup (file_names name annots subsegs).
Proof. exact simple_names. Qed.
(** A total over files counts what the files count, if it is new or if there are rows. *)
Theorem total_adds_up : forall k lab parts before now, is_total k parts before now ->
  before = None \/ (exists rs, Forall2 (holds k) parts rs /\ ~ no_rows (all_rows k rs)) ->
  forall z zs, has_count k lab now z -> Forall2 (has_count k lab) parts zs -> z = sum zs.
Proof. exact total_count. Qed.
(** The count of a file is unique. *)
Theorem count_unique : forall k lab file y z, has_count k lab file y -> has_count k lab file z -> y = z.
Proof. intros k lab file y z (cs & A & ->) (ds & B & ->). apply count_same. eapply holds_fun; eauto. Qed.
(** A run in a directory without these files: everything is counted once, in the table of the segment. *)
Theorem fresh_run : forall stats dir name annots subsegs fs (found : text -> text -> table * table),
  segment dir name -> subsegs <> [] -> NoDup (file_names name annots subsegs) -> ~ In (lit "all") annots ->
  (forall a s, In a annots -> In s subsegs -> joinable a s) ->
  (forall a s path, In a annots -> In s subsegs -> part_path dir a s path ->
     exists w, (w = true <-> a = lit "na") /\ stats path w = Ok (found a s) /\ good Pgc (fst (found a s)) /\ good Gb (snd (found a s))) ->
  (forall n, In n (file_names name annots subsegs) -> get fs n = None) ->
  exists fs', corpus_seg_stats stats dir [] annots subsegs fs = Ok fs' /\
    forall k lab, has_count k lab (get fs' (all_file name k)) (sum (map (fun p => count_total lab (values (table_of k (found (fst p) (snd p))))) (list_prod annots subsegs))).
Proof.
  intros stats dir name annots subsegs fs found SG NE ND NA JO ST FR.
  assert (FN : forall n k, In n (table_files name annots subsegs k) -> get fs n = None) by (intros m k I; apply FR; rewrite file_names_eq; apply in_flat_map; exists k; auto using all_kinds).
  assert (FP : forall a s k, In a annots -> In s subsegs -> get fs (part_file name a s k) = None) by (intros a s k I J; apply (FN _ k); right; apply in_flat_map; exists a; split; [auto|right; apply in_map_iff; eauto]).
  assert (FA : forall a k, In a annots -> get fs (annot_file name a k) = None) by (intros a k I; apply (FN _ k); right; apply in_flat_map; exists a; split; [auto|now left]).
  assert (HN : forall k, held k None) by (intros k; exists (blank_table k); apply rows_refl).
  destruct (segment_stats stats dir [] name annots subsegs fs found) as (fs' & E & _ & P & A & L); auto; [intros a s k I J; rewrite FP by auto; auto|intros a k I; rewrite FA by auto; auto|].
  exists fs'. split; [exact E|]. intros k lab.
  assert (W : forall a s, wanted [] a s) by (intros; now left).
  assert (CP : forall a s, In a annots -> In s subsegs -> has_count k lab (get fs' (part_file name a s k)) (count_total lab (values (table_of k (found a s))))).
  { intros a s I J. destruct (P a s k I J) as (X & _). rewrite FP in X by auto. specialize (X (W a s)).
    assert (G : good k (table_of k (found a s))). { destruct (ST a s (part_dir dir a s)) as (w & _ & _ & G1 & G2); auto; [eapply part_dir_path; eauto|]. destruct k; auto. }
    destruct X as [(N & ->)|(N & ->)].
    - exists (values (table_of k (found a s))). split; [|auto]. cbn [holds]. destruct G as (_ & K & _). clear -K N. pose proof (blank_no_rows k) as Z. revert K N Z. generalize (blank_table k) (values (table_of k (found a s))). induction 1 as [|c d cs ds (A & B) F IH]; intros N Z; constructor; inversion N as [|? ? N1 N2]; inversion Z as [|? ? Z1 Z2]; subst; [|apply IH; auto]. split; [auto|].
      unfold size in *. destruct (data c), (data d); cbn in *; try easy; destruct l, l0; try discriminate; auto.
    - exists (values (table_of k (found a s))). split; [|auto]. exists (table_of k (found a s)). split; [auto|]. split; [auto|apply rows_refl]. }
  assert (HT : forall parts now, is_total k parts None now -> exists z, has_count k lab now z).
  { intros parts now T. destruct (total_rows _ _ _ _ T (or_introl eq_refl)) as (rs & _ & H). eexists. exists (all_rows k rs). split; [exact H|reflexivity]. }
  assert (CA : forall a, In a annots -> has_count k lab (get fs' (annot_file name a k)) (sum (map (fun s => count_total lab (values (table_of k (found a s)))) subsegs))).
  { intros a I. specialize (A a k I). rewrite FA in A by auto. destruct (HT _ _ A) as (z & Z). rewrite <- (total_count k lab _ _ _ A (or_introl eq_refl) z (map (fun s => count_total lab (values (table_of k (found a s)))) subsegs) Z); [auto|].
    clear -CP I. assert (X : forall l, incl l subsegs -> Forall2 (has_count k lab) (map (fun s => get fs' (part_file name a s k)) l) (map (fun s => count_total lab (values (table_of k (found a s)))) l)); [|apply X, incl_refl].
    induction l as [|s l IH]; intros IN; cbn [map]; constructor; [apply CP; auto; apply IN; now left|apply IH; intros y Y; apply IN; now right]. }
  specialize (L k). rewrite (FN _ k) in L by (now left). destruct (HT _ _ L) as (z & Z).
  assert (Q : z = sum (map (fun a => sum (map (fun s => count_total lab (values (table_of k (found a s)))) subsegs)) annots)).
  { apply (total_count k lab _ _ _ L (or_introl eq_refl) z _ Z). clear -CA. assert (X : forall l, incl l annots -> Forall2 (has_count k lab) (map (fun a => get fs' (annot_file name a k)) l) (map (fun a => sum (map (fun s => count_total lab (values (table_of k (found a s)))) subsegs)) l)); [|apply X, incl_refl].
    induction l as [|s l IH]; intros IN; cbn [map]; constructor; [apply CA; auto; apply IN; now left|apply IH; intros y Y; apply IN; now right]. }
  rewrite Q in Z. clear -Z. replace (sum (map (fun p => count_total lab (values (table_of k (found (fst p) (snd p))))) (list_prod annots subsegs))) with (sum (map (fun a => sum (map (fun s => count_total lab (values (table_of k (found a s)))) subsegs)) annots)); [exact Z|].
  clear Z. induction annots as [|a l IH]; [auto|]. cbn [map list_prod]. rewrite map_app, sum_app, map_map. cbn [fst snd]. rewrite <- IH. reflexivity.
Qed.
(** Without parts an AssertionError. *)
Theorem no_parts_error : forall stats dir targets annots fs, corpus_seg_stats stats dir targets annots [] fs = Err AssertionError.
Proof. reflexivity. Qed.
(** What goes wrong in a part goes wrong for the segment, when it is the first. *)
Theorem part_error : forall stats dir targets a annots s subsegs fs e path, segment dir (seg dir) -> joinable a s -> wanted targets a s -> part_path dir a s path ->
  (forall w, stats path w = Err e) -> corpus_seg_stats stats dir targets (a :: annots) (s :: subsegs) fs = Err e.
Proof.
  intros stats dir targets a annots s subsegs fs e path SG JO W PP ER. unfold corpus_seg_stats.
  destruct (new_good Pgc) as (ep & EP & _). destruct (new_good Gb) as (eg & EG & _). rewrite EP, EG. cbn [bind foldM].
  unfold annot_step at 1. rewrite EP, EG. cbn [bind foldM]. unfold part_step at 1. rewrite (proj2 (target_wanted targets a s) W).
  pose proof (path_fun _ _ _ _ _ PP (part_dir_path _ _ _ _ SG JO)) as PD. unfold part_dir in PD. rewrite <- PD. rewrite ER. reflexivity.
Qed.

(** Non-vacuity: two annotations with two parts; one of the parts is empty. *)
Definition row_table (k : kind) (name : string) (n : Z) : table :=
  map (fun x => (lit (fst x), {| label := lit (fst x); descr := lit "text"; overall := None; 
                                 data := if String.eqb (snd x) "string" then Strings [lit name] else if String.eqb (snd x) "count" then Counts [n] else Numbers (lit (snd x)) [1 # 2]%Q |})) (columns k).
Definition empty_table (k : kind) : table := map (fun c => (label c, c)) (blank_table k).
Lemma row_good k name n : word (lit name) -> ~ starts_with_dashes (lit name) -> (-1000000 < n < 10000000)%Z -> good k (row_table k name n).
Proof.
  intros W D N. split; [destruct k; reflexivity|]. split; [destruct k; repeat constructor|]. repeat split.
  - exists 1. destruct k; repeat constructor.
  - destruct k; unfold values, row_table; cbn [columns map fst snd label]; repeat (constructor; [apply is_word; reflexivity|]); constructor.
  - destruct k; unfold values, row_table; cbn [columns map fst snd]; repeat (constructor; [first [exact I|cbn; constructor; [exact W|constructor]]|]); constructor.
  - assert (P : narrow {| label := []; descr := []; overall := None; data := Counts [n] |}) by (constructor; [exact N|constructor]).
    destruct k; unfold values, row_table; cbn [columns map fst snd]; (split; [left; eexists; reflexivity|]); repeat (split; [right; first [exact P|repeat constructor]|]); exact I.
  - destruct k; (eexists; split; [left; reflexivity|right; cbn; lia]).
  - destruct k; (split; [apply not_dashes; reflexivity|constructor; [exact D|constructor]]).
Qed.
Lemma empty_good k : good k (empty_table k).
Proof.
  assert (V : values (empty_table k) = blank_table k) by (unfold values, empty_table; rewrite map_map; apply map_id).
  split; [unfold empty_table; now rewrite map_map|]. rewrite V. split; [apply f2_refl; intros c; split; auto; destruct (data c); cbn; auto|apply blank_readable].
Qed.
Definition sample_found (a s : text) : table * table :=
  if text_eqb s (lit "x/1") then (row_table Pgc "p.pgc" 3, row_table Gb "g.xml" 7) else if text_eqb a (lit "ma") then (row_table Pgc "q.pgc" 20, row_table Gb "h.xml" 5) else (empty_table Pgc, empty_table Gb).
Definition sample_stats (path : text) (w : bool) : res (table * table) :=
  if text_eqb path (lit "corp/news/pgc/ma/x/1") then Ok (sample_found (lit "ma") (lit "x/1")) else
  if text_eqb path (lit "corp/news/pgc/ma/y") then Ok (sample_found (lit "ma") (lit "y")) else
  if (text_eqb path (lit "corp/news/pgc/na/x/1") && w)%bool then Ok (sample_found (lit "na") (lit "x/1")) else
  if (text_eqb path (lit "corp/news/pgc/na/y") && w)%bool then Ok (sample_found (lit "na") (lit "y")) else Err ValueError.
Definition counted (k : kind) (lab : string) (fs : res files) (n : text) : option Z :=
  match fs with Ok fs => match get fs n with Some s => match new k with Ok e => match read e s with Ok t => Some (count_total lab (values t)) | _ => None end | _ => None end | None => None end | Err _ => None end.
Example sample_hypotheses : segment (lit "corp/news//") (lit "news") /\ NoDup (file_names (lit "news") [lit "ma"; lit "na"] [lit "x/1"; lit "y"]) /\
  (forall a s, In a [lit "ma"; lit "na"] -> In s [lit "x/1"; lit "y"] -> joinable a s) /\
  (forall a s path, In a [lit "ma"; lit "na"] -> In s [lit "x/1"; lit "y"] -> part_path (lit "corp/news//") a s path ->
     exists w, (w = true <-> a = lit "na") /\ sample_stats path w = Ok (sample_found a s) /\ good Pgc (fst (sample_found a s)) /\ good Gb (snd (sample_found a s))).
Proof.
  assert (SG : segment (lit "corp/news//") (lit "news")).
  { split; [cbn; intuition discriminate|]. exists 2, (lit "corp/"). split; [reflexivity|]. split; [right; exists (lit "corp"); reflexivity|discriminate]. }
  assert (JO : forall a s, In a [lit "ma"; lit "na"] -> In s [lit "x/1"; lit "y"] -> joinable a s).
  { intros a s A S. cbn in A, S. destruct A as [<-|[<-|[]]], S as [<-|[<-|[]]]; (split; [discriminate|]; split; [cbn; intuition discriminate|discriminate]). }
  split; [exact SG|]. split; [|split; [exact JO|]].
  - vm_compute. repeat (constructor; [intros H; repeat (destruct H as [H|H]; [discriminate|]); destruct H|]). constructor.
  - intros a s path A S P. rewrite (path_fun _ _ _ _ _ P (part_dir_path _ _ _ _ SG (JO a s A S))). clear P SG.
    assert (R : forall k name n, (name, n) = ("p.pgc", 3%Z) \/ (name, n) = ("g.xml", 7%Z) \/ (name, n) = ("q.pgc", 20%Z) \/ (name, n) = ("h.xml", 5%Z) -> good k (row_table k name n)).
    { intros k name n H. apply row_good; (destruct H as [H|[H|[H|H]]]; injection H as -> ->); try lia; try (apply is_word; reflexivity); apply not_dashes; reflexivity. }
    destruct A as [<-|[<-|[]]], S as [<-|[<-|[]]]; [exists false|exists false|exists true|exists true]; (split; [split; [discriminate || reflexivity|reflexivity || discriminate]|]; split; [reflexivity|]); split; (apply R; tauto) || apply empty_good.
Qed.
Example sample_run : let run := corpus_seg_stats sample_stats (lit "corp/news//") [] [lit "ma"; lit "na"] [lit "x/1"; lit "y"] [] in
  counted Pgc "CGP" run (lit "stats.news.ma.x.1.pgc") = Some 3%Z /\ counted Pgc "CGP" run (lit "stats.news.na.y.pgc") = None /\
  counted Pgc "CGP" run (lit "stats.news.ma.pgc") = Some 23%Z /\ counted Pgc "CGP" run (lit "stats.news.pgc") = Some 26%Z /\ counted Gb "CG" run (lit "stats.news.gb") = Some 19%Z.
Proof. vm_compute. repeat split; reflexivity. Qed.
(** The parts that are not asked for are read from their files. *)
Example sample_partial_run : let run := corpus_seg_stats (fun _ _ => Ok (row_table Pgc "new" 9, row_table Gb "new" 9)) (lit "news") [lit "ma.y"] [lit "ma"] [lit "x"; lit "y"]
    [(lit "stats.news.ma.x.pgc", write (row_table Pgc "old" 4) true); (lit "stats.news.ma.y.pgc", write (row_table Pgc "old" 4) true)] in
  counted Pgc "CGP" run (lit "stats.news.ma.x.pgc") = Some 4%Z /\ counted Pgc "CGP" run (lit "stats.news.ma.y.pgc") = Some 9%Z /\ counted Pgc "CGP" run (lit "stats.news.pgc") = Some 13%Z.
Proof. vm_compute. repeat split; reflexivity. Qed.
Example sample_error : segment (lit "news") (seg (lit "news")) /\ joinable (lit "ma") (lit "x") /\ wanted [] (lit "ma") (lit "x") /\ part_path (lit "news") (lit "ma") (lit "x") (lit "news/pgc/ma/x").
Proof.
  split; [split; [cbn; intuition discriminate|]; exists 0, []; split; [reflexivity|auto]|]. split; [split; [discriminate|]; split; [cbn; intuition discriminate|discriminate]|]. split; [now left|].
  exists (lit "news"), 0. split; [reflexivity|]. split; [|reflexivity]. intros (b & E). assert (X : last (b ++ [slash]) slash = slash) by apply last_last. rewrite <- E in X. discriminate X.
Qed.

(** Findings.  When nothing is found for an annotation its old table stays, and is counted. *)
Theorem old_table_counted_refuted : exists stats dir annots subsegs fs found, (forall path w, stats path w = Ok found) /\ (forall k, good k (table_of k found) /\ no_rows (values (table_of k found))) /\
  let run := corpus_seg_stats stats dir [] annots subsegs fs in counted Pgc "CGP" run (all_file dir Pgc) = Some 4%Z /\ forall a s, In a annots -> In s subsegs -> get (match run with Ok f => f | _ => [] end) (part_file dir a s Pgc) = None.
Proof.
  exists (fun _ _ => Ok (empty_table Pgc, empty_table Gb)), (lit "news"), [lit "ma"], [lit "x"], [(lit "stats.news.ma.pgc", write (row_table Pgc "old" 4) true)], (empty_table Pgc, empty_table Gb).
  split; [auto|]. split; [intros k; split; [destruct k; apply empty_good|destruct k; repeat constructor]|]. split; [vm_compute; reflexivity|]. intros a s [<-|[]] [<-|[]]. vm_compute. reflexivity.
Qed.
(** Only a missing file is met with a warning: a file that was cut short stops the run (EOFError). *)
Theorem short_file_refuted : exists stats dir annots subsegs part, (forall path w, exists r, stats path w = Ok r) /\
  corpus_seg_stats stats dir [lit "other"] annots subsegs [(part, [])] = Err EOFError /\ exists fs, corpus_seg_stats stats dir [lit "other"] annots subsegs [] = Ok fs.
Proof.
  exists (fun _ _ => Ok (empty_table Pgc, empty_table Gb)), (lit "news"), [lit "ma"], [lit "x"], (lit "stats.news.ma.x.pgc").
  split; [eauto|]. split; [vm_compute; reflexivity|]. eexists. vm_compute. reflexivity.
Qed.
(** An annotation called "all" is counted twice. *)
Theorem all_counted_twice_refuted : exists stats dir subsegs, let run := corpus_seg_stats stats dir [] [lit "all"] subsegs [] in
  counted Pgc "CGP" run (part_file dir (lit "all") (lit "x") Pgc) = Some 4%Z /\ subsegs = [lit "x"] /\ counted Pgc "CGP" run (all_file dir Pgc) = Some 8%Z.
Proof.
  exists (fun _ _ => Ok (row_table Pgc "p" 4, row_table Gb "g" 4)), (lit "news"), [lit "x"]. vm_compute. repeat split; reflexivity.
Qed.
(** Different parts can share a file: the second table replaces the first, and the files no longer give the total (10 + 4). *)
Theorem shared_name_refuted : exists stats dir a s t, s <> t /\ (forall k, part_file dir a s k = part_file dir a t k) /\
  let run := corpus_seg_stats stats dir [] [a] [s; t] [] in
  counted Pgc "CGP" run (part_file dir a s Pgc) = Some 4%Z /\ counted Pgc "CGP" run (all_file dir Pgc) = Some 14%Z.
Proof.
  exists (fun p _ => if text_eqb p (lit "news/pgc/ma/x/1") then Ok (row_table Pgc "p" 10, row_table Gb "g" 10) else Ok (row_table Pgc "p" 4, row_table Gb "g" 4)), (lit "news"), (lit "ma"), (lit "x/1"), (lit "x.1").
  split; [discriminate|]. split; [intros [|]; reflexivity|]. vm_compute. split; reflexivity.
Qed.

Print Assumptions segment_stats.
Print Assumptions names_differ.
Print Assumptions total_adds_up.
Print Assumptions count_unique.
Print Assumptions fresh_run.
Print Assumptions no_parts_error.
Print Assumptions part_error.
Print Assumptions old_table_counted_refuted.
Print Assumptions short_file_refuted.
Print Assumptions all_counted_twice_refuted.
Print Assumptions shared_name_refuted.
