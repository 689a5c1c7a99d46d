(** Property C61: the batch scripts pgc_from_ptc, pgc_stats and gb_stats. *)
From Coq Require Import String ZArith Lia List Bool.
From Verif Require Import Py PyLemmas PgcXml_model Ship_model Batch_model Batch_spec Batch_proof.
Import ListNotations.
Open Scope string_scope.
Open Scope list_scope.
Section Batch.
Variable here : path.
Variable make : fs -> path -> path -> path -> res content.
Variable can_write : fs -> path -> bool.
Notation main := (main here make can_write).
Notation text j := (fst (fst j)).
Notation source j := (snd (fst j)).
Notation target j := (snd j).

(** With unequal numbers of corpora and graph banks, pgc_from_ptc ends with a message and changes nothing;
    with equal numbers it does not complain. *)
Theorem batch_counts w texts sources targets :
  (length sources = length texts /\ length targets = length texts <-> forall w' m, main w texts sources targets <> (w', Exit m)) /\
  (~ (length sources = length texts /\ length targets = length texts) -> exists m, main w texts sources targets = (w, Exit m)).
Proof.
  unfold Batch_model.main. destruct (length texts =? length sources)%nat eqn:A; [apply Nat.eqb_eq in A|apply Nat.eqb_neq in A]; cbn [negb].
  - destruct (length texts =? length targets)%nat eqn:B; [apply Nat.eqb_eq in B|apply Nat.eqb_neq in B]; cbn [negb].
    + split; [|intros N; exfalso; apply N; auto]. split; [intros _ w' m; apply all_no_exit|auto].
    + split; [|eauto]. split; [intros [_ Z]; congruence|]. intros Z. now destruct (Z _ _ eq_refl).
  - split; [|eauto]. split; [intros [Z _]; congruence|]. intros Z. now destruct (Z _ _ eq_refl).
Qed.
(** However it ends, it changes no file but the outputs: for each text corpus, the file with its base name and
    extension .pgc in the current directory. *)
Theorem batch_touches w texts sources targets w' o p :
  main w texts sources targets = (w', o) -> file w' p <> file w p -> exists t, In t texts /\ output_of here t p.
Proof.
  unfold Batch_model.main. destruct (negb _); [intros [= <- _]; congruence|]. destruct (negb _); [intros [= <- _]; congruence|].
  intros H N. destruct (all_keeps _ _ _ _ _ _ _ H) as [_ K].
  destruct (in_dec (list_eq_dec string_dec) p (map (fun j => outfn here (text j)) (zip3 texts sources targets))) as [I|I].
  - apply in_map_iff in I as ([[t s] g] & <- & J). exists t. split; [|now apply output_spec].
    unfold zip3 in J. apply in_combine_l in J. now apply in_combine_l in J.
  - exfalso. apply N. apply K. intros j J ->. apply I. apply in_map_iff. now exists j.
Qed.
(** The rule for output names gives exactly one name. *)
Theorem batch_output_name t : exists p, output_of here t p /\ forall q, output_of here t q -> q = p.
Proof. exists (outfn here t). split; [now apply output_spec|]. intros q Q. now apply output_spec. Qed.
(** If it ends normally, every output holds what was made for the last text corpus with that output, from the
    files as they were after the jobs before it. *)
Theorem batch_outputs w jobs w' : main w (map (fun j => text j) jobs) (map (fun j => source j) jobs) (map (fun j => target j) jobs) = (w', Done) ->
  forall before t s g behind p, jobs = before ++ (t, s, g) :: behind -> output_of here t p -> Forall (fun j => ~ output_of here (text j) p) behind ->
  exists w1 c, main w (map (fun j => text j) before) (map (fun j => source j) before) (map (fun j => target j) before) = (w1, Done) /\
               make w1 t s g = Ok c /\ file w' p = Some c.
Proof.
  rewrite main_all. intros H b t s g r p Q O N. apply output_spec in O. subst p.
  destruct (all_value _ _ _ _ _ _ H b t s g r Q) as (w1 & c & A & M & V).
  { intros j J Z. rewrite Forall_forall in N. apply (N j J). now apply output_spec. }
  exists w1, c. rewrite main_all. auto.
Qed.
(** It ends with an exception exactly at the first job of which the conversion fails or the output cannot be
    opened; the files are then as if the jobs before it had been the only ones. *)
Theorem batch_stops w jobs w' e :
  main w (map (fun j => text j) jobs) (map (fun j => source j) jobs) (map (fun j => target j) jobs) = (w', Raised e) <->
  exists before t s g behind, jobs = before ++ (t, s, g) :: behind /\
    main w (map (fun j => text j) before) (map (fun j => source j) before) (map (fun j => target j) before) = (w', Done) /\
    (make w' t s g = Err e \/ (exists c, make w' t s g = Ok c) /\ e = OSError /\ forall p, output_of here t p -> can_write w' p = false).
Proof.
  rewrite main_all, all_stop. split.
  - intros (b & [[t s] g] & r & -> & A & O). exists b, t, s, g, r. rewrite main_all. split; [reflexivity|]. split; [exact A|].
    unfold one in O. destruct (make w' t s g) as [c|e'] eqn:M; [|left; congruence]. destruct (can_write w' (outfn here t)) eqn:W; [discriminate|].
    right. split; [now exists c|]. split; [congruence|]. intros p Q. apply output_spec in Q. now subst.
  - intros (b & t & s & g & r & -> & A & O). rewrite main_all in A. exists b, (t, s, g), r. split; [reflexivity|]. split; [exact A|].
    unfold one. destruct O as [-> |[[c ->] [-> W]]]; [reflexivity|]. rewrite W by (now apply output_spec). reflexivity.
Qed.
(** If the output names are different, no conversion looks at the outputs, every conversion works and every
    output can be written, then every text corpus gets its output, and all other files stay. *)
Theorem batch_all w jobs :
  (forall i j ti tj p, nth_error (map (fun j => text j) jobs) i = Some ti -> nth_error (map (fun j => text j) jobs) j = Some tj -> output_of here ti p -> output_of here tj p -> i = j) ->
  (forall w' t s g, In (t, s, g) jobs -> isdir w' = isdir w -> (forall q, file w' q <> file w q -> exists t', output_of here t' q /\ In t' (map (fun j => text j) jobs)) ->
     make w' t s g = make w t s g /\ forall p, output_of here t p -> can_write w' p = true) ->
  (forall t s g, In (t, s, g) jobs -> exists c, make w t s g = Ok c) ->
  exists w', main w (map (fun j => text j) jobs) (map (fun j => source j) jobs) (map (fun j => target j) jobs) = (w', Done) /\
    (forall t s g p, In (t, s, g) jobs -> output_of here t p -> exists c, make w t s g = Ok c /\ file w' p = Some c) /\
    (forall p, (forall t, In t (map (fun j => text j) jobs) -> ~ output_of here t p) -> file w' p = file w p).
Proof.
  intros D I M. rewrite main_all.
  assert (forall q, (exists t', output_of here t' q /\ exists s' g', In (t', s', g') jobs) -> exists t', output_of here t' q /\ In t' (map (fun j => text j) jobs)) as X.
  { intros q (t' & O & s' & g' & J). exists t'. split; [exact O|]. apply in_map_iff. now exists (t', s', g'). }
  destruct (all_done here make can_write jobs w w) with (k := jobs) as [w' H].
  - intros w1 t s g J Q N. destruct (I w1 t s g J Q (fun q Z => X q (N q Z))) as [-> W]. split; [exact (M t s g J)|]. apply W. now apply output_spec.
  - reflexivity.
  - congruence.
  - apply incl_refl.
  - exists w'. split; [exact H|]. split.
    + intros t s g p J O. apply in_split in J as (b & r & Q). apply output_spec in O. subst p.
      destruct (all_value _ _ _ _ _ _ H b t s g r Q) as (w1 & c & A & Mk & V).
      { intros k K Z. apply in_split in K as (b2 & r2 & ->). assert (length b = length b + S (length b2))%nat as L; [|lia].
        apply (D _ _ t (text k) (outfn here t)); try (apply output_spec; congruence).
        - rewrite Q, map_app, nth_error_app2; rewrite map_length; [|lia]. now rewrite Nat.sub_diag.
        - rewrite Q, map_app, nth_error_app2; rewrite map_length; [|lia]. replace (length b + S (length b2) - length b)%nat with (S (length b2)) by lia.
          cbn [map nth_error]. rewrite map_app, nth_error_app2; rewrite map_length; [|lia]. now rewrite Nat.sub_diag. }
      exists c. split; [|exact V]. destruct (all_keeps _ _ _ _ _ _ _ A) as [Dk Kk].
      destruct (I w1 t s g) as [<- _]; [rewrite Q; apply in_elt|exact Dk| |exact Mk].
      intros q N. destruct (in_dec (list_eq_dec string_dec) q (map (fun j => outfn here (text j)) b)) as [Y|Y].
      * apply in_map_iff in Y as (k & <- & K). exists (text k). split; [now apply output_spec|]. apply in_map_iff. exists k. split; [reflexivity|]. rewrite Q. apply in_or_app. now left.
      * exfalso. apply N. apply Kk. intros k K ->. apply Y. apply in_map_iff. now exists k.
    + intros p N. destruct (all_keeps _ _ _ _ _ _ _ H) as [_ K]. apply K. intros j J ->. apply (N (text j)); [apply in_map_iff; now exists j|now apply output_spec].
Qed.
End Batch.

(** It is not true that a normal end means that every text corpus has its conversion: two text corpora with
    the same base name in different directories share an output, and only the last one survives. *)
Theorem batch_shared_refuted : exists here make can_write w jobs w',
  NoDup (map (fun j => fst (fst j)) jobs) /\
  main here make can_write w (map (fun j => fst (fst j)) jobs) (map (fun j => snd (fst j)) jobs) (map snd jobs) = (w', Done) /\
  exists t s g, In (t, s, g) jobs /\ (forall w1 w2, make w1 t s g = make w2 t s g) /\ forall p c, make w t s g = Ok c -> file w' p <> Some c.
Proof.
  set (w0 := {| file := fun _ => None; isdir := fun _ => false |}). set (p := ["home"; "x.pgc"]).
  exists ["home"], (fun _ t _ _ => Ok (Other (String.concat "/" t))), (fun _ _ => true), w0,
    [(["a"; "x.xml"], ["s1"], ["t1"]); (["b"; "x.xml"], ["s2"], ["t2"])], (put (put w0 p (Other "a/x.xml")) p (Other "b/x.xml")).
  split; [repeat constructor; cbn; intuition discriminate|]. split; [reflexivity|].
  exists ["a"; "x.xml"], ["s1"], ["t1"]. split; [now left|]. split; [reflexivity|]. intros q c [= <-]. cbn.
  destruct (path_eqb q p); discriminate.
Qed.

(** Statistics with these options are made exactly if there is no -t and some file matches; an option counts if
    it is given, or if -a is given. *)
Theorem pgc_stats_options os files n :
  pgc_stats_script os files = Statistics n <->
  files <> [] /\ (forall v, ~ In (T v) os) /\
  (with_all n = true <-> In A os) /\ (legenda n = true <-> In L os) /\ threshold n = 0%Z /\
  (with_empty_nodes n = true <-> In E os \/ In A os) /\ (with_failed_parses n = true <-> In F os \/ In A os) /\ (with_punc n = true <-> In P os \/ In A os) /\
  (with_unaligned_roots n = true <-> In R os \/ In A os) /\ (with_unaligned_graphs n = true <-> In U os \/ In A os).
Proof.
  unfold pgc_stats_script.
  assert (forall x : namespace, parse_args (fun _ => None) true defaults os = Some x ->
    (forall v, ~ In (T v) os) /\ (with_all (set_all_pgc x) = true <-> In A os) /\ (legenda (set_all_pgc x) = true <-> In L os) /\ threshold (set_all_pgc x) = 0%Z /\
  (with_empty_nodes (set_all_pgc x) = true <-> In E os \/ In A os) /\ (with_failed_parses (set_all_pgc x) = true <-> In F os \/ In A os) /\ (with_punc (set_all_pgc x) = true <-> In P os \/ In A os) /\
  (with_unaligned_roots (set_all_pgc x) = true <-> In R os \/ In A os) /\ (with_unaligned_graphs (set_all_pgc x) = true <-> In U os \/ In A os)) as K.
  { intros x H. pose proof (proj1 (parse_none _ _ _ _) (ex_intro _ _ H)) as [NT _].
    assert (threshold x = 0%Z) as Th. { destruct (parse_threshold _ _ _ _ _ H) as [[_ Z]|(a & v & b & _ & _ & Z)]; [exact Z|discriminate]. }
    apply parse_flags in H. cbn [defaults with_all with_empty_nodes with_failed_parses legenda with_punc with_unaligned_roots with_unaligned_graphs] in H.
    split; [intros v V; exact (NT v V eq_refl)|]. unfold set_all_pgc. destruct (with_all x) eqn:W; cbn [with_all with_empty_nodes with_failed_parses legenda with_punc with_unaligned_roots with_unaligned_graphs threshold]; rewrite ?W; intuition congruence. }
  destruct (parse_args _ _ _ _) as [x|] eqn:Q.
  - specialize (K x eq_refl). destruct files as [|f fs]; [split; [discriminate|intros [Z _]; now destruct Z]|]. split.
    + intros [= <-]. split; [discriminate|exact K].
    + intros (_ & _ & H). f_equal. destruct K as (_ & K). destruct n, (set_all_pgc x). cbn in *.
      assert (forall a b : bool, (a = true <-> b = true) -> a = b) as B by (intros [] [] [? ?]; auto; symmetry; auto).
      destruct H as (H1 & H2 & H3 & H4 & H5 & H6 & H7 & H8), K as (K1 & K2 & K3 & K4 & K5 & K6 & K7 & K8). f_equal; try (apply B; etransitivity; [eassumption|symmetry; eassumption]). congruence.
  - split; [discriminate|]. intros (_ & NT & _). exfalso.
    destruct (proj2 (parse_none (fun _ => None) true os defaults)) as [x X]; [|congruence]. split; [intros v V; now destruct (NT v)|discriminate].
Qed.
(** With -t, whatever its value and the other options, pgc_stats only gives a usage error, although its
    documentation promises a threshold. *)
Theorem pgc_stats_threshold_refuted os files v : In (T v) os -> pgc_stats_script os files = Usage.
Proof.
  intros H. unfold pgc_stats_script. destruct (parse_args _ _ _ _) as [x|] eqn:Q; [|reflexivity].
  pose proof (proj1 (parse_none _ _ _ _) (ex_intro _ _ Q)) as [NT _]. now destruct (NT v H).
Qed.
(** gb_stats has a threshold: the value of the last -t, or 0; -a sets the options -efp. *)
Theorem gb_stats_options int os files :
  (gb_stats_script int os files = Usage <-> In R os \/ In U os \/ exists v, In (T v) os /\ int v = None) /\
  (gb_stats_script int os files = No_files <-> files = [] /\ gb_stats_script int os files <> Usage) /\
  forall n, gb_stats_script int os files = Statistics n ->
    (legenda n = true <-> In L os) /\
    (with_empty_nodes n = true <-> In E os \/ In A os) /\ (with_failed_parses n = true <-> In F os \/ In A os) /\ (with_punc n = true <-> In P os \/ In A os) /\
    ((forall v, ~ In (T v) os) -> threshold n = 0%Z) /\
    (forall v, last_with (fun o => exists x, o = T x) os (T v) -> int v = Some (threshold n)).
Proof.
  unfold gb_stats_script. pose proof (parse_none int false os defaults) as PN. destruct (parse_args _ _ _ _) as [x|] eqn:Q.
  - destruct (proj1 PN (ex_intro _ _ eq_refl)) as [NT NR]. destruct (NR eq_refl) as [N1 N2]. split; [|split].
    + split; [destruct files; discriminate|]. intros [H|[H|(v & V & Z)]]; [now destruct N1|now destruct N2|now destruct (NT v V)].
    + destruct files; split; try discriminate; [split; [reflexivity|discriminate]|reflexivity|intros [? _]; discriminate].
    + intros n H. destruct files as [|f fs]; [discriminate|]. injection H as <-.
      assert (threshold (set_all_gb x) = threshold x) as Th by (unfold set_all_gb; now destruct (with_all x)).
      rewrite Th. pose proof (parse_threshold _ _ _ _ _ Q) as T0. apply parse_flags in Q.
      cbn [defaults with_all with_empty_nodes with_failed_parses legenda with_punc with_unaligned_roots with_unaligned_graphs] in Q.
      assert (forall os', Forall (fun o => is_t o = false) os' -> forall v, ~ In (T v) os') as FT.
      { intros os' Fo v V. rewrite Forall_forall in Fo. now specialize (Fo _ V). }
      refine (conj _ (conj _ (conj _ (conj _ (conj _ _))))).
      1-4: clear - Q; destruct Q as (Q1 & Q2 & Q3 & Q4 & Q5 & _); unfold set_all_gb; destruct (with_all x) eqn:W; cbn [with_all with_empty_nodes with_failed_parses legenda with_punc]; clear W; intuition congruence.
      * intros N. destruct T0 as [[_ Z]|(a & v & b & -> & _ & Z)]; [exact Z|]. destruct (N v). apply in_elt.
      * intros v (b & r & Qs & _ & Fr). destruct T0 as [[Fo _]|(a & v' & b' & Qs' & Fo & Z)].
        -- subst os. destruct (FT _ Fo v). apply in_elt.
        -- rewrite Qs in Qs'. clear - Qs' Fr Fo Z FT. revert a Qs'. induction b as [|o b IH]; intros [|o' a]; cbn [app]; intros [= Q0 Q1].
           ++ now subst.
           ++ subst. rewrite Forall_forall in Fr. destruct (Fr (T v')); [apply in_elt|eauto].
           ++ subst. destruct (FT _ Fo v). apply in_elt.
           ++ exact (IH _ Q1).
  - split; [|split].
    + split; [|reflexivity]. intros _. destruct (in_dec (fun a b : option_given => ltac:(decide equality; apply string_dec) : {a = b} + {a <> b}) R os) as [H|NR]; [auto|].
      destruct (in_dec (fun a b : option_given => ltac:(decide equality; apply string_dec) : {a = b} + {a <> b}) U os) as [H|NU]; [auto|]. right. right.
      destruct (existsb (fun o => match o with T v => match int v with None => true | _ => false end | _ => false end) os) eqn:X.
      * apply existsb_exists in X as (o & O & Z). destruct o; try discriminate. exists value. split; [exact O|]. now destruct (int value).
      * exfalso. destruct (proj2 PN) as [y Y]; [|discriminate]. split; [|auto]. intros v V Z.
        assert (existsb (fun o => match o with T v => match int v with None => true | _ => false end | _ => false end) os = true); [|congruence].
        apply existsb_exists. exists (T v). split; [exact V|]. now rewrite Z.
    + split; [discriminate|]. intros [_ Z]. now destruct Z.
    + discriminate.
Qed.

(** ** Examples *)
Definition copy_text (w : fs) (t s g : path) : res content :=
  match file w t with Some (Other x) => Ok (Other ("pgc of " ++ x)%string) | _ => Err OSError end.
Definition disk : fs := {| file := fun p => if path_eqb p ["a"; "x.tar.xml"] then Some (Other "one") else if path_eqb p ["b"; ".hidden"] then Some (Other "two") else None; isdir := fun _ => false |}.
Example ex_batch : exists w', main ["home"] copy_text (fun _ _ => true) disk [["a"; "x.tar.xml"]; ["b"; ".hidden"]] [["s"]; ["s"]] [["t"]; ["t"]] = (w', Done) /\
  file w' ["home"; "x.tar.pgc"] = Some (Other "pgc of one") /\ file w' ["home"; ".hidden.pgc"] = Some (Other "pgc of two").
Proof. eexists. split; [reflexivity|]. split; reflexivity. Qed.
Example ex_stops : exists w', main ["home"] copy_text (fun _ _ => true) disk [["a"; "x.tar.xml"]; ["b"; "none"]; ["b"; ".hidden"]] [["s"]; ["s"]; ["s"]] [["t"]; ["t"]; ["t"]] = (w', Raised OSError) /\
  file w' ["home"; "x.tar.pgc"] = Some (Other "pgc of one") /\ file w' ["home"; ".hidden.pgc"] = None.
Proof. eexists. split; [reflexivity|]. split; reflexivity. Qed.
(** The conditions of batch_all hold for these corpora. *)
Example ex_all : exists w', main ["home"] copy_text (fun _ _ => true) disk [["a"; "x.tar.xml"]; ["b"; ".hidden"]] [["s"]; ["s"]] [["t"]; ["t"]] = (w', Done).
Proof.
  destruct (batch_all ["home"] copy_text (fun _ _ => true) disk [(["a"; "x.tar.xml"], ["s"], ["t"]); (["b"; ".hidden"], ["s"], ["t"])]) as (w' & H & _).
  - intros i j ti tj p. destruct i as [|[|i]], j as [|[|j]]; cbn [map nth_error fst]; intros X Y; try (destruct i; discriminate X); try (destruct j; discriminate Y); injection X as <-; injection Y as <-; intros H1 H2; auto; apply output_spec in H1; apply output_spec in H2; rewrite H1 in H2; vm_compute in H2; discriminate.
  - intros w' t s g J _ K. split; [|reflexivity]. unfold copy_text. assert (file w' t = file disk t) as ->; [|reflexivity].
    assert (forall (o : option content) x, ~ o <> Some (Other x) -> o = Some (Other x)) as S.
    { intros [[e|y]|] x N; [destruct N; discriminate| |destruct N; discriminate]. destruct (string_dec y x) as [-> |D]; [reflexivity|]. destruct N. congruence. }
    destruct J as [[= <- <- <-]|[[= <- <- <-]|[]]]; apply S; intros N; destruct (K _ N) as (t' & (root & _ & O) & _); discriminate O.
  - intros t s g [[= <- <- <-]|[[= <- <- <-]|[]]]; eexists; reflexivity.
  - exists w'. exact H.
Qed.
Example ex_options : exists n, pgc_stats_script [A; L] [["f"]] = Statistics n /\ with_punc n = true /\ legenda n = true.
Proof. eexists. split; [reflexivity|]. auto. Qed.
Example ex_gb : exists n, gb_stats_script (fun s => if String.eqb s "3" then Some 3%Z else None) [T "3"; E] [["f"]] = Statistics n /\ threshold n = 3%Z /\ with_punc n = false.
Proof. eexists. split; [reflexivity|]. auto. Qed.
Print Assumptions batch_counts.
Print Assumptions batch_touches.
Print Assumptions batch_output_name.
Print Assumptions batch_outputs.
Print Assumptions batch_stops.
Print Assumptions batch_all.
Print Assumptions batch_shared_refuted.
Print Assumptions pgc_stats_options.
Print Assumptions pgc_stats_threshold_refuted.
Print Assumptions gb_stats_options.
