(** Property C49: copying, packing and unpacking corpora. *)
From Coq Require Import String Permutation Sorted.
From Verif Require Import Py PyLemmas Align_model PgcXml_model PgcXml_spec PgcXml_proof PgcXml_props Ship_model Ship_spec Ship_proof.
Import ListNotations.
Open Scope nat_scope.
Open Scope list_scope.
Section Cp.
Variable rleb : string -> string -> bool.
Hypothesis total : forall x y, rleb x y = true \/ rleb y x = true.
Variable number : path -> nat.
Variable order : list nat -> list nat.
Hypothesis order_any : forall l, Permutation l (order l).
Notation cp := (cp rleb number order).
Notation read_corpus := (read_corpus rleb).

(** Without --overwrite, pgc_cp never changes a file, whatever the sources are and however it ends. *)
Theorem cp_keeps_existing target w sources o p :
  cp false target w sources = Some o -> file w p <> None -> file (after o) p = file w p.
Proof.
  unfold Ship_model.cp. destruct (_ && _); [discriminate|]. intros [= <-] H.
  destruct (file (after (cp_all rleb number order false target w sources)) p) as [c|] eqn:E; destruct (file w p) as [c'|] eqn:E'; try congruence.
  2:{ pose proof (@cp_only rleb total number order order_any false target sources w p) as C. rewrite E, E' in C. destruct C as [_ C]; [discriminate|]. now apply C in H. }
  destruct (in_dec (list_eq_dec string_dec) p (map (target_of w target) sources)) as [I|N].
  - assert (forall l w0, file w0 p = Some c' -> file (after (cp_all rleb number order false target w0 l)) p = Some c') as K.
    { induction l as [|s l IH]; intros w0 F; [exact F|]. cbn [cp_all].
      assert (file (after (cp_one rleb number order false target w0 s)) p = Some c') as F1.
      { destruct (@cp_one_effect rleb total number order order_any false target w0 s) as [-> |(x & -> & O & _)]; [exact F|]. rewrite put_file.
        destruct (path_eqb p (target_of w0 target s)) eqn:Q; [|exact F]. apply path_eqb_eq in Q. rewrite <- Q in O. unfold exists_at in O. rewrite F in O. discriminate (O eq_refl). }
      destruct (raised _); [exact F1|]. exact (IH _ F1). }
    rewrite (K sources w E') in E. congruence.
  - rewrite <- E'. rewrite <- E. symmetry. symmetry. apply (@cp_same rleb total number order order_any). intros s Hs Q. apply N. apply in_map_iff. exists s. auto.
Qed.
(** Whatever happens, only the places the sources go to can change, no source changes by being copied, and
    an existing file changes only with --overwrite. *)
Theorem cp_changes_only_targets overwrite target w sources o p :
  cp overwrite target w sources = Some o -> file (after o) p <> file w p ->
  (exists s, In s sources /\ p = goes_to w target s /\ p <> s) /\ (file w p <> None -> overwrite = true).
Proof.
  unfold Ship_model.cp. destruct (_ && _); [discriminate|]. intros [= <-]. exact (@cp_only rleb total number order order_any overwrite target sources w p).
Qed.
(** If the base names of the sources are different, every source is either complained about or copied, and
    a copy reads, from its own place, as the same corpus with the same bank files. *)
Theorem cp_copies overwrite target w sources :
  (forall p q, number p = number q -> p = q) ->
  isdir w target = true \/ List.length sources <= 1 ->
  NoDup (map (fun s => last s ""%string) sources) -> Forall (Forall component) sources ->
  (forall s st, In s sources -> read_corpus w s = Ok st -> complaint rleb overwrite w target s = [] ->
     let t := goes_to w target s in
     orderly st /\ presentable (removelast t) st /\ comparable w st /\ one_format st /\ isdir w t = false /\ isdir w (removelast t) = true) ->
  exists o, cp overwrite target w sources = Some o /\ raised o = None /\
    warnings o = flat_map (complaint rleb overwrite w target) sources /\
    forall s, In s sources -> complaint rleb overwrite w target s = [] ->
      exists st st', read_corpus w s = Ok st /\ read_corpus (after o) (goes_to w target s) = Ok st' /\ same_corpus st st'.
Proof.
  intros NI HD ND FC HC. unfold Ship_model.cp.
  match goal with |- context[if ?b then None else _] => assert (b = false) as -> end.
  { destruct HD as [-> |L]; [reflexivity|]. apply Bool.andb_false_iff. right. now apply Nat.ltb_ge. }
  eexists. split; [reflexivity|]. exact (@cp_done rleb total number NI order order_any overwrite target sources w HD ND FC HC).
Qed.
(** pgc_cp ends early exactly like this: at a source that is a corpus, either nothing is written, because two
    bank files cannot be compared (one of them is missing) or the target cannot be opened; or a bank has no
    format, and the target is left behind as a broken file.  The sources after it are not looked at. *)
Theorem cp_ends_early overwrite target w sources o e :
  cp overwrite target w sources = Some o -> raised o = Some e ->
  exists before s rest st, sources = before ++ s :: rest /\
    let w1 := after (cp_all rleb number order overwrite target w before) in let t := goes_to w target s in
    raised (cp_all rleb number order overwrite target w before) = None /\ read_corpus w1 s = Ok st /\
    ((e = OSError /\ after o = w1 /\ (~ comparable w1 st \/ isdir w t = true \/ isdir w (removelast t) = false)) \/
     (e = TypeError /\ file (after o) t = Some (Other "") /\ (forall p, p <> t -> file (after o) p = file w1 p) /\
      exists b p, in_use st b /\ bank_of st b = Some (p, None))).
Proof.
  unfold Ship_model.cp. destruct (_ && _); [discriminate|]. intros [= <-] E.
  destruct (@cp_stops rleb total number order order_any overwrite target sources w e E) as (b & s & r & -> & E1 & st & E2 & E3).
  exists b, s, r, st. split; [reflexivity|]. cbn zeta. split; [exact E1|]. split; [exact E2|].
  pose proof (@write_cases rleb number order order_any (after (cp_all rleb number order overwrite target w b)) st (target_of w target s) (read_inv rleb total _ _ _ E2)) as C.
  rewrite E3 in C. destruct e; try contradiction.
  - right. destruct C as (C1 & _ & _ & C4). split; [reflexivity|]. rewrite C1. split; [|split; [|exact C4]].
    + rewrite put_file. change (goes_to w target s) with (target_of w target s). now rewrite path_eqb_refl.
    + intros p N. rewrite put_file, path_neqb by exact N. reflexivity.
  - left. destruct C as [C1 C2]. split; [reflexivity|]. split; [exact C1|]. destruct C2 as [C2|C2]; [now left|right]. unfold can_open in C2.
    rewrite (@cp_isdir rleb total number order order_any) in C2. change (goes_to w target s) with (target_of w target s). change (removelast (target_of w target s)) with (dir_of (target_of w target s)).
    destruct (isdir w (target_of w target s)); [now left|right]. exact C2.
Qed.
(** Several sources need a directory. *)
Theorem cp_usage overwrite target w sources :
  cp overwrite target w sources = None <-> isdir w target = false /\ 1 < List.length sources.
Proof.
  unfold Ship_model.cp. destruct (isdir w target); cbn [negb andb]; [split; [discriminate|intros [H _]; discriminate]|].
  destruct (1 <? List.length sources) eqn:E; (split; [intros H|intros [_ H]]); try discriminate; auto.
  - apply Nat.ltb_lt in E. auto.
  - apply Nat.ltb_ge in E. lia.
Qed.
(** pgc_cp does not notice that a document is not a corpus: any document without the tags of the format (a
    graph bank, say) is "copied" as the empty corpus, without a complaint. *)
Theorem cp_takes_anything overwrite target w s e :
  file w s = Some (Xml e) -> plain e -> let t := goes_to w target s in
  exists_at w t = false -> isdir w (removelast t) = true ->
  exists o, cp overwrite target w [s] = Some o /\ warnings o = [] /\ raised o = None /\ file (after o) t = Some (Xml empty_corpus).
Proof.
  intros F P. cbn zeta. change (goes_to w target s) with (target_of w target s). intros X D. unfold Ship_model.cp. cbn [List.length]. rewrite Bool.andb_false_r.
  eexists. split; [reflexivity|]. cbn [cp_all]. 
  destruct (alien_parse rleb (dir_of s) e P) as (st & Ep & Er).
  assert (isdir w (target_of w target s) = false) as ND. { unfold exists_at in X. destruct (file w (target_of w target s)); [discriminate|exact X]. }
  assert (cp_one rleb number order overwrite target w s = {| after := put w (target_of w target s) (Xml empty_corpus); warnings := []; raised := None |}) as ->.
  { unfold cp_one. assert (exists_at w s = true) as -> by (unfold exists_at; now rewrite F). cbn [negb].
    unfold Ship_model.read_corpus. rewrite F, Ep, X. cbn [andb]. rewrite alien_write; [reflexivity|exact Er|]. unfold can_open. rewrite ND. exact D. }
  cbn [raised after warnings app]. split; [reflexivity|]. split; [reflexivity|]. now rewrite put_file, path_eqb_refl.
Qed.
End Cp.

(** A world given by a list of files and a list of directories. *)
Open Scope string_scope.
Definition world (l : list (path * content)) (ds : list path) : fs :=
  {| file := fun p => dget path_eqb l p; isdir := fun p => mem path_eqb p ds |}.
Definition gpc (id text from_id to_id : string) : elem :=
  Elem "parallel_graph_corpus" [] None
    [Elem "graphbanks" [] None [Elem "file" [("id", "1"); ("format", "alpino")] (Some text) []];
     Elem "node_relations" [] None [Elem "relation" [] (Some "equals") []];
     Elem "aligned_graphs" [] None
       [Elem "graph_pair" [("from_bank_id", "1"); ("to_bank_id", "1"); ("from_graph_id", from_id); ("to_graph_id", to_id)] None
          [Elem "graph_meta_data" [] None [Elem "note" [] (Some id) []];
           Elem "node_pair" [("from_node_id", "1"); ("to_node_id", "2"); ("relation", "equals")] None []]]].
Definition w1 : fs :=
  world [(["data"; "gb.xml"], Xml (Elem "treebank" [] None [])); (["data"; "one"; "c.pgc"], Xml (gpc "first" "../gb.xml" "a" "b"));
         (["data"; "two"; "c.pgc"], Xml (gpc "second" "../gb.xml" "c" "d")); (["data"; "two"; "d.pgc"], Xml (gpc "third" "/data/gb.xml" "e" "f"));
         (["data"; "bad.txt"], Other "rubbish")]
        [[]; ["data"]; ["data"; "one"]; ["data"; "two"]; ["out"]].
Definition le (x y : string) : bool := String.leb x y.
Lemma le_total x y : le x y = true \/ le y x = true.
Proof. apply String.leb_total. Qed.
(** Base names must be different: with --overwrite the second of two sources replaces the first, and
    nothing is said. *)
Definition cp_copies_all : Prop :=
  forall number order target w sources o, (forall p q, number p = number q -> p = q) -> (forall l, Permutation l (order l)) -> NoDup sources ->
    cp le number order true target w sources = Some o -> raised o = None -> warnings o = [] ->
    forall s, In s sources -> exists st st', read_corpus le w s = Ok st /\ read_corpus le (after o) (goes_to w target s) = Ok st' /\ same_corpus st st'.
Lemma w1_component x : existsb (String.eqb x) ["data"; "one"; "two"; "out"; "gb.xml"; "c.pgc"; "d.pgc"; "bad.txt"; "no.pgc"] = true -> component x.
Proof.
  intros H. apply existsb_exists in H as (y & Hy & E). apply String.eqb_eq in E as ->.
  repeat (destruct Hy as [<-|Hy]; [|]); try destruct Hy;
  (split; [discriminate|split; [discriminate|split; [discriminate|]]]);
  (intros a b H; do 9 (try (destruct a as [|? a]; cbn in H; [discriminate H|injection H as _ H])); destruct a; discriminate H).
Qed.
Ltac comps := repeat (apply Forall_cons; [|]); try apply Forall_nil; try (apply w1_component; reflexivity).
Lemma not_in_reserved t : existsb (String.eqb t) reserved = false -> ~ In t reserved.
Proof. intros H K. assert (existsb (String.eqb t) reserved = true) as Q; [|congruence]. apply existsb_exists. exists t. split; auto. apply String.eqb_refl. Qed.
Ltac good_corpus E :=
  vm_compute in E; injection E as <-; cbn zeta; split; [|split; [|split; [|split]]];
  [ split; [discriminate|split;
      [intros p [<-|[]]; cbn [kids p_meta]; repeat constructor; apply not_in_reserved; reflexivity
      |cbn; repeat constructor; discriminate]]
  | intros b (p & [<-|[]] & [->| ->]); exists ["data"; "gb.xml"], "alpino"; (split; [reflexivity|split; [discriminate|split; [reflexivity|discriminate]]])
  | intros a b p q f g (p1 & [<-|[]] & [->| ->]) (p2 & [<-|[]] & [->| ->]) [= <- <-] [= <- <-]; now left
  | intros a b p f g (p1 & [<-|[]] & [->| ->]) (p2 & [<-|[]] & [->| ->]) [= <- <-] [= <-]; reflexivity
  | split; reflexivity ].
Example ex_cp number order : (forall p q, number p = number q -> p = q) -> (forall l, Permutation l (order l)) ->
  exists o, cp le number order false ["out"] w1 [["data"; "one"; "c.pgc"]; ["data"; "no.pgc"]; ["data"; "bad.txt"]; ["data"; "two"; "d.pgc"]] = Some o /\
    raised o = None /\ warnings o = [Missing ["data"; "no.pgc"]; Invalid ["data"; "bad.txt"]] /\
    exists st st', read_corpus le w1 ["data"; "two"; "d.pgc"] = Ok st /\ read_corpus le (after o) ["out"; "d.pgc"] = Ok st' /\ same_corpus st st'.
Proof.
  intros NI OA.
  destruct (@cp_copies le le_total number order OA false ["out"] w1 [["data"; "one"; "c.pgc"]; ["data"; "no.pgc"]; ["data"; "bad.txt"]; ["data"; "two"; "d.pgc"]] NI) as (o & E1 & E2 & E3 & E4).
  - now left.
  - repeat constructor; cbn; intuition discriminate.
  - comps.
  - intros s st [<-|[<-|[<-|[<-|[]]]]] E C; try discriminate E.
    + good_corpus E.
    + good_corpus E.
  - exists o. split; [exact E1|]. split; [exact E2|]. split; [rewrite E3; reflexivity|]. apply E4; [cbn; auto|reflexivity].
Qed.
Theorem cp_copies_all_refuted : ~ cp_copies_all.
Proof.
  intros H. pose (sources := [["data"; "one"; "c.pgc"]; ["data"; "two"; "c.pgc"]]).
  pose (o := cp_all le numbering (fun l => l) true ["out"] w1 sources).
  destruct (H numbering (fun l => l) ["out"] w1 sources o numbering_inj (@Permutation_refl nat)) with (s := ["data"; "one"; "c.pgc"]) as (st & st' & E1 & E2 & S).
  - repeat constructor; cbn; intuition discriminate.
  - reflexivity.
  - vm_compute. reflexivity.
  - vm_compute. reflexivity.
  - now left.
  - vm_compute in E1. injection E1 as <-. vm_compute in E2. injection E2 as <-.
    destruct S as (_ & _ & _ & S). destruct (S 0 _ eq_refl) as (q & Eq & EG & _). cbn in Eq. injection Eq as <-. discriminate EG.
Qed.

Open Scope list_scope.
Section Zip.
Variable rleb : string -> string -> bool.
Hypothesis total : forall x y, rleb x y = true \/ rleb y x = true.
Variable order : list nat -> list nat.
Hypothesis order_any : forall l, Permutation l (order l).
Variable pleb : path -> path -> bool.
Hypothesis ptotal : forall x y, pleb x y = true \/ pleb y x = true.
Variable glob : string -> list path.
(** multiglob: all matches of all patterns (a file matched twice comes twice), sorted. *)
Theorem multiglob_correct patterns :
  Permutation (multiglob pleb glob patterns) (flat_map glob patterns) /\ Sorted (fun x y => pleb x y = true) (multiglob pleb glob patterns).
Proof. split; [apply multiglob_perm|now apply multiglob_sorted]. Qed.
(** glob: all matches of one pattern, sorted. *)
Theorem glob_correct pattern :
  Permutation (sorted_glob pleb glob pattern) (glob pattern) /\ Sorted (fun x y => pleb x y = true) (sorted_glob pleb glob pattern).
Proof.
  pose proof (multiglob_correct [pattern]) as H. unfold multiglob in H. cbn [flat_map] in H. rewrite app_nil_r in H. exact H.
Qed.
(** The archive holds exactly the corpora and the bank files in use, each in the archive directory under its
    base name with its contents. *)
Theorem zip_contents w z patterns es :
  pgc_zip rleb order pleb glob w z patterns = Ok es ->
  forall n x, In (n, x) es <-> exists f, packed rleb w (flat_map glob patterns) f /\ n = [stem (last z ""); last f ""] /\ x = file w f.
Proof. intros E. exact (proj2 (proj2 (@zip_entries rleb total order order_any pleb glob w z patterns es E))). Qed.
(** Packing succeeds exactly if all the files are corpora and all their bank files in use exist. *)
Theorem zip_succeeds_iff w z patterns :
  (exists es, pgc_zip rleb order pleb glob w z patterns = Ok es) <->
  (forall c, In c (flat_map glob patterns) -> exists st, read_corpus rleb w c = Ok st) /\
  (forall f, packed rleb w (flat_map glob patterns) f -> exists_at w f = true).
Proof.
  split.
  - intros [es E]. destruct (@zip_entries rleb total order order_any pleb glob w z patterns es E) as (H1 & H2 & _). auto.
  - intros [H1 H2]. now apply (@zip_ok rleb total order order_any).
Qed.
(** A corpus that is packed, unpacked anywhere and read with relax_gb_paths is the same corpus: same pairs,
    alignments, relations and meta data, and each bank in use is the unpacked copy of the original bank file.
    This holds if different packed files have different base names, and if at the new site nothing (else) is
    found at the places where the corpus says its banks are. *)
Theorem unpacked_corpus_reads w w0 z patterns es c e d :
  pgc_zip rleb order pleb glob w z patterns = Ok es -> In c (flat_map glob patterns) -> file w c = Some (Xml e) ->
  (forall f, packed rleb w (flat_map glob patterns) f -> file w f <> None) ->
  (forall f g, packed rleb w (flat_map glob patterns) f -> packed rleb w (flat_map glob patterns) g -> last f "" = last g "" -> f = g) ->
  let a := d ++ [stem (last z "")] in let w' := unzip w0 d es in
  (forall st b s, read_corpus rleb w c = Ok st -> in_use st b -> written_path e b s ->
     names_file s /\ (exists_at w' (resolve a s) = false \/ resolve a s = a ++ [last (resolve a s) ""])) ->
  exists st st', read_corpus rleb w c = Ok st /\ read_relaxed rleb w' (a ++ [last c ""]) = Ok st' /\ result st' = result st /\
    forall b, in_use st b -> exists p f, bank_of st b = Some (p, f) /\ bank_of st' b = Some (a ++ [last p ""], f) /\
      file w' (a ++ [last p ""]) = file w p.
Proof. apply (@unpacked rleb total order order_any). Qed.
End Zip.
(** Reading with and without relax_gb_paths is the same if all bank files are where the corpus says. *)
Theorem relaxed_reading_same rleb w s e :
  file w s = Some (Xml e) -> (forall x t, In x (files e) -> text x = Some t -> exists_at w (resolve (removelast s) (strip t)) = true) ->
  read_relaxed rleb w s = read_corpus rleb w s.
Proof.
  intros F H. unfold read_relaxed, read_corpus. rewrite F. unfold parse. apply parse_at_ext.
  intros x t Hx T. specialize (H x t Hx T). change (removelast s) with (dir_of s) in H. unfold locate_relaxed. cbn zeta. rewrite H. reflexivity.
Qed.
(** The directory in the archive: the name without its extension, where a name that only starts with dots
    has none. *)
Theorem archive_directory name : exists ext, name = (stem name ++ ext)%string /\
  (ext = "" \/ exists x, ext = ("." ++ x)%string /\ dotless x /\ ~ dots (stem name)) /\
  (ext = "" -> forall a x, name = (a ++ "." ++ x)%string -> dotless x -> dots a).
Proof.
  unfold stem. pose proof (last_dot_spec name) as H. destruct (last_dot name) as [n|].
  2:{ exists "". split; [now rewrite append_empty_r|]. split; [now left|]. intros _ a x E. now apply H in E. }
  destruct H as (a & b & -> & <- & N). rewrite substring_pre. cbn zeta. destruct (only_dots a) eqn:E.
  - exists "". split; [now rewrite append_empty_r|]. split; [now left|]. intros _ a' x E' N'. apply only_dots_spec.
    assert (a' = a) as ->; [|exact E]. clear E. revert a' E'. induction a as [|c a IH]; intros [|c' a'] E'; cbn in E'; auto.
    + injection E' as <- E'. exfalso. now apply (N a' x).
    + injection E' as -> E'. exfalso. apply (N' a b). now rewrite <- E'.
    + injection E' as <- E'. f_equal. now apply IH.
  - exists ("." ++ b)%string. split; [reflexivity|]. split; [|discriminate]. right. exists b. split; [reflexivity|]. split; [exact N|].
    intros D. apply only_dots_spec in D. congruence.
Qed.

(** Two packed files with the same base name: only the later one survives unpacking. *)
Definition ple (p q : path) : bool := le (String.concat "/" p) (String.concat "/" q).
Definition all_pgc (pattern : string) : list path := [["data"; "one"; "c.pgc"]; ["data"; "two"; "c.pgc"]; ["data"; "two"; "d.pgc"]].
Definition every_corpus_arrives : Prop :=
  forall w w0 z glob patterns es d c, pgc_zip le (fun l => l) ple glob w z patterns = Ok es -> NoDup (flat_map glob patterns) -> In c (flat_map glob patterns) ->
    file (unzip w0 d es) (d ++ [stem (last z ""); last c ""]) = file w c.
Theorem every_corpus_arrives_refuted : ~ every_corpus_arrives.
Proof.
  intros H. destruct (pgc_zip le (fun l => l) ple all_pgc w1 ["data"; "x.zip"] ["*"]) as [es|] eqn:E; [|vm_compute in E; discriminate E].
  specialize (H w1 w1 ["data"; "x.zip"] all_pgc ["*"] es ["out"] ["data"; "one"; "c.pgc"] E).
  assert (file (unzip w1 ["out"] es) ["out"; "x"; "c.pgc"] = Some (Xml (gpc "first" "../gb.xml" "a" "b"))) as K.
  { apply H; [|now left]. repeat constructor; cbn; intuition discriminate. }
  clear H. vm_compute in E. injection E as <-. vm_compute in K. discriminate K.
Qed.
(** At another site a file that happens to be where the corpus says is preferred to the unpacked bank. *)
Definition unpacked_bank_used : Prop :=
  forall w w0 z glob patterns es d c st' b p f, pgc_zip le (fun l => l) ple glob w z patterns = Ok es -> flat_map glob patterns = [c] ->
    read_relaxed le (unzip w0 d es) (d ++ [stem (last z ""); last c ""]) = Ok st' -> in_use st' b -> bank_of st' b = Some (p, f) ->
    removelast p = d ++ [stem (last z "")].
Definition other_site : fs := world [(["data"; "gb.xml"], Other "something else")] [[]; ["data"]; ["home"]].
Theorem unpacked_bank_used_refuted : ~ unpacked_bank_used.
Proof.
  intros H. pose (glob := fun _ : string => [["data"; "two"; "d.pgc"]]).
  destruct (pgc_zip le (fun l => l) ple glob w1 ["x.zip"] ["*"]) as [es|] eqn:E; [|vm_compute in E; discriminate E].
  specialize (H w1 other_site ["x.zip"] glob ["*"] es ["home"] ["data"; "two"; "d.pgc"]).
  destruct (read_relaxed le (unzip other_site ["home"] es) (["home"] ++ [stem (last ["x.zip"] ""); last ["data"; "two"; "d.pgc"] ""])) as [st'|] eqn:R.
  2:{ vm_compute in E. injection E as <-. vm_compute in R. discriminate R. }
  specialize (H st' 0 ["data"; "gb.xml"] (Some "alpino") E eq_refl eq_refl).
  assert (removelast ["data"; "gb.xml"] = ["home"; "x"]) as K; [|discriminate K].
  vm_compute in E. injection E as <-. vm_compute in R. injection R as <-. apply H; [|reflexivity].
  eexists. split; [left; reflexivity|]. now left.
Qed.
(** Overlapping patterns list a file twice. *)
Definition multiglob_no_repeats : Prop := forall glob patterns, (forall p, NoDup (glob p)) -> NoDup patterns -> NoDup (multiglob ple glob patterns).
Theorem multiglob_no_repeats_refuted : ~ multiglob_no_repeats.
Proof.
  intros H. specialize (H (fun _ => [["a"]]) ["a"; "*"]).
  assert (NoDup [["a"]; ["a"]]) as K.
  { apply H; [intros _; repeat constructor; intros []|repeat constructor; cbn; intuition discriminate]. }
  inversion K as [|? ? N _]. apply N. now left.
Qed.
(** A case that meets the hypotheses of unpacked_corpus_reads. *)
Definition two_pgc (pattern : string) : list path := [["data"; "one"; "c.pgc"]; ["data"; "two"; "d.pgc"]].
Definition new_site : fs := world [] [[]; ["home"]].
Lemma two_packed f : packed le w1 (flat_map two_pgc ["*"]) f -> In f [["data"; "one"; "c.pgc"]; ["data"; "two"; "d.pgc"]; ["data"; "gb.xml"]].
Proof.
  intros [[<-|[<-|[]]]|(c & e & st & b & x & [<-|[<-|[]]] & F & E & U & B)]; [now left|right; now left| |];
  vm_compute in F; injection F as <-; vm_compute in E; injection E as <-; destruct U as (p & [<-|[]] & [->| ->]); injection B as <- _; cbn; auto.
Qed.
Example ex_unpack :
  exists es st', pgc_zip le (fun l => l) ple two_pgc w1 ["tmp"; "my.corpora.zip"] ["*"] = Ok es /\
    read_relaxed le (unzip new_site ["home"] es) ["home"; "my.corpora"; "d.pgc"] = Ok st' /\ read_corpus le w1 ["data"; "two"; "d.pgc"] <> Err OSError /\
    bank_of st' 0 = Some (["home"; "my.corpora"; "gb.xml"], Some "alpino") /\
    file (unzip new_site ["home"] es) ["home"; "my.corpora"; "gb.xml"] = Some (Xml (Elem "treebank" [] None [])).
Proof.
  destruct (pgc_zip le (fun l => l) ple two_pgc w1 ["tmp"; "my.corpora.zip"] ["*"]) as [es|] eqn:E; [|vm_compute in E; discriminate E].
  assert (forall x y, ple x y = true \/ ple y x = true) as PT by (intros; apply le_total).
  destruct (@unpacked_corpus_reads le le_total (fun l => l) (@Permutation_refl nat) ple two_pgc w1 new_site ["tmp"; "my.corpora.zip"] ["*"] es
    ["data"; "two"; "d.pgc"] (gpc "third" "/data/gb.xml" "e" "f") ["home"] E) as (st & st' & R & R' & _ & B).
  - cbn; auto.
  - reflexivity.
  - intros f Hf. apply two_packed in Hf as [<-|[<-|[<-|[]]]]; discriminate.
  - intros f g Hf Hg. apply two_packed in Hf as [<-|[<-|[<-|[]]]]; apply two_packed in Hg as [<-|[<-|[<-|[]]]]; intros Q; try reflexivity; discriminate Q.
  - cbn zeta. intros st b s R U (x & t & N & T & <-). vm_compute in R. injection R as <-. destruct U as (p & [<-|[]] & [->| ->]);
    cbn in N; injection N as <-; injection T as <-; (split; [apply w1_component; reflexivity|left; vm_compute in E; injection E as <-; reflexivity]).
  - exists es, st'. split; [reflexivity|]. split; [exact R'|]. split; [rewrite R; discriminate|].
    assert (in_use st 0) as U. { vm_compute in R. injection R as <-. eexists. split; [left; reflexivity|now left]. }
    destruct (B 0 U) as (p & f & B1 & B2 & B3). assert (p = ["data"; "gb.xml"] /\ f = Some "alpino") as [-> ->].
    { vm_compute in R. injection R as <-. cbn in B1. injection B1 as <- <-. auto. }
    split; [exact B2|exact B3].
Qed.
(** and of cp_ends_early: the second bank file is missing *)
Definition gap : elem :=
  Elem "parallel_graph_corpus" [] None
    [Elem "graphbanks" [] None [Elem "file" [("id", "1"); ("format", "alpino")] (Some "../gb.xml") []; Elem "file" [("id", "2"); ("format", "alpino")] (Some "lost.xml") []];
     Elem "aligned_graphs" [] None [Elem "graph_pair" [("from_bank_id", "1"); ("to_bank_id", "2"); ("from_graph_id", "a"); ("to_graph_id", "b")] None []]].
Example ex_ends_early :
  option_map (fun o => (raised o, warnings o, file (after o) ["out"; "d.pgc"]))
    (cp le numbering (fun l => l) false ["out"] (put w1 ["data"; "one"; "gap.pgc"] (Xml gap)) [["data"; "one"; "gap.pgc"]; ["data"; "two"; "d.pgc"]]) =
  Some (Some OSError, [], None).
Proof. vm_compute. reflexivity. Qed.
Print Assumptions cp_keeps_existing.
Print Assumptions cp_changes_only_targets.
Print Assumptions cp_copies.
Print Assumptions cp_ends_early.
Print Assumptions cp_usage.
Print Assumptions cp_takes_anything.
Print Assumptions cp_copies_all_refuted.
Print Assumptions multiglob_correct.
Print Assumptions glob_correct.
Print Assumptions zip_contents.
Print Assumptions zip_succeeds_iff.
Print Assumptions unpacked_corpus_reads.
Print Assumptions relaxed_reading_same.
Print Assumptions archive_directory.
Print Assumptions every_corpus_arrives_refuted.
Print Assumptions unpacked_bank_used_refuted.
Print Assumptions multiglob_no_repeats_refuted.
