(** C46: changing the paths in corpora (bin/pgc_chdir.py, bin/ptc_chdir.py). *)
From Coq Require Import String.
From Verif Require Import Py PyLemmas Etree_spec Etree_model Etree_proof Chdir_spec Chdir_model Chdir_proof.
Open Scope string_scope. Open Scope list_scope. Open Scope nat_scope.

(** The change of one document is exactly that of its bank file names: it happens when every file
    element below the root has a text, and then the result is the one described. *)
Theorem chdir_exact : forall a b e,
  ((exists e', change_elem a b true e = Ok e') <-> forall d, In d (file_elems e) -> txt d <> None) /\
  (forall e', change_elem a b true e = Ok e' <-> rebased a b true e e') /\
  (forall x, change_elem a b true e = Err x -> x = AttributeError).
Proof.
  intros a b e. assert (K : forall e', change_elem a b true e = Ok e' -> Forall (fun d => txt d <> None) (files true e)).
  { intros e' E. destruct (has_txt_dec (files true e)) as [F|[d [I N]]]; [trivial|]. exfalso.
    exact (change_none a b e true d I N e' E). }
  split; [|split].
  - split.
    + intros [e' E]. apply K in E. rewrite Forall_forall in E. exact E.
    + intros H. eexists. apply change_ok. apply Forall_forall. exact H.
  - intros e'. split.
    + intros E. pose proof (K _ E) as F. rewrite (change_ok a b e true F) in E. injection E as <-. now apply reb_rebased.
    + intros R. assert (F : Forall (fun d => txt d <> None) (files true e)) by (eapply rebased_txt; eauto).
      rewrite (change_ok a b e true F). f_equal. eapply rebased_fun; [now apply reb_rebased|trivial].
  - intros x E. now apply change_err in E.
Qed.
(** Changing back restores the document exactly when no bank file already started with the new prefix
    without starting with the old one. *)
Theorem chdir_undo : forall a b e e1, change_elem a b true e = Ok e1 ->
  (change_elem b a true e1 = Ok e <-> forall d t, In d (file_elems e) -> txt d = Some t -> starts a t \/ ~ starts b t).
Proof.
  intros a b e e1 E. apply chdir_exact in E. assert (F : Forall (fun d => txt d <> None) (files true e)) by (eapply rebased_txt; eauto).
  assert (Q : e1 = reb a b true e) by (eapply rebased_fun; [exact E|now apply reb_rebased]). subst e1.
  rewrite (change_ok b a (reb a b true e) true) by (now apply reb_has). rewrite <- (reb_back a b e true F). split; [now injection 1|congruence].
Qed.
(** Without prefixes, or with the same prefix twice, nothing changes. *)
Theorem chdir_same : forall a e e', change_elem a a true e = Ok e' -> e' = e.
Proof.
  intros a e e' E. pose proof E as U. apply (chdir_undo a a) in U. destruct U as [_ U].
  apply chdir_exact in E. assert (F : Forall (fun d => txt d <> None) (files true e)) by (eapply rebased_txt; eauto).
  assert (Q : e' = reb a a true e) by (eapply rebased_fun; [exact E|now apply reb_rebased]). subst e'. apply reb_same.
Qed.
(** A test run changes no file, and a real run only the files given. *)
Theorem chdir_pgc_files : forall fs a b fns fn,
  fst (pgc_chdir fs true a b fns) = fs /\
  (~ In fn fns -> forall test, dget String.eqb (fst (pgc_chdir fs test a b fns)) fn = dget String.eqb fs fn).
Proof.
  intros fs a b fns fn. rewrite pgc_run. split; [apply run_test|]. intros N test. rewrite pgc_run. now apply run_other.
Qed.
(** After a run without error every file given, once, is its changed version. *)
Theorem chdir_pgc_run : forall fs fs' a b fns fn, NoDup fns -> pgc_chdir fs false a b fns = (fs', None) -> In fn fns ->
  exists e e', dget String.eqb fs fn = Some e /\ rebased a b true e e' /\ dget String.eqb fs' fn = Some e'.
Proof.
  intros fs fs' a b fns fn N E I. rewrite pgc_run in E. destruct (run_ok _ _ _ _ _ N E fn I) as [e [e' [A [B C]]]].
  exists e, e'. apply chdir_exact in B. auto.
Qed.
(** A run stops at the first file that is missing or cannot be changed; the files before it have been
    written, the others have not. *)
Theorem chdir_pgc_stops : forall fs fs' x a b fns, NoDup fns -> pgc_chdir fs false a b fns = (fs', Some x) ->
  exists done fn rest, fns = done ++ fn :: rest /\
    (forall f, In f done -> exists e e', dget String.eqb fs f = Some e /\ rebased a b true e e' /\ dget String.eqb fs' f = Some e') /\
    (forall f, ~ In f done -> dget String.eqb fs' f = dget String.eqb fs f) /\
    (x = OSError /\ dget String.eqb fs fn = None \/
     x = AttributeError /\ exists e d, dget String.eqb fs fn = Some e /\ In d (file_elems e) /\ txt d = None).
Proof.
  intros fs fs' x a b fns N E. rewrite pgc_run in E. destruct (run_stop _ _ _ _ _ _ N E) as [dn [fn [rest [Q [D [O B]]]]]].
  exists dn, fn, rest. split; [trivial|]. split; [|split; [trivial|]].
  - intros f I. destruct (D f I) as [e [e' [X [Y Z]]]]. exists e, e'. apply chdir_exact in Y. auto.
  - destruct B as [B|[e [B C]]]; [now left|right]. destruct (change_err _ _ _ _ _ C) as [-> [d [I T]]]. split; [trivial|]. exists e, d. auto.
Qed.
(** The prefix is compared as text, not as a directory: ../gb also changes files in ../gb2. *)
Theorem chdir_directory_refuted : exists a b t t',
  ~ (t = a \/ exists r, t = a ++ 47%N :: r) /\ change_text a b (Some t) = Ok (Some t') /\ t' <> t.
Proof.
  exists [46;46;47;103;98]%N, [120]%N, [46;46;47;103;98;50;47;102]%N, [120;50;47;102]%N.
  split; [intros [H|[r H]]; discriminate|]. split; [reflexivity|discriminate].
Qed.

(** Texts: the new path is the last component, without drive letter, in the new directory; this fails
    only for an empty path and for a single capital letter. *)
Theorem chdir_new_path : forall dir p,
  (forall q, new_path dir p = Ok q <-> (p <> [] /\ (forall c, p = [c] -> ~ drive c)) /\
     exists u b, without_drive p u /\ last_component u b /\ in_dir dir b q) /\
  (forall x, new_path dir p = Err x <-> x = IndexError /\ (p = [] \/ exists c, p = [c] /\ drive c)).
Proof.
  intros dir p. assert (D : (p <> [] /\ (forall c, p = [c] -> ~ drive c)) \/ (p = [] \/ exists c, p = [c] /\ drive c)) by apply path_dec.
  assert (X : ~ ((p <> [] /\ (forall c, p = [c] -> ~ drive c)) /\ (p = [] \/ exists c, p = [c] /\ drive c))).
  { intros [[A B] [C|[c [C E]]]]; [tauto|exact (B c C E)]. }
  destruct D as [[D1 D2]|D].
  - rewrite (new_path_ok dir p D2 D1). split.
    + intros q. split.
      * injection 1 as <-. split; [auto|]. exists (undrive p), (basename (norm (undrive p))). split; [apply undrive_ok|]. split; [apply last_comp|apply join_in_dir].
      * intros [_ [u [b [A [B C]]]]]. f_equal. assert (u = undrive p) by (eapply without_drive_fun; [exact A|apply undrive_ok]). subst u.
        assert (b = basename (norm (undrive p))) by (eapply last_component_fun; [exact B|apply last_comp]). subst b.
        eapply in_dir_fun; [apply join_in_dir|exact C].
    + intros x. split; [discriminate|]. intros [_ B]. exfalso. apply X. auto.
  - rewrite (new_path_err dir p D). split.
    + intros q. split; [discriminate|]. intros [B _]. exfalso. apply X. auto.
    + intros x. split; [injection 1 as <-; auto|intros [-> _]; reflexivity].
Qed.

(** Doing it twice is the same as doing it once, for every directory given. *)
Theorem chdir_new_path_idempotent : forall dir p q, dir <> [] -> new_path dir p = Ok q -> new_path dir q = Ok q.
Proof.
  intros dir p q D E. apply chdir_new_path in E. destruct E as [_ [u [b [_ [[F _] J]]]]].
  rewrite (in_dir_fun _ _ _ _ J (join_in_dir dir b)). now apply new_path_again.
Qed.
(** Not for the default directory, none: the second time the name itself loses a drive letter, or
    there is an error. *)
Theorem chdir_new_path_idempotent_refuted :
  (exists p q r, new_path [] p = Ok q /\ new_path [] q = Ok r /\ r <> q) /\
  (exists p q, new_path [] p = Ok q /\ new_path [] q = Err IndexError).
Proof.
  split.
  - exists [47;67;58;102]%N, [67;58;102]%N, [102]%N. repeat split; try reflexivity. discriminate.
  - exists [47;65]%N, [65]%N. split; reflexivity.
Qed.
(** A test run changes no file, and a real run only the files given. *)
Theorem chdir_ptc_files : forall fs dir fns fn,
  fst (ptc_chdir fs true dir fns) = fs /\
  (~ In fn fns -> forall test, dget String.eqb (fst (ptc_chdir fs test dir fns)) fn = dget String.eqb fs fn).
Proof.
  intros fs dir fns fn. rewrite ptc_run. split; [apply run_test|]. intros N test. rewrite ptc_run. now apply run_other.
Qed.
(** After a run without error every file given, once, has its two new paths. *)
Theorem chdir_ptc_run : forall fs fs' dir fns fn, NoDup fns -> ptc_chdir fs false dir fns = (fs', None) -> In fn fns ->
  exists s t s0 t0 s' t', dget String.eqb fs fn = Some (s, t) /\ trimmed s s0 /\ trimmed t t0 /\
    new_path dir s0 = Ok s' /\ new_path dir t0 = Ok t' /\ dget String.eqb fs' fn = Some (s', t').
Proof.
  intros fs fs' dir fns fn N E I. rewrite ptc_run in E. destruct (run_ok _ _ _ _ _ N E fn I) as [[s t] [e' [A [B C]]]].
  unfold change_doc in B. cbn [fst snd] in B. destruct (new_path dir (strip s)) as [s'|] eqn:S; [|discriminate]. cbn [bind] in B.
  destruct (new_path dir (strip t)) as [t'|] eqn:T; [|discriminate]. injection B as <-.
  exists s, t, (strip s), (strip t), s', t'. repeat split; trivial; apply strip_trimmed.
Qed.
(** A run that stops has written the files before the one that failed, and no other. *)
Theorem chdir_ptc_stops : forall fs fs' x dir fns, NoDup fns -> ptc_chdir fs false dir fns = (fs', Some x) ->
  exists done fn rest, fns = done ++ fn :: rest /\ (forall f, ~ In f done -> dget String.eqb fs' f = dget String.eqb fs f) /\
    (x = OSError /\ dget String.eqb fs fn = None \/
     x = IndexError /\ exists s t p q, dget String.eqb fs fn = Some (s, t) /\ (p = s \/ p = t) /\ trimmed p q /\
       (q = [] \/ exists c, q = [c] /\ drive c)).
Proof.
  intros fs fs' x dir fns N E. rewrite ptc_run in E. destruct (run_stop _ _ _ _ _ _ N E) as [dn [fn [rest [Q [_ [O B]]]]]].
  exists dn, fn, rest. split; [trivial|]. split; [trivial|]. destruct B as [B|[[s t] [B C]]]; [now left|right].
  unfold change_doc in C. cbn [fst snd] in C. destruct (new_path dir (strip s)) as [s'|y] eqn:S; cbn [bind] in C.
  - destruct (new_path dir (strip t)) as [t'|y] eqn:T; [discriminate|]. injection C as ->. apply chdir_new_path in T. destruct T as [-> T].
    split; [reflexivity|]. exists s, t, t, (strip t). split; [trivial|]. split; [auto|]. split; [apply strip_trimmed|trivial].
  - injection C as ->. apply chdir_new_path in S. destruct S as [-> S].
    split; [reflexivity|]. exists s, t, s, (strip s). split; [trivial|]. split; [auto|]. split; [apply strip_trimmed|trivial].
Qed.

(** Cases that meet the hypotheses. *)
Definition fl (t : text) : node := Node "file" (Some t) None [] [].
Definition doc : node := Node "parallel_graph_corpus" None None [] [Node "graphbanks" None None [] [fl [97;47;120]%N; fl [98;47;121]%N]; fl [97]%N].
Example doc_changed : change_elem [97]%N [99;47]%N true doc =
  Ok (Node "parallel_graph_corpus" None None [] [Node "graphbanks" None None [] [fl [99;47;47;120]%N; fl [98;47;121]%N]; fl [99;47]%N]).
Proof. reflexivity. Qed.
Example doc_undone : forall d t, In d (file_elems doc) -> txt d = Some t -> starts [97]%N t \/ ~ starts [99;47]%N t.
Proof. intros d t [<-|[<-|[<-|[]]]] E; injection E as <-; [left; eexists; reflexivity|right; intros [r E]; discriminate|left; exists []; reflexivity]. Qed.
Example doc_not_undone : exists e, change_elem [97]%N [98]%N true doc = Ok e /\ change_elem [98]%N [97]%N true e <> Ok doc.
Proof. eexists. split; [reflexivity|]. discriminate. Qed.
Example run_doc : exists fs, pgc_chdir [("f", doc); ("g", doc)] false [97]%N [99]%N ["g"; "f"] = (fs, None).
Proof. eexists. reflexivity. Qed.
Example run_doc_stops : exists fs, pgc_chdir [("f", doc); ("g", Node "x" None None [] [Node "file" None None [] []])] false [97]%N [99]%N ["f"; "g"] = (fs, Some AttributeError).
Proof. eexists. reflexivity. Qed.
Example windows : new_path [100]%N [67;58;92;97;92;98]%N = Ok [100;47;98]%N.
Proof. reflexivity. Qed.
Example run_ptc : exists fs, ptc_chdir [("f", ([32;97;47;98], [98;10]))%N] false [100]%N ["f"] = (fs, None).
Proof. eexists. reflexivity. Qed.
Example run_ptc_stops : exists fs, ptc_chdir [("f", ([32;97;47;98], [65;10]))%N] false [100]%N ["f"] = (fs, Some IndexError).
Proof. eexists. reflexivity. Qed.

Print Assumptions chdir_exact.
Print Assumptions chdir_undo.
Print Assumptions chdir_same.
Print Assumptions chdir_pgc_files.
Print Assumptions chdir_pgc_run.
Print Assumptions chdir_pgc_stops.
Print Assumptions chdir_directory_refuted.
Print Assumptions chdir_new_path.
Print Assumptions chdir_new_path_idempotent.
Print Assumptions chdir_new_path_idempotent_refuted.
Print Assumptions chdir_ptc_files.
Print Assumptions chdir_ptc_run.
Print Assumptions chdir_ptc_stops.
