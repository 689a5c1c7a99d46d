(** The settings of a Hitaext document (lib/daeso/ptc/document.py 37-187). *)
From Coq Require Import String Ascii.
From Verif Require Import Py PyLemmas PgcXml_model PgcXml_proof Settings_spec Settings_model Settings_proof.
Import ListNotations.
Set Implicit Arguments.
Open Scope string_scope.
Open Scope nat_scope.
Open Scope list_scope.

(** Every operation does what it is meant to do to the settings of its side, and leaves everything else in
    the document as it is; only changing the attribute of a tag that is not there fails. *)
Theorem operation_correct o doc d d' : shows doc d -> meant d o d' ->
  exists doc', exec o doc = Ok doc' /\ shows doc' d' /\ outline doc' = outline doc.
Proof.
  intros H M. destruct (exec_good o H) as [(d1 & M' & G)|[N _]]; [|now apply N in M]. rewrite (meant_fun M M'). exact G.
Qed.
Theorem operation_fails_iff o doc d e : shows doc d ->
  exec o doc = Err e <-> e = AttributeError /\ exists s t k v, o = SetElem s t k v /\ ~ In t (map fst (s_elems (side_of d s))).
Proof. apply exec_fails. Qed.
(** A new document has no settings; after any sequence of operations it shows what they have set. *)
Theorem new_document ex : construct ex None None = Ok (empty_document, "") /\ shows empty_document (no_settings (Elem "alignment" [] None [])).
Proof. split; [reflexivity|exact template_shows]. Qed.
Theorem history_correct os d : history (no_settings (Elem "alignment" [] None [])) os d ->
  exists doc, execs os empty_document = Ok doc /\ shows doc d /\ outline doc = outline empty_document.
Proof. change empty_document with template. apply execs_good, template_shows. Qed.
(** Without the side in the document, everything about that side raises an AttributeError. *)
Theorem missing_side ex own doc s : lacks doc s ->
  (forall b, get_filename ex own doc s b = Err AttributeError) /\ get_pseudo_root doc s = Err AttributeError /\
  (forall a, get_tags doc s a = Err AttributeError) /\ get_pseudo_root_tags doc s = Err AttributeError /\
  get_elem_tags doc s = Err AttributeError /\ get_elem_dict doc s = Err AttributeError /\ (forall t, get_elem doc s t = None) /\
  (forall o, about o = s -> exec o doc = Err AttributeError).
Proof.
  intros H. unfold get_filename, get_pseudo_root, get_tags, get_pseudo_root_tags, get_elem_tags, get_elem_dict, get_elem, found, filename_path, elements_path.
  cbn [app]. rewrite !find_lacks by exact H. repeat (split; [now intros|]). split.
  - intros t. now rewrite find_lacks.
  - intros o <-. now apply exec_lacks.
Qed.
(** What the methods for reading give. *)
Theorem filename_is ex own doc d s : shows doc d ->
  (s_name (side_of d s) = None /\ get_filename ex own doc s false = Err AttributeError) \/
  (exists x t, s_name (side_of d s) = Some x /\ trimmed x t /\ get_filename ex own doc s false = Ok t).
Proof.
  intros H. rewrite (filename_ok ex own s false H). destruct (s_name (side_of d s)) as [x|]; [right|left; auto].
  exists x, (strip x). auto using strip_trimmed.
Qed.
Theorem root_and_tags_are doc d s : shows doc d ->
  get_pseudo_root doc s = Ok (s_root (side_of d s)) /\ get_elem_tags doc s = Ok (map fst (s_elems (side_of d s))).
Proof. intros H. split; [now apply root_ok|now apply elem_tags_ok]. Qed.
Theorem tags_with_are doc d s a : shows doc d -> exists l, get_tags doc s a = Ok (map fst l) /\
  (exists keep, l = filter keep (s_elems (side_of d s)) /\ forall x, keep x = true <-> value (snd x) a = Some "True").
Proof.
  intros H. destruct (tags_ok s a H) as (l & -> & ->). eexists. split; [reflexivity|]. eexists. split; [reflexivity|].
  intros x. cbn beta. destruct (value (snd x) a) as [v|]; split; try discriminate.
  - intros E. apply String.eqb_eq in E. now subst.
  - intros [= ->]. reflexivity.
Qed.
Theorem pseudo_root_tags_are doc d s : shows doc d -> exists l, get_pseudo_root_tags doc s = Ok (map fst l) /\
  (exists keep, l = filter keep (s_elems (side_of d s)) /\ forall x, keep x = true <-> value (snd x) "uniq" = Some "True").
Proof. apply tags_with_are. Qed.
(** get_elem gives the first element with the tag, get_elem_dict the last. *)
Theorem elem_is_first doc d s t : shows doc d ->
  option_map (fun e => (tag e, attrib e)) (get_elem doc s t) = List.find (fun x => String.eqb (fst x) t) (s_elems (side_of d s)).
Proof. apply get_elem_ok. Qed.
Theorem elem_dict_has_last doc d s : shows doc d -> exists m, get_elem_dict doc s = Ok m /\ NoDup (map fst m) /\
  (forall t, option_map (fun e => (tag e, attrib e)) (dget String.eqb m t) = List.find (fun x => String.eqb (fst x) t) (rev (s_elems (side_of d s)))) /\
  (forall t, In t (map fst m) <-> In t (map fst (s_elems (side_of d s)))).
Proof. apply dict_ok. Qed.
(** With search, the first that exists of: the name as it stands, the name in the directory of the
    document, and the document itself. *)
Theorem search_is ex own dir doc d s x t q p : shows doc d -> directory own dir -> s_name (side_of d s) = Some x -> trimmed x t -> beside own t q ->
  first_existing ex t [t; q; own] p -> get_filename ex own doc s true = Ok p.
Proof.
  intros H D N T B F. rewrite (filename_ok ex own s true H), N, <- (trimmed_strip T), (own_ok D), (beside_ok B (ex_intro _ dir D)).
  now apply first_ok'.
Qed.
(** The comment in the code promises that the file is found when it has been moved to the directory of the
    document.  It is not: the document itself is returned. *)
Theorem search_same_directory_refuted : exists ex own doc d x,
  shows doc d /\ s_name (v_from d) = Some x /\ directory own "here" /\ x = "old/text.xml" /\
  ex "here/text.xml" = true /\ ex own = true /\ ex x = false /\ ex "here/old/text.xml" = false /\
  get_filename ex own doc From true = Ok own.
Proof.
  exists (fun p => String.eqb p "here/text.xml" || String.eqb p "here/doc.xml"), "here/doc.xml".
  destruct (@history_correct [SetFilename From "old/text.xml"] (change (no_settings (Elem "alignment" [] None [])) From (with_name "old/text.xml"))) as (doc & E & S1 & _).
  { econstructor; [constructor|constructor]. }
  exists doc, (change (no_settings (Elem "alignment" [] None [])) From (with_name "old/text.xml")), "old/text.xml". split; [exact S1|]. split; [reflexivity|]. split.
  { apply (@directory_some "here" "doc.xml"); [discriminate| |].
    - intros r K. assert (ends_slash "here" = true) as K' by (apply ends_spec; eauto). discriminate.
    - intros a b K. destruct a as [|? [|? [|? [|? [|? [|? [|? [|? ?]]]]]]]]; discriminate. }
  split; [reflexivity|]. repeat (split; [reflexivity|]). injection E as <-. reflexivity.
Qed.
(** A document is accepted by the constructor exactly if both sides have a file name that is not just white
    space; a file takes precedence over an element. *)
Theorem accepted_iff ex element n r d : n <> "" -> shows r d ->
  construct ex element (Some (n, r)) = Ok (r, n) <-> named (v_from d) /\ named (v_to d).
Proof.
  intros N H. apply String.eqb_neq in N. unfold construct. rewrite N. rewrite <- (validate_iff ex "" H).
  destruct (validate ex "" r) as [[]|?]; cbn [bind]; split; congruence || discriminate.
Qed.
Theorem element_accepted_iff ex e d : shows e d -> construct ex (Some e) None = Ok (e, "") <-> named (v_from d) /\ named (v_to d).
Proof.
  intros H. unfold construct. rewrite <- (validate_iff ex "" H).
  assert (truth e = true) as ->. { destruct H as ((x & _ & _ & _ & A & _) & _). unfold only, truth in *. destruct (kids e); [discriminate|auto]. }
  destruct (validate ex "" e) as [[]|?]; cbn [bind]; split; congruence || discriminate.
Qed.
(** A missing name gives an AttributeError, a blank one an AssertionError. *)
Theorem refused_how ex element n r d e : n <> "" -> shows r d -> construct ex element (Some (n, r)) = Err e ->
  (e = AttributeError /\ (s_name (v_from d) = None \/ s_name (v_to d) = None)) \/
  (e = AssertionError /\ exists s x, s_name (side_of d s) = Some x /\ trimmed x "").
Proof.
  intros N H. apply String.eqb_neq in N. unfold construct. rewrite N, (validate_ok ex "" H).
  destruct (s_name (v_from d)) as [x|] eqn:F; cbn [bind]; [|intros [= <-]; auto].
  destruct (String.eqb (strip x) "") eqn:X; cbn [bind].
  { intros [= <-]. right. split; auto. apply String.eqb_eq in X. exists From, x. rewrite <- X. auto using strip_trimmed. }
  destruct (s_name (v_to d)) as [y|] eqn:T; cbn [bind]; [|intros [= <-]; auto].
  destruct (String.eqb (strip y) "") eqn:Y; cbn [bind]; [|discriminate].
  intros [= <-]. right. split; auto. apply String.eqb_eq in Y. exists To, y. rewrite <- Y. auto using strip_trimmed.
Qed.
(** So a new document that has been written cannot be read, *)
Theorem new_document_reads_refuted ex n : n <> "" -> construct ex None (Some (n, reread empty_document)) = Err AttributeError.
Proof. intros N. apply String.eqb_neq in N. unfold construct. now rewrite N. Qed.
(** and an element without children is not refused but replaced by a new document. *)
Theorem empty_element_refused_refuted ex t a x : construct ex (Some (Elem t a x [])) None = Ok (empty_document, "").
Proof. reflexivity. Qed.
(** Writing a document and reading it again keeps its settings, except for an empty file name. *)
Theorem settings_read_back doc d : shows doc d ->
  shows (reread doc) {| v_from := read_back (v_from d); v_to := read_back (v_to d); v_align := option_map reread (v_align d) |}.
Proof. apply reread_shows. Qed.

(** Non-vacuity: a document set up as in document.py 354-362. *)
Definition tree : elem := Elem "text" [] None [Elem "p" [] (Some "One") []; Elem "p" [] (Some "Two") []; Elem "title" [] None []].
Definition steps : list op := [SetFilename From "a.xml"; InitElems From tree; SetFilename To " b.xml "; InitElems To tree; SetElem From "p" "blankline" "True"].
Definition result : elem := match execs steps empty_document with Ok d => d | Err _ => empty_document end.
Example ex_history : exists d, history (no_settings (Elem "alignment" [] None [])) steps d /\ shows result d /\
  s_root (v_from d) = Some "text" /\ map fst (s_elems (v_from d)) = ["text"; "p"; "title"] /\
  get_pseudo_root_tags result From = Ok ["text"; "title"] /\ get_tags result From "blankline" = Ok ["p"] /\ get_tags result To "blankline" = Ok [] /\
  get_filename (fun _ => false) "" result To false = Ok "b.xml".
Proof.
  assert (exists d, history (no_settings (Elem "alignment" [] None [])) steps d /\ s_root (v_from d) = Some "text" /\ map fst (s_elems (v_from d)) = ["text"; "p"; "title"])
    as (d & H & A & B).
  { eexists. split; [|split].
    - unfold steps. econstructor; [constructor|]. econstructor; [constructor|]. econstructor; [constructor|]. econstructor; [constructor|].
      econstructor; [|constructor]. constructor. cbn. apply set_first_later; [discriminate|]. apply set_first_here.
    - reflexivity.
    - reflexivity. }
  exists d. destruct (history_correct H) as (doc & E & S1 & _). assert (result = doc) as -> by (unfold result; now rewrite E).
  split; [exact H|]. split; [exact S1|]. split; [exact A|]. split; [exact B|].
  assert (result = doc) as <- by (unfold result; now rewrite E). repeat split; vm_compute; reflexivity.
Qed.
(** Setting the tags up a second time gives every tag twice. *)
Example ex_twice : match execs [InitElems From tree; InitElems From tree] template with
  | Ok d => get_elem_tags d From | Err e => Err e end = Ok ["text"; "p"; "title"; "text"; "p"; "title"].
Proof. vm_compute. reflexivity. Qed.
Example ex_lacks : lacks (Elem "hitaext" [] None [empty_half "from"]) To. Proof. intros [K|[]]. discriminate. Qed.
Example ex_refused : exec (SetElem From "p" "skip" "True") template = Err AttributeError. Proof. reflexivity. Qed.
Example ex_accepted : construct (fun _ => false) None (Some ("d.xml", reread result)) = Ok (reread result, "d.xml"). Proof. vm_compute. reflexivity. Qed.
Example ex_search : get_filename (fun p => String.eqb p "x/y/a.xml") "x/y/d.xml" result From true = Ok "x/y/a.xml". Proof. vm_compute. reflexivity. Qed.
Print Assumptions operation_correct.
Print Assumptions operation_fails_iff.
Print Assumptions new_document.
Print Assumptions history_correct.
Print Assumptions missing_side.
Print Assumptions filename_is.
Print Assumptions root_and_tags_are.
Print Assumptions tags_with_are.
Print Assumptions pseudo_root_tags_are.
Print Assumptions elem_is_first.
Print Assumptions elem_dict_has_last.
Print Assumptions search_is.
Print Assumptions search_same_directory_refuted.
Print Assumptions accepted_iff.
Print Assumptions element_accepted_iff.
Print Assumptions refused_how.
Print Assumptions new_document_reads_refuted.
Print Assumptions empty_element_refused_refuted.
Print Assumptions settings_read_back.
