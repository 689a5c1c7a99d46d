From Coq Require Import String Ascii Permutation Sorted.
From Verif Require Import Py PyLemmas Purge_spec Purge_model Purge_proof Corpus_model Corpus_proof Align_model Align_spec Align_proof PgcXml_model PgcXml_spec PgcXml_proof Ship_model Ship_spec.
Import ListNotations.
Open Scope list_scope.

(** ** white space *)
Lemma lstrip_idem l : lstrip (lstrip l) = lstrip l.
Proof. induction l as [|c l IH]; auto. cbn. destruct (is_space c) eqn:E; auto. cbn. now rewrite E. Qed.
Lemma lstrip_suffix l : exists a, l = a ++ lstrip l.
Proof. induction l as [|c l [a E]]; [now exists []|]. cbn. destruct (is_space c); [exists (c :: a); cbn; now f_equal|now exists []]. Qed.
Definition first_ok (l : list ascii) : Prop := match l with c :: _ => is_space c = false | [] => True end.
Lemma lstrip_ok l : first_ok (lstrip l).
Proof. induction l as [|c l IH]; cbn; auto. destruct (is_space c) eqn:E; auto. Qed.
Lemma lstrip_id l : first_ok l -> lstrip l = l.
Proof. destruct l as [|c l]; cbn; auto. now intros ->. Qed.
Lemma strip_idem s : strip (strip s) = strip s.
Proof.
  unfold strip. rewrite list_ascii_of_string_of_list_ascii. f_equal. set (m := lstrip (list_ascii_of_string s)).
  assert (first_ok (rev (lstrip (rev m)))) as F.
  { destruct (lstrip_suffix (rev m)) as [a E]. assert (m = rev (lstrip (rev m)) ++ rev a) as E'.
    { rewrite <- rev_app_distr, <- E. now rewrite rev_involutive. }
    pose proof (lstrip_ok (list_ascii_of_string s)) as O. fold m in O. rewrite E' in O.
    destruct (rev (lstrip (rev m))) as [|c r]; [exact I|exact O]. }
  rewrite (lstrip_id _ F), rev_involutive, lstrip_idem. reflexivity.
Qed.

(** ** paths *)
Lemma split_pieces s : Forall slashfree (split_path s) /\ split_path s <> [].
Proof.
  induction s as [|c s [IH N]]; cbn [split_path].
  - split; [|discriminate]. repeat constructor. intros [|x a] b H; discriminate H.
  - destruct (c =? "/")%char eqn:E.
    + split; [|discriminate]. constructor; auto. intros [|x a] b H; discriminate H.
    + destruct (split_path s) as [|x l]; [congruence|]. split; [|discriminate].
      inversion IH as [|? ? Hx Hl]; subst. constructor; auto.
      intros [|y a] b H; cbn in H; injection H as H1 H2.
      * subst c. discriminate E.
      * apply (Hx a b). exact H2.
Qed.
Lemma normal_components l : forall st, Forall component st -> Forall slashfree l -> Forall component (normal st l).
Proof.
  induction l as [|x l IH]; intros st Hst H; cbn [normal]; [now apply Forall_rev|].
  inversion H as [|? ? Hx Hl]; subst. destruct (String.eqb x "" || String.eqb x ".") eqn:E1; [now apply IH|].
  destruct (String.eqb x "..") eqn:E2.
  - apply IH; auto. destruct st; cbn; auto. now inversion Hst.
  - apply IH; auto. constructor; auto. apply Bool.orb_false_iff in E1 as [E0 E1].
    apply String.eqb_neq in E0, E1, E2. do 3 (split; [assumption|]). exact Hx.
Qed.
Lemma resolve_components dir s : Forall component dir -> Forall component (resolve dir s).
Proof.
  intros H. unfold resolve. apply normal_components; [|apply split_pieces]. destruct (isabs s); [constructor|now apply Forall_rev].
Qed.

(** ** what parsing guarantees *)
Section Inv.
Variable rleb : string -> string -> bool.
Variable locate : string -> path.
Notation events := (events rleb locate).
Notation on_end := (on_end rleb locate).
Definition go_list : list elem -> pstate -> res pstate := fix go (l : list elem) (s : pstate) : res pstate :=
  match l with [] => Ok s | k :: l' => s' <- events k s ;; go l' s' end.
Lemma events_eq e s : events e s = (s1 <- on_start s e ;; s2 <- go_list (kids e) s1 ;; on_end s2 e).
Proof. destruct e; reflexivity. Qed.
Lemma events_keep (I : pstate -> Prop) :
  (forall s e s', I s -> on_start s e = Ok s' -> I s') -> (forall s e s', I s -> on_end s e = Ok s' -> I s') ->
  forall e s s', I s -> events e s = Ok s' -> I s'.
Proof.
  intros HS HE. induction e as [t a x k IH] using elem_rect'. intros s s' Hs E. rewrite events_eq in E.
  destruct (on_start s (Elem t a x k)) as [s1|?] eqn:E1; [|discriminate]. cbn [bind kids] in E.
  destruct (go_list k s1) as [s2|?] eqn:E2; [|discriminate]. cbn [bind] in E.
  refine (HE s2 _ s' _ E). apply HS in E1; auto. clear - E1 E2 IH. revert s1 E1 E2.
  induction k as [|y k IHk]; intros s1 H E; cbn [go_list] in E; [injection E as <-; auto|].
  destruct (events y s1) as [s'|?] eqn:Ey; [|discriminate]. cbn [bind] in E. inversion IH as [|? ? Hy Hk]; subst.
  refine (IHk Hk s' _ E). exact (Hy s1 s' H Ey).
Qed.
End Inv.
Record pinv (rleb : string -> string -> bool) (s : pstate) : Prop := {
  i_meta : forall m, c_meta (result s) = Some m -> tag m = "corpus_meta_data"%string;
  i_pair_meta : forall p, In p (c_pairs (result s)) -> tag (p_meta p) = "graph_meta_data"%string;
  i_rel : Forall (fun r => strip r = r) (relations s);
  i_rels : Forall (fun r => strip r = r) (c_rels (result s)) /\ Sorted (fun x y => rleb x y = true) (c_rels (result s));
  i_align : forall p, In p (c_pairs (result s)) -> exists ops, p_align p = run_matching String.eqb (empty_digraph string string) ops;
  i_banks : forall p, In p (c_pairs (result s)) -> fst (p_banks p) < List.length (banks s) /\ snd (p_banks p) < List.length (banks s)
}.
Lemma bank_no_lt l i n : bank_no l i = Some n -> n < List.length l.
Proof.
  revert n. induction l as [|[j x] l IH]; intros n E; cbn [bank_no] in E; [discriminate|].
  destruct (opt_eqb (Some i) j); [injection E as <-; cbn; auto with arith|].
  destruct (bank_no l i) as [m|]; [|discriminate]. injection E as <-. cbn. specialize (IH m eq_refl). auto with arith.
Qed.
Lemma sorted_sort (rleb : string -> string -> bool) l : (forall x y, rleb x y = true \/ rleb y x = true) ->
  Sorted (fun x y => rleb x y = true) (list_sort rleb l).
Proof. intros T. rewrite sort_isort. exact (isort_adj rleb T l). Qed.
Lemma update_last_inv s f s' : update_last s f = Ok s' ->
  exists l p p', c_pairs (result s) = l ++ [p] /\ f p = Ok p' /\ s' = with_result s (with_pairs (result s) (l ++ [p'])).
Proof.
  unfold update_last. destruct (rev (c_pairs (result s))) as [|p l] eqn:E; [discriminate|].
  destruct (f p) as [p'|?] eqn:Ep; cbn [bind]; [|discriminate]. intros [= <-]. exists (rev l), p, p'.
  split; [|split; auto]. rewrite <- (rev_involutive (c_pairs (result s))), E. reflexivity.
Qed.
Lemma need_ok A (x : option A) e a : need x e = Ok a -> x = Some a.
Proof. destruct x; cbn; congruence. Qed.
Ltac pin H := destruct H as [Hm Hp Hr [Hr1 Hr2] Ha Hb].
Lemma start_inv rleb s e s' : pinv rleb s -> on_start s e = Ok s' -> pinv rleb s'.
Proof.
  intros H. unfold on_start.
  destruct (String.eqb (tag e) "corpus_meta_data" || String.eqb (tag e) "graph_meta_data").
  { intros [= <-]. pin H. constructor; auto. }
  destruct (String.eqb (tag e) "graphbanks").
  { intros [= <-]. pin H. constructor; auto. }
  destruct (String.eqb (tag e) "graph_pair").
  { destruct (need (attr e "from_bank_id") DaesoError) as [fb|?]; cbn [bind]; [|discriminate].
    destruct (need (attr e "to_bank_id") DaesoError) as [tb|?]; cbn [bind]; [|discriminate].
    destruct (need (bank_no (banks s) fb) DaesoError) as [b1|?] eqn:E1; cbn [bind]; [|discriminate].
    destruct (need (bank_no (banks s) tb) DaesoError) as [b2|?] eqn:E2; cbn [bind]; [|discriminate].
    destruct (need (attr e "from_graph_id") DaesoError) as [g1|?]; cbn [bind]; [|discriminate].
    destruct (need (attr e "to_graph_id") DaesoError) as [g2|?]; cbn [bind]; [|discriminate].
    intros [= <-]. apply need_ok in E1, E2. apply bank_no_lt in E1, E2. pin H.
    constructor; cbn [result with_result with_pairs c_pairs c_rels c_meta relations banks]; auto;
    intros p Hin; apply in_app_or in Hin as [Hin|[<-|[]]]; cbn [p_meta p_align p_banks fst snd]; auto.
    now exists []. }
  destruct (String.eqb (tag e) "node_pair").
  { destruct (need (attr e "from_node_id") KeyError) as [fn|?]; cbn [bind]; [|discriminate].
    destruct (need (attr e "to_node_id") KeyError) as [tn|?]; cbn [bind]; [|discriminate].
    destruct (need (attr e "relation") KeyError) as [r|?]; cbn [bind]; [|discriminate].
    intros U. apply update_last_inv in U as (l & p & p' & El & Ep & ->).
    destruct (add_align (p_align p) fn tn r) as [g|?] eqn:Eg; [|discriminate]. cbn [bind] in Ep. injection Ep as <-.
    pin H. rewrite El in *. assert (In p (l ++ [p])) as Hin by (apply in_or_app; right; left; reflexivity).
    constructor; cbn [result with_result with_pairs c_pairs c_rels c_meta relations banks]; auto;
    intros q Hq; apply in_app_or in Hq as [Hq|[<-|[]]]; cbn [p_meta p_align p_banks]; auto;
    try (match goal with K : forall p, In p _ -> _ |- _ => solve [apply K; apply in_or_app; left; exact Hq] end).
    destruct (Ha p Hin) as [ops E]. exists (ops ++ [Add fn tn r]). unfold run_matching. rewrite fold_left_app. cbn [fold_left].
    match goal with |- _ = ?k ?x ?o => replace x with (p_align p) by exact E end.
    unfold keep, matching_op. now rewrite Eg. }
  destruct (mem _ _ _); [intros [= <-]; exact H|]. destruct (in_meta s); intros [= <-]; [exact H|]. pin H. constructor; auto.
Qed.
Lemma end_inv rleb locate s e s' : (forall x y, rleb x y = true \/ rleb y x = true) ->
  pinv rleb s -> on_end rleb locate s e = Ok s' -> pinv rleb s'.
Proof.
  intros T H. unfold on_end.
  destruct (String.eqb (tag e) "corpus_meta_data") eqn:E0.
  { intros [= <-]. pin H. constructor; auto. cbn. intros m [= <-]. now apply String.eqb_eq. }
  destruct (String.eqb (tag e) "file").
  { destruct (existsb _ _); [discriminate|]. destruct (need (text e) AttributeError) as [t|?]; cbn [bind]; [|discriminate].
    intros [= <-]. pin H. constructor; auto. cbn [result banks]. intros p Hq. rewrite app_length. cbn [List.length].
    destruct (Hb p Hq). split; lia. }
  destruct (String.eqb (tag e) "relation").
  { destruct (need (text e) AttributeError) as [t|?]; cbn [bind]; [|discriminate].
    intros [= <-]. pin H. constructor; auto. cbn [relations]. apply Forall_app. split; auto. repeat constructor. apply strip_idem. }
  destruct (String.eqb (tag e) "node_relations").
  { intros [= <-]. pin H. constructor; auto. cbn [result with_result c_rels]. split; [|now apply sorted_sort].
    rewrite sort_isort. apply Forall_forall. intros x Hx. rewrite Forall_forall in Hr. apply Hr.
    eapply Permutation_in; [symmetry; apply isort_perm|]. exact Hx. }
  destruct (String.eqb (tag e) "graph_meta_data") eqn:E1; [|intros [= <-]; exact H].
  intros U. destruct (update_last s _) as [s1|?] eqn:E; cbn [bind] in U; [|discriminate]. injection U as <-.
  apply update_last_inv in E as (l & p & p' & El & Ep & ->). injection Ep as <-.
  pin H. rewrite El in *. assert (In p (l ++ [p])) as Hin by (apply in_or_app; right; left; reflexivity).
  constructor; cbn [result with_result with_meta with_pairs c_pairs c_rels c_meta relations banks]; auto;
  intros q Hq; apply in_app_or in Hq as [Hq|[<-|[]]]; cbn [p_meta p_align p_banks]; auto;
  try (match goal with K : forall p, In p _ -> _ |- _ => solve [apply K; apply in_or_app; left; exact Hq] end).
  now apply String.eqb_eq.
Qed.
Lemma parse_inv rleb locate e st : (forall x y, rleb x y = true \/ rleb y x = true) -> parse_at rleb locate e = Ok st -> pinv rleb st.
Proof.
  intros T. unfold parse_at. apply events_keep.
  - intros s x s'. apply start_inv.
  - intros s x s'. now apply end_inv.
  - constructor; cbn; try (intros ? H; solve [discriminate H|destruct H]); [apply Forall_nil|split; [apply Forall_nil|apply Sorted_nil]].
Qed.
(** where the banks are *)
Lemma parse_banks (P : path -> Prop) rleb locate e st : (forall s, P (locate s)) -> parse_at rleb locate e = Ok st ->
  Forall (fun b => P (fst (snd b))) (banks st).
Proof.
  intros HP. unfold parse_at. apply (@events_keep rleb locate (fun s => Forall (fun b => P (fst (snd b))) (banks s))); [| |constructor].
  - intros s x s' H. unfold on_start.
    destruct (String.eqb (tag x) "corpus_meta_data" || String.eqb (tag x) "graph_meta_data"); [intros [= <-]; exact H|].
    destruct (String.eqb (tag x) "graphbanks"); [intros [= <-]; exact H|].
    destruct (String.eqb (tag x) "graph_pair").
    { repeat (match goal with |- context[need ?a ?b] => destruct (need a b); cbn [bind]; [|discriminate] end). intros [= <-]. exact H. }
    destruct (String.eqb (tag x) "node_pair").
    { repeat (match goal with |- context[need ?a ?b] => destruct (need a b); cbn [bind]; [|discriminate] end).
      intros U. apply update_last_inv in U as (l & p & p' & El & Ep & ->). exact H. }
    destruct (mem _ _ _); [intros [= <-]; exact H|]. destruct (in_meta s); intros [= <-]; exact H.
  - intros s x s' H. unfold on_end.
    destruct (String.eqb (tag x) "corpus_meta_data"); [intros [= <-]; exact H|].
    destruct (String.eqb (tag x) "file").
    { destruct (existsb _ _); [discriminate|]. destruct (need (text x) AttributeError) as [t|?]; cbn [bind]; [|discriminate].
      intros [= <-]. cbn [banks]. apply Forall_app. split; auto. repeat constructor. cbn. apply HP. }
    destruct (String.eqb (tag x) "relation").
    { destruct (need (text x) AttributeError) as [t|?]; cbn [bind]; [|discriminate]. intros [= <-]. exact H. }
    destruct (String.eqb (tag x) "node_relations"); [intros [= <-]; exact H|].
    destruct (String.eqb (tag x) "graph_meta_data"); [|intros [= <-]; exact H].
    intros U. destruct (update_last s _) as [s1|?] eqn:E; cbn [bind] in U; [|discriminate]. injection U as <-.
    apply update_last_inv in E as (l & p & p' & El & Ep & ->). exact H.
Qed.

(** ** writing *)
Section Write.
Variable rleb : string -> string -> bool.
Hypothesis total : forall x y, rleb x y = true \/ rleb y x = true.
Variable number : path -> nat.
Hypothesis number_inj : forall p q, number p = number q -> p = q.
Variable order : list nat -> list nat.
Hypothesis order_any : forall l, Permutation l (order l).
Notation read_corpus := (read_corpus rleb).
Notation write_corpus := (write_corpus number order).
Notation inode := (inode number).

Lemma used_in_use st b : In b (used (c_pairs (result st))) <-> in_use st b.
Proof.
  unfold used, in_use. rewrite in_flat_map. split.
  - intros (p & Hp & [<-|[<-|[]]]); eauto.
  - intros (p & Hp & [->| ->]); exists p; cbn; auto.
Qed.
Lemma bank_of_some st b : b < List.length (banks st) ->
  bank_of st b = Some (bank_path st b, bank_format st b).
Proof.
  intros H. unfold bank_of, bank_path, bank_format. destruct (nth_error (banks st) b) as [[i [p f]]|] eqn:E; [reflexivity|].
  apply nth_error_None in E. lia.
Qed.
Lemma in_use_bank st b : pinv rleb st -> in_use st b -> bank_of st b = Some (bank_path st b, bank_format st b).
Proof.
  intros I (p & Hp & E). apply bank_of_some. destruct (i_banks _ _ I p Hp). destruct E as [->| ->]; auto.
Qed.
Lemma comparable_dec w st : pinv rleb st ->
  (comparable w st <-> forall x y, In x (used (c_pairs (result st))) -> In y (used (c_pairs (result st))) -> undecidable path_eqb (bank_path st) (inode w) x y = false).
Proof.
  intros I. split.
  - intros C x y Hx Hy. apply used_in_use in Hx, Hy. unfold undecidable, inode.
    destruct (C x y _ _ _ _ Hx Hy (in_use_bank _ _ I Hx) (in_use_bank _ _ I Hy)) as [E|[E1 E2]].
    + assert (path_eqb (bank_path st x) (bank_path st y) = true) as -> by now apply path_eqb_eq. reflexivity.
    + rewrite E1, E2. apply Bool.andb_false_r.
  - intros D a b p q f g Ha Hb Ea Eb. rewrite (in_use_bank _ _ I Ha) in Ea. rewrite (in_use_bank _ _ I Hb) in Eb.
    injection Ea as <- _. injection Eb as <- _. specialize (D a b). rewrite !used_in_use in D. specialize (D Ha Hb).
    unfold undecidable, inode in D. destruct (path_eqb (bank_path st a) (bank_path st b)) eqn:E; [left; now apply path_eqb_eq|].
    cbn [negb andb] in D. destruct (exists_at w (bank_path st a)), (exists_at w (bank_path st b)); try discriminate. now right.
Qed.
Lemma same_path w st a b : same path_eqb (bank_path st) (inode w) a b = true -> bank_path st a = bank_path st b.
Proof.
  unfold same, inode. intros H. apply Bool.orb_true_iff in H as [H|H]; [now apply path_eqb_eq|].
  destruct (exists_at w (bank_path st a)), (exists_at w (bank_path st b)); try discriminate.
  apply Nat.eqb_eq in H. now apply number_inj.
Qed.
Lemma first_same_path w st l b n : first_same path_eqb (bank_path st) (inode w) l b = Some n -> In n l /\ bank_path st b = bank_path st n.
Proof. intros H. apply find_some in H as [H1 H2]. split; auto. eapply same_path; eauto. Qed.
Notation formats st := (fun b => match bank_format st b with Some f => f | None => ""%string end).
Lemma writable_read d st : pinv rleb st -> Forall (fun b => Forall component (fst (snd b))) (banks st) ->
  orderly st -> presentable d st -> writable (bank_path st) (formats st) false d rleb (result st).
Proof.
  intros I FC (O1 & O2 & O3) P.
  assert (forall b, in_use st b -> bank_ok (bank_path st) (formats st) false d b) as B.
  { intros b Hb. destruct (P b Hb) as (p & f & E & N & S). pose proof (in_use_bank _ _ I Hb) as E'. rewrite E in E'.
    injection E' as -> E'. split; [|split; auto].
    - unfold bank_path. destruct (nth_error (banks st) b) as [x|] eqn:Ex; [|constructor].
      apply nth_error_In in Ex. rewrite Forall_forall in FC. exact (FC x Ex).
    - now rewrite <- E'. }
  constructor.
  - intros p Hp. split; apply B; exists p; auto.
  - intros m Hm. split; [exact (i_meta _ _ I m Hm)|auto].
  - intros p Hp. split; [exact (i_pair_meta _ _ I p Hp)|auto].
  - destruct (i_rels _ _ I) as [R _]. rewrite Forall_forall in *. intros r Hr. split; auto.
  - apply (i_rels _ _ I).
  - exact (i_align _ _ I).
Qed.
Lemma read_inv w s st : read_corpus w s = Ok st -> pinv rleb st.
Proof.
  unfold Ship_model.read_corpus. destruct (file w s) as [[e|?]|]; try discriminate. intros E. eapply parse_inv; eauto.
Qed.
Lemma read_components w s st : Forall component s -> read_corpus w s = Ok st -> Forall (fun b => Forall component (fst (snd b))) (banks st).
Proof.
  intros C. unfold Ship_model.read_corpus. destruct (file w s) as [[e|?]|]; try discriminate. intros E.
  refine (@parse_banks (Forall component) _ _ _ _ _ E). intros x. apply resolve_components.
  unfold dir_of. rewrite Forall_forall in *. intros y Hy. apply C. clear - Hy.
  induction s as [|a s IH]; [destruct Hy|]. cbn in Hy. destruct s; [destruct Hy|]. destruct Hy as [<-|Hy]; [now left|right; auto].
Qed.
(** writing succeeds and the file reads as the same corpus *)
Lemma write_ok w st t : pinv rleb st -> Forall (fun b => Forall component (fst (snd b))) (banks st) ->
  orderly st -> presentable (dir_of t) st -> comparable w st -> one_format st -> can_open w t = true ->
  exists e st', write_corpus w st t = (put w t (Xml e), None) /\ parse rleb (dir_of t) e = Ok st' /\ same_corpus st st'.
Proof.
  intros I FC O P C OF CO. pose proof (writable_read (dir_of t) st I FC O P) as W. pose proof (proj1 (comparable_dec w st I) C) as D.
  destruct (@round_trip (bank_path st) (formats st) (inode w) order order_any false (dir_of t) rleb (fun _ => None) (result st) W D)
    as (tree & st' & gbs & ks & E1 & E2 & E3 & E4 & E5 & L & E6 & ND & E7 & F & G).
  unfold Ship_model.write_corpus. rewrite E1, CO. cbn [negb].
  pose proof (@gen_aligned_spec (bank_path st) (inode w) order order_any (c_pairs (result st)) _ 0 _ (ginv_init (bank_path st) (inode w) (fun _ => None))) as R. cbn [app] in R.
  destruct (gen_aligned_graphs _ _ _ _ _ _) as [[gst es]|ex].
  2:{ destruct R as (_ & x & y & Hx & Hy & E). rewrite D in E by auto. discriminate. }
  destruct R as (GI & _ & _). cbn [fst].
  assert (existsb (fun b => match bank_format st b with None => true | _ => false end) (graphbanks gst) = false) as ->.
  { apply Bool.not_true_is_false. intros H. apply existsb_exists in H as (b & Hb & H). apply (g_in GI) in Hb as [Hb _].
    apply used_in_use in Hb. destruct (P b Hb) as (p & f & E & _). rewrite (in_use_bank _ _ I Hb) in E. injection E as _ E. now rewrite E in H. }
  exists (reread tree), st'. split; [reflexivity|]. split; [exact E2|].
  split; [exact E4|]. split; [exact E5|]. split; [rewrite E6, map_length, combine_length, L; apply Nat.min_id|].
  intros i p Hp. destruct (@nth_combine _ _ (c_pairs (result st)) ks i p L Hp) as [k Hk]. exists (read_pair p k).
  split; [rewrite E6, nth_error_map, Hk; reflexivity|]. split; [reflexivity|]. split; [reflexivity|].
  apply nth_error_In in Hp, Hk. rewrite Forall_forall in F, G. split; [apply rebuilt_ok; auto|].
  assert (forall b k, in_use st b -> written (bank_path st) (inode w) gbs (used (c_pairs (result st))) b k -> bank_of st' k = bank_of st b) as B.
  { intros b m Hb (n & N1 & N2). apply first_same_path in N2 as [N2 N3]. apply used_in_use in N2.
    unfold bank_of at 1. rewrite E7. rewrite (nth_entries (bank_path st) (formats st) gbs 0 m N1). cbn [option_map snd].
    rewrite (in_use_bank _ _ I Hb). destruct (P n N2) as (q & f & E & _). pose proof (in_use_bank _ _ I N2) as En. rewrite E in En. injection En as -> Ef.
    rewrite <- Ef, N3. f_equal. f_equal. symmetry. rewrite <- N3 in E. exact (OF _ _ _ _ _ Hb N2 (in_use_bank _ _ I Hb) E). }
  destruct (F (p, k) Hk) as (W1 & W2). cbn [fst snd] in *. split; apply B; auto; exists p; auto.
Qed.
(** writing: what can happen *)
Lemma write_cases w st t : pinv rleb st ->
  match write_corpus w st t with
  | (w', None) => (exists e, w' = put w t (Xml e)) /\ comparable w st /\ can_open w t = true
  | (w', Some OSError) => w' = w /\ (~ comparable w st \/ can_open w t = false)
  | (w', Some TypeError) => w' = put w t (Other "") /\ comparable w st /\ can_open w t = true /\ exists b p, in_use st b /\ bank_of st b = Some (p, None)
  | _ => False
  end.
Proof.
  intros I. unfold Ship_model.write_corpus.
  pose proof (@gen_raises (bank_path st) (formats st) (inode w) order order_any false (dir_of t) (fun _ => None) (result st)) as R.
  destruct (gen _ _ _ _ _ _ _ _) as [tree|e] eqn:E.
  2:{ destruct R as [-> (x & y & Hx & Hy & U)]. split; auto. left. intros C. rewrite (proj1 (comparable_dec w st I) C x y Hx Hy) in U. discriminate U. }
  assert (comparable w st) as C by now apply (comparable_dec w st I).
  unfold gen in E.
  pose proof (@gen_aligned_spec (bank_path st) (inode w) order order_any (c_pairs (result st)) _ 0 _ (ginv_init (bank_path st) (inode w) (fun _ => None))) as G. cbn [app] in G.
  destruct (gen_aligned_graphs _ _ _ _ _ _) as [[gst es]|ex]; [|discriminate E].
  destruct G as (GI & _ & _). cbn [fst]. destruct (can_open w t) eqn:CO; cbn [negb]; [|auto].
  destruct (existsb _ _) eqn:X; [|split; [eauto|auto]].
  apply existsb_exists in X as (b & Hb & H). apply (g_in GI) in Hb as [Hb _].
  apply used_in_use in Hb. do 3 (split; [now auto|]). exists b, (bank_path st b). split; auto.
  rewrite (in_use_bank _ _ I Hb). destruct (bank_format st b); [discriminate|reflexivity].
Qed.

(** ** pgc_cp *)
Notation cp_one := (cp_one rleb number order).
Notation cp_all := (cp_all rleb number order).
Notation complaint := (complaint rleb).
Lemma put_file w t c p : file (put w t c) p = if path_eqb p t then Some c else file w p. Proof. reflexivity. Qed.
Lemma path_eqb_refl p : path_eqb p p = true. Proof. now apply path_eqb_eq. Qed.
Lemma path_neqb p q : p <> q -> path_eqb p q = false.
Proof. intros N. destruct (path_eqb p q) eqn:E; auto. apply path_eqb_eq in E. congruence. Qed.
Lemma put_exists w t c p : exists_at w p = true -> exists_at (put w t c) p = true.
Proof. unfold exists_at. rewrite put_file. destruct (path_eqb p t); auto. Qed.
Lemma put_exists_other w t c p : p <> t -> exists_at (put w t c) p = exists_at w p.
Proof. intros N. unfold exists_at. rewrite put_file, path_neqb by auto. reflexivity. Qed.
Lemma put_read w t c p : p <> t -> read_corpus (put w t c) p = read_corpus w p.
Proof. intros N. unfold Ship_model.read_corpus. rewrite put_file, path_neqb by auto. reflexivity. Qed.
Lemma goes w target s : goes_to w target s = target_of w target s. Proof. reflexivity. Qed.
(** one source: a warning, or the target is written *)
Lemma cp_one_cases overwrite target w s :
  let o := cp_one overwrite target w s in
  (warnings o = complaint overwrite w target s /\ warnings o <> [] /\ after o = w /\ raised o = None) \/
  (exists st, warnings o = [] /\ complaint overwrite w target s = [] /\ read_corpus w s = Ok st /\
     s <> target_of w target s /\ (exists_at w (target_of w target s) = true -> overwrite = true) /\
     (after o, raised o) = write_corpus w st (target_of w target s)).
Proof.
  cbn zeta. unfold Ship_model.cp_one, Ship_spec.complaint. change goes_to with target_of.
  change (exists_at w s) with (match file w s with Some _ => true | None => isdir w s end). unfold Ship_model.read_corpus.
  destruct (file w s) as [[e|x]|] eqn:Ef; cbn [negb].
  2:{ left. repeat split; discriminate. }
  2:{ destruct (isdir w s); cbn [negb]; left; repeat split; discriminate. }
  unfold dir_of. destruct (parse rleb (removelast s) e) as [st|ex]; [|left; repeat split; discriminate].
  set (t := target_of w target s).
  destruct (path_eqb s t) eqn:Es.
  - apply path_eqb_eq in Es. assert (exists_at w t = true) as ->. { rewrite <- Es. unfold exists_at. now rewrite Ef. }
    left. repeat split; discriminate.
  - rewrite Bool.andb_false_r. destruct (exists_at w t) eqn:Ex; cbn [andb].
    + destruct overwrite; cbn [negb]; [|left; repeat split; discriminate]. right. exists st.
      destruct (write_corpus w st t) as [w' e'] eqn:Ew. repeat split; auto. intros E. rewrite <- E, path_eqb_refl in Es. discriminate.
    + right. exists st. destruct (write_corpus w st t) as [w' e'] eqn:Ew. repeat split; auto. intros E. rewrite <- E, path_eqb_refl in Es. discriminate. discriminate.
Qed.
Lemma write_effect w st t : pinv rleb st -> let w' := fst (write_corpus w st t) in w' = w \/ exists c, w' = put w t c.
Proof.
  intros I. cbn zeta. pose proof (write_cases w st t I) as H. destruct (write_corpus w st t) as [w' [e|]]; cbn [fst].
  - destruct e; try contradiction; destruct H as [-> _]; eauto.
  - destruct H as [[e ->] _]. eauto.
Qed.
Lemma cp_one_effect overwrite target w s :
  let w' := after (cp_one overwrite target w s) in
  w' = w \/ exists c, w' = put w (target_of w target s) c /\ (exists_at w (target_of w target s) = true -> overwrite = true) /\
                      complaint overwrite w target s = [] /\ s <> target_of w target s.
Proof.
  cbn zeta. destruct (cp_one_cases overwrite target w s) as [(_ & _ & E & _)|(st & E1 & E2 & E3 & N & O & E)]; [left; exact E|].
  destruct (write_effect w st (target_of w target s) (read_inv _ _ _ E3)) as [H|[c H]]; rewrite <- E in H; cbn [fst] in H; [left; exact H|].
  right. exists c. auto.
Qed.
Lemma cp_isdir overwrite target : forall sources w, isdir (after (cp_all overwrite target w sources)) = isdir w.
Proof.
  induction sources as [|s l IH]; intros w; cbn [Ship_model.cp_all]; [reflexivity|].
  assert (isdir (after (cp_one overwrite target w s)) = isdir w) as E.
  { destruct (cp_one_effect overwrite target w s) as [-> |(c & -> & _)]; reflexivity. }
  destruct (raised _); [exact E|]. cbn [after]. rewrite IH. exact E.
Qed.
Lemma cp_only overwrite target : forall sources w p, 
  file (after (cp_all overwrite target w sources)) p <> file w p ->
  (exists s, In s sources /\ p = target_of w target s /\ p <> s) /\ (file w p <> None -> overwrite = true).
Proof.
  induction sources as [|s l IH]; intros w p; cbn [Ship_model.cp_all]; [intros []; reflexivity|].
  set (o := cp_one overwrite target w s).
  assert (isdir (after o) = isdir w) as ED by (unfold o; destruct (cp_one_effect overwrite target w s) as [-> |(c & -> & _)]; reflexivity).
  assert (file (after o) p = file w p \/ (p = target_of w target s /\ p <> s /\ (file w p <> None -> overwrite = true) /\ file (after o) p <> None)) as H1.
  { unfold o. destruct (cp_one_effect overwrite target w s) as [-> |(c & -> & O & _ & N)]; [now left|]. rewrite put_file.
    destruct (path_eqb p (target_of w target s)) eqn:E; [right|now left]. apply path_eqb_eq in E as ->. repeat split; auto.
    - intros F. apply O. unfold exists_at. destruct (file w _); [reflexivity|congruence].
    - discriminate. }
  assert (forall x, target_of (after o) target x = target_of w target x) as ET by (intros x; unfold target_of; now rewrite ED).
  assert (file (after o) p <> file w p -> (exists x, In x (s :: l) /\ p = target_of w target x /\ p <> x) /\ (file w p <> None -> overwrite = true)) as H2.
  { intros N. destruct H1 as [H1|(H1 & H2 & H3 & _)]; [congruence|]. split; auto. exists s. split; [now left|auto]. }
  destruct (raised o); [exact H2|]. cbn [after]. intros N.
  destruct H1 as [H1|H1]; [|split; [exists s; split; [now left|tauto]|tauto]].
  rewrite <- H1 in N. apply IH in N as [(x & Hx & Ex & Nx) O]. rewrite ET in Ex. rewrite H1 in O. split; auto. exists x. split; [now right|auto].
Qed.
Lemma cp_same overwrite target : forall sources w p, (forall s, In s sources -> p <> target_of w target s) ->
  file (after (cp_all overwrite target w sources)) p = file w p.
Proof.
  induction sources as [|s l IH]; intros w p H; cbn [Ship_model.cp_all]; [reflexivity|].
  set (o := cp_one overwrite target w s).
  assert (isdir (after o) = isdir w /\ file (after o) p = file w p) as [ED EF].
  { unfold o. destruct (cp_one_effect overwrite target w s) as [-> |(c & -> & _)]; [auto|]. split; [reflexivity|]. rewrite put_file, path_neqb; auto. apply H. now left. }
  destruct (raised o); [exact EF|]. cbn [after]. rewrite IH; [exact EF|]. intros x Hx. unfold target_of. rewrite ED. apply H. now right.
Qed.
(** what makes a source copyable *)
Definition copyable w t st : Prop :=
  orderly st /\ presentable (dir_of t) st /\ comparable w st /\ one_format st /\ isdir w t = false /\ isdir w (dir_of t) = true.
Lemma base_target w target s : isdir w target = true -> base_name (target_of w target s) = base_name s.
Proof. intros D. unfold target_of. rewrite D. unfold join, base_name. apply last_last. Qed.
Lemma cp_done overwrite target : forall sources w,
  isdir w target = true \/ List.length sources <= 1 ->
  NoDup (map base_name sources) -> Forall (Forall component) sources ->
  (forall s st, In s sources -> read_corpus w s = Ok st -> complaint overwrite w target s = [] -> copyable w (target_of w target s) st) ->
  let o := cp_all overwrite target w sources in
  raised o = None /\ warnings o = flat_map (complaint overwrite w target) sources /\
  forall s, In s sources -> complaint overwrite w target s = [] ->
    exists st st', read_corpus w s = Ok st /\ read_corpus (after o) (target_of w target s) = Ok st' /\ same_corpus st st'.
Proof.
  induction sources as [|s l IH]; intros w HD ND FC HC; cbn zeta; cbn [Ship_model.cp_all flat_map]; [split; [reflexivity|split; [reflexivity|intros ? []]]|].
  cbn [map] in ND. inversion ND as [|? ? NI ND']; subst. inversion FC as [|? ? FC1 FC2]; subst.
  set (o := cp_one overwrite target w s).
  assert (HD' : isdir w target = true \/ l = []).
  { destruct HD as [HD|HD]; [now left|right]. destruct l; [reflexivity|cbn in HD; lia]. }
  (* what the first source does *)
  assert (raised o = None /\ warnings o = complaint overwrite w target s /\
          (after o = w \/ exists e, after o = put w (target_of w target s) (Xml e)) /\
          (complaint overwrite w target s = [] -> exists st st' e, read_corpus w s = Ok st /\ after o = put w (target_of w target s) (Xml e) /\
             parse rleb (dir_of (target_of w target s)) e = Ok st' /\ same_corpus st st')) as (R & W & A & C).
  { unfold o. destruct (cp_one_cases overwrite target w s) as [(E1 & E2 & E3 & E4)|(st & E1 & E2 & E3 & N & O & E)].
    - repeat split; auto. intros E. congruence.
    - destruct (HC s st (or_introl eq_refl) E3 E2) as (C1 & C2 & C3 & C4 & C5 & C6).
      destruct (@write_ok w st (target_of w target s) (read_inv _ _ _ E3) (read_components _ _ _ FC1 E3) C1 C2 C3 C4) as (e & st' & W1 & W2 & W3).
      { unfold can_open. now rewrite C5, C6. }
      rewrite W1 in E. injection E as EA ER. rewrite EA, ER, E1, E2.
      split; [reflexivity|]. split; [reflexivity|]. split; [right; now exists e|]. intros _. exists st, st', e. auto. }
  rewrite R. cbn [raised warnings after].
  assert (forall x, In x l -> x <> s /\ x <> target_of w target s /\ target_of w target x <> target_of w target s) as DI.
  { intros x Hx. destruct HD' as [HD'| ->]; [|destruct Hx].
    assert (base_name x <> base_name s) as NB. { intros E. apply NI. rewrite <- E. now apply in_map. }
    pose proof (base_target w target s HD') as B1. pose proof (base_target w target x HD') as B2.
    split; [|split]; intros E; [rewrite E in NB|rewrite E in NB|rewrite E in B2]; congruence. }
  assert (isdir (after o) = isdir w) as ED by (destruct A as [-> |(e & ->)]; reflexivity).
  assert (forall x, target_of (after o) target x = target_of w target x) as ET by (intros x; unfold target_of; now rewrite ED).
  assert (forall x, In x l -> read_corpus (after o) x = read_corpus w x) as ER.
  { intros x Hx. destruct (DI x Hx) as (_ & N & _). destruct A as [-> |(e & ->)]; [reflexivity|now apply put_read]. }
  assert (forall x, In x l -> complaint overwrite (after o) target x = complaint overwrite w target x) as EC.
  { intros x Hx. destruct (DI x Hx) as (_ & N & N'). destruct A as [-> |(e & ->)]; [reflexivity|]. unfold Ship_spec.complaint.
    rewrite put_file, path_neqb by auto. change goes_to with target_of.
    change (target_of (put w (target_of w target s) (Xml e)) target x) with (target_of w target x).
    rewrite put_exists_other by auto. reflexivity. }
  destruct (IH (after o)) as (IR & IW & IC); auto.
  { rewrite ED. destruct HD' as [H| ->]; [now left|right; cbn; lia]. }
  { intros x st Hx Er Ec. rewrite ER in Er by auto. rewrite EC in Ec by auto. rewrite ET.
    destruct (HC x st (or_intror Hx) Er Ec) as (C1 & C2 & C3 & C4 & C5 & C6). unfold copyable. rewrite ED.
    repeat (split; [now auto|]). split; [|auto]. intros a b p q f g Ha Hb Ea Eb. destruct (C3 a b p q f g Ha Hb Ea Eb) as [Ep|[Ep Eq]]; [now left|right].
    destruct A as [-> |(e & ->)]; auto. split; now apply put_exists. }
  split; [exact IR|]. split.
  { rewrite W, IW. f_equal. clear - EC. induction l as [|x l IH]; auto. cbn [flat_map]. rewrite EC by now left. f_equal. apply IH. intros y Hy. apply EC. now right. }
  intros x [<-|Hx] E.
  - destruct (C E) as (st & st' & e & E1 & E2 & E3 & E4). exists st, st'. split; [exact E1|]. split; [|exact E4].
    assert (file (after (cp_all overwrite target (after o) l)) (target_of w target s) = Some (Xml e)) as F.
    { rewrite cp_same; [now rewrite E2, put_file, path_eqb_refl|]. intros x Hx. rewrite ET. intros Q. symmetry in Q. revert Q. apply (DI x Hx). }
    unfold Ship_model.read_corpus. rewrite F. exact E3.
  - rewrite <- EC in E by auto. destruct (IC x Hx E) as (st & st' & E1 & E2 & E3). rewrite ER in E1 by auto. rewrite ET in E2. eauto.
Qed.

Lemma cp_stops overwrite target : forall sources w e, raised (cp_all overwrite target w sources) = Some e ->
  exists before s rest, sources = before ++ s :: rest /\ raised (cp_all overwrite target w before) = None /\
    let w1 := after (cp_all overwrite target w before) in
    exists st, read_corpus w1 s = Ok st /\ write_corpus w1 st (target_of w target s) = (after (cp_all overwrite target w sources), Some e).
Proof.
  induction sources as [|s l IH]; intros w e; cbn [Ship_model.cp_all]; [discriminate|].
  destruct (raised (cp_one overwrite target w s)) as [e0|] eqn:E0.
  - intros E. rewrite E0 in E. injection E as <-. exists [], s, l. split; [reflexivity|]. split; [reflexivity|]. cbn zeta.
    change (after (cp_all overwrite target w [])) with w.
    destruct (cp_one_cases overwrite target w s) as [(_ & _ & _ & H)|(st & _ & _ & E3 & _ & _ & H)]; [congruence|].
    exists st. split; [exact E3|]. rewrite <- H, E0. reflexivity.
  - cbn [raised after]. intros E. destruct (IH _ _ E) as (b & x & r & -> & H1 & H2). exists (s :: b), x, r. split; [reflexivity|].
    cbn [Ship_model.cp_all]. rewrite E0. cbn [raised after]. split; [exact H1|]. cbn zeta in *. destruct H2 as (st & H2 & H3). exists st. split; [exact H2|].
    unfold target_of in *. destruct (cp_one_effect overwrite target w s) as [Ew|(c & Ew & _)]; rewrite Ew in H3 at 2; exact H3.
Qed.
End Write.

(** ** documents of another kind *)
Section Alien.
Variable rleb : string -> string -> bool.
Variable locate : string -> path.
Lemma alien_start e s : ~ In (tag e) reserved -> exists s', on_start s e = Ok s' /\ result s' = result s /\ banks s' = banks s.
Proof.
  intros N. unfold on_start. pose proof (@not_reserved (tag e) N) as R.
  rewrite (R "corpus_meta_data"%string) by (cbn; tauto). rewrite (R "graph_meta_data"%string) by (cbn; tauto).
  rewrite (R "graphbanks"%string) by (cbn; tauto). rewrite (R "graph_pair"%string) by (cbn; tauto). rewrite (R "node_pair"%string) by (cbn; tauto).
  cbn [orb]. destruct (mem _ _ _); [eauto|]. destruct (in_meta s); eauto.
Qed.
Lemma alien_end e s : ~ In (tag e) reserved -> on_end rleb locate s e = Ok s.
Proof.
  intros N. unfold on_end. pose proof (@not_reserved (tag e) N) as R.
  rewrite (R "corpus_meta_data"%string) by (cbn; tauto). rewrite (R "file"%string) by (cbn; tauto). rewrite (R "relation"%string) by (cbn; tauto).
  rewrite (R "node_relations"%string) by (cbn; tauto). rewrite (R "graph_meta_data"%string) by (cbn; tauto). reflexivity.
Qed.
Lemma alien_events e : plain e -> forall s, exists s', events rleb locate e s = Ok s' /\ result s' = result s /\ banks s' = banks s.
Proof.
  induction e as [t a x k IH] using elem_rect'. intros P s. apply plain_unfold in P as [N P]. rewrite events_eq.
  destruct (alien_start (Elem t a x k) s N) as (s1 & -> & R1 & B1). cbn [bind kids].
  assert (exists s2, go_list rleb locate k s1 = Ok s2 /\ result s2 = result s1 /\ banks s2 = banks s1) as (s2 & -> & R2 & B2).
  { clear R1 B1. revert s1. induction k as [|y k IHk]; intros s1; [exists s1; auto|]. inversion IH as [|? ? Iy Ik]; subst. inversion P as [|? ? Py Pk]; subst.
    cbn [go_list]. destruct (Iy Py s1) as (s2 & -> & R2 & B2). cbn [bind]. destruct (IHk Ik Pk s2) as (s3 & -> & R3 & B3).
    exists s3. repeat split; congruence. }
  cbn [bind]. rewrite alien_end by exact N. exists s2. repeat split; congruence.
Qed.
End Alien.
Lemma alien_parse rleb dir e : plain e -> exists st, parse rleb dir e = Ok st /\ result st = {| c_pairs := []; c_rels := []; c_meta := None |}.
Proof. intros P. destruct (alien_events rleb (resolve dir) e P parser_init) as (st & E & R & _). exists st. split; [exact E|exact R]. Qed.
Lemma alien_write number order w st t : result st = {| c_pairs := []; c_rels := []; c_meta := None |} -> can_open w t = true ->
  write_corpus number order w st t = (put w t (Xml empty_corpus), None).
Proof. intros E C. unfold write_corpus. rewrite E. cbn -[can_open put]. rewrite C. reflexivity. Qed.

(** ** other places for the banks *)
Record moved (s s' : pstate) : Prop := {
  m_in : in_meta s' = in_meta s; m_def : default_format s' = default_format s; m_rel : relations s' = relations s;
  m_res : result s' = result s; m_warn : warned s' = warned s;
  m_ids : map (fun b => (fst b, snd (snd b))) (banks s') = map (fun b => (fst b, snd (snd b))) (banks s)
}.
Definition alike (r r' : res pstate) : Prop :=
  match r, r' with Ok s, Ok s' => moved s s' | Err e, Err e' => e = e' | _, _ => False end.
Lemma moved_bank_no s s' i : moved s s' -> bank_no (banks s') i = bank_no (banks s) i.
Proof.
  intros [_ _ _ _ _ M]. revert M. generalize (banks s'). induction (banks s) as [|[j x] l IH]; intros [|[j' x'] l'] M; try discriminate; auto.
  cbn in M. injection M as -> _ M. cbn [bank_no]. destruct (opt_eqb (Some i) j); auto. now rewrite (IH l' M).
Qed.
Lemma moved_known s s' i : moved s s' -> existsb (fun b => opt_eqb i (fst b)) (banks s') = existsb (fun b => opt_eqb i (fst b)) (banks s).
Proof.
  intros [_ _ _ _ _ M]. revert M. generalize (banks s'). induction (banks s) as [|[j x] l IH]; intros [|[j' x'] l'] M; try discriminate; auto.
  cbn in M. injection M as -> _ M. cbn [existsb fst]. now rewrite (IH l' M).
Qed.
Lemma moved_update s s' f : moved s s' -> alike (update_last s f) (update_last s' f).
Proof.
  intros M. unfold update_last. rewrite (m_res _ _ M). destruct (rev (c_pairs (result s))) as [|p l]; [reflexivity|].
  destruct (f p) as [p'|?]; [|reflexivity]. destruct M. constructor; auto.
Qed.
Lemma moved_start s s' e : moved s s' -> alike (on_start s e) (on_start s' e).
Proof.
  intros M. unfold on_start.
  destruct (String.eqb (tag e) "corpus_meta_data" || String.eqb (tag e) "graph_meta_data"); [destruct M; constructor; auto|].
  destruct (String.eqb (tag e) "graphbanks"); [destruct M; constructor; auto|].
  destruct (String.eqb (tag e) "graph_pair").
  { destruct (need (attr e "from_bank_id") DaesoError) as [fb|?]; cbn [bind]; [|reflexivity].
    destruct (need (attr e "to_bank_id") DaesoError) as [tb|?]; cbn [bind]; [|reflexivity].
    rewrite !(moved_bank_no _ _ _ M). repeat (match goal with |- context[need ?a ?b] => destruct (need a b); cbn [bind]; [|reflexivity] end).
    destruct M as [? ? ? R ? ?]. constructor; auto. cbn. now rewrite R. }
  destruct (String.eqb (tag e) "node_pair").
  { repeat (match goal with |- context[need ?a ?b] => destruct (need a b); cbn [bind]; [|reflexivity] end). now apply moved_update. }
  destruct (mem _ _ _); [exact M|]. rewrite (m_in _ _ M). destruct (in_meta s); [exact M|]. destruct M as [? ? ? ? W ?]. constructor; auto. cbn. now rewrite W.
Qed.
Section Moved.
Variable rleb : string -> string -> bool.
Variable l l' : string -> path.
Lemma moved_end s s' e : moved s s' -> alike (on_end rleb l s e) (on_end rleb l' s' e).
Proof.
  intros M. unfold on_end.
  destruct (String.eqb (tag e) "corpus_meta_data"). { destruct M as [? ? ? R ? ?]. constructor; auto. cbn. now rewrite R. }
  destruct (String.eqb (tag e) "file").
  { rewrite (moved_known _ _ _ M). destruct (existsb _ _); [reflexivity|].
    destruct (need (text e) AttributeError) as [t|?]; [|reflexivity]. cbn [bind]. rewrite (m_def _ _ M).
    destruct M as [? ? ? ? ? I]. constructor; auto. cbn [banks]. rewrite !map_app, I. reflexivity. }
  destruct (String.eqb (tag e) "relation").
  { destruct (need (text e) AttributeError) as [t|?]; [|reflexivity]. cbn [bind]. destruct M as [? ? R ? ? ?]. constructor; auto. cbn. now rewrite R. }
  destruct (String.eqb (tag e) "node_relations"). { destruct M as [? ? R' R ? ?]. constructor; auto. cbn. now rewrite R, R'. }
  destruct (String.eqb (tag e) "graph_meta_data"); [|exact M].
  pose proof (moved_update _ _ (fun p => Ok {| p_banks := p_banks p; p_graphs := p_graphs p; p_meta := e; p_align := p_align p |}) M) as U.
  destruct (update_last s _), (update_last s' _); cbn [alike bind] in *; auto; try contradiction. destruct U. constructor; auto.
Qed.
Lemma moved_events e : forall s s', moved s s' -> alike (events rleb l e s) (events rleb l' e s').
Proof.
  induction e as [t a x k IH] using elem_rect'. intros s s' M. rewrite !events_eq.
  pose proof (moved_start _ _ (Elem t a x k) M) as H. destruct (on_start s _) as [s1|?], (on_start s' _) as [s1'|?]; cbn [alike bind kids] in *; try contradiction; auto.
  assert (alike (go_list rleb l k s1) (go_list rleb l' k s1')) as G.
  { clear M s s'. revert s1 s1' H. induction k as [|y k IHk]; intros s s' M; cbn [go_list]; [exact M|]. inversion IH as [|? ? Hy Hk]; subst.
    specialize (Hy s s' M). destruct (events rleb l y s), (events rleb l' y s'); cbn [alike bind] in *; try contradiction; auto. }
  destruct (go_list rleb l k s1), (go_list rleb l' k s1'); cbn [alike bind] in *; try contradiction; auto. now apply moved_end.
Qed.
Lemma moved_parse e : alike (parse_at rleb l e) (parse_at rleb l' e).
Proof. unfold parse_at. apply moved_events. constructor; reflexivity. Qed.
End Moved.
(** the banks come from the <file> elements *)
Definition bank_from (l : string -> path) (x : elem) (b : option string * (path * option string)) : Prop :=
  exists t, text x = Some t /\ fst (snd b) = l (strip t).
Section From.
Variable rleb : string -> string -> bool.
Variable l : string -> path.
Lemma start_banks s e s' : on_start s e = Ok s' -> banks s' = banks s.
Proof.
  unfold on_start.
  destruct (String.eqb (tag e) "corpus_meta_data" || String.eqb (tag e) "graph_meta_data"); [intros [= <-]; reflexivity|].
  destruct (String.eqb (tag e) "graphbanks"); [intros [= <-]; reflexivity|].
  destruct (String.eqb (tag e) "graph_pair").
  { repeat (match goal with |- context[need ?a ?b] => destruct (need a b); cbn [bind]; [|discriminate] end). intros [= <-]; reflexivity. }
  destruct (String.eqb (tag e) "node_pair").
  { repeat (match goal with |- context[need ?a ?b] => destruct (need a b); cbn [bind]; [|discriminate] end).
    intros U. apply update_last_inv in U as (? & ? & ? & _ & _ & ->). reflexivity. }
  destruct (mem _ _ _); [intros [= <-]; reflexivity|]. destruct (in_meta s); intros [= <-]; reflexivity.
Qed.
Lemma end_banks s e s' : on_end rleb l s e = Ok s' ->
  if String.eqb (tag e) "file" then exists b, banks s' = banks s ++ [b] /\ bank_from l e b else banks s' = banks s.
Proof.
  unfold on_end. destruct (String.eqb (tag e) "corpus_meta_data") eqn:E0.
  { apply String.eqb_eq in E0. rewrite E0. intros [= <-]. reflexivity. }
  destruct (String.eqb (tag e) "file") eqn:E1.
  { destruct (existsb _ _); [discriminate|]. destruct (need (text e) AttributeError) as [t|?] eqn:Et; cbn [bind]; [|discriminate].
    intros [= <-]. cbn [banks]. eexists. split; [reflexivity|]. exists t. split; [now apply need_ok in Et|reflexivity]. }
  destruct (String.eqb (tag e) "relation").
  { destruct (need (text e) AttributeError) as [t|?]; cbn [bind]; [|discriminate]. intros [= <-]. reflexivity. }
  destruct (String.eqb (tag e) "node_relations"); [intros [= <-]; reflexivity|].
  destruct (String.eqb (tag e) "graph_meta_data"); [|intros [= <-]; reflexivity].
  intros U. destruct (update_last s _) as [s1|?] eqn:E; cbn [bind] in U; [|discriminate]. injection U as <-.
  apply update_last_inv in E as (? & ? & ? & _ & _ & ->). reflexivity.
Qed.
Lemma events_banks e : forall s s', events rleb l e s = Ok s' -> exists bs, banks s' = banks s ++ bs /\ Forall2 (bank_from l) (files e) bs.
Proof.
  induction e as [t a x k IH] using elem_rect'. intros s s' E. rewrite events_eq in E. cbn [files].
  destruct (on_start s (Elem t a x k)) as [s1|?] eqn:E1; [|discriminate]. cbn [bind kids] in E. apply start_banks in E1.
  destruct (go_list rleb l k s1) as [s2|?] eqn:E2; [|discriminate]. cbn [bind] in E.
  assert (exists bs, banks s2 = banks s1 ++ bs /\ Forall2 (bank_from l) (flat_map files k) bs) as (bs & EB & F).
  { clear E1 E. revert s1 E2. induction k as [|y k IHk]; intros s1 E2; cbn [go_list] in E2.
    - injection E2 as <-. exists []. rewrite app_nil_r. split; [reflexivity|constructor].
    - destruct (events rleb l y s1) as [s3|?] eqn:Ey; [|discriminate]. cbn [bind] in E2. inversion IH as [|? ? Hy Hk]; subst.
      destruct (Hy _ _ Ey) as (b1 & B1 & F1). destruct (IHk Hk _ E2) as (b2 & B2 & F2). exists (b1 ++ b2).
      split; [rewrite B2, B1, app_assoc; reflexivity|]. cbn [flat_map]. now apply Forall2_app. }
  apply end_banks in E. cbn [tag] in E. destruct (String.eqb t "file").
  - destruct E as (b & E & B). exists (bs ++ [b]). split; [rewrite E, EB, E1, app_assoc; reflexivity|]. apply Forall2_app; auto.
  - exists bs. rewrite app_nil_r. split; [congruence|exact F].
Qed.
Lemma parse_from e st : parse_at rleb l e = Ok st -> Forall2 (bank_from l) (files e) (banks st).
Proof. intros E. apply events_banks in E as (bs & E & F). cbn in E. now rewrite E. Qed.
End From.

(** ** pgc_zip *)
Lemma mapM_inv X Y (f : X -> res Y) l : forall r, mapM f l = Ok r -> Forall2 (fun x y => f x = Ok y) l r.
Proof.
  induction l as [|x l IH]; intros r E; cbn in E; [injection E as <-; constructor|].
  destruct (f x) as [y|] eqn:Ex; [|discriminate]. cbn in E. destruct (mapM f l) as [ys|]; [|discriminate]. cbn in E. injection E as <-. constructor; auto.
Qed.
Lemma mapM_all X Y (f : X -> res Y) l : (forall x, In x l -> exists y, f x = Ok y) -> exists r, mapM f l = Ok r.
Proof.
  induction l as [|x l IH]; intros H; cbn; [eauto|]. destruct (H x) as [y ->]; [now left|]. cbn.
  destruct IH as [r ->]; [intros; apply H; now right|]. cbn. eauto.
Qed.
Lemma f2_in_l A B (R : A -> B -> Prop) l l' x : Forall2 R l l' -> In x l -> exists y, In y l' /\ R x y.
Proof. induction 1; intros Hx; [destruct Hx|]. destruct Hx as [<-|Hx]; [eexists; split; [now left|auto]|]. destruct (IHForall2 Hx) as (z & ? & ?). exists z. split; [now right|auto]. Qed.
Lemma f2_in_r A B (R : A -> B -> Prop) l l' y : Forall2 R l l' -> In y l' -> exists x, In x l /\ R x y.
Proof. induction 1; intros Hx; [destruct Hx|]. destruct Hx as [<-|Hx]; [eexists; split; [now left|auto]|]. destruct (IHForall2 Hx) as (z & ? & ?). exists z. split; [now right|auto]. Qed.
Section Zip.
Variable rleb : string -> string -> bool.
Hypothesis total : forall x y, rleb x y = true \/ rleb y x = true.
Variable order : list nat -> list nat.
Hypothesis order_any : forall l, Permutation l (order l).
Variable pleb : path -> path -> bool.
Hypothesis ptotal : forall x y, pleb x y = true \/ pleb y x = true.
Variable glob : string -> list path.
Notation read_corpus := (read_corpus rleb).
Notation multiglob := (multiglob pleb glob).
Lemma multiglob_perm ps : Permutation (multiglob ps) (flat_map glob ps).
Proof. unfold Ship_model.multiglob. rewrite sort_isort. symmetry. apply isort_perm. Qed.
Lemma multiglob_sorted ps : Sorted (fun x y => pleb x y = true) (multiglob ps).
Proof. unfold Ship_model.multiglob. rewrite sort_isort. exact (isort_adj pleb ptotal _). Qed.
Lemma set_add_in l b x : In x (set_add l b) <-> In x l \/ x = b.
Proof.
  unfold set_add. destruct (mem Nat.eqb b l) eqn:E.
  - split; [now left|]. intros [H| ->]; auto. apply (@mem_spec nat Nat.eqb Nat.eqb_eq) in E. exact E.
  - rewrite in_app_iff. cbn. intuition.
Qed.
Lemma graph_banks_in st b : In b (graph_banks order st) <-> in_use st b.
Proof.
  unfold graph_banks, in_use. split.
  - intros H. eapply Permutation_in in H; [|symmetry; apply order_any]. revert H. 
    assert (forall ps l, In b (fold_left (fun l p => set_add (set_add l (fst (p_banks p))) (snd (p_banks p))) ps l) ->
      In b l \/ exists p, In p ps /\ (b = fst (p_banks p) \/ b = snd (p_banks p))) as G.
    { induction ps as [|p ps IH]; intros l H; [now left|]. cbn [fold_left] in H. apply IH in H as [H|(q & Hq & E)].
      - rewrite !set_add_in in H. destruct H as [[H|H]|H]; [now left| |]; right; exists p; (split; [now left|auto]).
      - right. exists q. split; [now right|auto]. }
    intros H. apply G in H as [[]|H]. exact H.
  - intros (p & Hp & E). eapply Permutation_in; [apply order_any|].
    assert (forall ps l, In b l \/ (exists p, In p ps /\ (b = fst (p_banks p) \/ b = snd (p_banks p))) ->
      In b (fold_left (fun l p => set_add (set_add l (fst (p_banks p))) (snd (p_banks p))) ps l)) as G.
    { induction ps as [|q ps IH]; intros l [H|H].
      - exact H.
      - destruct H as (? & [] & _).
      - cbn [fold_left]. apply IH. left. rewrite !set_add_in. auto.
      - cbn [fold_left]. apply IH. destruct H as (r & [<-|Hr] & H); [left; rewrite !set_add_in; tauto|right; eauto]. }
    apply G. right. eauto.
Qed.
Lemma zip_write_inv w f n e : zip_write w f n = Ok e -> exists_at w f = true /\ e = (n, file w f).
Proof. unfold zip_write. destruct (exists_at w f); [|discriminate]. intros [= <-]. auto. Qed.
Lemma packed_iff w cs f : packed rleb w cs f <->
  In f cs \/ exists c st b, In c cs /\ read_corpus w c = Ok st /\ in_use st b /\ f = bank_path st b.
Proof.
  unfold packed. split; (intros [H|H]; [now left|right]).
  - destruct H as (c & e & st & b & x & Hc & Hf & E & Hb & Eb). exists c, st, b. assert (read_corpus w c = Ok st) as R by (unfold Ship_model.read_corpus; rewrite Hf; exact E).
    repeat split; auto. rewrite (in_use_bank rleb _ _ (read_inv rleb total _ _ _ R) Hb) in Eb. congruence.
  - destruct H as (c & st & b & Hc & R & Hb & ->). pose proof (in_use_bank rleb _ _ (read_inv rleb total _ _ _ R) Hb) as B.
    unfold Ship_model.read_corpus in R. destruct (file w c) as [[e|?]|] eqn:F; try discriminate. exists c, e, st, b, (bank_format st b). auto.
Qed.
Lemma zip_entries w z ps es : pgc_zip rleb order pleb glob w z ps = Ok es ->
  (forall c, In c (flat_map glob ps) -> exists st, read_corpus w c = Ok st) /\
  (forall f, packed rleb w (flat_map glob ps) f -> exists_at w f = true) /\
  forall n x, In (n, x) es <-> exists f, packed rleb w (flat_map glob ps) f /\ n = [stem (base_name z); base_name f] /\ x = file w f.
Proof.
  unfold pgc_zip. set (a := stem (base_name z)). destruct (mapM _ _) as [ess|?] eqn:E; [|discriminate]. cbn [bind]. intros [= <-].
  apply mapM_inv in E.
  assert (forall c es, zip_corpus rleb order w a c = Ok es -> exists st, read_corpus w c = Ok st /\ exists_at w c = true /\
    (forall b, in_use st b -> exists_at w (bank_path st b) = true) /\
    forall n x, In (n, x) es <-> (n = [a; base_name c] /\ x = file w c) \/ exists b, in_use st b /\ n = [a; base_name (bank_path st b)] /\ x = file w (bank_path st b)) as Z.
  { intros c es H. unfold zip_corpus in H. destruct (zip_write w c [a; base_name c]) as [e0|?] eqn:E0; [|discriminate]. cbn [bind] in H.
    apply zip_write_inv in E0 as [X0 ->]. destruct (read_corpus w c) as [st|?]; [|discriminate]. cbn [bind] in H.
    destruct (mapM _ _) as [es'|?] eqn:E1; [|discriminate]. cbn [bind] in H. injection H as <-. apply mapM_inv in E1.
    exists st. split; [reflexivity|]. split; [exact X0|]. split.
    - intros b Hb. apply graph_banks_in in Hb. destruct (f2_in_l _ _ _ _ _ _ E1 Hb) as (y & _ & Ey). now apply zip_write_inv in Ey.
    - intros n x. split.
      + intros [[= <- <-]|H]; [now left|right]. destruct (f2_in_r _ _ _ _ _ _ E1 H) as (b & Hb & Eb). apply graph_banks_in in Hb. apply zip_write_inv in Eb as [_ Eb].
        injection Eb as -> ->. eauto.
      + intros [[-> ->]|(b & Hb & -> & ->)]; [now left|right]. apply graph_banks_in in Hb. destruct (f2_in_l _ _ _ _ _ _ E1 Hb) as (y & Hy & Ey).
        apply zip_write_inv in Ey as [_ ->]. exact Hy. }
  assert (forall c, In c (flat_map glob ps) -> exists es, In es ess /\ zip_corpus rleb order w a c = Ok es) as L.
  { intros c Hc. eapply Permutation_in in Hc; [|symmetry; apply multiglob_perm]. destruct (f2_in_l _ _ _ _ _ _ E Hc) as (es & H1 & H2). eauto. }
  split; [|split].
  - intros c Hc. destruct (L c Hc) as (es & _ & H). destruct (Z c es H) as (st & R & _). eauto.
  - intros f Hf. apply packed_iff in Hf as [Hf|(c & st & b & Hc & R & Hb & ->)].
    + destruct (L f Hf) as (es & _ & H). destruct (Z f es H) as (st & _ & X & _). exact X.
    + destruct (L c Hc) as (es & _ & H). destruct (Z c es H) as (st' & R' & _ & X & _). rewrite R in R'. injection R' as <-. auto.
  - intros n x. rewrite in_concat. split.
    + intros (es & Hes & Hx). destruct (f2_in_r _ _ _ _ _ _ E Hes) as (c & Hc & H). eapply Permutation_in in Hc; [|apply multiglob_perm].
      destruct (Z c es H) as (st & R & _ & _ & I). destruct (proj1 (I n x) Hx) as [[En Ex]|(b & Hb & En & Ex)]; subst n x.
      * exists c. split; [now left|auto].
      * exists (bank_path st b). split; [apply packed_iff; right; exists c, st, b; auto|auto].
    + intros (f & Hf & -> & ->). apply packed_iff in Hf as [Hf|(c & st & b & Hc & R & Hb & ->)].
      * destruct (L f Hf) as (es & Hes & H). exists es. split; [exact Hes|]. destruct (Z f es H) as (st & _ & _ & _ & I). apply I. now left.
      * destruct (L c Hc) as (es & Hes & H). exists es. split; [exact Hes|]. destruct (Z c es H) as (st' & R' & _ & _ & I). rewrite R in R'. injection R' as <-.
        apply I. right. eauto.
Qed.
Lemma zip_ok w z ps :
  (forall c, In c (flat_map glob ps) -> exists st, read_corpus w c = Ok st) ->
  (forall f, packed rleb w (flat_map glob ps) f -> exists_at w f = true) ->
  exists es, pgc_zip rleb order pleb glob w z ps = Ok es.
Proof.
  intros R X. unfold pgc_zip. destruct (@mapM_all _ _ (zip_corpus rleb order w (stem (base_name z))) (multiglob ps)) as [r ->]; [|cbn; eauto].
  intros c Hc. eapply Permutation_in in Hc; [|apply multiglob_perm]. unfold zip_corpus, zip_write at 1.
  rewrite (X c) by now left. cbn [bind]. destruct (R c Hc) as [st Er]. rewrite Er. cbn [bind].
  destruct (@mapM_all _ _ (fun b => zip_write w (bank_path st b) [stem (base_name z); base_name (bank_path st b)]) (graph_banks order st)) as [r ->]; [|cbn; eauto].
  intros b Hb. apply graph_banks_in in Hb. unfold zip_write. rewrite X; [eauto|]. apply packed_iff. right. exists c, st, b. auto.
Qed.
(** unpacking *)
Lemma unzip_last d : forall es w n c, In (n, Some c) es -> (forall y, In (n, y) es -> y = Some c) -> file (unzip w d es) (d ++ n) = Some c.
Proof.
  assert (forall es w n c, (forall y, In (n, y) es -> y = Some c) -> file w (d ++ n) = Some c -> file (unzip w d es) (d ++ n) = Some c) as K.
  { induction es as [|[m [y|]] es IH]; intros w n c H F; cbn [unzip]; [exact F| |].
    - apply IH; [intros; apply H; now right|]. rewrite put_file. destruct (path_eqb (d ++ n) (d ++ m)) eqn:E; [|exact F].
      apply path_eqb_eq, app_inv_head in E. subst m. apply H. now left.
    - apply IH; [intros; apply H; now right|exact F]. }
  induction es as [|[m y] es IH]; intros w n c Hin H; [destruct Hin|]. cbn [unzip].
  destruct Hin as [[= -> ->]|Hin].
  - apply K; [intros; apply H; now right|]. now rewrite put_file, path_eqb_refl.
  - destruct y; apply IH; auto; intros; apply H; now right.
Qed.
Lemma normal_snoc x : component x -> forall l st, normal st (l ++ [x]) = normal st l ++ [x].
Proof.
  intros (N1 & N2 & N3 & _). induction l as [|y l IH]; intros st; cbn [normal app].
  - apply String.eqb_neq in N1, N2, N3. rewrite N1, N2, N3. cbn [orb rev]. reflexivity.
  - destruct (_ || _); [apply IH|]. destruct (String.eqb y ".."); apply IH.
Qed.
Lemma resolve_base d s : names_file s -> base_name (resolve d s) = last (split_path s) ""%string.
Proof.
  intros N. unfold resolve. destruct (split_pieces s) as [_ NE]. rewrite (app_removelast_last ""%string NE) at 1.
  rewrite normal_snoc by exact N. unfold base_name. apply last_last.
Qed.
Lemma relaxed_at w d s : names_file s -> (exists_at w (resolve d s) = false \/ resolve d s = d ++ [last (split_path s) ""%string]) ->
  locate_relaxed w d s = d ++ [last (split_path s) ""%string].
Proof.
  intros N H. unfold locate_relaxed. cbn zeta. destruct (exists_at w (resolve d s)) eqn:E; [destruct H; [discriminate|assumption]|].
  rewrite (resolve_base d s N). replace (if isabs s then last (split_path s) ""%string else last (split_path s) ""%string) with (last (split_path s) ""%string) by (destruct (isabs s); reflexivity).
  change [last (split_path s) ""%string] with ([] ++ [last (split_path s) ""%string]) at 1. rewrite (normal_snoc _ N). cbn [normal]. now rewrite rev_involutive.
Qed.
Lemma unpacked w w0 z ps es c e d :
  pgc_zip rleb order pleb glob w z ps = Ok es -> In c (flat_map glob ps) -> file w c = Some (Xml e) ->
  (forall f, packed rleb w (flat_map glob ps) f -> file w f <> None) ->
  (forall f g, packed rleb w (flat_map glob ps) f -> packed rleb w (flat_map glob ps) g -> base_name f = base_name g -> f = g) ->
  let a := d ++ [stem (base_name z)] in let w' := unzip w0 d es in
  (forall st b s, read_corpus w c = Ok st -> in_use st b -> written_path e b s ->
     names_file s /\ (exists_at w' (resolve a s) = false \/ resolve a s = a ++ [base_name (resolve a s)])) ->
  exists st st', read_corpus w c = Ok st /\ read_relaxed rleb w' (a ++ [base_name c]) = Ok st' /\ result st' = result st /\
    forall b, in_use st b -> exists p f, bank_of st b = Some (p, f) /\ bank_of st' b = Some (a ++ [base_name p], f) /\
      file w' (a ++ [base_name p]) = file w p.
Proof.
  intros EZ Hc Fc NF NC. cbn zeta. intros HT. set (a := d ++ [stem (base_name z)]) in *. set (w' := unzip w0 d es) in *.
  destruct (zip_entries _ _ _ _ EZ) as (HR & HX & HE).
  assert (forall f, packed rleb w (flat_map glob ps) f -> file w' (a ++ [base_name f]) = file w f) as HF.
  { intros f Hf. unfold w', a. rewrite <- app_assoc. cbn [app]. destruct (file w f) as [x|] eqn:F; [|now apply NF in Hf].
    apply unzip_last.
    - apply HE. exists f. rewrite F. auto.
    - intros y Hy. apply HE in Hy as (g & Hg & En & ->). injection En as En. rewrite <- (NC f g Hf Hg En). exact F. }
  destruct (HR c Hc) as [st Er]. pose proof Er as Er'. unfold Ship_model.read_corpus in Er. rewrite Fc in Er. unfold parse in Er.
  pose proof (@moved_parse rleb (resolve (dir_of c)) (locate_relaxed w' a) e) as M. rewrite Er in M.
  destruct (parse_at rleb (locate_relaxed w' a) e) as [st'|?] eqn:E'; [|destruct M]. cbn [alike] in M.
  exists st, st'. split; [exact Er'|]. split.
  { unfold read_relaxed. rewrite HF by now left. rewrite Fc. unfold dir_of. rewrite removelast_last. exact E'. }
  split; [exact (m_res _ _ M)|]. intros b Hb. exists (bank_path st b), (bank_format st b).
  pose proof (in_use_bank rleb _ _ (read_inv rleb total _ _ _ Er') Hb) as B. split; [exact B|].
  apply parse_from in Er as F1. apply parse_from in E' as F2.
  unfold bank_of in B. destruct (nth_error (banks st) b) as [[i [p f]]|] eqn:N1; [|discriminate]. cbn [option_map snd] in B. injection B as B1 B2.
  pose proof (m_ids _ _ M) as MI. apply (f_equal (fun l => nth_error l b)) in MI. rewrite !nth_error_map, N1 in MI. cbn [option_map fst snd] in MI.
  destruct (nth_error (banks st') b) as [[i' [p' f']]|] eqn:N2; [|discriminate]. cbn [option_map fst snd] in MI. injection MI as -> ->.
  assert (exists x, nth_error (files e) b = Some x /\ bank_from (resolve (dir_of c)) x (i, (p, f)) /\ bank_from (locate_relaxed w' a) x (i, (p', f))) as (x & Nx & (t & Tx & P1) & (t' & Tx' & P2)).
  { clear - F1 F2 N1 N2. revert F2 N1 N2. generalize (banks st'). revert b. induction F1 as [|x y l l' Hxy F IH]; intros b l2 F2 N1 N2; [destruct b; discriminate|].
    inversion F2 as [|? y2 ? l2' H2 F2']; subst. destruct b as [|b]; cbn in *; [injection N1 as ->; injection N2 as ->; eauto|eauto]. }
  rewrite Tx in Tx'. injection Tx' as <-. cbn [fst snd] in P1, P2.
  destruct (HT st b (strip t) Er' Hb) as [NS HW]; [exists x, t; auto|].
  assert (base_name p = last (split_path (strip t)) ""%string) as BP by (rewrite P1; now apply resolve_base).
  assert (p' = a ++ [base_name p]) as EP.
  { rewrite BP, P2. apply relaxed_at; auto. destruct HW as [HW|HW]; [now left|right]. rewrite (resolve_base a _ NS) in HW. exact HW. }
  rewrite <- B1, <- B2. split.
  - unfold bank_of. rewrite N2. cbn. now rewrite EP.
  - apply HF. apply packed_iff. right. exists c, st, b. repeat split; auto.
Qed.
End Zip.

(** ** a numbering of the paths *)
Fixpoint enc (l : list nat) : nat := match l with [] => 0 | d :: l' => d + 258 * enc l' end.
Lemma enc_inj l : forall l', Forall (fun d => 1 <= d <= 257) l -> Forall (fun d => 1 <= d <= 257) l' -> enc l = enc l' -> l = l'.
Proof.
  induction l as [|d l IH]; intros [|d' l'] F F' E; auto; cbn [enc] in E.
  - inversion F'. lia.
  - inversion F. lia.
  - inversion F as [|? ? D FL]; inversion F' as [|? ? D' FL']; subst. assert (d = d' /\ enc l = enc l') as [-> E'] by lia. f_equal. auto.
Qed.
Definition codes (x : string) : list nat := map (fun c => S (nat_of_ascii c)) (list_ascii_of_string x).
Fixpoint flat (p : path) : list nat := match p with [] => [] | x :: p' => codes x ++ 257 :: flat p' end.
Lemma codes_range x : Forall (fun d => 1 <= d <= 256) (codes x).
Proof. unfold codes. apply Forall_forall. intros d H. apply in_map_iff in H as (c & <- & _). pose proof (nat_ascii_bounded c). lia. Qed.
Lemma flat_range p : Forall (fun d => 1 <= d <= 257) (flat p).
Proof.
  induction p as [|x p IH]; cbn [flat]; [constructor|]. apply Forall_app. split; [|constructor; [lia|auto]].
  pose proof (codes_range x) as C. rewrite Forall_forall in *. intros d H. specialize (C d H). lia.
Qed.
Lemma codes_sep a : forall b r s, Forall (fun d => 1 <= d <= 256) a -> Forall (fun d => 1 <= d <= 256) b -> a ++ 257 :: r = b ++ 257 :: s -> a = b /\ r = s.
Proof.
  induction a as [|x a IH]; intros [|y b] r s FA FB E; cbn in E.
  - injection E as E. auto.
  - injection E as <- E. inversion FB. lia.
  - injection E as -> E. inversion FA. lia.
  - injection E as <- E. inversion FA; inversion FB; subst. destruct (IH b r s) as [-> ->]; auto.
Qed.
Lemma codes_inj x y : codes x = codes y -> x = y.
Proof.
  unfold codes. intros E. rewrite <- (string_of_list_ascii_of_string x), <- (string_of_list_ascii_of_string y). f_equal.
  revert E. generalize (list_ascii_of_string y). induction (list_ascii_of_string x) as [|c l IH]; intros [|d m] E; try discriminate; auto.
  cbn in E. injection E as E1 E2. f_equal; [|auto]. rewrite <- (ascii_nat_embedding c), <- (ascii_nat_embedding d). now f_equal.
Qed.
Lemma flat_inj p : forall q, flat p = flat q -> p = q.
Proof.
  induction p as [|x p IH]; intros [|y q] E; cbn [flat] in E; auto.
  - destruct (codes y); discriminate.
  - destruct (codes x); discriminate.
  - destruct (codes_sep _ _ _ _ (codes_range x) (codes_range y) E) as [E1 E2]. f_equal; [now apply codes_inj|auto].
Qed.
Definition numbering (p : path) : nat := enc (flat p).
Lemma numbering_inj p q : numbering p = numbering q -> p = q.
Proof. intros E. apply flat_inj. apply enc_inj; auto using flat_range. Qed.

(** ** splitext *)
Lemma last_dot_spec s : match last_dot s with
  | Some n => exists a b, s = (a ++ "." ++ b)%string /\ String.length a = n /\ forall x y, b <> (x ++ "." ++ y)%string
  | None => forall x y, s <> (x ++ "." ++ y)%string
  end.
Proof.
  induction s as [|c s IH]; cbn [last_dot]; [intros [|? x] y H; discriminate H|].
  destruct (last_dot s) as [n|].
  - destruct IH as (a & b & -> & L & N). exists (String c a), b. split; [reflexivity|]. split; [cbn; now rewrite L|exact N].
  - destruct (c =? ".")%char eqn:E.
    + apply Ascii.eqb_eq in E as ->. exists ""%string, s. auto.
    + intros [|d x] y H; cbn in H; injection H as -> H; [discriminate E|]. exact (IH x y H).
Qed.
Lemma substring_pre a b : substring 0 (String.length a) (a ++ b) = a.
Proof. induction a as [|c a IH]; cbn; [now destruct b|now rewrite IH]. Qed.
Lemma only_dots_spec s : only_dots s = true <-> dots s.
Proof.
  assert (forall n, String.concat "" (repeat "."%string (S n)) = String "." (String.concat "" (repeat "."%string n))) as C.
  { intros [|n]; reflexivity. }
  split.
  - induction s as [|c s IH]; cbn [only_dots]; [now exists 0|]. intros H. apply Bool.andb_true_iff in H as [E H]. apply Ascii.eqb_eq in E as ->.
    destruct (IH H) as [n ->]. exists (S n). now rewrite C.
  - intros [n ->]. induction n as [|n IH]; [reflexivity|]. rewrite C. cbn [only_dots]. rewrite IH. reflexivity.
Qed.
Lemma parse_at_ext rleb l l' e : (forall x t, In x (files e) -> text x = Some t -> l (strip t) = l' (strip t)) -> parse_at rleb l e = parse_at rleb l' e.
Proof.
  intros H. pose proof (@moved_parse rleb l l' e) as M.
  destruct (parse_at rleb l e) as [s|x] eqn:E, (parse_at rleb l' e) as [s'|x'] eqn:E'; cbn [alike] in M; try contradiction; [|now rewrite M].
  f_equal. apply parse_from in E, E'. destruct M as [M1 M2 M3 M4 M5 M6].
  assert (banks s = banks s') as B.
  { clear - H E E' M6. revert E' M6. generalize (banks s'). revert H. induction E as [|x b fs bs Hx F IH]; intros H l0 F' M; inversion F' as [|? b' ? bs' Hx' F'']; subst; [reflexivity|].
    cbn [map] in M. injection M as M1 M2 M3. f_equal; [|apply IH; auto; intros; apply H with (x := x0); auto; now right].
    destruct b as [i [p f]], b' as [i' [p' f']]. destruct Hx as (t & T & P), Hx' as (t' & T' & P'). cbn in *. rewrite T in T'. injection T' as <-.
    subst. do 2 f_equal. rewrite (H x t); auto. }
  destruct s, s'; cbn in *; congruence.
Qed.
Lemma append_empty_r s : (s ++ "")%string = s.
Proof. induction s as [|c s IH]; cbn; [reflexivity|now rewrite IH]. Qed.
