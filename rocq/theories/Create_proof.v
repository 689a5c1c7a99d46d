From Coq Require Import String.
From Verif Require Import Py PyLemmas Ielem_spec Ielem_model Ielem_proof Hdoc_spec Hdoc_model Hdoc_proof Ptceval_spec Rouge_proof Create_spec Create_model.
Set Implicit Arguments.

Section Words.
Variable char : Type.
Variable ceqb : char -> char -> bool.
Hypothesis ceq : forall a b, ceqb a b = true <-> a = b.
Variable space : char -> bool.
Notation split := (split space).
Notation split_loop := (split_loop space).
Notation has_words := (has_words space).

Lemma has_words_space c s ws : space c = true -> has_words s ws -> has_words (c :: s) ws.
Proof.
  intros H [t B|a w B W|a w d t vs B W D V].
  - constructor. now constructor.
  - rewrite app_comm_cons. constructor; [now constructor|trivial].
  - rewrite app_comm_cons. constructor; trivial. now constructor.
Qed.
Lemma split_loop_ok s : forall w, Forall (fun c => space c = false) w -> has_words (rev w ++ s) (split_loop w s).
Proof.
  induction s as [|c s IH]; intros w W.
  - rewrite app_nil_r. destruct w as [|x w]; cbn [Create_model.split_loop]; [apply no_words; constructor|].
    apply (@last_word _ space [] (rev (x :: w))); [constructor|]. split.
    + intros E. apply (f_equal (@length _)) in E. rewrite rev_length in E. discriminate.
    + now apply Forall_rev.
  - cbn [Create_model.split_loop]. destruct (space c) eqn:E.
    + destruct w as [|x w].
      * cbn [rev app]. apply has_words_space; [trivial|]. apply (IH []). constructor.
      * apply (@more_words _ space [] (rev (x :: w)) c s); [constructor| |trivial|apply (IH []); constructor].
        split; [intros F; apply (f_equal (@length _)) in F; rewrite rev_length in F; discriminate|now apply Forall_rev].
    + specialize (IH (c :: w)). cbn [rev] in IH. rewrite <- app_assoc in IH. apply IH. now constructor.
Qed.
Lemma split_ok s : has_words s (split s).
Proof. exact (@split_loop_ok s [] (Forall_nil _)). Qed.
Lemma loop_blank a s : blank space a -> split_loop [] (a ++ s) = split_loop [] s.
Proof. induction 1 as [|c a H _ IH]; [reflexivity|]. cbn [app Create_model.split_loop]. now rewrite H. Qed.
Lemma loop_word w s : Forall (fun c => space c = false) w -> forall v, split_loop v (w ++ s) = split_loop (rev w ++ v) s.
Proof.
  induction 1 as [|c w H _ IH]; intros v; [reflexivity|]. cbn [app Create_model.split_loop rev]. rewrite H, IH, <- app_assoc. reflexivity.
Qed.
Lemma split_unique s ws : has_words s ws -> split s = ws.
Proof.
  unfold Create_model.split. induction 1 as [s B|a w B [W1 W2]|a w c s ws B [W1 W2] C _ IH].
  - rewrite <- (app_nil_r s), loop_blank by trivial. reflexivity.
  - rewrite loop_blank by trivial. rewrite <- (app_nil_r w) at 1. rewrite loop_word by trivial. rewrite app_nil_r.
    cbn [Create_model.split_loop]. destruct (rev w) eqn:E.
    + apply (f_equal (@length _)) in E. rewrite rev_length in E. destruct w; [contradiction|discriminate].
    + rewrite <- E, rev_involutive. reflexivity.
  - rewrite loop_blank by trivial. rewrite loop_word by trivial. rewrite app_nil_r.
    cbn [Create_model.split_loop]. rewrite C, IH. destruct (rev w) eqn:E.
    + apply (f_equal (@length _)) in E. rewrite rev_length in E. destruct w; [contradiction|discriminate].
    + rewrite <- E, rev_involutive. reflexivity.
Qed.

Notation weqb := (weqb ceqb).
Lemma weqb_spec v w : weqb v w = true <-> v = w.
Proof.
  revert w. induction v as [|a v IH]; intros [|b w]; cbn [Create_model.weqb]; try (split; congruence).
  rewrite Bool.andb_true_iff, ceq, IH. split; [intros [-> ->]; reflexivity|intros E; now injection E].
Qed.
Lemma fromkeys_in (l : list (list char)) d w : In w (dkeys (fold_left (fun d w => dset weqb d w tt) l d)) <-> In w (dkeys d) \/ In w l.
Proof.
  revert d. induction l as [|v l IH]; intros d; cbn [fold_left In]; [tauto|]. rewrite IH.
  destruct (in_dec (list_eq_dec (fun a b => match Bool.bool_dec (ceqb a b) true with left e => left (proj1 (ceq a b) e) | right n => right (fun E => n (proj2 (ceq a b) E)) end)) v (dkeys d)) as [I|I].
  - rewrite (dkeys_dset_in weqb weqb_spec) by trivial. split; [tauto|]. intros [H|[->|H]]; tauto.
  - rewrite (dkeys_dset_new weqb weqb_spec) by trivial. unfold dkeys. rewrite map_app, in_app_iff. cbn [map In fst]. tauto.
Qed.
Lemma outside_count (m l : list (list char)) : outside m l (length (filter (fun w => negb (mem weqb w (dkeys (fold_left (fun d w => dset weqb d w tt) m [])))) l)).
Proof.
  induction l as [|w l IH]; cbn [filter length]; [constructor|].
  destruct (mem weqb w _) eqn:E; cbn [negb length].
  - apply (mem_spec weqb weqb_spec) in E. apply fromkeys_in in E. destruct E as [[]|E]. now constructor.
  - apply out_not; [|exact IH]. intros I. rewrite (proj2 (mem_spec weqb weqb_spec _ _)) in E; [discriminate|].
    apply fromkeys_in. now right.
Qed.
Lemma outside_fun (A : Type) (m l : list A) n : outside m l n -> forall k, outside m l k -> n = k.
Proof.
  induction 1 as [|a l n I _ IH|a l n I _ IH]; intros k H; inversion H; subst; try contradiction; auto.
Qed.
Lemma token_diff_ok (s t : list (list char)) a b : outside t s a -> outside s t b -> token_diff ceqb s t = a + b.
Proof.
  intros A B. unfold token_diff. 
  rewrite (outside_fun A (outside_count t s)), (outside_fun B (outside_count s t)). reflexivity.
Qed.
End Words.

Lemma visible_plain (char : Type) (e : elem char) : visible plain e = doc_order e.
Proof.
  induction e as [u tg i tx tl ch IH] using elem_ind2. cbn [visible doc_order]. unfold ignoredb. cbn [ignore plain existsb].
  f_equal. induction IH as [|c ch H _ IH]; [reflexivity|]. cbn [flat_map]. now rewrite H, IH.
Qed.
Lemma pick_id_in (char : Type) (root : elem char) t k e : pick_id root t k = Ok e -> In e (doc_order root).
Proof.
  unfold pick_id. destruct (rev _) as [|d l] eqn:E; [discriminate|]. intros [= ->].
  assert (I : In e (rev (filter (fun e => if option_string_dec (id_of e) k then true else false) (tagged root t)))) by (rewrite E; now left).
  apply in_rev, filter_In in I. destruct I as [I _]. now apply filter_In in I.
Qed.
Lemma pick_id_err (char : Type) (root : elem char) t k x : pick_id root t k = Err x -> x = KeyError.
Proof. unfold pick_id. destruct (rev _); congruence. Qed.

Section Main.
Variable char : Type.
Variable ceqb : char -> char -> bool.
Hypothesis ceq : forall a b, ceqb a b = true <-> a = b.
Variable space : char -> bool.
Variable nl : char.
Variable lower : char -> char.
Variable G : Type.
Notation elem := (elem char).
Variables from_root to_root : elem.
Hypothesis D1 : distinct from_root.
Hypothesis D2 : distinct to_root.
Variables from_tag to_tag : string.
Variables from_bank to_bank : list (string * G).
Variables min_diff max_len : Z.

Notation tree e := (update space nl {| ignore := []; newline := []; blankline := [] |} e (fun _ => no_attrs char)).
Notation bank b := (dget String.eqb b).
Notation elem_words := (elem_words space nl lower).
Lemma tokens_ok root t k : distinct root ->
  get_elem_tokens space lower (tree root) t k =
  (e <- pick_id root t k ;; Ok (split space (map lower (contents space nl plain e)))).
Proof.
  intros D. unfold get_elem_tokens. destruct (tree root) as [x doc] eqn:E. cbn [fst snd].
  assert (U : updated space nl root x) by (eexists _, _, _; exact E).
  destruct (updated_tabs D U) as [_ [I _]]. specialize (I t k). unfold id_get in I.
  rewrite <- last_with_pick. rewrite <- I. unfold dread.
  destruct (dget String.eqb (ids x) t) as [d|]; [|reflexivity]. cbn [bind].
  destruct (dget id_eqb d k) as [e|] eqn:K; [|reflexivity]. cbn [bind]. do 3 f_equal.
  eapply (text_ok space nl _ _ _ D E). change (In e (visible plain root)). rewrite visible_plain. apply pick_id_in with t k.
  now rewrite <- last_with_pick, <- I.
Qed.
Lemma elem_words_ok e : elem_words e (split space (map lower (contents space nl plain e))).
Proof. apply split_ok. Qed.
Lemma elem_words_fun e ws : elem_words e ws -> ws = split space (map lower (contents space nl plain e)).
Proof. intros H. symmetry. now apply split_unique. Qed.

Notation admissible := (admissible min_diff max_len).
Definition admb (s t : list (list char)) : bool :=
  negb ((max_len <? Z.of_nat (length s))%Z || (max_len <? Z.of_nat (length t))%Z) &&
  negb (negb (min_diff =? 0)%Z && (Z.of_nat (token_diff ceqb s t) <? min_diff)%Z).
Lemma admb_ok s t : admb s t = true <-> admissible s t.
Proof.
  unfold admb, Create_spec.admissible. rewrite Bool.andb_true_iff, !Bool.negb_true_iff, Bool.orb_false_iff, !Z.ltb_ge, Bool.andb_false_iff, Bool.negb_false_iff, Z.eqb_eq, Z.ltb_ge.
  assert (Q : (min_diff <= Z.of_nat (token_diff ceqb s t))%Z <-> exists a b, outside t s a /\ outside s t b /\ (min_diff <= Z.of_nat (a + b))%Z).
  { split.
    - intros H. exists (length (filter (fun w => negb (mem (weqb ceqb) w (dkeys (fold_left (fun d w => dset (weqb ceqb) d w tt) t [])))) s)),
        (length (filter (fun w => negb (mem (weqb ceqb) w (dkeys (fold_left (fun d w => dset (weqb ceqb) d w tt) s [])))) t)).
      split; [apply (outside_count ceqb ceq)|]. split; [apply (outside_count ceqb ceq)|]. exact H.
    - intros [a [b [A [B H]]]]. now rewrite (token_diff_ok ceqb ceq A B). }
  rewrite Q. tauto.
Qed.

Notation link_words := (link_words space nl lower from_root to_root from_tag to_tag).
Notation skipped := (skipped space nl lower from_root to_root from_tag to_tag min_diff max_len).
Notation made := (made space nl lower from_root to_root from_tag to_tag (bank from_bank) (bank to_bank) min_diff max_len).
Notation bad := (bad space nl lower from_root to_root from_tag to_tag (bank from_bank) (bank to_bank) min_diff max_len).
Notation created := (created space nl lower from_root to_root from_tag to_tag (bank from_bank) (bank to_bank) min_diff max_len).
Notation step := (create_step ceqb space lower (tree from_root) (tree to_root) from_tag to_tag from_bank to_bank min_diff max_len).

Lemma get_graph_ok (b : list (string * G)) (i : option string) : get_graph b i = match graph_of (dget String.eqb b) i with Some g => Ok g | None => Err KeyError end.
Proof. destruct i as [i|]; [|reflexivity]. cbn [get_graph graph_of]. unfold dread. destruct (dget _ b i); reflexivity. Qed.

(** Every link is of one of the three kinds, and of one only. *)
Lemma step_cases l : (forall c, step c l = Ok c) /\ skipped l /\ (forall p, ~ made l p) /\ ~ bad l
  \/ (exists p, (forall c, step c l = Ok (c ++ [p])) /\ made l p /\ ~ skipped l /\ ~ bad l)
  \/ (forall c, step c l = Err KeyError) /\ bad l /\ ~ skipped l /\ (forall p, ~ made l p).
Proof.
  destruct (negb (id_eqb (f_from_tag l) (Some from_tag)) || negb (id_eqb (f_to_tag l) (Some to_tag))) eqn:W.
  - left. assert (N : ~ wanted from_tag to_tag l).
    { intros [A B]. rewrite (proj2 (id_eqb_spec _ _) A), (proj2 (id_eqb_spec _ _) B) in W. discriminate. }
    split; [intros c; unfold create_step; now rewrite W|]. split; [now left|].
    split; [intros p [M _]|intros [M _]]; contradiction.
  - assert (N : wanted from_tag to_tag l).
    { apply Bool.orb_false_iff in W. rewrite !Bool.negb_false_iff, !id_eqb_spec in W. exact W. }
    assert (ST : forall c, step c l =
      (s <- (e <- pick_id from_root from_tag (f_from_id l) ;; Ok (split space (map lower (contents space nl plain e)))) ;;
       t <- (e <- pick_id to_root to_tag (f_to_id l) ;; Ok (split space (map lower (contents space nl plain e)))) ;;
       if admb s t then g <- get_graph from_bank (f_from_id l) ;; h <- get_graph to_bank (f_to_id l) ;; Ok (c ++ [(g, h)]) else Ok c)).
    { intros c. unfold create_step. rewrite W, !tokens_ok by trivial.
      destruct (pick_id from_root from_tag (f_from_id l)) as [e|]; [|reflexivity]. cbn [bind].
      destruct (pick_id to_root to_tag (f_to_id l)) as [f|]; [|reflexivity]. cbn [bind]. unfold admb.
      generalize (split space (map lower (contents space nl plain e))), (split space (map lower (contents space nl plain f))). intros s t. clear.
      destruct (max_len <? Z.of_nat (length s))%Z; [reflexivity|]. destruct (max_len <? Z.of_nat (length t))%Z; [reflexivity|].
      cbn [orb negb andb]. destruct (negb (min_diff =? 0)%Z && _)%bool; reflexivity. }
    destruct (pick_id from_root from_tag (f_from_id l)) as [e|x] eqn:E.
    2:{ right. right. assert (x = KeyError) by now apply pick_id_err in E. subst x.
        assert (NW : forall s t, ~ link_words l s t) by (intros s t [a [b [A _]]]; congruence).
        split; [intros c; rewrite ST; reflexivity|]. split; [split; [trivial|left; exact NW]|].
        split; [intros [C|[s [t [C _]]]]; [contradiction|exact (NW _ _ C)]|]. intros p [_ [[s [t [C _]]] _]]. exact (NW _ _ C). }
    destruct (pick_id to_root to_tag (f_to_id l)) as [f|x] eqn:F.
    2:{ right. right. assert (x = KeyError) by now apply pick_id_err in F. subst x.
        assert (NW : forall s t, ~ link_words l s t) by (intros s t [a [b [_ [A _]]]]; congruence).
        split; [intros c; rewrite ST; reflexivity|]. split; [split; [trivial|left; exact NW]|].
        split; [intros [C|[s [t [C _]]]]; [contradiction|exact (NW _ _ C)]|]. intros p [_ [[s [t [C _]]] _]]. exact (NW _ _ C). }
    cbn [bind] in ST.
    set (s := split space (map lower (contents space nl plain e))) in *. set (t := split space (map lower (contents space nl plain f))) in *.
    assert (LW : link_words l s t) by (exists e, f; repeat split; trivial; apply elem_words_ok).
    assert (LU : forall s' t', link_words l s' t' -> s' = s /\ t' = t).
    { intros s' t' [e' [f' [A [B [C D]]]]]. rewrite E in A. rewrite F in B. injection A as <-. injection B as <-.
      split; now apply elem_words_fun. }
    destruct (admb s t) eqn:AD.
    + assert (A : admissible s t) by now apply admb_ok.
      assert (NS : ~ skipped l) by (intros [C|[s' [t' [C H]]]]; [contradiction|destruct (LU _ _ C) as [-> ->]; contradiction]).
      right. rewrite !get_graph_ok in ST.
      destruct (graph_of (bank from_bank) (f_from_id l)) as [g|] eqn:G1.
      * destruct (graph_of (bank to_bank) (f_to_id l)) as [h|] eqn:G2.
        -- left. exists (g, h). cbn [bind] in ST. split; [exact ST|]. split; [split; [trivial|]; split; [exists s, t; auto|]; auto|].
           split; [exact NS|]. intros [_ [C|[_ [C|C]]]]; [exact (C _ _ LW)|congruence|congruence].
        -- right. split; [exact ST|]. split; [split; [trivial|right; split; [exists s, t; auto|auto]]|]. split; [exact NS|].
           intros p [_ [_ [_ C]]]. congruence.
      * right. split; [exact ST|]. split; [split; [trivial|right; split; [exists s, t; auto|auto]]|]. split; [exact NS|].
        intros p [_ [_ [C _]]]. congruence.
    + assert (A : ~ admissible s t) by (intros C; apply admb_ok in C; congruence).
      left. split; [exact ST|]. split; [right; exists s, t; auto|].
      split.
      * intros p [_ [[s' [t' [C H]]] _]]. destruct (LU _ _ C) as [-> ->]. contradiction.
      * intros [_ [C|[[s' [t' [C H]]] _]]]; [exact (C _ _ LW)|]. destruct (LU _ _ C) as [-> ->]. contradiction.
Qed.

Lemma made_fun l p q : made l p -> made l q -> p = q.
Proof. intros [_ [_ [A B]]] [_ [_ [C D]]]. destruct p, q. cbn [fst snd] in *. congruence. Qed.

Lemma loop_created links ps : created links ps -> forall c, foldM step c links = Ok (c ++ ps).
Proof.
  induction 1 as [|l ls ps S _ IH|l p ls ps M _ IH]; intros c; cbn [foldM].
  - now rewrite app_nil_r.
  - destruct (step_cases l) as [[E _]|[[q [E [_ [N _]]]]|[E [_ [N _]]]]]; try contradiction. rewrite E. cbn [bind]. apply IH.
  - destruct (step_cases l) as [[E [_ [N _]]]|[[q [E [M2 _]]]|[E [_ [_ N]]]]]; [destruct (N _ M)| |destruct (N _ M)].
    rewrite (made_fun M M2), E. cbn [bind]. rewrite IH, <- app_assoc. reflexivity.
Qed.
Lemma loop_ok links : forall c r, foldM step c links = Ok r -> exists ps, r = c ++ ps /\ created links ps.
Proof.
  induction links as [|l links IH]; intros c r; cbn [foldM].
  - intros [= <-]. exists []. split; [now rewrite app_nil_r|constructor].
  - destruct (step_cases l) as [[E [S _]]|[[q [E [M _]]]|[E _]]]; rewrite E; cbn [bind]; [| |discriminate]; intros H.
    + destruct (IH _ _ H) as [ps [-> C]]. exists ps. split; [trivial|now apply created_skip].
    + destruct (IH _ _ H) as [ps [-> C]]. exists (q :: ps). split; [now rewrite <- app_assoc|now apply created_make].
Qed.
Lemma loop_err links : forall c x, foldM step c links = Err x -> x = KeyError /\ exists l, In l links /\ bad l.
Proof.
  induction links as [|l links IH]; intros c x; cbn [foldM]; [discriminate|].
  destruct (step_cases l) as [[E _]|[[q [E _]]|[E [B _]]]]; rewrite E; cbn [bind]; intros H.
  - destruct (IH _ _ H) as [-> [k [I B]]]. split; [trivial|]. exists k. split; [now right|trivial].
  - destruct (IH _ _ H) as [-> [k [I B]]]. split; [trivial|]. exists k. split; [now right|trivial].
  - injection H as <-. split; [trivial|]. exists l. split; [now left|trivial].
Qed.
Lemma loop_bad links : forall c l, In l links -> bad l -> foldM step c links = Err KeyError.
Proof.
  induction links as [|k links IH]; intros c l; cbn [foldM In]; [tauto|]. intros [->|I] B.
  - destruct (step_cases l) as [[_ [_ [_ N]]]|[[q [_ [_ [_ N]]]]|[E _]]]; try contradiction. rewrite E. reflexivity.
  - destruct (step_cases k) as [[E _]|[[q [E _]]|[E _]]]; rewrite E; cbn [bind]; [eapply IH; eauto|eapply IH; eauto|reflexivity].
Qed.

Notation from_ptc links := (pgc_from_ptc ceqb space nl lower links from_root to_root from_bank to_bank from_tag to_tag min_diff max_len).
Lemma create_iff links ps : from_ptc links = Ok ps <-> created links ps.
Proof.
  split.
  - intros H. destruct (loop_ok _ _ H) as [qs [-> C]]. exact C.
  - intros H. exact (loop_created H []).
Qed.
Lemma create_err links x : from_ptc links = Err x <-> x = KeyError /\ exists l, In l links /\ bad l.
Proof.
  split.
  - apply loop_err.
  - intros [-> [l [I B]]]. exact (loop_bad _ _ I B).
Qed.
End Main.

Section Limits.
Variable char : Type.
Variable space : char -> bool.
Variable nl : char.
Variable lower : char -> char.
Variable G : Type.
Variables from_root to_root : elem char.
Variables from_tag to_tag : string.
Variables from_bank to_bank : string -> option G.
Notation created := (created space nl lower from_root to_root from_tag to_tag from_bank to_bank).
Lemma admissible_mono (m m' M M' : Z) (s t : list (list char)) : (0 <= m')%Z -> (m' <= m)%Z -> (M <= M')%Z -> admissible m M s t -> admissible m' M' s t.
Proof.
  intros P A B [H1 [H2 H3]]. split; [lia|]. split; [lia|]. destruct H3 as [H3|[a [b [X [Y H]]]]].
  - left. lia.
  - right. exists a, b. repeat split; trivial. lia.
Qed.
Lemma created_mono (m m' M M' : Z) links ps qs : (0 <= m')%Z -> (m' <= m)%Z -> (M <= M')%Z ->
  created m M links ps -> created m' M' links qs -> sublist ps qs.
Proof.
  intros P A B C. revert qs. induction C as [|l ls ps S _ IH|l p ls ps M1 _ IH]; intros qs H; inversion H; subst.
  - constructor.
  - auto.
  - apply sub_drop. auto.
  - exfalso. destruct M1 as [W [[s [t [L AD]]] _]]. destruct H2 as [N|[s' [t' [L' N]]]]; [contradiction|].
    destruct L as [e [f [E [F [X Y]]]]]. destruct L' as [e' [f' [E' [F' [X' Y']]]]].
    rewrite E in E'. rewrite F in F'. injection E' as <-. injection F' as <-.
    rewrite (elem_words_fun X), (elem_words_fun Y) in AD. rewrite (elem_words_fun X'), (elem_words_fun Y') in N.
    apply N. eapply admissible_mono; eauto.
  - destruct M1 as [_ [_ [E F]]]. destruct H2 as [_ [_ [E' F']]]. rewrite E in E'. rewrite F in F'.
    assert (p = p0) by (destruct p, p0; cbn [fst snd] in *; congruence). subst p0. apply sub_keep. auto.
Qed.
End Limits.
