(** C34: injecting and extracting alignment links (lib/daeso/ptc/document.py). *)
From Coq Require Import String Permutation Ascii.
From Verif Require Import Py Ielem_spec Ielem_model Hdoc_spec Hdoc_model Hdoc_proof.
Open Scope string_scope.
Open Scope list_scope.

Section Props.
Variable char : Type.
Variable space : char -> bool.
Variable nl : char.
Notation elem := (elem char).
Notation index := (index char).
Notation updated := (updated space nl).
Notation aligns x e := (a_aligns (st x (uid e))).
Notation connects_n := (connects (@named_n char)).
Notation connects_id := (connects (@named_id char)).

(** If every link names an element of each tree, injection succeeds, and each element's
    alignments are its partners in the order of the links, on both sides. *)
Theorem inject_n_links : forall fr tr fx tx links pairs, distinct fr -> distinct tr -> updated fr fx -> updated tr tx ->
  Forall2 (connects_n fr tr) links pairs ->
  exists fx' tx', inject_n links fx tx = Ok (fx', tx') /\
    (forall e, In e (doc_order fr) -> aligns fx' e = targets pairs e) /\
    (forall e, In e (doc_order tr) -> aligns tx' e = sources pairs e).
Proof.
  intros fr tr fx tx links pairs D1 D2 U1 U2 F.
  destruct (updated_tabs D1 U1) as [N1 [_ [_ Z1]]]. destruct (updated_tabs D2 U2) as [N2 [_ [_ Z2]]].
  rewrite (inject_n_ok N1 N2 F). eexists _, _. split; [rewrite <- surjective_pairing; reflexivity|].
  split; intros e I; destruct (apply_aligns pairs (fx, tx) (uid e)) as [A [B _]].
  - rewrite A. cbn [fst]. now rewrite Z1.
  - rewrite B. cbn [snd]. now rewrite Z2.
Qed.
Theorem inject_id_links : forall fr tr fx tx links pairs, distinct fr -> distinct tr -> updated fr fx -> updated tr tx ->
  Forall2 (connects_id fr tr) links pairs ->
  exists fx' tx', inject_id links fx tx = Ok (fx', tx') /\
    (forall e, In e (doc_order fr) -> aligns fx' e = targets pairs e) /\
    (forall e, In e (doc_order tr) -> aligns tx' e = sources pairs e).
Proof.
  intros fr tr fx tx links pairs D1 D2 U1 U2 F.
  destruct (updated_tabs D1 U1) as [_ [N1 [_ Z1]]]. destruct (updated_tabs D2 U2) as [_ [N2 [_ Z2]]].
  rewrite (inject_id_ok N1 N2 F). eexists _, _. split; [rewrite <- surjective_pairing; reflexivity|].
  split; intros e I; destruct (apply_aligns pairs (fx, tx) (uid e)) as [A [B _]].
  - rewrite A. cbn [fst]. now rewrite Z1.
  - rewrite B. cbn [snd]. now rewrite Z2.
Qed.

(** Injecting and then extracting gives the same links, grouped by source element in document
    order; links that are in that order already come back unchanged. *)
Theorem inject_extract_n : forall fr tr fx tx links pairs fx' tx' old, distinct fr -> distinct tr -> updated fr fx -> updated tr tx ->
  Forall2 (connects_n fr tr) links pairs -> inject_n links fx tx = Ok (fx', tx') ->
  Forall2 (connects_n fr tr) (extract_n fr fx' tx' old) (grouped fr pairs) /\
  Permutation (extract_n fr fx' tx' old) links /\
  (in_doc_order fr pairs -> extract_n fr fx' tx' old = links).
Proof.
  intros fr tr fx tx links pairs fx' tx' old D1 D2 U1 U2 F E.
  destruct (updated_tabs D1 U1) as [N1 [_ [_ Z1]]]. destruct (updated_tabs D2 U2) as [N2 _].
  rewrite (inject_n_ok N1 N2 F) in E. injection E as E.
  assert (S : forall p, In p pairs -> In (fst p) (doc_order fr) /\ In (snd p) (doc_order tr)).
  { intros p Hp. destruct (f2_in_r _ F Hp) as [l [_ [C1 C2]]]. split; [apply (named_n_in C1)|apply (named_n_in C2)]. }
  assert (S1 : forall p, In p pairs -> In (fst p) (doc_order fr)) by (intros p Hp; exact (proj1 (S p Hp))).
  assert (L : links = map (mk_n fx tx) pairs) by (eapply f2_eq; [|exact F]; intros l p C; exact (connects_n_mk D1 D2 U1 U2 C)).
  assert (X : extract_n fr fx' tx' old = map (mk_n fx tx) (grouped fr pairs)).
  { rewrite extract_n_eq. replace fx' with (fst (apply_pairs pairs (fx, tx))) by now rewrite E.
    replace tx' with (snd (apply_pairs pairs (fx, tx))) by now rewrite E.
    rewrite (@stored_after _ fr fx tx pairs D1 Z1 S1). apply map_ext. intros p. apply mk_n_ext; intros u; apply (apply_aligns pairs (fx, tx) u). }
  rewrite X, L. split; [|split].
  - apply f2_map. intros p Hp. apply grouped_in in Hp; [|trivial|trivial]. destruct (S p Hp).
    eapply mk_n_connects; eauto.
  - apply Permutation_map. now apply grouped_perm.
  - intros O. now rewrite grouped_sorted.
Qed.
Theorem inject_extract_id : forall fr tr fx tx links pairs fx' tx' old, distinct fr -> distinct tr -> updated fr fx -> updated tr tx ->
  Forall2 (connects_id fr tr) links pairs -> inject_id links fx tx = Ok (fx', tx') ->
  Forall2 (connects_id fr tr) (extract_id fr fx' tx' old) (grouped fr pairs) /\
  Permutation (extract_id fr fx' tx' old) links /\
  (in_doc_order fr pairs -> extract_id fr fx' tx' old = links).
Proof.
  intros fr tr fx tx links pairs fx' tx' old D1 D2 U1 U2 F E.
  destruct (updated_tabs D1 U1) as [_ [N1 [_ Z1]]]. destruct (updated_tabs D2 U2) as [_ [N2 _]].
  rewrite (inject_id_ok N1 N2 F) in E. injection E as E.
  assert (S1 : forall p, In p pairs -> In (fst p) (doc_order fr)).
  { intros p Hp. destruct (f2_in_r _ F Hp) as [l [_ [C1 C2]]]. apply (named_id_in C1). }
  assert (L : links = map (@mk_id char) pairs) by (eapply f2_eq; [|exact F]; intros l p C; exact (connects_id_mk C)).
  assert (X : extract_id fr fx' tx' old = map (@mk_id char) (grouped fr pairs)).
  { rewrite extract_id_eq. replace fx' with (fst (apply_pairs pairs (fx, tx))) by now rewrite E.
    now rewrite (@stored_after _ fr fx tx pairs D1 Z1 S1). }
  rewrite X, L. split; [|split].
  - apply f2_map. intros p Hp. apply grouped_in in Hp; [|trivial|trivial].
    destruct (f2_in_r _ F Hp) as [l [_ C]]. now rewrite <- (connects_id_mk C).
  - apply Permutation_map. now apply grouped_perm.
  - intros O. now rewrite grouped_sorted.
Qed.

(** Whatever alignments the elements carry, extracting the links and injecting them into freshly
    read trees gives every source element its alignments back, every target element its sources in
    document order, and extracting again gives the same links. *)
Theorem extract_inject_n : forall fr tr fx tx fx0 tx0 old, distinct fr -> distinct tr -> updated fr fx0 -> updated tr tx0 ->
  (forall e, In e (doc_order fr) -> a_n (st fx (uid e)) = a_n (st fx0 (uid e))) ->
  (forall e, In e (doc_order tr) -> a_n (st tx (uid e)) = a_n (st tx0 (uid e))) ->
  (forall e t, In e (doc_order fr) -> In t (aligns fx e) -> In t (doc_order tr)) ->
  exists fx1 tx1, inject_n (extract_n fr fx tx old) fx0 tx0 = Ok (fx1, tx1) /\
    (forall e, In e (doc_order fr) -> aligns fx1 e = aligns fx e) /\
    (forall e, In e (doc_order tr) -> aligns tx1 e =
       sources (flat_map (fun f => map (fun t => (f, t)) (aligns fx f)) (doc_order fr)) e) /\
    (forall old', extract_n fr fx1 tx1 old' = extract_n fr fx tx old).
Proof.
  intros fr tr fx tx fx0 tx0 old D1 D2 U1 U2 A1 A2 T.
  destruct (updated_tabs D1 U1) as [N1 [_ [_ Z1]]]. destruct (updated_tabs D2 U2) as [N2 [_ [_ Z2]]].
  assert (S : forall p, In p (stored_pairs fr fx) -> In (fst p) (doc_order fr) /\ In (snd p) (doc_order tr)).
  { intros p Hp. destruct (stored_in _ _ _ Hp). eauto. }
  assert (F : Forall2 (connects_n fr tr) (extract_n fr fx tx old) (stored_pairs fr fx)).
  { rewrite extract_n_eq. apply f2_map. intros p Hp. destruct (S p Hp). eapply mk_n_connects; [exact D1|exact D2|exact U1|exact U2| | | |]; auto. }
  rewrite (inject_n_ok N1 N2 F). eexists _, _. split; [rewrite <- surjective_pairing; reflexivity|].
  assert (AF : forall e, In e (doc_order fr) -> aligns (fst (apply_pairs (stored_pairs fr fx) (fx0, tx0))) e = aligns fx e).
  { intros e I. destruct (apply_aligns (stored_pairs fr fx) (fx0, tx0) (uid e)) as [A _].
    rewrite A. cbn [fst]. rewrite Z1 by trivial. cbn [app]. now apply stored_targets. }
  split; [exact AF|]. split.
  - intros e I. destruct (apply_aligns (stored_pairs fr fx) (fx0, tx0) (uid e)) as [_ [B _]]. rewrite B. cbn [snd]. now rewrite Z2.
  - intros old'. unfold extract_n. 
    assert (G : forall E, incl E (doc_order fr) -> 
      flat_map (fun f => map (fun t => {| l_from_tag := tag f; l_from := n_of (fst (apply_pairs (stored_pairs fr fx) (fx0, tx0))) f;
          l_to_tag := tag t; l_to := n_of (snd (apply_pairs (stored_pairs fr fx) (fx0, tx0))) t |})
          (aligns (fst (apply_pairs (stored_pairs fr fx) (fx0, tx0))) f)) E =
      flat_map (fun f => map (fun t => {| l_from_tag := tag f; l_from := n_of fx f; l_to_tag := tag t; l_to := n_of tx t |}) (aligns fx f)) E).
    { induction E as [|e E IH]; intros I; [reflexivity|]. cbn [flat_map]. rewrite IH by (intros d Hd; apply I; now right). f_equal.
      assert (Ie : In e (doc_order fr)) by (apply I; now left).
      rewrite AF by trivial. apply map_ext_in. intros t Ht. unfold n_of.
      destruct (apply_aligns (stored_pairs fr fx) (fx0, tx0) (uid e)) as [_ [_ [C _]]]. rewrite C.
      destruct (apply_aligns (stored_pairs fr fx) (fx0, tx0) (uid t)) as [_ [_ [_ C']]]. rewrite C'. cbn [fst snd].
      rewrite A1 by trivial. rewrite A2 by eauto. reflexivity. }
    apply G. apply incl_refl.
Qed.
(** The same by id, if no other element shares tag and id with an aligned element. *)
Theorem extract_inject_id : forall fr tr fx tx fx0 tx0 old, distinct fr -> distinct tr -> updated fr fx0 -> updated tr tx0 ->
  (forall e t, In e (doc_order fr) -> In t (aligns fx e) ->
     named_id fr (tag e) (id_of e) e /\ named_id tr (tag t) (id_of t) t) ->
  exists fx1 tx1, inject_id (extract_id fr fx tx old) fx0 tx0 = Ok (fx1, tx1) /\
    (forall e, In e (doc_order fr) -> aligns fx1 e = aligns fx e) /\
    (forall e, In e (doc_order tr) -> aligns tx1 e =
       sources (flat_map (fun f => map (fun t => (f, t)) (aligns fx f)) (doc_order fr)) e) /\
    (forall old', extract_id fr fx1 tx1 old' = extract_id fr fx tx old).
Proof.
  intros fr tr fx tx fx0 tx0 old D1 D2 U1 U2 T.
  destruct (updated_tabs D1 U1) as [_ [N1 [_ Z1]]]. destruct (updated_tabs D2 U2) as [_ [N2 [_ Z2]]].
  assert (F : Forall2 (connects_id fr tr) (extract_id fr fx tx old) (stored_pairs fr fx)).
  { rewrite extract_id_eq. apply f2_map. intros p Hp. destruct (stored_in _ _ _ Hp). apply mk_id_connects; eapply T; eauto. }
  rewrite (inject_id_ok N1 N2 F). eexists _, _. split; [rewrite <- surjective_pairing; reflexivity|].
  assert (AF : forall e, In e (doc_order fr) -> aligns (fst (apply_pairs (stored_pairs fr fx) (fx0, tx0))) e = aligns fx e).
  { intros e I. destruct (apply_aligns (stored_pairs fr fx) (fx0, tx0) (uid e)) as [A _].
    rewrite A. cbn [fst]. rewrite Z1 by trivial. cbn [app]. now apply stored_targets. }
  split; [exact AF|]. split.
  - intros e I. destruct (apply_aligns (stored_pairs fr fx) (fx0, tx0) (uid e)) as [_ [B _]]. rewrite B. cbn [snd]. now rewrite Z2.
  - intros old'. rewrite !extract_id_eq. f_equal. unfold stored_pairs. 
    assert (G : forall E, incl E (doc_order fr) -> 
      flat_map (fun f => map (fun t => (f, t)) (aligns (fst (apply_pairs (stored_pairs fr fx) (fx0, tx0))) f)) E =
      flat_map (fun f => map (fun t => (f, t)) (aligns fx f)) E).
    { induction E as [|e E IH]; intros I; [reflexivity|]. cbn [flat_map]. rewrite IH by (intros d Hd; apply I; now right). f_equal.
      rewrite AF by (apply I; now left). reflexivity. }
    apply G. apply incl_refl.
Qed.

(** What injection does with any links, good or bad: the first link with an error decides the exception
    (ValueError for an unreadable number, KeyError for an unknown tag or id, IndexError for a number out of
    range); without errors every link connects the elements it means. *)
Theorem inject_n_exact : forall fr tr fx tx links, distinct fr -> distinct tr -> updated fr fx -> updated tr tx ->
  match mapM (link_pick (@pick_n char) fr tr) links with
  | Err x => inject_n links fx tx = Err x
  | Ok pairs => exists fx' tx', inject_n links fx tx = Ok (fx', tx') /\
      (forall e, In e (doc_order fr) -> aligns fx' e = targets pairs e) /\
      (forall e, In e (doc_order tr) -> aligns tx' e = sources pairs e)
  end.
Proof.
  intros fr tr fx tx links D1 D2 U1 U2. rewrite (inject_n_all links (updated_ntab2 D1 U1) (updated_ntab2 D2 U2)).
  destruct (mapM _ _) as [pairs|x]; cbn [bind]; [|reflexivity].
  destruct (updated_tabs D1 U1) as [_ [_ [_ Z1]]]. destruct (updated_tabs D2 U2) as [_ [_ [_ Z2]]].
  eexists _, _. split; [rewrite <- surjective_pairing; reflexivity|].
  split; intros e I; destruct (apply_aligns pairs (fx, tx) (uid e)) as [A [B _]].
  - rewrite A. cbn [fst]. now rewrite Z1.
  - rewrite B. cbn [snd]. now rewrite Z2.
Qed.
Theorem inject_id_exact : forall fr tr fx tx links, distinct fr -> distinct tr -> updated fr fx -> updated tr tx ->
  match mapM (link_pick (@pick_id char) fr tr) links with
  | Err x => inject_id links fx tx = Err x
  | Ok pairs => exists fx' tx', inject_id links fx tx = Ok (fx', tx') /\
      (forall e, In e (doc_order fr) -> aligns fx' e = targets pairs e) /\
      (forall e, In e (doc_order tr) -> aligns tx' e = sources pairs e)
  end.
Proof.
  intros fr tr fx tx links D1 D2 U1 U2.
  destruct (updated_tabs D1 U1) as [_ [I1 [_ Z1]]]. destruct (updated_tabs D2 U2) as [_ [I2 [_ Z2]]].
  rewrite (inject_id_all links I1 I2).
  destruct (mapM _ _) as [pairs|x]; cbn [bind]; [|reflexivity].
  eexists _, _. split; [rewrite <- surjective_pairing; reflexivity|].
  split; intros e I; destruct (apply_aligns pairs (fx, tx) (uid e)) as [A [B _]].
  - rewrite A. cbn [fst]. now rewrite Z1.
  - rewrite B. cbn [snd]. now rewrite Z2.
Qed.

(** A link that names no element is reported, and nothing is said about later links. *)
Theorem inject_n_unknown_tag : forall fr fx tx l links k, distinct fr -> updated fr fx ->
  l_from l = Some k -> tagged fr (l_from_tag l) = [] -> inject_n (l :: links) fx tx = Err KeyError.
Proof.
  intros fr fx tx l links k D U K T.
  unfold inject_n, inject_n_step. cbn [foldM fst]. rewrite K. cbn [int_of bind]. unfold dread.
  destruct U as [r [old [doc U]]]. destruct (Ielem_proof.update_ok space nl r old D U) as [[IC _ _] _].
  rewrite IC. unfold tagged in T. unfold Ielem_proof.with_tag. now rewrite T.
Qed.
Theorem inject_n_too_large : forall fr fx tx l links k, distinct fr -> updated fr fx ->
  l_from l = Some k -> tagged fr (l_from_tag l) <> [] -> (Z.of_nat (length (tagged fr (l_from_tag l))) < k)%Z ->
  inject_n (l :: links) fx tx = Err IndexError.
Proof.
  intros fr fx tx l links k D U K T G.
  unfold inject_n, inject_n_step. cbn [foldM fst]. rewrite K. cbn [int_of bind]. unfold dread.
  destruct U as [r [old [doc U]]]. destruct (Ielem_proof.update_ok space nl r old D U) as [[IC _ _] _].
  rewrite IC. unfold Ielem_proof.with_tag. fold (tagged fr (l_from_tag l)).
  destruct (tagged fr (l_from_tag l)) as [|y ys] eqn:Q; [congruence|]. cbn [bind].
  unfold zget. replace (0 <=? k - 1)%Z with true by (symmetry; apply Z.leb_le; lia).
  unfold get. rewrite (proj2 (nth_error_None _ _)); [reflexivity|]. lia.
Qed.
End Props.

(** A source <d><p id="1"/><p id="1"/></d> and a target <d><s/><s/></d>. *)
Definition e_p1 : elem ascii := Elem 1 "p" (Some "1") None None [].
Definition e_p2 : elem ascii := Elem 2 "p" (Some "1") None None [].
Definition src : elem ascii := Elem 0 "d" None None None [e_p1; e_p2].
Definition e_s1 : elem ascii := Elem 4 "s" (Some "a") None None [].
Definition e_s2 : elem ascii := Elem 5 "s" (Some "b") None None [].
Definition tgt : elem ascii := Elem 3 "d" None None None [e_s1; e_s2].
Definition none_space (c : ascii) := false.
Definition up (e : elem ascii) := fst (update none_space "010"%char {| ignore := []; newline := []; blankline := [] |} e (fun _ => no_attrs _)).
Definition nlink a b : link (option Z) := {| l_from_tag := "p"; l_from := Some a; l_to_tag := "s"; l_to := Some b |}.

Example src_distinct : distinct src.
Proof. unfold distinct; repeat constructor; simpl; intuition congruence. Qed.
Example tgt_distinct : distinct tgt.
Proof. unfold distinct; repeat constructor; simpl; intuition congruence. Qed.
Example up_updated : forall e, updated none_space "010"%char e (up e).
Proof. intros e. exists {| ignore := []; newline := []; blankline := [] |}, (fun _ => no_attrs _). eexists. apply surjective_pairing. Qed.
(** Links that name elements, out of document order and in it. *)
Example swapped_links : Forall2 (connects (@named_n ascii) src tgt) [nlink 2 1; nlink 1 2] [(e_p2, e_s1); (e_p1, e_s2)].
Proof. repeat constructor; cbn [fst snd]; (exists 0; split; reflexivity) || (exists 1; split; reflexivity). Qed.
Example ordered_links : in_doc_order src [(e_p1, e_s2); (e_p2, e_s1)].
Proof.
  intros a p b q c E. destruct a as [|a0 [|a1 [|a2 a]]]; cbn [app] in E; try discriminate.
  - injection E as <- E. destruct b as [|b0 [|b1 b]]; cbn [app] in E; try discriminate.
    injection E as <- <-. exists [src], [e_p2]. split; [reflexivity|]. right. now left.
  - injection E as _ <- E. destruct b; discriminate.
Qed.
(** The last two sources by the numbers 0 and 2, then a number that does not exist, then an unreadable one. *)
Example picked_links : mapM (link_pick (@pick_n ascii) src tgt) [nlink 0 1; nlink (-1) 2] = Ok [(e_p2, e_s1); (e_p1, e_s2)] /\
  mapM (link_pick (@pick_n ascii) src tgt) [nlink 1 1; nlink (-2) 2] = Err IndexError /\
  mapM (link_pick (@pick_n ascii) src tgt) [{| l_from_tag := "p"; l_from := None; l_to_tag := "s"; l_to := Some 1%Z |}] = Err ValueError.
Proof. now repeat split. Qed.
Definition injected links : index ascii * index ascii :=
  match inject_n links (up src) (up tgt) with Ok t => t | Err _ => (up src, up tgt) end.
(** The alignments found after injection meet the hypotheses of extract_inject_n. *)
Example injected_example : forall e t, In e (doc_order src) -> In t (a_aligns (st (fst (injected [nlink 2 1; nlink 1 2])) (uid e))) -> In t (doc_order tgt).
Proof.
  intros e t I. assert (H : In e [src; e_p1; e_p2]) by exact I.
  destruct H as [<-|[<-|[<-|[]]]]; vm_compute; tauto.
Qed.
(** Unique ids: both <s> elements. *)
Example unique_id : named_id tgt "s" (Some "b") e_s2.
Proof.
  repeat split; [simpl; tauto|]. intros d I T K. assert (H : In d [tgt; e_s1; e_s2]) by exact I.
  destruct H as [<-|[<-|[<-|[]]]]; [discriminate|discriminate|reflexivity].
Qed.

(** "Injecting and extracting keeps the order of the links" is false in general. *)
Theorem inject_extract_order_refuted :
  ~ (forall (char : Type) space nl (fr tr : elem char) fx tx links pairs fx' tx', distinct fr -> distinct tr ->
      updated space nl fr fx -> updated space nl tr tx ->
      Forall2 (connects (@named_n char) fr tr) links pairs -> inject_n links fx tx = Ok (fx', tx') ->
      extract_n fr fx' tx' links = links).
Proof.
  intros H. specialize (H ascii none_space "010"%char src tgt (up src) (up tgt) [nlink 2 1; nlink 1 2] [(e_p2, e_s1); (e_p1, e_s2)]
    (fst (injected [nlink 2 1; nlink 1 2])) (snd (injected [nlink 2 1; nlink 1 2])) src_distinct tgt_distinct (up_updated src) (up_updated tgt) swapped_links eq_refl).
  vm_compute in H. discriminate.
Qed.
(** "Link numbers below 1 are rejected" is false: 0 means the last element with the tag. *)
Theorem inject_zero_rejected_refuted :
  ~ (forall (char : Type) space nl (fr tr : elem char) fx tx l, updated space nl fr fx -> updated space nl tr tx ->
      l_from l = Some 0%Z -> exists x, inject_n [l] fx tx = Err x).
Proof.
  intros H. specialize (H ascii none_space "010"%char src tgt (up src) (up tgt) (nlink 0 1)).
  destruct (H (up_updated src) (up_updated tgt) eq_refl) as [x E]. vm_compute in E. discriminate.
Qed.
(** "Links by id survive extraction and injection" is false when two elements with one tag share
    an id: the alignment moves to the last of them. *)
Definition src_aligned : index ascii := append_alignment (up src) e_p1 e_s1.
Theorem extract_inject_same_id_refuted :
  ~ (forall (char : Type) space nl (fr tr : elem char) fx tx fx0 tx0, distinct fr -> distinct tr ->
      updated space nl fr fx0 -> updated space nl tr tx0 ->
      (forall e t, In e (doc_order fr) -> In t (a_aligns (st fx (uid e))) -> In t (doc_order tr)) ->
      exists fx1 tx1, inject_id (extract_id fr fx tx []) fx0 tx0 = Ok (fx1, tx1) /\
        forall e, In e (doc_order fr) -> a_aligns (st fx1 (uid e)) = a_aligns (st fx (uid e))).
Proof.
  intros H. destruct (H ascii none_space "010"%char src tgt src_aligned (up tgt) (up src) (up tgt)
    src_distinct tgt_distinct (up_updated src) (up_updated tgt)) as [fx1 [tx1 [E A]]].
  - intros e t I. assert (G : In e [src; e_p1; e_p2]) by exact I.
    destruct G as [<-|[<-|[<-|[]]]]; vm_compute; tauto.
  - assert (I : In e_p1 (doc_order src)) by (simpl; tauto). specialize (A e_p1 I). revert A.
    replace fx1 with (fst (match inject_id (extract_id src src_aligned (up tgt) []) (up src) (up tgt) with Ok t => t | Err _ => (up src, up tgt) end)) by now rewrite E.
    vm_compute. discriminate.
Qed.

Print Assumptions inject_n_links.
Print Assumptions inject_id_links.
Print Assumptions inject_extract_n.
Print Assumptions inject_extract_id.
Print Assumptions extract_inject_n.
Print Assumptions extract_inject_id.
Print Assumptions inject_n_exact.
Print Assumptions inject_id_exact.
Print Assumptions inject_n_unknown_tag.
Print Assumptions inject_n_too_large.
Print Assumptions inject_extract_order_refuted.
Print Assumptions inject_zero_rejected_refuted.
Print Assumptions extract_inject_same_id_refuted.
