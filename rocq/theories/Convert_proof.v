(** Proofs about the conversion of links. *)
From Coq Require Import String Permutation.
From Verif Require Import Py PyLemmas Ielem_spec Ielem_model Ielem_proof Hdoc_spec Hdoc_model Hdoc_proof Convert_spec Convert_model.
Set Implicit Arguments.
Section P.
Variable char : Type.
Variable space : char -> bool.
Variable nl : char.
Notation elem := (elem char).
Notation index := (index char).
Notation updated := (updated space nl).
Lemma inject_all d fr tr fx tx : distinct fr -> distinct tr -> updated fr fx -> updated tr tx ->
  inject d fx tx = (ps <- all_picks fr tr d ;; Ok (apply_pairs ps (fx, tx))).
Proof.
  intros D1 D2 U1 U2. unfold inject, all_picks. destruct (updated_tabs D1 U1) as [_ [I1 _]]. destruct (updated_tabs D2 U2) as [_ [I2 _]].
  pose proof (updated_ntab2 D1 U1) as N1. pose proof (updated_ntab2 D2 U2) as N2.
  destruct (method d) as [m|]; [|apply (inject_n_all _ N1 N2)]. destruct (String.eqb m "n"); [apply (inject_n_all _ N1 N2)|]. destruct (String.eqb m "id"); [apply (inject_id_all _ I1 I2)|reflexivity].
Qed.
Lemma mapM_in (X Y : Type) (f : X -> res Y) l : forall ys y, mapM f l = Ok ys -> In y ys -> exists x, In x l /\ f x = Ok y.
Proof.
  induction l as [|x l IH]; intros ys y E I; cbn [mapM] in E; [injection E as <-; destruct I|]. destruct (f x) as [z|] eqn:F; [|discriminate E]. cbn [bind] in E.
  destruct (mapM f l) as [zs|]; [|discriminate E]. cbn [bind] in E. injection E as <-. destruct I as [<-|I]; [exists x; split; [now left|exact F]|].
  destruct (IH zs y eq_refl I) as (w & W & K). exists w. split; [now right|exact K].
Qed.
Lemma pick_n_in (root : elem) t k e : pick_n root t k = Ok e -> In e (doc_order root).
Proof.
  unfold pick_n. destruct k as [k|]; [|discriminate]. intros H. assert (G : In e (tagged root t)).
  { destruct (tagged root t) as [|a l]; [discriminate H|]. destruct (nth_error _ _) as [x|] eqn:E in H; [|discriminate H]. destruct (1 <=? _)%Z in H; [|discriminate H]. injection H as ->. now apply nth_error_In in E. }
  unfold tagged in G. now apply filter_In in G.
Qed.
Lemma pick_id_in (root : elem) t k e : pick_id root t k = Ok e -> In e (doc_order root).
Proof.
  unfold pick_id. intros H. destruct (rev _) as [|a l] eqn:E in H; [discriminate H|]. injection H as ->.
  assert (G : In e (rev (filter (fun e => if option_string_dec (id_of e) k then true else false) (tagged root t)))) by (rewrite E; now left).
  apply in_rev in G. apply filter_In in G. destruct G as [G _]. unfold tagged in G. now apply filter_In in G.
Qed.
Lemma link_pick_in (key : Type) (pick : elem -> string -> key -> res elem) fr tr l p : (forall r t k e, pick r t k = Ok e -> In e (doc_order r)) ->
  link_pick pick fr tr l = Ok p -> In (fst p) (doc_order fr) /\ In (snd p) (doc_order tr).
Proof.
  intros H. unfold link_pick. destruct (pick fr _ _) as [a|] eqn:A; [|discriminate]. cbn [bind]. destruct (pick tr _ _) as [b|] eqn:B; [|discriminate]. cbn [bind]. intros [= <-].
  split; eapply H; eassumption.
Qed.
Lemma picks_in (d : document) (fr tr : elem) (ps : list (elem * elem)) (p : elem * elem) : all_picks fr tr d = Ok ps -> In p ps -> In (fst p) (doc_order fr) /\ In (snd p) (doc_order tr).
Proof.
  assert (N : forall ls, mapM (link_pick (@pick_n char) fr tr) ls = Ok ps -> In p ps -> In (fst p) (doc_order fr) /\ In (snd p) (doc_order tr)).
  { intros ls E I. destruct (mapM_in _ _ _ E I) as (l & _ & L). exact (link_pick_in _ _ _ _ pick_n_in L). }
  assert (K : forall ls, mapM (link_pick (@pick_id char) fr tr) ls = Ok ps -> In p ps -> In (fst p) (doc_order fr) /\ In (snd p) (doc_order tr)).
  { intros ls E I. destruct (mapM_in _ _ _ E I) as (l & _ & L). exact (link_pick_in _ _ _ _ pick_id_in L). }
  unfold all_picks. destruct (method d) as [m|]; [|apply N]. destruct (String.eqb m "n"); [apply N|]. destruct (String.eqb m "id"); [apply K|discriminate].
Qed.
Lemma writable_ids pairs : writable (id_document pairs) = forallb (@has_ids char) pairs.
Proof.
  unfold writable, id_document. cbn [links]. induction pairs as [|p l IH]; [reflexivity|]. cbn [map forallb]. rewrite IH. f_equal.
Qed.
Lemma forallb_perm (X : Type) (f : X -> bool) l l' : Permutation l l' -> forallb f l = forallb f l'.
Proof.
  induction 1 as [|x l l' _ IH|x y l|a b c _ IH1 _ IH2]; cbn [forallb]; [reflexivity|now rewrite IH|destruct (f x), (f y); reflexivity|congruence].
Qed.
Lemma convert_picks (d : document) (fr tr : elem) fx tx : distinct fr -> distinct tr -> updated fr fx -> updated tr tx ->
  convert d fr fx tx = match all_picks fr tr d with
  | Err x => (Unchanged, Some x)
  | Ok pairs => if forallb (@has_ids char) pairs then (Written (id_document (grouped fr pairs)), None) else (Truncated, Some TypeError)
  end.
Proof.
  intros D1 D2 U1 U2. unfold convert. rewrite (inject_all d D1 D2 U1 U2). destruct (all_picks fr tr d) as [pairs|x] eqn:A; cbn [bind]; [|reflexivity].
  destruct (updated_tabs D1 U1) as [_ [_ [_ Z1]]]. destruct (apply_pairs pairs (fx, tx)) as [fx' tx'] eqn:E.
  assert (S1 : forall p, In p pairs -> In (fst p) (doc_order fr)) by (intros p I; exact (proj1 (picks_in _ _ _ _ A I))).
  pose proof (@stored_after _ fr fx tx pairs D1 Z1 S1) as St. rewrite E in St. cbn [fst] in St.
  cbn [extract method String.eqb Ascii.eqb Bool.eqb]. rewrite extract_id_eq, St, map_map.
  change (write_document (id_document (grouped fr pairs)) = if forallb (@has_ids char) pairs then (Written (id_document (grouped fr pairs)), None) else (Truncated, Some TypeError)).
  unfold write_document. rewrite writable_ids, (forallb_perm _ (grouped_perm pairs D1 S1)). reflexivity.
Qed.
Lemma aligns_picks (fr tr : elem) (d : document) (pairs : list (elem * elem)) : aligns_pairs fr tr d pairs -> distinct fr -> distinct tr -> all_picks fr tr d = Ok pairs.
Proof.
  intros H D1 D2.
  assert (N : forall (root : elem) t k e, named_n root t k e -> pick_n root t k = Ok e).
  { intros root t k e (n & -> & E). unfold pick_n. destruct (tagged root t) as [|a l] eqn:T; [destruct n; discriminate E|]. rewrite <- T in *. 
    assert (L : (Z.of_nat (S n) <=? 0)%Z = false) by (apply Z.leb_gt; lia). rewrite L. replace (Z.to_nat (Z.of_nat (S n)) - 1) with n by lia. rewrite E.
    assert (L' : (1 <=? Z.of_nat (S n))%Z = true) by (apply Z.leb_le; lia). now rewrite L'. }
  assert (K : forall (root : elem) t k e, named_id root t k e -> pick_id root t k = Ok e).
  { intros root t k e (I & T & J & U). unfold pick_id. destruct (rev _) as [|a l] eqn:R.
    - assert (G : In e (rev (filter (fun e => if option_string_dec (id_of e) k then true else false) (tagged root t)))).
      { apply -> in_rev. apply filter_In. split; [unfold tagged; apply filter_In; split; [exact I|now apply String.eqb_eq]|]. destruct (option_string_dec (id_of e) k); [reflexivity|congruence]. }
      rewrite R in G. destruct G.
    - f_equal. assert (G : In a (rev (filter (fun e => if option_string_dec (id_of e) k then true else false) (tagged root t)))) by (rewrite R; now left).
      apply in_rev in G. apply filter_In in G. destruct G as [G1 G2]. unfold tagged in G1. apply filter_In in G1. destruct G1 as [G0 G1]. apply String.eqb_eq in G1.
      destruct (option_string_dec (id_of a) k) as [J'|]; [|discriminate G2]. now apply U. }
  assert (M : forall (key : Type) (named : elem -> string -> key -> elem -> Prop) (pick : elem -> string -> key -> res elem) ls, (forall root t k e, named root t k e -> pick root t k = Ok e) ->
    Forall2 (connects named fr tr) ls pairs -> mapM (link_pick pick fr tr) ls = Ok pairs).
  { intros key named pick ls P F. clear -P F. induction F as [|l p ls pairs [C1 C2] _ IH]; [reflexivity|]. cbn [mapM]. unfold link_pick at 1. rewrite (P _ _ _ _ C1). cbn [bind]. rewrite (P _ _ _ _ C2). cbn [bind]. rewrite IH. cbn [bind]. now rewrite <- surjective_pairing. }
  unfold all_picks. destruct H as [[[->| ->] F]|[-> F]].
  - exact (M _ _ _ _ N F).
  - exact (M _ _ _ _ N F).
  - exact (M _ _ _ _ K F).
Qed.
Lemma id_document_aligns (fr tr : elem) (pairs : list (elem * elem)) : (forall p, In p pairs -> identified fr (fst p) /\ identified tr (snd p)) -> aligns_pairs fr tr (id_document pairs) pairs.
Proof.
  intros H. right. split; [reflexivity|]. unfold id_document. cbn [links]. rewrite map_map. apply f2_map. intros p I. destruct (H p I) as [[_ A] [_ B]]. split; [exact A|exact B].
Qed.
Lemma identified_ids (fr tr : elem) (pairs : list (elem * elem)) : (forall p, In p pairs -> identified fr (fst p) /\ identified tr (snd p)) -> forallb (@has_ids char) pairs = true.
Proof.
  intros H. apply forallb_forall. intros p I. destruct (H p I) as [[A _] [B _]]. unfold has_ids. destruct (id_of (fst p)); [|congruence]. destruct (id_of (snd p)); [reflexivity|congruence].
Qed.
Lemma aligned_in (fr tr : elem) (d : document) (pairs : list (elem * elem)) : distinct fr -> distinct tr -> aligns_pairs fr tr d pairs -> forall p, In p pairs -> In (fst p) (doc_order fr).
Proof. intros D1 D2 A p I. exact (proj1 (picks_in _ _ _ _ (aligns_picks A D1 D2) I)). Qed.
Lemma convert_ok (fr tr : elem) fx tx d pairs : distinct fr -> distinct tr -> updated fr fx -> updated tr tx -> aligns_pairs fr tr d pairs ->
  (forall p, In p pairs -> identified fr (fst p) /\ identified tr (snd p)) ->
  convert d fr fx tx = (Written (id_document (grouped fr pairs)), None) /\ aligns_pairs fr tr (id_document (grouped fr pairs)) (grouped fr pairs) /\ Permutation (grouped fr pairs) pairs.
Proof.
  intros D1 D2 U1 U2 A H. pose proof (aligned_in D1 D2 A) as S1. split; [|split].
  - rewrite (@convert_picks d fr tr fx tx D1 D2 U1 U2), (aligns_picks A D1 D2), (identified_ids _ H). reflexivity.
  - apply id_document_aligns. intros p I. apply H. now apply (grouped_in pairs p D1 S1).
  - now apply grouped_perm.
Qed.
Lemma grouped_grouped (fr : elem) pairs : distinct fr -> (forall p, In p pairs -> In (fst p) (doc_order fr)) -> grouped fr (grouped fr pairs) = grouped fr pairs.
Proof.
  intros D S. unfold grouped at 1 3. assert (U : NoDup (map (@uid char) (doc_order fr))) by exact D. 
  assert (G : forall e, In e (doc_order fr) -> filter (fun p => uid (fst p) =? uid e) (grouped fr pairs) = filter (fun p => uid (fst p) =? uid e) pairs).
  { intros e I. unfold grouped. clear -U I. revert U I. generalize (doc_order fr). intros E. 
    assert (No : forall E : list elem, ~ In (uid e) (map (@uid char) E) -> filter (fun p => uid (fst p) =? uid e) (flat_map (fun e0 => filter (fun p => uid (fst p) =? uid e0) pairs) E) = []).
    { clear. induction E as [|a E IH]; intros H; [reflexivity|]. cbn [flat_map]. rewrite filter_app, IH by (intros K; apply H; now right). rewrite app_nil_r.
      assert (N : uid a <> uid e) by (intros K; apply H; left; exact K). clear -N. induction pairs as [|p l IHl]; [reflexivity|]. cbn [filter]. destruct (uid (fst p) =? uid a) eqn:Q; [|exact IHl].
      cbn [filter]. apply Nat.eqb_eq in Q. assert (W : (uid (fst p) =? uid e) = false) by (apply Nat.eqb_neq; congruence). now rewrite W. }
    induction E as [|a E IH]; intros U I; [destruct I|]. cbn [map] in U. inversion U as [|? ? U1 U2]; subst. cbn [flat_map]. rewrite filter_app. destruct I as [->|I].
    - rewrite No by exact U1. rewrite app_nil_r. now apply filter_filter.
    - rewrite IH by assumption. assert (N : uid a <> uid e). { intros K. apply U1. rewrite K. now apply in_map. }
      replace (filter (fun p => uid (fst p) =? uid e) (filter (fun p => uid (fst p) =? uid a) pairs)) with (@nil (elem * elem)); [reflexivity|].
      clear -N. symmetry. induction pairs as [|p l IHl]; [reflexivity|]. cbn [filter]. destruct (uid (fst p) =? uid a) eqn:Q; [|exact IHl].
      cbn [filter]. apply Nat.eqb_eq in Q. assert (W : (uid (fst p) =? uid e) = false) by (apply Nat.eqb_neq; congruence). now rewrite W. }
  revert G. generalize (grouped fr pairs) as g. intros g G. clear S D. revert U G. generalize (doc_order fr). intros E. induction E as [|e E IH]; intros U G; [reflexivity|]. cbn [flat_map]. rewrite G by now left. f_equal. apply IH.
  - cbn [map] in U. inversion U. assumption.
  - intros a I. apply G. now right.
Qed.

Lemma split_at (X : Type) (a : list X) : forall b c p d, a ++ b = c ++ p :: d ->
  (exists m, a = c ++ p :: m /\ d = m ++ b) \/ (exists m, c = a ++ m /\ b = m ++ p :: d).
Proof.
  induction a as [|x a IH]; intros b c p d E; [right; exists c; split; [reflexivity|exact E]|]. destruct c as [|y c]; cbn [app] in E.
  - injection E as <- <-. left. exists a. split; reflexivity.
  - injection E as <- E. destruct (IH _ _ _ _ E) as [(m & -> & ->)|(m & -> & ->)]; [left|right]; exists m; split; reflexivity.
Qed.
Lemma grouped_order (fr : elem) pairs : distinct fr -> (forall p, In p pairs -> In (fst p) (doc_order fr)) -> in_doc_order fr (grouped fr pairs).
Proof.
  intros D S0. unfold in_doc_order, grouped. assert (U : NoDup (map (@uid char) (doc_order fr))) by exact D.
  assert (W : forall p e, In p pairs -> In e (doc_order fr) -> (uid (fst p) =? uid e) = true -> fst p = e).
  { intros p e I J Q. apply Nat.eqb_eq in Q. specialize (S0 p I). clear -U S0 J Q. induction (doc_order fr) as [|x E IH]; [destruct J|]. cbn [map] in U. inversion U as [|? ? U1 U2]; subst.
    destruct S0 as [->|S0], J as [->|J]; [reflexivity| | |auto].
    - exfalso. apply U1. rewrite Q. now apply in_map.
    - exfalso. apply U1. rewrite <- Q. now apply in_map. }
  clear S0 D U. revert W. generalize (doc_order fr). intros E. induction E as [|e E IH]; intros W a p b q c Eq; cbn [flat_map] in Eq; [destruct a; discriminate Eq|].
  destruct (split_at _ _ _ _ _ Eq) as [(m & F & R)|(m & -> & R)].
  - assert (P : fst p = e). { assert (I : In p (filter (fun p => uid (fst p) =? uid e) pairs)) by (rewrite F; apply in_or_app; right; now left). apply filter_In in I. destruct I as [I Q]. apply W; [exact I|now left|exact Q]. }
    exists [], E. split; [cbn [app]; now rewrite P|]. rewrite P.
    symmetry in R. destruct (split_at _ _ _ _ _ R) as [(m' & -> & _)|(m' & _ & R')].
    + left. symmetry. assert (I : In q (filter (fun p => uid (fst p) =? uid e) pairs)) by (rewrite F; apply in_or_app; right; right; apply in_or_app; right; now left). apply filter_In in I. destruct I as [I Q]. apply W; [exact I|now left|exact Q].
    + right. assert (I : In q (flat_map (fun e0 => filter (fun p => uid (fst p) =? uid e0) pairs) E)) by (rewrite R'; apply in_or_app; right; now left).
      apply in_flat_map in I. destruct I as (x & X & I). apply filter_In in I. destruct I as [I Q]. rewrite (W q x I (or_intror X) Q). exact X.
  - destruct (IH (fun p e I J => W p e I (or_intror J)) m p b q c R) as (x & y & -> & Y). exists (e :: x), y. split; [reflexivity|exact Y].
Qed.
Lemma targets_grouped (fr : elem) pairs e : distinct fr -> (forall p, In p pairs -> In (fst p) (doc_order fr)) -> In e (doc_order fr) -> targets (grouped fr pairs) e = targets pairs e.
Proof.
  intros D S I. unfold targets. f_equal.
  assert (U : NoDup (map (@uid char) (doc_order fr))) by exact D. unfold grouped. clear -U I.
  revert U I. generalize (doc_order fr). intros E.
  assert (Z : forall a : elem, uid a <> uid e -> filter (fun p => uid (fst p) =? uid e) (filter (fun p => uid (fst p) =? uid a) pairs) = []).
  { intros a N. induction pairs as [|p l IHl]; [reflexivity|]. cbn [filter]. destruct (uid (fst p) =? uid a) eqn:Q; [|exact IHl].
    cbn [filter]. apply Nat.eqb_eq in Q. assert (W : (uid (fst p) =? uid e) = false) by (apply Nat.eqb_neq; congruence). now rewrite W. }
  assert (No : forall E : list elem, ~ In (uid e) (map (@uid char) E) -> filter (fun p => uid (fst p) =? uid e) (flat_map (fun e0 => filter (fun p => uid (fst p) =? uid e0) pairs) E) = []).
  { clear E. induction E as [|a E IH]; intros H; [reflexivity|]. cbn [flat_map]. rewrite filter_app, IH by (intros K; apply H; now right). rewrite app_nil_r. apply Z. intros K; apply H; left; exact K. }
  induction E as [|a E IH]; intros U I; [destruct I|]. cbn [map] in U. inversion U as [|? ? U1 U2]; subst. cbn [flat_map]. rewrite filter_app. destruct I as [->|I].
  - rewrite No by exact U1. rewrite app_nil_r. now apply filter_filter.
  - rewrite IH by assumption. rewrite Z; [reflexivity|]. intros K. apply U1. rewrite K. now apply in_map.
Qed.
Lemma filter_perm (X : Type) (f : X -> bool) l l' : Permutation l l' -> Permutation (filter f l) (filter f l').
Proof.
  induction 1 as [|x l l' _ IH|x y l|a b c _ IH1 _ IH2]; cbn [filter]; [constructor|destruct (f x); [now constructor|exact IH]|destruct (f x), (f y); [apply perm_swap|reflexivity|reflexivity|reflexivity]|now transitivity (filter f b)].
Qed.
End P.
