From Coq Require Import String QArith Lqa Permutation.
From Verif Require Import Py PyLemmas Sim_spec Ielem_spec Ielem_model Ielem_proof Hdoc_spec Hdoc_model Hdoc_proof Ptceval_spec Ptceval_model.
Open Scope nat_scope.
Set Implicit Arguments.

Lemma pair_eq_spec p q : pair_eq p q = true <-> p = q.
Proof. apply pair_eqb_spec; apply id_eqb_spec. Qed.
Lemma set_add_in s p q : In q (set_add s p) <-> In q s \/ q = p.
Proof.
  unfold set_add. destruct (mem pair_eq p s) eqn:M.
  - apply (mem_spec _ pair_eq_spec) in M. split; [tauto|]. intros [H| ->]; trivial.
  - rewrite in_app_iff. cbn [In]. split; [intros [H|[<-|[]]]; auto|intros [H| ->]; auto].
Qed.
Lemma set_add_nodup s p : NoDup s -> NoDup (set_add s p).
Proof.
  intros N. unfold set_add. destruct (mem pair_eq p s) eqn:M; [trivial|]. apply nodup_snoc; [trivial|].
  intros I. apply (mem_spec _ pair_eq_spec) in I. congruence.
Qed.
Lemma get_alignment_ok links t : NoDup (get_alignment links t) /\ forall p, In p (get_alignment links t) <-> aligned links t p.
Proof.
  induction links as [|l links IH] using rev_ind.
  - split; [constructor|]. intros p. split; [intros []|intros [l [[] _]]].
  - destruct IH as [N M]. unfold get_alignment. rewrite fold_left_app. cbn [fold_left]. fold (get_alignment links t).
    destruct (id_eqb (f_from_tag l) (Some t) && id_eqb (f_to_tag l) (Some t)) eqn:E.
    + apply andb_true_iff in E. destruct E as [E1 E2]. apply id_eqb_spec in E1, E2. split; [now apply set_add_nodup|].
      intros p. rewrite set_add_in, M. split.
      * intros [[k [A B]]| ->]; [exists k; split; [apply in_app_iff; now left|trivial]|].
        exists l. split; [apply in_app_iff; right; now left|]. auto.
      * intros [k [A [B1 [B2 [B3 B4]]]]]. apply in_app_iff in A. destruct A as [A|[<-|[]]]; [left; exists k; auto|].
        right. destruct p; cbn [fst snd] in *. congruence.
    + split; [trivial|]. intros p. rewrite M. split.
      * intros [k [A B]]. exists k. split; [apply in_app_iff; now left|trivial].
      * intros [k [A [B1 [B2 B3]]]]. apply in_app_iff in A. destruct A as [A|[<-|[]]]; [exists k; auto|].
        exfalso. apply andb_false_iff in E. apply id_eqb_spec in B1, B2. destruct E; congruence.
Qed.

Lemma count_ok tc pc t n m c : count_alignment tc pc t = (n, m, c) ->
  exactly (aligned tc t) n /\ exactly (aligned pc t) m /\ exactly (fun p => aligned tc t p /\ aligned pc t p) c /\ c <= n /\ c <= m.
Proof.
  unfold count_alignment. intros E. injection E as <- <- <-.
  destruct (get_alignment_ok tc t) as [N1 M1]. destruct (get_alignment_ok pc t) as [N2 M2].
  assert (IN : forall p, In p (filter (fun p => mem pair_eq p (get_alignment pc t)) (get_alignment tc t)) <-> aligned tc t p /\ aligned pc t p).
  { intros p. rewrite filter_In, M1, <- M2, (mem_spec _ pair_eq_spec). tauto. }
  assert (NF : NoDup (filter (fun p => mem pair_eq p (get_alignment pc t)) (get_alignment tc t))) by now apply NoDup_filter.
  repeat split.
  - exists (get_alignment tc t). auto.
  - exists (get_alignment pc t). auto.
  - eexists. split; [exact NF|]. split; [exact IN|reflexivity].
  - apply NoDup_incl_length; [trivial|]. intros p H. apply IN in H. now apply M1.
  - apply NoDup_incl_length; [trivial|]. intros p H. apply IN in H. now apply M2.
Qed.

Lemma exactly_fun (A : Type) (P Q : A -> Prop) n m : (forall x, P x <-> Q x) -> exactly P n -> exactly Q m -> n = m.
Proof.
  intros E [l [N [I <-]]] [k [M [J <-]]]. apply Nat.le_antisymm; apply NoDup_incl_length; auto; intros x Hx.
  - apply J, E, I, Hx.
  - apply I, E, J, Hx.
Qed.

Open Scope Q_scope.
Lemma qnat0 n : Qeq_bool (qnat n) 0 = true <-> n = O.
Proof.
  rewrite Qeq_bool_iff. unfold qnat, Qeq, inject_Z. cbn [Qnum Qden]. lia.
Qed.
Lemma div_frac a b : or_zero (qdiv (qnat a) (qnat b)) = frac a b.
Proof.
  unfold qdiv, frac. destruct b as [|b].
  - reflexivity.
  - destruct (Qeq_bool (qnat (S b)) 0) eqn:E; [apply qnat0 in E; discriminate|reflexivity].
Qed.
Lemma qnat_pos n : (0 < n)%nat -> 0 < qnat n.
Proof. intros H. unfold qnat, Qlt, inject_Z. cbn. lia. Qed.
Lemma qnat_nonneg n : 0 <= qnat n.
Proof. unfold qnat, Qle, inject_Z. cbn. lia. Qed.
Lemma qnat_le a b : (a <= b)%nat -> qnat a <= qnat b.
Proof. intros H. unfold qnat, Qle, inject_Z. cbn. lia. Qed.
Lemma qnat_plus a b : qnat (a + b) == qnat a + qnat b.
Proof. unfold qnat, Qeq, Qplus, inject_Z. cbn. lia. Qed.
Lemma qnat_mult a b : qnat (a * b) == qnat a * qnat b.
Proof. unfold qnat, Qeq, Qmult, inject_Z. cbn. lia. Qed.
Lemma frac_S a b : frac a (S b) = qnat a / qnat (S b).
Proof. reflexivity. Qed.
Lemma frac_zero b : frac 0 b == 0.
Proof. destruct b; [reflexivity|]. rewrite frac_S. unfold Qdiv. rewrite Qmult_0_l. reflexivity. Qed.
Lemma frac_bounds a b : (a <= b)%nat -> 0 <= frac a b /\ frac a b <= 1.
Proof.
  intros H. destruct b; [unfold frac; split; [apply Qle_refl|discriminate]|]. rewrite frac_S.
  assert (0 < qnat (S b)) by (apply qnat_pos; lia). split.
  - apply Qle_shift_div_l; [trivial|]. rewrite Qmult_0_l. apply qnat_nonneg.
  - apply Qle_shift_div_r; [trivial|]. rewrite Qmult_1_l. now apply qnat_le.
Qed.
Lemma frac_one a b : (a <= b)%nat -> (frac a b == 1 <-> a = b /\ b <> O).
Proof.
  intros H. destruct b; [unfold frac; split; [intros E; discriminate E|intros [_ []]; reflexivity]|]. rewrite frac_S.
  assert (P : 0 < qnat (S b)) by (apply qnat_pos; lia).
  assert (NZ : ~ qnat (S b) == 0) by (intros E; rewrite E in P; discriminate P). split.
  - intros E. split; [|discriminate]. assert (F : qnat a == qnat (S b)).
    { rewrite <- (Qmult_1_l (qnat (S b))), <- E. field. trivial. }
    unfold qnat, Qeq, inject_Z in F. cbn in F. lia.
  - intros [-> _]. field. trivial.
Qed.
Lemma f_eq t p c : (c <= t)%nat -> (c <= p)%nat ->
  or_zero (qdiv (inject_Z 2 * frac c p * frac c t) (frac c p + frac c t)) == frac (2 * c) (t + p).
Proof.
  intros H1 H2. destruct c as [|c].
  - change (2 * 0)%nat with O. transitivity 0; [|symmetry; apply frac_zero]. unfold qdiv.
    destruct (Qeq_bool _ _) eqn:E; [reflexivity|]. cbn [or_zero].
    unfold Qdiv. rewrite (frac_zero p). rewrite !Qmult_0_r, !Qmult_0_l. reflexivity.
  - destruct t as [|t]; [lia|]. destruct p as [|p]; [lia|]. rewrite !frac_S.
    assert (PT : 0 < qnat (S t)) by (apply qnat_pos; lia). assert (PP : 0 < qnat (S p)) by (apply qnat_pos; lia).
    assert (PC : 0 < qnat (S c)) by (apply qnat_pos; lia).
    assert (A : 0 < qnat (S c) / qnat (S p)) by (apply Qlt_shift_div_l; [trivial|now rewrite Qmult_0_l]).
    assert (B : 0 < qnat (S c) / qnat (S t)) by (apply Qlt_shift_div_l; [trivial|now rewrite Qmult_0_l]).
    unfold qdiv. destruct (Qeq_bool _ _) eqn:E.
    { apply Qeq_bool_iff in E. assert (X : 0 < qnat (S c) / qnat (S p) + qnat (S c) / qnat (S t)) by lra. rewrite E in X. discriminate X. }
    cbn [or_zero]. replace (S t + S p)%nat with (S (t + S p)) by lia. rewrite frac_S. replace (S (t + S p)) with (S t + S p)%nat by lia.
    rewrite qnat_plus, qnat_mult. change (qnat 2) with (inject_Z 2).
    assert (NT : ~ qnat (S t) == 0) by lra. assert (NP : ~ qnat (S p) == 0) by lra. assert (NC : ~ qnat (S c) == 0) by lra.
    assert (NS : ~ qnat (S t) + qnat (S p) == 0) by lra.
    assert (SUM : qnat (S c) / qnat (S p) + qnat (S c) / qnat (S t) == qnat (S c) * (qnat (S t) + qnat (S p)) / (qnat (S p) * qnat (S t))) by (field; split; trivial).
    rewrite SUM. field. repeat split; trivial.
Qed.
Lemma scores_ok t p c : (c <= t)%nat -> (c <= p)%nat -> exists f, compute_scores t p c = (frac p t, frac c p, frac c t, f) /\ f == f_score t p c.
Proof.
  intros H1 H2. unfold compute_scores. rewrite !div_frac. eexists. split; [reflexivity|]. now apply f_eq.
Qed.
Close Scope Q_scope.

Definition sum3 (l : list (nat * nat * nat)) : nat * nat * nat :=
  (list_sum (map (fun x => fst (fst x)) l), list_sum (map (fun x => snd (fst x)) l), list_sum (map snd l)).
Definition eval_step t (acc : list (nat * nat * nat * (Q * Q * Q * Q) * string) * nat * nat * nat) (pl : list file_link * list file_link * string) :=
      let '(rows, n1, n2, n3) := acc in
      let '((true_corpus, pred_corpus), label) := pl in
      let '(n_true, n_pred, n_common) := count_alignment true_corpus pred_corpus t in
      (rows ++ [((n_true, n_pred, n_common), compute_scores n_true n_pred n_common, label)],
       n1 + n_true, n2 + n_pred, n3 + n_common).
Definition row t (pl : list file_link * list file_link * string) :=
  let n := count_alignment (fst (fst pl)) (snd (fst pl)) t in
  (n, compute_scores (fst (fst n)) (snd (fst n)) (snd n), snd pl).
Lemma eval_fold t l rows a b c : fold_left (eval_step t) l (rows, a, b, c) =
  (rows ++ map (row t) l,
   a + list_sum (map (fun r => fst (fst (fst (fst (row t r))))) l), b + list_sum (map (fun r => snd (fst (fst (fst (row t r))))) l),
   c + list_sum (map (fun r => snd (fst (fst (row t r)))) l)).
Proof.
  revert rows a b c. induction l as [|[[x y] lb] l IH]; intros rows a b c; cbn [fold_left map list_sum fold_right].
  - rewrite app_nil_r, !Nat.add_0_r. reflexivity.
  - assert (R : forall n1 n2 n3, count_alignment x y t = (n1, n2, n3) -> row t (x, y, lb) = ((n1, n2, n3), compute_scores n1 n2 n3, lb))
      by (intros n1 n2 n3 C; unfold row; cbn [fst snd]; now rewrite C).
    cbn [eval_step]. destruct (count_alignment x y t) as [[n1 n2] n3] eqn:C. rewrite IH.
    rewrite (R _ _ _ eq_refl). cbn [fst snd]. rewrite <- app_assoc. cbn [app].
    rewrite !Nat.add_assoc. reflexivity.
Qed.

Section Diff.
Variable char : Type.
Notation elem := (elem char).
Lemma has_id_spec i (l : list elem) : has_id i l = true <-> exists e, In e l /\ id_of e = i.
Proof.
  unfold has_id. rewrite existsb_exists. split; intros [e [A B]]; exists e; split; trivial; now apply id_eqb_spec.
Qed.
Lemma only_in (b : bool) (f : elem) (l k : list elem) d :
  In d (flat_map (fun t => if has_id (id_of t) k then [] else [{| d_true := b; d_from := id_of f; d_to := id_of t |}]) l) <->
  d_true d = b /\ d_from d = id_of f /\ (exists t, In t l /\ id_of t = d_to d) /\ ~ exists t, In t k /\ id_of t = d_to d.
Proof.
  rewrite in_flat_map. split.
  - intros [t [I H]]. destruct (has_id (id_of t) k) eqn:E; [destruct H|]. destruct H as [<-|[]]. cbn.
    repeat split; [exists t; auto|]. intros Q. apply has_id_spec in Q. congruence.
  - intros [E1 [E2 [[t [I E3]] N]]]. exists t. split; [trivial|]. destruct (has_id (id_of t) k) eqn:E.
    + exfalso. apply N. apply has_id_spec. now rewrite <- E3.
    + left. destruct d; cbn in *. congruence.
Qed.
Lemma diff_elem_in (f g : elem) l k d : In d (diff_elem f g l k) <->
  (d_true d = true /\ d_from d = id_of f /\ (exists t, In t l /\ id_of t = d_to d) /\ ~ exists t, In t k /\ id_of t = d_to d) \/
  (d_true d = false /\ d_from d = id_of g /\ (exists t, In t k /\ id_of t = d_to d) /\ ~ exists t, In t l /\ id_of t = d_to d).
Proof. unfold diff_elem. rewrite in_app_iff, !only_in. tauto. Qed.

Definition diffs (tx px : index char) (tl pl : list elem) : list difference :=
  flat_map (fun p => diff_elem (fst p) (snd p) (a_aligns (st tx (uid (fst p)))) (a_aligns (st px (uid (snd p))))) (combine tl pl).
Lemma print_diff_ok tx px t tl pl : dget String.eqb (counts tx) t = Some tl -> dget String.eqb (counts px) t = Some pl ->
  print_diff tx px t = Ok (combine (seq 1 (length (diffs tx px tl pl))) (diffs tx px tl pl)).
Proof. intros A B. unfold print_diff, dread. rewrite A, B. reflexivity. Qed.

Definition flip (d : difference) : difference := {| d_true := negb (d_true d); d_from := d_from d; d_to := d_to d |}.
Lemma map_flat (A B C : Type) (g : B -> C) (f : A -> list B) l : map g (flat_map f l) = flat_map (fun a => map g (f a)) l.
Proof. induction l; cbn [flat_map map]; [reflexivity|]. rewrite map_app. now f_equal. Qed.
Lemma diff_elem_swap (f g : elem) l k : Permutation (map flip (diff_elem f g l k)) (diff_elem g f k l).
Proof.
  unfold diff_elem. rewrite map_app, !map_flat.
  etransitivity; [apply Permutation_app_comm|]. apply Permutation_app; match goal with |- Permutation ?a ?b => replace a with b; [reflexivity|] end;
  apply flat_map_ext; intros t; destruct (has_id _ _); reflexivity.
Qed.
Lemma diffs_swap tx px tl pl : Permutation (map flip (diffs tx px tl pl)) (diffs px tx pl tl).
Proof.
  unfold diffs. revert pl. induction tl as [|a tl IH]; intros [|b pl]; cbn [combine flat_map map]; try apply perm_nil.
  rewrite map_app. apply Permutation_app; [apply diff_elem_swap|apply IH].
Qed.
Lemma has_in (t : elem) l : In t l -> has_id (id_of t) l = true.
Proof. intros I. apply has_id_spec. eauto. Qed.
Lemma flat_nil (A B : Type) (f : A -> list B) l : (forall a, In a l -> f a = []) -> flat_map f l = [].
Proof. induction l as [|a l IH]; intros H; [reflexivity|]. cbn [flat_map]. rewrite H by now left. apply IH. intros; apply H; now right. Qed.
Lemma diff_elem_self (f : elem) l : diff_elem f f l l = [].
Proof. unfold diff_elem. rewrite !flat_nil; [reflexivity| |]; intros t I; now rewrite has_in. Qed.
Lemma diffs_in tx px tl pl d : In d (diffs tx px tl pl) <-> exists (k : nat) (f g : elem), nth_error tl k = Some f /\ nth_error pl k = Some g /\
  In d (diff_elem f g (a_aligns (st tx (uid f))) (a_aligns (st px (uid g)))).
Proof.
  unfold diffs. rewrite in_flat_map. split.
  - intros [[f g] [I H]]. apply In_nth_error in I. destruct I as [k K]. exists k, f, g. cbn [fst snd] in H. split; [|split; [|trivial]].
    + revert pl k K. clear. induction tl as [|a tl IH]; intros [|b pl] [|k] K; cbn in *; try discriminate; [congruence|eapply IH; eauto].
    + revert pl k K. clear. induction tl as [|a tl IH]; intros [|b pl] [|k] K; cbn in *; try discriminate; [congruence|eapply IH; eauto].
  - intros [k [f [g [A [B H]]]]]. exists (f, g). split; [|trivial]. revert pl k A B. clear.
    induction tl as [|a tl IH]; intros [|b pl] [|k] A B; cbn in *; try discriminate; [left; congruence|right; eauto].
Qed.

(** Counts survive injection. *)
Lemma apply_counts pairs (t : index char * index char) : counts (fst (apply_pairs pairs t)) = counts (fst t).
Proof. revert t. induction pairs as [|p pairs IH]; intros t; [reflexivity|]. cbn [apply_pairs fold_left]. exact (IH (append2 t p)). Qed.

Lemma nodup_app (A : Type) (l k : list A) : NoDup l -> NoDup k -> (forall a, In a l -> ~ In a k) -> NoDup (l ++ k).
Proof.
  intros N M H. induction N as [|a l I N IH]; [trivial|]. cbn [app]. constructor.
  - rewrite in_app_iff. intros [Q|Q]; [tauto|]. apply (H a); [now left|trivial].
  - apply IH. intros x X. apply H. now right.
Qed.
Lemma only_nodup (b : bool) (f : elem) (l k : list elem) : NoDup (map (@id_of char) l) ->
  NoDup (flat_map (fun t => if has_id (id_of t) k then [] else [{| d_true := b; d_from := id_of f; d_to := id_of t |}]) l).
Proof.
  induction l as [|t l IH]; intros N; cbn [flat_map]; [constructor|]. inversion N; subst. apply nodup_app.
  - destruct (has_id _ _); repeat constructor; intros [].
  - now apply IH.
  - intros d D Q. apply only_in in Q. destruct Q as [_ [_ [[u [U E]] _]]].
    destruct (has_id (id_of t) k); [destruct D|]. destruct D as [<-|[]]. cbn in E. apply H1. rewrite <- E. now apply in_map.
Qed.
Lemma diff_elem_nodup (f g : elem) l k : NoDup (map (@id_of char) l) -> NoDup (map (@id_of char) k) -> NoDup (diff_elem f g l k).
Proof.
  intros A B. unfold diff_elem. apply nodup_app; [now apply only_nodup|now apply only_nodup|].
  intros d D Q. apply only_in in D, Q. destruct D as [D _], Q as [Q _]. congruence.
Qed.
Lemma diffs_nodup tx px tl pl : NoDup (map (@id_of char) tl) -> NoDup (map (@id_of char) pl) ->
  (forall f, In f tl -> NoDup (map (@id_of char) (a_aligns (st tx (uid f))))) ->
  (forall f, In f pl -> NoDup (map (@id_of char) (a_aligns (st px (uid f))))) -> NoDup (diffs tx px tl pl).
Proof.
  revert pl. induction tl as [|a tl IH]; intros [|b pl] N M A B; cbn [diffs combine flat_map]; try constructor.
  fold (diffs tx px tl pl). inversion N; subst. inversion M; subst. cbn [fst snd]. apply nodup_app.
  - apply diff_elem_nodup; [apply A; now left|apply B; now left].
  - apply IH; trivial; intros; [apply A|apply B]; now right.
  - intros d D Q. apply diffs_in in Q. destruct Q as [k [f [g [K1 [K2 Q]]]]]. apply nth_error_In in K1, K2.
    apply diff_elem_in in D, Q. destruct D as [[D1 [D2 _]]|[D1 [D2 _]]], Q as [[Q1 [Q2 _]]|[Q1 [Q2 _]]]; try congruence.
    + apply H1. rewrite <- D2, Q2. now apply in_map.
    + apply H4 || apply H3. rewrite <- D2, Q2. now apply in_map.
Qed.

(** The differences in terms of the links. *)
Lemma target_links fr tr links pairs t (e : elem) j : distinct fr -> Forall2 (connects (@named_id char) fr tr) links pairs ->
  In e (doc_order fr) -> tag e = t ->
  ((exists u, In u (targets pairs e) /\ id_of u = j) <->
   (exists l, In l links /\ l_from_tag l = t /\ l_from l = id_of e /\ l_to l = j)).
Proof.
  intros D F I T. unfold targets. split.
  - intros [u [U E]]. apply in_map_iff in U. destruct U as [[f u'] [E1 P]]. cbn [snd] in E1. subst u'. apply filter_In in P. destruct P as [P Q].
    cbn [fst] in Q. apply Nat.eqb_eq in Q. destruct (f2_in_r _ F P) as [l [L [C1 C2]]]. cbn [fst snd] in C1, C2.
    destruct C1 as [C1 [C3 [C4 _]]]. assert (f = e) by (eapply distinct_in; eauto). subst f.
    exists l. destruct C2 as [_ [_ [C5 _]]]. repeat split; congruence.
  - intros [l [L [L1 [L2 L3]]]]. assert (X : exists p, In p pairs /\ connects (@named_id char) fr tr l p).
    { clear -F L. induction F as [|a b ls ps H _ IH]; [destruct L|]. destruct L as [->|L]; [exists b; split; [now left|trivial]|].
      destruct (IH L) as [p [P Q]]. exists p. split; [now right|trivial]. }
    destruct X as [[f u] [P [C1 C2]]]. cbn [fst snd] in *. exists u. destruct C1 as [A1 [A2 [A3 A4]]].
    assert (e = f) by (apply A4; trivial; congruence). subst f.
    split; [|destruct C2 as [_ [_ [C _]]]; congruence]. apply in_map_iff. exists (e, u). split; [reflexivity|].
    apply filter_In. split; [trivial|]. apply Nat.eqb_refl.
Qed.
End Diff.
