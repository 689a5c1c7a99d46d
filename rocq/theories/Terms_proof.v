From Coq Require Import Reals Lra.
From Verif Require Import Py PyLemmas Ngram_spec Ngram_model Ngram_proof Create_spec Create_model Create_proof
  Tfidf_spec Tfidf_model Tfidf_proof Textal_spec Textal_model Textal_proof Terms_spec Terms_model.
Import ListNotations.
Set Implicit Arguments.
Open Scope nat_scope.
Open Scope list_scope.

(** ** n-grams *)
Lemma ngrams_fun (C : Type) (sep : list C) n tokens a b : ngrams_of sep n tokens a -> ngrams_of sep n tokens b -> a = b.
Proof.
  intros (ws & W & F) (ws' & W' & F'). rewrite (windows_fun W' W) in F'. clear W W'. revert b F'.
  assert (J : forall l x y, joined sep l x -> joined sep l y -> x = y).
  { intros l x y H. revert y. induction H as [|x|x z l s H IH]; intros y' H'; inversion H'; subst; trivial. f_equal. f_equal. now apply IH. }
  induction F as [|w x ws a H F IH]; intros b F'; inversion F'; subst; [reflexivity|]. f_equal; [eapply J; eassumption|now apply IH].
Qed.
Lemma grams_ok (C : Type) (blank : C) pad tokens n : ngrams_of [blank] n tokens (grams blank pad tokens n).
Proof. exists (n_gram_slices tokens n 0 pad). split; [apply n_gram_windows|apply n_gram_strings_joined]. Qed.
Lemma grams_one (C : Type) (blank : C) pad tokens : grams blank pad tokens 1 = tokens.
Proof.
  apply (@ngrams_fun _ [blank] 1 tokens); [apply grams_ok|]. exists (map (fun x => [x]) tokens). split.
  - intros i w. rewrite nth_error_map. split.
    + destruct (nth_error tokens i) as [x|] eqn:E; cbn [option_map]; [|discriminate]. intros [= <-].
      apply nth_error_split in E. destruct E as (u & v & -> & L). exists u, v. now split.
    + intros (u & v & -> & L & K). destruct w as [|x [|y w]]; try discriminate. rewrite nth_error_app2 by lia. rewrite L, Nat.sub_diag. reflexivity.
  - induction tokens; constructor; [constructor|assumption].
Qed.

Section Infix.
Variable char : Type.
Variable ceqb : char -> char -> bool.
Hypothesis ceq : forall a b, ceqb a b = true <-> a = b.
Lemma is_prefix_spec x y : is_prefix ceqb x y = true <-> exists b, y = x ++ b.
Proof.
  revert y. induction x as [|a x IH]; intros y; cbn [is_prefix]; [split; [intros _; now exists y|trivial]|].
  destruct y as [|b y]; [split; [discriminate|intros [b E]; discriminate]|]. rewrite Bool.andb_true_iff, ceq, IH. split.
  - intros [-> [c ->]]. now exists c.
  - intros [c E]. injection E as -> ->. split; [trivial|now exists c].
Qed.
Lemma is_infix_spec x y : is_infix ceqb x y = true <-> infix x y.
Proof.
  induction y as [|c y IH]; cbn [is_infix]; rewrite Bool.orb_true_iff, is_prefix_spec.
  - split; [intros [[b E]|H]; [exists [], b; exact E|discriminate]|]. intros (a & b & E). left.
    destruct a; [|discriminate]. now exists b.
  - rewrite IH. split.
    + intros [[b E]|(a & b & ->)]; [now exists [], b|]. now exists (c :: a), b.
    + intros (a & b & E). destruct a as [|d a]; [left; now exists b|]. injection E as -> ->. right. now exists a, b.
Qed.
Lemma terms_eqb_spec a b : terms_eqb ceqb a b = true <-> a = b.
Proof.
  revert b. induction a as [|x a IH]; intros [|y b]; cbn [terms_eqb]; try (split; congruence).
  rewrite Bool.andb_true_iff, IH. unfold teqb. rewrite (weqb_spec ceqb ceq). split; [intros [-> ->]; reflexivity|intros E; now injection E].
Qed.
End Infix.

(** ** Cosine of indicator weights *)
Section Vec.
Variable T : Type.
Variable teqb : T -> T -> bool.
Hypothesis teq : forall a b, teqb a b = true <-> a = b.
Variable f : T -> R.
Hypothesis f0 : forall t, (0 <= f t)%R.
Open Scope R_scope.
Definition vec (v d : list T) : list R := map (fun t => (if mem teqb t d then 1 else 0) * f t) v.
Lemma mem_t t d : mem teqb t d = true <-> In t d.
Proof. apply mem_spec, teq. Qed.
Lemma mem_f t d : mem teqb t d = false <-> ~ In t d.
Proof. rewrite <- mem_t. destruct mem; split; congruence. Qed.
Lemma dot_le v a b : dot (vec v a) (vec v b) <= square_length (vec v a).
Proof.
  unfold vec. induction v as [|t v IH]; cbn [map]; [apply Rle_refl|]. rewrite dot_cons, sl_cons.
  pose proof (f0 t). destruct (mem teqb t a), (mem teqb t b); nra.
Qed.
Lemma dot_le2 v a b : dot (vec v a) (vec v b) <= square_length (vec v b).
Proof. rewrite dot_sym. apply dot_le. Qed.
Lemma vec_nonneg v d : Forall (fun x => 0 <= x) (vec v d).
Proof. unfold vec. apply Forall_map, Forall_forall. intros t _. pose proof (f0 t). destruct mem; lra. Qed.
Lemma dot_zero v a b : dot (vec v a) (vec v b) = 0 <-> forall t, In t v -> In t a -> In t b -> f t = 0.
Proof.
  induction v as [|t v IH]; [split; [intros _ ? []|reflexivity]|]. unfold vec in *. cbn [map]. rewrite dot_cons.
  pose proof (dot_nonneg (vec_nonneg v a) (vec_nonneg v b)) as P. unfold vec in P. pose proof (f0 t) as Q.
  split.
  - intros E. assert (dot (vec v a) (vec v b) = 0) as E' by (unfold vec; destruct (mem teqb t a), (mem teqb t b); nra).
    unfold vec in E'. intros u [<-|I] A B; [|now apply IH]. apply mem_t in A, B. rewrite A, B in E. nra.
  - intros H. assert (K : dot (vec v a) (vec v b) = 0) by (apply IH; intros; apply H; trivial; now right). unfold vec in K. rewrite K.
    destruct (mem teqb t a) eqn:A, (mem teqb t b) eqn:B; try ring. apply mem_t in A, B. rewrite (H t (or_introl eq_refl) A B). ring.
Qed.
Lemma dot_full v a b : dot (vec v a) (vec v b) = square_length (vec v a) <-> forall t, In t v -> f t <> 0 -> In t a -> In t b.
Proof.
  induction v as [|t v IH]; [split; [intros _ ? []|reflexivity]|]. unfold vec in *. cbn [map]. rewrite dot_cons, sl_cons.
  pose proof (dot_le v a b) as P. unfold vec in P. pose proof (f0 t) as Q. split.
  - intros E. assert (dot (vec v a) (vec v b) = square_length (vec v a)) as E' by (unfold vec; destruct (mem teqb t a), (mem teqb t b); nra).
    intros u [<-|I] N A; [|exact (proj1 IH E' u I N A)].
    apply mem_t in A. rewrite A in E. destruct (mem teqb t b) eqn:B; [now apply mem_t|]. exfalso. unfold vec in E'. rewrite E' in E. apply N. nra.
  - intros H. rewrite (proj2 IH) by (intros u I; apply H; now right). f_equal.
    destruct (mem teqb t a) eqn:A, (mem teqb t b) eqn:B; try ring. apply mem_t in A. apply mem_f in B.
    destruct (Req_dec (f t) 0) as [Z|Z]; [rewrite Z; ring|]. exfalso. apply B. apply H; trivial. now left.
Qed.
Lemma sl_zero_vec v a : square_length (vec v a) = 0 <-> forall t, In t v -> In t a -> f t = 0.
Proof.
  rewrite <- dot_self, dot_zero. split; intros H t I A; [now apply H|intros _; now apply H].
Qed.
Lemma cos_cases v a b : let x := weighted_cosine_sim (vec v a) (vec v b) in
  (x = 0 <-> forall t, In t v -> In t a -> In t b -> f t = 0) /\
  (x = 1 <-> (exists t, In t v /\ In t a /\ f t <> 0) /\ forall t, In t v -> f t <> 0 -> (In t a <-> In t b)).
Proof.
  cbv zeta. rewrite cosine_eq. 
  pose proof (dot_le v a b) as L1. pose proof (dot_le2 v a b) as L2.
  pose proof (sl_nonneg (vec v a)) as PA. pose proof (sl_nonneg (vec v b)) as PB.
  pose proof (dot_nonneg (vec_nonneg v a) (vec_nonneg v b)) as PC.
  pose proof (dot_zero v a b) as Z. pose proof (dot_full v a b) as F1. pose proof (dot_full v b a) as F2. rewrite dot_sym in F2.
  pose proof (sl_zero_vec v a) as S1.
  set (A := square_length (vec v a)) in *. set (B := square_length (vec v b)) in *. set (C := dot (vec v a) (vec v b)) in *.
  destruct Req_EM_T as [E|E].
  - assert (A * B = 0) as E2 by (apply sqrt_eq_0; [now apply Rmult_le_pos|exact E]).
    assert (C = 0) as E3 by (apply Rmult_integral in E2; destruct E2; lra).
    split; [split; [intros _; now apply Z|trivial]|]. split; [lra|]. intros [(t & I & J & N) H]. exfalso.
    assert (In t b) by now apply H. apply N. now apply Z.
  - assert (0 < A * B) as P. { destruct (Rle_lt_or_eq_dec 0 (A * B)) as [P|P]; [now apply Rmult_le_pos|trivial|]. rewrite <- P, sqrt_0 in E. lra. }
    assert (0 < A) as PA' by (destruct (Rle_lt_or_eq_dec 0 A PA) as [Q|Q]; [trivial|rewrite <- Q in P; lra]).
    assert (0 < B) as PB' by (destruct (Rle_lt_or_eq_dec 0 B PB) as [Q|Q]; [trivial|rewrite <- Q in P; lra]).
    pose proof (sqrt_lt_R0 _ P) as PS. set (s := sqrt (A * B)) in *.
    assert (s * s = A * B) as SS by (apply sqrt_sqrt; lra).
    split.
    + rewrite <- Z. split; [|intros ->; unfold Rdiv; ring]. intros Q. unfold Rdiv in Q. apply Rmult_integral in Q. destruct Q as [Q|Q]; [trivial|].
      pose proof (Rinv_0_lt_compat _ PS). lra.
    + split.
      * intros Q. assert (C = s) as CS. { replace C with (C / s * s) by (field; lra). rewrite Q. ring. }
        assert (C = A) as CA by nra. assert (C = B) as CB by nra.
        split.
        -- rewrite CA in F1. assert (A <> 0) as N by lra. rewrite S1 in N. clear - N f0 teq.
           induction v as [|t v IH]; [exfalso; apply N; intros ? []|].
           destruct (mem teqb t a) eqn:M.
           ++ apply mem_t in M. destruct (Req_dec (f t) 0) as [Z|Z].
              ** destruct IH as (u & I & J & K); [|exists u; split; [now right|now split]]. intros H. apply N. intros u [<-|I]; auto.
              ** exists t. split; [now left|now split].
           ++ apply mem_f in M. destruct IH as (u & I & J & K); [|exists u; split; [now right|now split]]. intros H. apply N. intros u [<-|I]; auto. contradiction.
        -- intros t I N. split; [now apply F1|now apply F2].
      * intros [_ H]. assert (C = A) as CA by (apply F1; intros; now apply H). assert (C = B) as CB by (apply F2; intros; now apply H).
        assert (s = A) as SA. { unfold s. rewrite <- CB, CA. apply sqrt_square. lra. }
        rewrite SA, CA. field. lra.
Qed.
End Vec.

Section Weights.
Variable char : Type.
Variable ceqb : char -> char -> bool.
Hypothesis ceq : forall a b, ceqb a b = true <-> a = b.
Variable tleb : list char -> list char -> bool.
Notation text := (list char).
Notation teqb := (teqb ceqb).
Lemma teq : forall a b, teqb a b = true <-> a = b.
Proof. apply weqb_spec, ceq. Qed.
Definition factor (docs : list (list text)) (t : text) : R := (idf_of (length docs) (containing teqb t docs) / ln (INR (length docs)))%R.
Definition vocabulary (docs : list (list text)) := fst (calculate_term_frequencies teqb tleb docs).
Lemma factor_ok docs t : 2 <= length docs -> (exists d, In d docs /\ In t d) ->
  (0 <= factor docs t)%R /\ (factor docs t <> 0%R <-> informative docs t).
Proof.
  intros L H. pose proof (containing_pos teqb teq t docs H) as P. pose proof (containing_le teqb t docs) as Q.
  destruct (idf_range P Q) as [[I0 I1] I2]. pose proof (ln_pos L) as LP. unfold factor. split.
  - unfold Rdiv. apply Rmult_le_pos; [trivial|]. left. now apply Rinv_0_lt_compat.
  - split.
    + intros N. split; [exact H|]. assert (K : containing teqb t docs <> length docs).
      { intros E. apply N. apply I2 in E. rewrite E. unfold Rdiv. ring. }
      rewrite (containing_all teqb teq) in K.
      assert (Dc : forall l : list (list text), (exists d, In d l /\ ~ In t d) \/ forall d, In d l -> In t d).
      { induction l as [|d l IH]; [right; intros ? []|]. destruct IH as [(e & I & J)|A]; [left; exists e; split; [now right|trivial]|].
        destruct (mem teqb t d) eqn:M; [right; intros e [<-|I]; [now apply (mem_spec teqb teq)|auto]|].
        left. exists d. split; [now left|]. intros J. apply (mem_spec teqb teq) in J. congruence. }
      destruct (Dc docs) as [D|D]; [exact D|contradiction].
    + intros [_ (d & I & J)] E. assert (K : idf_of (length docs) (containing teqb t docs) = 0%R).
      { replace (idf_of (length docs) (containing teqb t docs)) with (idf_of (length docs) (containing teqb t docs) / ln (INR (length docs)) * ln (INR (length docs)))%R by (field; lra).
        rewrite E. ring. }
      apply I2 in K. rewrite (containing_all teqb teq) in K. exact (J (K d I)).
Qed.
(** outside the vocabulary the factor does not matter *)
Definition factor' docs (t : text) : R := if mem teqb t (vocabulary docs) then factor docs t else 0%R.
Lemma vocab_in docs t : In t (vocabulary docs) <-> exists d, In d docs /\ In t d.
Proof. destruct (@tf_ok _ teqb tleb teq docs) as (_ & I & _). apply I. Qed.
Lemma factor'_nonneg docs t : 2 <= length docs -> (0 <= factor' docs t)%R.
Proof.
  intros L. unfold factor'. destruct mem eqn:M; [|apply Rle_refl]. apply (mem_spec teqb teq) in M. apply vocab_in in M. now apply factor_ok.
Qed.
Lemma factor'_in docs t : 2 <= length docs -> In t (vocabulary docs) -> (factor' docs t <> 0%R <-> informative docs t).
Proof.
  intros L I. unfold factor'. rewrite (proj2 (mem_spec teqb teq _ _) I). apply factor_ok; [trivial|]. now apply vocab_in.
Qed.
Lemma weights_ok docs : 2 <= length docs ->
  tf_idf_indicator_weight ceqb tleb docs = Ok (map (fun d => Some (vec teqb (factor' docs) (vocabulary docs) d)) docs).
Proof.
  intros L. unfold tf_idf_indicator_weight. rewrite (@tf_idf_ok _ teqb tleb teq true true docs) by trivial. cbn [bind snd].
  rewrite map_map. f_equal. apply map_ext. intros d. f_equal. unfold vec. fold (vocabulary docs). apply map_ext_in. intros t I.
  unfold factor'. rewrite (proj2 (mem_spec teqb teq _ _) I). reflexivity.
Qed.
End Weights.

(** ** Scores *)
Section Scores.
Variable char : Type.
Notation text := (list char).
Variables S E : Type.
Variable term_func : text -> list text.
Variable weight_func : list (list text) -> res (list weights).
Variable sim_func : list text -> list text -> weights -> weights -> res S.
Variables source_text target_text : E -> text.

Lemma mapM_nth (X Y : Type) (g : X -> res Y) l r : mapM g l = Ok r -> length r = length l /\
  forall i x, nth_error l i = Some x -> exists y, g x = Ok y /\ nth_error r i = Some y.
Proof.
  revert r. induction l as [|x l IH]; intros r; cbn [mapM]; [intros [= <-]; split; [reflexivity|intros [|i] ?; discriminate]|].
  destruct (g x) as [y|] eqn:G; cbn [bind]; [|discriminate]. destruct (mapM g l) as [ys|] eqn:M; cbn [bind]; [|discriminate].
  intros [= <-]. destruct (IH _ eq_refl) as [L N]. split; [cbn [length]; now rewrite L|]. intros [|i] z; cbn [nth_error]; [|apply N].
  intros [= <-]. now exists y.
Qed.
Lemma mapM_err_inv (X Y : Type) (g : X -> res Y) l e : mapM g l = Err e -> exists x, In x l /\ g x = Err e.
Proof.
  induction l as [|x l IH]; cbn [mapM]; [discriminate|]. destruct (g x) as [y|e'] eqn:G; cbn [bind].
  - destruct (mapM g l) as [ys|e'] eqn:M; cbn [bind]; [discriminate|]. intros [= ->]. destruct (IH eq_refl) as (z & I & J). exists z. split; [now right|trivial].
  - intros [= ->]. exists x. split; [now left|trivial].
Qed.
Lemma nth_combine (X Y : Type) (l : list X) (m : list Y) i x y : nth_error l i = Some x -> nth_error m i = Some y -> nth_error (combine l m) i = Some (x, y).
Proof.
  revert m i. induction l as [|a l IH]; intros [|b m] [|i]; cbn [nth_error combine]; try discriminate; [|apply IH]. now intros [= ->] [= ->].
Qed.
Lemma nth_combine_inv (X Y : Type) (l : list X) (m : list Y) i x y : nth_error (combine l m) i = Some (x, y) -> nth_error l i = Some x /\ nth_error m i = Some y.
Proof.
  revert m i. induction l as [|a l IH]; intros [|b m] [|i]; cbn [nth_error combine]; try discriminate; [|apply IH]. now intros [= -> ->].
Qed.
Lemma nth_seq a n i : i < n -> nth_error (seq a n) i = Some (a + i).
Proof. revert a i. induction n as [|n IH]; intros a [|i] H; try lia; cbn [seq nth_error]; [f_equal; lia|]. rewrite IH by lia. f_equal. lia. Qed.
Lemma concat_nth (X : Type) (ls : list (list X)) n : (forall l, In l ls -> length l = n) ->
  length (concat ls) = length ls * n /\
  forall i l j x, nth_error ls i = Some l -> nth_error l j = Some x -> nth_error (concat ls) (i * n + j) = Some x.
Proof.
  induction ls as [|l ls IH]; intros H; [split; [reflexivity|intros [|i] ? ? ?; discriminate]|].
  destruct IH as [L N]; [intros; apply H; now right|]. assert (K : length l = n) by (apply H; now left). cbn [concat length]. split.
  - rewrite app_length, L, K. lia.
  - intros [|i] m j x; cbn [nth_error].
    + intros [= <-] J. rewrite Nat.mul_0_l, Nat.add_0_l. rewrite nth_error_app1; [trivial|]. apply nth_error_Some. congruence.
    + intros I J. rewrite nth_error_app2 by (rewrite K; lia). rewrite K. replace (Datatypes.S i * n + j - n) with (i * n + j) by lia. now apply (N i m).
Qed.
Lemma item (side : E -> text) ws elems off i e : nth_error elems i = Some e ->
  nth_error (combine (combine elems (map (fun e => term_func (side e)) elems)) (map (weight_at ws) (seq off (length elems)))) i =
  Some ((e, term_func (side e)), weight_at ws (off + i)).
Proof.
  intros H. assert (i < length elems) by (apply nth_error_Some; congruence).
  apply nth_combine; [apply nth_combine; [trivial|]|]; rewrite nth_error_map; [now rewrite H|]. now rewrite nth_seq.
Qed.
Lemma item_inv (side : E -> text) ws elems off s : In s (combine (combine elems (map (fun e => term_func (side e)) elems)) (map (weight_at ws) (seq off (length elems)))) ->
  exists i e, nth_error elems i = Some e /\ s = ((e, term_func (side e)), weight_at ws (off + i)).
Proof.
  intros I. apply In_nth_error in I. destruct I as [i H]. destruct s as [[e tm] w]. apply nth_combine_inv in H. destruct H as [H1 H2].
  apply nth_combine_inv in H1. destruct H1 as [H1 H3]. exists i, e. split; [trivial|].
  assert (i < length elems) by (apply nth_error_Some; congruence).
  rewrite nth_error_map, H1 in H3. cbn [option_map] in H3. rewrite nth_error_map, nth_seq in H2 by trivial. cbn [option_map] in H2. congruence.
Qed.
Definition pair_score ws (sources targets : list E) i j (x : S) : Prop :=
  exists s t, nth_error sources i = Some s /\ nth_error targets j = Some t /\
    sim_func (term_func (source_text s)) (term_func (target_text t)) (weight_at ws i) (weight_at ws (length sources + j)) = Ok x.
Notation docs sources targets := (map (fun e => term_func (source_text e)) sources ++ map (fun e => term_func (target_text e)) targets).
Lemma scores_ok sources targets ws l : weight_func (docs sources targets) = Ok ws ->
  scores term_func weight_func sim_func source_text target_text sources targets = Ok l ->
  every_pair (pair_score ws sources targets) sources targets l.
Proof.
  intros W. unfold scores. rewrite W. cbn [bind]. destruct (mapM _ _) as [rows|] eqn:M; cbn [bind]; [|discriminate]. intros [= <-].
  apply mapM_nth in M. destruct M as [L N].
  assert (LS : forall (side : E -> text) el off, length (combine (combine el (map (fun e => term_func (side e)) el)) (map (weight_at ws) (seq off (length el)))) = length el).
  { intros. rewrite !combine_length, !map_length, seq_length. lia. }
  rewrite LS in L.
  assert (RL : forall row, In row rows -> length row = length targets).
  { intros row I. apply In_nth_error in I. destruct I as [i I]. 
    assert (i < length sources) as Hi by (rewrite <- L; apply nth_error_Some; congruence).
    destruct (nth_error sources i) as [s|] eqn:Hs; [|apply nth_error_None in Hs; lia].
    destruct (N i _ (@item source_text ws sources 0 i s Hs)) as (row' & G & H'). rewrite I in H'. injection H' as <-.
    apply mapM_nth in G. destruct G as [G _]. now rewrite LS in G. }
  destruct (concat_nth _ RL) as [CL CN]. split; [now rewrite CL, L|].
  intros i j s t Hs Ht. destruct (N i _ (@item source_text ws sources 0 i s Hs)) as (row & G & Hr).
  apply mapM_nth in G. destruct G as [_ G]. destruct (G j _ (@item target_text ws targets (length sources) j t Ht)) as ((x, p) & Hx & Hj).
  cbn [fst snd] in Hx. destruct (sim_func _ _ _ _) as [y|] eqn:SF; cbn [bind] in Hx; [|discriminate]. injection Hx as -> <-.
  exists x. split; [now apply (CN i row)|]. now exists s, t.
Qed.
Lemma scores_err sources targets e : scores term_func weight_func sim_func source_text target_text sources targets = Err e ->
  weight_func (docs sources targets) = Err e \/
  exists ws i j s t, weight_func (docs sources targets) = Ok ws /\ nth_error sources i = Some s /\ nth_error targets j = Some t /\
    sim_func (term_func (source_text s)) (term_func (target_text t)) (weight_at ws i) (weight_at ws (length sources + j)) = Err e.
Proof.
  unfold scores. destruct (weight_func _) as [ws|e'] eqn:W; cbn [bind]; [|intros [= ->]; now left].
  destruct (mapM _ _) as [rows|e'] eqn:M; cbn [bind]; [discriminate|]. intros [= ->]. right.
  apply mapM_err_inv in M. destruct M as (a & Ia & M). apply mapM_err_inv in M. destruct M as (b & Ib & M).
  apply item_inv in Ia. destruct Ia as (i & s & Hs & ->). apply item_inv in Ib. destruct Ib as (j & t & Ht & ->). cbn [fst snd] in M.
  destruct (sim_func _ _ _ _) as [y|e'] eqn:SF; cbn [bind] in M; [discriminate|]. injection M as ->. now exists ws, i, j, s, t.
Qed.
Lemma every_pair_in (score : nat -> nat -> S -> Prop) (sources targets : list E) l x s t : every_pair score sources targets l ->
  In (x, (s, t)) l -> exists i j, nth_error sources i = Some s /\ nth_error targets j = Some t /\ score i j x.
Proof.
  intros [L H] I. apply In_nth_error in I. destruct I as [k I].
  assert (K : k < length sources * length targets) by (rewrite <- L; apply nth_error_Some; congruence).
  assert (Tn : length targets <> 0) by (intros Z; rewrite Z in K; lia).
  pose proof (Nat.div_mod_eq k (length targets)) as D. pose proof (Nat.mod_upper_bound k (length targets) Tn) as U.
  assert (Q : k / length targets < length sources) by (apply Nat.div_lt_upper_bound; [trivial|lia]).
  destruct (nth_error sources (k / length targets)) as [s'|] eqn:Hs; [|apply nth_error_None in Hs; lia].
  destruct (nth_error targets (k mod length targets)) as [t'|] eqn:Ht; [|apply nth_error_None in Ht; lia].
  destruct (H _ _ _ _ Hs Ht) as (y & G & Sc). replace (k / length targets * length targets + k mod length targets) with k in G by lia.
  rewrite I in G. injection G as <- <- <-. now exists (k / length targets), (k mod length targets).
Qed.
End Scores.
