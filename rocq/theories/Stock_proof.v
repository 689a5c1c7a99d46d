From Coq Require Import String List Bool Arith Lia Permutation.
From Verif Require Import Py PyLemmas Cache_spec Cache_model Cache_proof1 Stock_spec Stock_model.
Import ListNotations.
Set Implicit Arguments.
Open Scope string_scope. Open Scope nat_scope. Open Scope list_scope.
Section S.
Variable K : Type.
Variable keqb : K -> K -> bool.
Hypothesis keq : forall x y, keqb x y = true <-> x = y.
Notation lru := (lru K). Notation dg := (dget keqb). Notation rep := (rep keqb).
Definition link_ok (r : lru) (n : nat) (x : K * bool) := item r n = Some (fst x) /\ (snd x = true <-> dg (lkeys r) (fst x) = Some n).
Definition rel (r : lru) (l : list nat) (e : occurrences K) := rep r l /\ Forall2 (link_ok r) l e.
Lemma refl k : keqb k k = true. Proof. now apply keq. Qed.
Lemma neq k k' : k <> k' -> keqb k k' = false.
Proof. intros H. destruct (keqb k k') eqn:E; auto. apply keq in E. contradiction. Qed.
Lemma f2_map A B C (P : A -> B -> Prop) (Q : A -> C -> Prop) (f : B -> C) l e :
  Forall2 P l e -> (forall n x, In n l -> P n x -> Q n (f x)) -> Forall2 Q l (map f e).
Proof. induction 1 as [|n x l e H F IH]; intros G; cbn; constructor; [apply G; [now left|auto]|]. apply IH. intros; apply G; auto. now right. Qed.
Lemma f2_imp A B (P Q : A -> B -> Prop) l e : Forall2 P l e -> (forall n x, In n l -> In x e -> P n x -> Q n x) -> Forall2 Q l e.
Proof. induction 1 as [|n x l e H F IH]; intros G; constructor; [apply G; auto; now left|]. apply IH. intros; apply G; auto; now right. Qed.
Lemma rel_new : rel (new_lru K) [] [].
Proof. split; [apply rep_new|constructor]. Qed.
Lemma rel_add r l e k : rel r l e -> rel (add keqb r k) (l ++ [fresh r]) (forget keqb k e ++ [(k, true)]).
Proof.
  intros [R F]. destruct (rep_add keq k R) as (R' & I1 & I2). split; auto. apply Forall2_app.
  - apply f2_map with (1 := F). intros n [x b] I [E1 E2]. cbn [fst snd] in *. split; [now rewrite I2|]. cbn [fst snd].
    unfold add; cbn [lkeys]. destruct (k_dec keqb keq k x) as [<-|Ne].
    + rewrite refl, andb_false_r, (dget_dset_same keqb keq). split; [discriminate|]. intros Q. injection Q as Q.
      assert (n < fresh r) by (apply (r_fresh R); now right). lia.
    + rewrite (neq Ne). cbn [negb]. rewrite andb_true_r, (dget_dset_other keqb keq) by auto. auto.
  - constructor; [|constructor]. split; auto. cbn [fst snd]. unfold add; cbn [lkeys]. rewrite (dget_dset_same keqb keq). tauto.
Qed.
Lemma f2_split A B (P : A -> B -> Prop) l1 x l2 e : Forall2 P (l1 ++ x :: l2) e -> exists e1 y e2, e = e1 ++ y :: e2 /\ Forall2 P l1 e1 /\ P x y /\ Forall2 P l2 e2.
Proof.
  intros F. apply Forall2_app_inv_l in F as (e1 & e' & F1 & F2 & ->). inversion F2 as [|? y ? e2 H F3]; subst. exists e1, y, e2. auto.
Qed.
Lemma rel_discard_at r l1 n l2 e1 k e2 : rel r (l1 ++ n :: l2) (e1 ++ (k, true) :: e2) -> length l1 = length e1 ->
  rel (discard keqb r k) (l1 ++ l2) (e1 ++ e2) /\ drop keqb k (e1 ++ (k, true) :: e2) = e1 ++ e2 /\ dg (lkeys r) k = Some n /\ item r n = Some k.
Proof.
  intros [R F] Le.
  assert (F' : Forall2 (link_ok r) l1 e1 /\ link_ok r n (k, true) /\ Forall2 (link_ok r) l2 e2).
  { clear R. revert e1 Le F. induction l1 as [|m l1 IH]; intros [|y e1] Le F; try discriminate; cbn [app] in F; inversion F; subst; auto.
    match goal with H : Forall2 _ (l1 ++ _) _ |- _ => destruct (IH e1) as (A & B & C); [cbn in Le; lia|exact H|] end. split; auto. }
  destruct F' as (F1 & [E1 E2] & F2). cbn [fst snd] in E1, E2. assert (D : dg (lkeys r) k = Some n) by now apply E2.
  pose proof (r_nodup R) as N. rewrite NoDup_cons_iff in N. destruct N as [_ N].
  assert (G : forall m x, In m (l1 ++ l2) -> link_ok r m x -> link_ok (discard keqb r k) m x /\ snd x && keqb k (fst x) = false).
  { intros m [x b] I [A B]. cbn [fst snd] in *. unfold discard. rewrite D. split.
    - split; auto. cbn [fst snd lkeys]. destruct (k_dec keqb keq x k) as [->|Ne].
      + rewrite (dget_ddel_same keqb keq) by apply (r_dict R). rewrite B, D. split; [|discriminate]. intros Q. injection Q as <-.
        exfalso. now apply (NoDup_remove_2 _ _ _ N).
      + rewrite (dget_ddel_other keqb keq) by auto. auto.
    - destruct b; auto. cbn. apply neq. intros <-. assert (Some n = Some m) by (rewrite <- D; now apply B).
      match goal with H : Some n = Some m |- _ => injection H as <- end. now apply (NoDup_remove_2 _ _ _ N). }
  assert (Fs : Forall2 (link_ok r) (l1 ++ l2) (e1 ++ e2)) by now apply Forall2_app.
  split; [|split; [|split; auto]].
  - split; [eapply rep_discard; eauto|]. apply f2_imp with (1 := Fs). intros m x I _ H. now apply G.
  - unfold drop. rewrite filter_app. cbn [filter fst snd]. rewrite refl. cbn [andb negb]. rewrite <- filter_app.
    clear -Fs G. revert G. induction Fs as [|m x l e H F IH]; intros G; cbn [filter]; auto.
    destruct (G m x (or_introl eq_refl) H) as [_ ->]. cbn [negb]. f_equal. apply IH. intros; apply G; auto. now right.
Qed.
Lemma rel_discard r l e k : rel r l e -> exists l', rel (discard keqb r k) l' (drop keqb k e).
Proof.
  intros H. destruct (dg (lkeys r) k) as [n|] eqn:D.
  - pose proof H as [R F]. destruct (r_keys R _ D) as [I J]. apply in_split in I as (l1 & l2 & ->).
    destruct (f2_split _ _ _ F) as (e1 & [k' b] & e2 & -> & F1 & [A B] & F2). cbn [fst snd] in A, B.
    assert (k' = k) by congruence. subst k'. assert (b = true) by now apply B. subst b.
    assert (Le : length l1 = length e1) by (clear -F1; induction F1; cbn; auto).
    destruct (rel_discard_at _ _ _ _ _ _ H Le) as (H1 & -> & _). eauto.
  - exists l. rewrite discard_missing by exact D. replace (drop keqb k e) with e; auto.
    destruct H as [_ F]. unfold drop. induction F as [|n [x b] l e [A B] F IH]; auto. cbn [filter fst snd] in *.
    assert (b && keqb k x = false) as ->. { destruct b; auto. cbn. apply neq. intros <-. assert (None = Some n) by (rewrite <- D; now apply B). discriminate. }
    cbn [negb]. now rewrite <- IH.
Qed.
Lemma add_forget_drop k e : forget keqb k (drop keqb k e) = drop keqb k e.
Proof.
  unfold forget, drop. induction e as [|[x b] e IH]; auto. cbn [filter fst snd]. destruct (b && keqb k x) eqn:E; cbn [negb]; auto.
  cbn [map fst snd]. rewrite IH. f_equal. f_equal. destruct b; auto. cbn in *. now rewrite E.
Qed.
Lemma rel_step r l e o : rel r l e -> exists l', rel (step keqb r o) l' (sstep keqb e o).
Proof.
  intros H. destruct o as [k|k|k|]; cbn [step sstep].
  - eexists. apply rel_add. eauto.
  - destruct (rel_discard k H) as [l' H']. unfold lru_update. eexists. rewrite <- add_forget_drop. apply rel_add. eauto.
  - now apply rel_discard with l.
  - exists []. split; [eapply rep_clear; apply H|constructor].
Qed.
Lemma rel_run os : exists l, rel (run keqb os) l (sruns keqb os).
Proof.
  unfold run, sruns. assert (G : exists l, rel (new_lru K) l []) by (exists []; apply rel_new). revert G. generalize (new_lru K) (@nil (K * bool)).
  induction os as [|o os IH]; intros r e [l H]; cbn [fold_left]; eauto. apply IH. eapply rel_step; eauto.
Qed.
Lemma rel_len r l e : rel r l e -> length l = length e.
Proof. intros [_ F]. induction F; cbn; auto. Qed.
Lemma rel_items r l e : rel r l e -> map (item r) l = map (fun x => Some (fst x)) e.
Proof. intros [_ F]. induction F as [|n x l e [A _] F IH]; cbn; auto. now rewrite A, IH. Qed.
Lemma last_cons A (l : list A) : forall x a, last (x :: l) a = last l x.
Proof. induction l as [|y l IH]; intros x a; auto. change (last (x :: y :: l) a) with (last (y :: l) a). now rewrite !IH. Qed.
Lemma chain_last nx pv l : forall a b, chain nx pv a l b -> pv b = last l a.
Proof.
  induction l as [|x l IH]; intros a b C; cbn [chain] in C; [now destruct C|]. destruct C as [_ C]. rewrite (IH _ _ C). now rewrite last_cons.
Qed.
Lemma backwards_ok (r : lru) l : forall b fuel, NoDup (0 :: l) -> chain (nx r) (pv r) 0 l b -> length l < fuel -> backwards fuel r b = Ok (map (item r) (rev l)).
Proof.
  induction l as [|x l IH] using rev_ind; intros b fuel N C L.
  - destruct C as [_ C]. destruct fuel; [cbn in L; lia|]. cbn [backwards]. rewrite C. reflexivity.
  - apply chain_app in C as [C1 [_ C2]]. rewrite app_length in L. cbn in L. destruct fuel as [|fuel]; [lia|]. cbn [backwards]. rewrite C2.
    rewrite NoDup_cons_iff, in_app_iff in N. cbn [In] in N. destruct (Nat.eqb_spec x 0) as [->|_]; [tauto|].
    rewrite (IH x fuel); [|constructor; [tauto|]|auto|lia].
    + rewrite rev_app_distr. reflexivity.
    + destruct N as [_ N]. apply NoDup_remove_1 in N. now rewrite app_nil_r in N.
Qed.
Lemma join_between sep l : join sep l = with_between sep l.
Proof. induction l as [|x [|y l] IH]; auto. Qed.
Lemma known_in r l e k n : rel r l e -> dg (lkeys r) k = Some n -> In (k, true) e.
Proof.
  intros [R F] D. destruct (r_keys R _ D) as [I J]. clear R. induction F as [|m [x b] l e [A B] F IH]; [destruct I|]. cbn [fst snd] in *.
  destruct I as [<-|I]; [|right; auto]. left. assert (x = k) by congruence. subst. f_equal. now apply B.
Qed.
Lemma in_known r l e k : rel r l e -> In (k, true) e -> exists n, In n l /\ dg (lkeys r) k = Some n.
Proof.
  intros [_ F]. induction F as [|m [x b] l e [A B] F IH]; [intros []|]. cbn [fst snd] in *. intros [Q|I].
  - injection Q as -> ->. exists m. split; [now left|]. now apply B.
  - destruct (IH I) as (n & J & D). exists n. split; auto. now right.
Qed.
Lemma known_nodup r l e : rel r l e -> NoDup (map fst (filter snd e)).
Proof.
  intros [R F]. pose proof (r_nodup R) as N. rewrite NoDup_cons_iff in N. destruct N as [_ N]. clear R.
  induction F as [|m [x b] l e [A B] F IH]; cbn [filter map]; [constructor|]. rewrite NoDup_cons_iff in N. destruct N as [Nm N].
  cbn [fst snd] in *. destruct b; cbn [map fst]; auto. constructor; auto. intros I. apply in_map_iff in I as ([y c] & E & I). cbn in E; subst y.
  apply filter_In in I as [I Q]. cbn in Q. subst c. assert (D : dg (lkeys r) x = Some m) by now apply B. clear IH.
  apply Nm. clear -F I D. induction F as [|m' [z b] l e [A B] F IH]; [destruct I|]. cbn [fst snd] in *. destruct I as [Q|I].
  - injection Q as -> ->. left. assert (dg (lkeys r) x = Some m') by now apply B. congruence.
  - right. auto.
Qed.
Lemma size_ok r l e : rel r l e -> size r = length (filter snd e).
Proof.
  intros H. unfold size. rewrite <- (map_length fst (lkeys r)), <- (map_length fst (filter snd e)). apply Permutation_length.
  apply NoDup_Permutation; [apply (r_dict (proj1 H))|eapply known_nodup; eauto|]. intros k. split.
  - intros I. destruct (dg (lkeys r) k) as [n|] eqn:D.
    + apply in_map_iff. exists (k, true). split; auto. apply filter_In. split; auto. eapply known_in; eauto.
    + exfalso. apply (dget_none keqb keq) in D. auto.
  - intros I. apply in_map_iff in I as ([x b] & E & I). cbn in E; subst. apply filter_In in I as [I Q]. cbn in Q; subst.
    destruct (in_known _ H I) as (n & _ & D). apply (dget_in keqb keq) in D. apply in_map_iff. exists (k, n); auto.
Qed.
Lemma stock_exact os (show : K -> string) : let r := run keqb os in let e := sruns keqb os in forall fuel, length e < fuel ->
  lru_tolist fuel r 0 = Ok (map (fun x => Some (fst x)) e) /\
  pop r = match e with [] => None | x :: _ => Some (fst x) end /\
  size r = length (filter snd e) /\
  (forall k, is_in keqb fuel r k = Ok (existsb (fun x => keqb (fst x) k) e)) /\
  text_of (fun x => match x with Some k => show k | None => "None" end) fuel r = Ok (shown show (map fst e)).
Proof.
  cbv zeta. intros fuel Lf. destruct (rel_run os) as [l H]. pose proof H as [R F]. pose proof (rel_len H) as Le. pose proof (rel_items H) as It.
  assert (T : lru_tolist fuel (run keqb os) 0 = Ok (map (fun x => Some (fst x)) (sruns keqb os))) by (rewrite <- It; apply (rep_tolist R); lia).
  split; [exact T|]. split; [|split; [now apply size_ok with l|split]].
  - rewrite (rep_pop R). destruct F as [|n x l e [A _] F]; auto.
  - intros k. unfold is_in. rewrite T. cbn [bind]. f_equal. clear. induction (sruns keqb os) as [|x e IH]; cbn; auto. now rewrite IH.
  - unfold text_of. rewrite (@backwards_ok _ l 0 fuel (r_nodup R) (r_chain R)) by lia. rewrite T. cbn [bind]. f_equal. unfold shown.
    rewrite !join_between, map_rev, It, map_rev, !map_map. reflexivity.
Qed.
(** clean histories *)
Definition fine (e : occurrences K) := NoDup (map fst e) /\ forall x, In x e -> snd x = true.
Lemma fine_drop k e : fine e -> fine (drop keqb k e) /\ ~ In k (map fst (drop keqb k e)).
Proof.
  intros [N T]. unfold drop. split; [split|].
  - induction e as [|x e IH]; cbn [filter]; auto. cbn [map] in N. rewrite NoDup_cons_iff in N. destruct N as [Nx N].
    assert (IH' := IH N (fun y I => T y (or_intror I))). destruct (negb _); auto. cbn [map]. constructor; auto.
    intros I. apply Nx. apply in_map_iff in I as (y & E & I). apply filter_In in I as [I _]. apply in_map_iff. eauto.
  - intros x I. apply filter_In in I as [I _]. auto.
  - intros I. apply in_map_iff in I as ([x b] & E & I). cbn in E; subst. apply filter_In in I as [I Q]. rewrite (T _ I) in Q. cbn in Q. rewrite refl in Q. discriminate.
Qed.
Lemma fine_snoc k e : fine e -> ~ In k (map fst e) -> fine (e ++ [(k, true)]).
Proof.
  intros [N T] I. split.
  - rewrite map_app. cbn. now apply nodup_snoc.
  - intros x J. apply in_app_or in J as [J|[<-|[]]]; auto.
Qed.
Lemma forget_absent k (e : occurrences K) : ~ In k (map fst e) -> forget keqb k e = e.
Proof.
  intros I. unfold forget. induction e as [|[x b] e IH]; auto. cbn [map fst snd In] in *. rewrite IH by tauto. rewrite neq by (intros ->; tauto). cbn. now rewrite andb_true_r.
Qed.
Lemma fine_run os : adds_new keqb os -> fine (sruns keqb os).
Proof.
  induction os as [|o os IH] using rev_ind; intros A; [split; [constructor|intros x []]|].
  assert (A' : adds_new keqb os). { intros a k b E. apply (A a k (b ++ [o])). rewrite E, <- app_assoc. reflexivity. }
  specialize (IH A'). unfold sruns in *. rewrite fold_left_app. cbn [fold_left]. destruct o as [k|k|k|]; cbn [sstep].
  - assert (N : ~ In k (map fst (fold_left (sstep keqb) os []))) by (apply (A os k []); reflexivity).
    rewrite forget_absent by auto. now apply fine_snoc.
  - destruct (fine_drop k IH). now apply fine_snoc.
  - now apply fine_drop.
  - split; [constructor|intros x []].
Qed.
Lemma filter_all (e : occurrences K) : (forall x, In x e -> snd x = true) -> filter snd e = e.
Proof. induction e as [|x e IH]; intros T; auto. cbn [filter]. rewrite (T x) by (now left). f_equal. apply IH. intros; apply T; now right. Qed.
Lemma stock_clean os : adds_new keqb os -> let r := run keqb os in exists ks, NoDup ks /\ size r = length ks /\
  (forall fuel, length ks < fuel -> lru_tolist fuel r 0 = Ok (map Some ks)) /\ ks = map fst (sruns keqb os).
Proof.
  intros A r. destruct (fine_run A) as [N T]. exists (map fst (sruns keqb os)). split; auto. unfold r. destruct (rel_run os) as [l H].
  rewrite (size_ok H), (filter_all _ T), map_length. split; auto. split; auto.
  intros fuel L. pose proof (rel_len H). rewrite (rep_tolist (proj1 H)) by lia. rewrite (rel_items H), map_map. reflexivity.
Qed.
(** an occurrence that was superseded stays *)
Lemma ghost_step (e : occurrences K) o k : In (k, false) e -> o <> SClear -> In (k, false) (sstep keqb e o).
Proof.
  intros I N. destruct o as [x|x|x|]; cbn [sstep]; try contradiction.
  - apply in_or_app. left. unfold forget. apply in_map_iff. exists (k, false). auto.
  - apply in_or_app. left. unfold drop. apply filter_In. auto.
  - unfold drop. apply filter_In. auto.
Qed.
Lemma ghosts os1 k os2 : In (k, true) (sruns keqb os1) -> ~ In SClear os2 ->
  forall fuel, length (sruns keqb (os1 ++ SAdd k :: os2)) < fuel -> is_in keqb fuel (run keqb (os1 ++ SAdd k :: os2)) k = Ok true.
Proof.
  intros I N fuel L. destruct (stock_exact (os1 ++ SAdd k :: os2) (fun _ => "") L) as (_ & _ & _ & -> & _). f_equal. apply existsb_exists.
  exists (k, false). split; [|cbn; apply refl]. clear L. unfold sruns in *. rewrite fold_left_app. cbn [fold_left].
  assert (I' : In (k, false) (sstep keqb (fold_left (sstep keqb) os1 []) (SAdd k))).
  { cbn [sstep]. apply in_or_app. left. unfold forget. apply in_map_iff. exists (k, true). cbn. rewrite refl. auto. }
  revert I'. generalize (sstep keqb (fold_left (sstep keqb) os1 []) (SAdd k)). clear I.
  induction os2 as [|o os2 IH]; intros e I'; cbn [fold_left]; auto. apply IH; [intros Q; apply N; now right|]. apply ghost_step; auto. intros ->. apply N. now left.
Qed.
(** loops *)
Lemma first_of (r : lru) l a b : chain (nx r) (pv r) a l b -> nx r a = hd b l.
Proof. destruct l; cbn; tauto. Qed.
Lemma drain l : forall r e at_, rel r l e -> (forall x, In x e -> snd x = true) -> nx r at_ = hd 0 l ->
  forall fuel, length l < fuel -> exists r', for_each (discard keqb) fuel r at_ = Ok (r', map fst e) /\ rel r' [] [].
Proof.
  induction l as [|n l IH]; intros r e at_ H T Hd fuel Lf; (destruct fuel as [|fuel]; [cbn in Lf; lia|]); cbn [for_each]; rewrite Hd; cbn [hd].
  - exists r. split; auto. destruct H as [R F]. inversion F; subst. reflexivity. destruct H as [R F]. inversion F; subst. split; auto.
  - pose proof H as [R F]. pose proof (r_nodup R) as N. rewrite !NoDup_cons_iff in N. cbn [In] in N. destruct (Nat.eqb_spec n 0) as [->|Nz]; [tauto|].
    destruct e as [|[k b] e]; [inversion F|]. assert (b = true) by (apply (T (k, b)); now left). subst b.
    destruct (@rel_discard_at r [] n l [] k e H eq_refl) as (H1 & _ & D & It). rewrite It. cbn [app] in H1.
    assert (Hd' : nx (discard keqb r k) n = hd 0 l).
    { pose proof (r_chain R) as C. cbn [chain] in C. destruct C as [[_ P] C]. unfold discard. rewrite D. cbn [nx]. rewrite P, upd_other by auto. now apply first_of in C. }
    destruct (IH _ _ _ H1 (fun x I => T x (or_intror I)) Hd' fuel) as (r' & E & Hr); [cbn in Lf; lia|]. rewrite E. cbn [bind fst snd map]. eauto.
Qed.
Lemma stock_drain os : adds_new keqb os -> forall fuel, length (sruns keqb os) < fuel ->
  exists r', for_each (discard keqb) fuel (run keqb os) 0 = Ok (r', map fst (sruns keqb os)) /\ size r' = 0 /\ forall f, lru_tolist (S f) r' 0 = Ok [].
Proof.
  intros A fuel L. destruct (rel_run os) as [l H]. destruct (fine_run A) as [_ T].
  destruct (@drain l _ _ 0 H T) with (fuel := fuel) as (r' & E & H').
  - apply (first_of _ _ _ _ (r_chain (proj1 H))).
  - rewrite (rel_len H). auto.
  - exists r'. split; auto. split; [now rewrite (size_ok H')|]. intros f. rewrite (rep_tolist (proj1 H')) by (cbn; lia). reflexivity.
Qed.
Lemma next_after r l n k e : rel r (n :: l) ((k, true) :: e) -> nx (lru_update keqb r k) n = hd 0 l /\ (l <> [] -> nx (lru_update keqb r k) 0 = hd 0 l) /\ nx r n = hd 0 l.
Proof.
  intros H. pose proof H as [R F]. destruct (@rel_discard_at r [] n l [] k e H eq_refl) as (H1 & _ & D & It). cbn [app] in H1.
  pose proof (r_nodup R) as N. rewrite !NoDup_cons_iff in N. cbn [In] in N. pose proof (r_chain R) as C. cbn [chain] in C. destruct C as [[_ P] C].
  assert (Hn : nx (discard keqb r k) n = hd 0 l). { unfold discard. rewrite D. cbn [nx]. rewrite P, upd_other by tauto. now apply first_of in C. }
  pose proof (chain_last _ _ _ _ _ (r_chain (proj1 H1))) as La.
  assert (Fr : n < fresh (discard keqb r k)). { unfold discard. rewrite D. cbn [fresh]. apply (r_fresh R). right; now left. }
  split; [|split; [|now apply first_of in C]].
  - unfold lru_update, add. cbn [nx]. rewrite upd_same, La. rewrite upd_other; [rewrite upd_other; auto; lia|].
    intros Q. destruct l as [|y l _] using rev_ind; [cbn in Q; tauto|]. rewrite last_last in Q. subst y. rewrite !in_app_iff in N. cbn in N. tauto.
  - intros Nl. unfold lru_update. destruct (rep_add keq k (proj1 H1)) as (R2 & _). pose proof (first_of _ _ _ _ (r_chain R2)) as Q. rewrite Q. destruct l; [contradiction|reflexivity].
Qed.
Lemma endless l : forall r n k e at_ fuel, rel r (n :: l) ((k, true) :: e) -> l <> [] -> fine ((k, true) :: e) -> nx r at_ = n ->
  for_each (lru_update keqb) fuel r at_ = Err OutOfFuel.
Proof.
  intros r n k e at_ fuel. revert l r n k e at_. induction fuel as [|fuel IH]; intros l r n k e at_ H Nl Fi Hd; auto. cbn [for_each]. rewrite Hd.
  pose proof H as [R F]. pose proof (r_nodup R) as N. rewrite !NoDup_cons_iff in N. cbn [In] in N. destruct (Nat.eqb_spec n 0) as [->|Nz]; [tauto|].
  destruct (@rel_discard_at r [] n l [] k e H eq_refl) as (H1 & _ & D & It). rewrite It. cbn [app] in H1.
  destruct (next_after H) as (Hn & _). pose proof (rel_add k H1) as H2. destruct Fi as [Fn Ft]. cbn [map fst] in Fn. rewrite NoDup_cons_iff in Fn. destruct Fn as [Fk Fn].
  rewrite forget_absent in H2 by auto. destruct l as [|n' l]; [contradiction|]. destruct e as [|[k' b] e]; [destruct H as [_ F']; inversion F' as [|? ? ? ? _ F2]; inversion F2|].
  assert (b = true) by (apply (Ft (k', b)); right; now left). subst b. cbn [app] in H2. cbn [hd] in Hn.
  assert (Q : for_each (lru_update keqb) fuel (lru_update keqb r k) n = Err OutOfFuel).
  { eapply IH; [exact H2| | |exact Hn].
    - destruct l; discriminate.
    - change ((k', true) :: e ++ [(k, true)]) with (((k', true) :: e) ++ [(k, true)]). apply fine_snoc; auto. split; auto. intros x I. apply Ft. now right. }
  rewrite Q. reflexivity.
Qed.
Lemma stock_endless os : adds_new keqb os -> 2 <= length (sruns keqb os) -> forall fuel, for_each (lru_update keqb) fuel (run keqb os) 0 = Err OutOfFuel.
Proof.
  intros A L fuel. destruct (rel_run os) as [l H]. pose proof (rel_len H) as Le. destruct (fine_run A) as [N T].
  destruct (sruns keqb os) as [|[k b] e] eqn:E; [cbn in L; lia|]. assert (b = true) by (apply (T (k, b)); now left). subst b.
  destruct l as [|n l]; [discriminate|]. eapply endless; [exact H| |split; auto|].
  - intros ->. cbn in *. lia.
  - apply (first_of _ _ _ _ (r_chain (proj1 H))).
Qed.
Lemma stock_single os k : adds_new keqb os -> map fst (sruns keqb os) = [k] -> forall fuel, 2 <= fuel -> exists r', for_each (lru_update keqb) fuel (run keqb os) 0 = Ok (r', [k]).
Proof.
  intros A E fuel L. destruct (rel_run os) as [l H]. pose proof (rel_len H) as Le. destruct (fine_run A) as [N T].
  destruct (sruns keqb os) as [|[k0 b] [|]]; try discriminate. injection E as ->. assert (b = true) by (apply (T (k, b)); now left). subst b.
  destruct l as [|n [|]]; try discriminate. destruct fuel as [|[|fuel]]; [lia|lia|]. cbn [for_each].
  pose proof H as [R _]. pose proof (first_of _ _ _ _ (r_chain R)) as Hd. cbn [hd] in Hd. rewrite Hd.
  pose proof (r_nodup R) as N'. rewrite !NoDup_cons_iff in N'. cbn [In] in N'. destruct (Nat.eqb_spec n 0) as [->|Nz]; [tauto|].
  destruct (@rel_discard_at _ [] n [] [] k [] H eq_refl) as (_ & _ & _ & It). rewrite It. destruct (next_after H) as (-> & _). cbn. eauto.
Qed.
End S.
