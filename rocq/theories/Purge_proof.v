From Coq Require Import Permutation.
From Verif Require Import Py PyLemmas Purge_spec Purge_model.
Set Implicit Arguments.
Section P.
Variable Path : Type.
Variable path_eqb : Path -> Path -> bool.
Hypothesis peq : forall x y, path_eqb x y = true <-> x = y.
Variable path : nat -> Path.
Variable inode : Path -> option nat.
Variable order : list nat -> list nat.
Hypothesis Horder : forall l, Permutation l (order l).
Notation same := (same path_eqb path inode).
Notation undecidable := (undecidable path_eqb path inode).
Notation first_same := (first_same path_eqb path inode).
Notation bank_eq := (bank_eq path_eqb path inode).
Notation search := (search path_eqb path inode).
Notation remap := (remap path_eqb path inode order).
Notation purge_loop := (purge_loop path_eqb path inode order).

Lemma same_iff b c : same b c = true <-> path b = path c \/ exists i, inode (path b) = Some i /\ inode (path c) = Some i.
Proof.
  unfold Purge_spec.same. rewrite orb_true_iff, peq.
  destruct (inode (path b)) as [i|], (inode (path c)) as [j|]; rewrite ?Nat.eqb_eq;
    split; intros [H|H]; auto; try discriminate; try (destruct H as (k & H1 & H2)); try discriminate.
  - right. exists i. subst; auto.
  - injection H1 as ->. injection H2 as ->. auto.
Qed.
Lemma same_refl b : same b b = true.
Proof. apply same_iff; auto. Qed.
Lemma same_sym b c : same b c = true -> same c b = true.
Proof. rewrite !same_iff. intros [H|(i & H1 & H2)]; eauto. Qed.
Lemma same_trans {a b c} : same a b = true -> same b c = true -> same a c = true.
Proof.
  rewrite !same_iff. intros [H|(i & H1 & H2)] [K|(j & K1 & K2)].
  - left; congruence.
  - right. exists j. split; congruence.
  - right. exists i. split; congruence.
  - right. exists i. split; congruence.
Qed.
Lemma same_ext a b x : same a b = true -> same a x = same b x.
Proof.
  intros H. apply eq_true_iff_eq. split; intros K; [eapply same_trans; [apply same_sym|]; eauto|eapply same_trans; eauto].
Qed.
Lemma undec_iff b c : undecidable b c = true <-> path b <> path c /\ (inode (path b) = None \/ inode (path c) = None).
Proof.
  unfold Purge_spec.undecidable. rewrite andb_true_iff, negb_true_iff.
  assert (path_eqb (path b) (path c) = false <-> path b <> path c) as ->.
  { rewrite <- (peq (path b) (path c)). destruct (path_eqb (path b) (path c)); intuition congruence. }
  destruct (inode (path b)), (inode (path c)); intuition discriminate.
Qed.
Lemma undec_same {a b} c : same a b = true -> undecidable a c = true -> undecidable b c = true.
Proof.
  rewrite same_iff, !undec_iff. intros [H|(i & H1 & H2)] [K1 K2]; [rewrite <- H; auto|].
  destruct K2 as [K2|K2]; [congruence|]. split; auto. intros E. rewrite E in H2. congruence.
Qed.
Lemma undec_sym a b : undecidable a b = undecidable b a.
Proof. apply eq_true_iff_eq. rewrite !undec_iff. intuition. Qed.
Lemma bank_eq_spec b c : bank_eq b c = if undecidable b c then Err OSError else Ok (same b c).
Proof.
  unfold Purge_model.bank_eq, Purge_spec.undecidable, Purge_spec.same.
  destruct (path_eqb (path b) (path c)), (inode (path b)), (inode (path c)); reflexivity.
Qed.
Lemma search_spec old l :
  match search old l with
  | Ok (Some x) => In x l /\ same old x = true
  | Ok None => forall x, In x l -> same old x = false /\ undecidable old x = false
  | Err e => e = OSError /\ exists x, In x l /\ undecidable old x = true
  end.
Proof.
  induction l as [|x l IH]; cbn [Purge_model.search]; [intros x []|]. rewrite bank_eq_spec.
  destruct (undecidable old x) eqn:E; cbn [bind].
  - split; auto. exists x. split; [left|]; auto.
  - destruct (same old x) eqn:E2; [split; [left|]; auto|].
    destruct (search old l) as [[y|]|e].
    + destruct IH. split; [right|]; auto.
    + intros y [<-|Hy]; auto.
    + destruct IH as (-> & y & Hy & H). split; auto. exists y. split; [right|]; auto.
Qed.

(** ** The table *)
Definition table_ok (o : list (nat * nat)) (seen : list nat) : Prop :=
  (forall x, dget Nat.eqb o x = if in_dec Nat.eq_dec x seen then first_same seen x else None) /\
  NoDup (dkeys o) /\
  (forall x y, In x seen -> In y seen -> undecidable x y = false).
Lemma neq : forall x y, Nat.eqb x y = true <-> x = y.
Proof. intros. apply Nat.eqb_eq. Qed.
Lemma find_app_some A (f : A -> bool) l l' x : find f l = Some x -> find f (l ++ l') = Some x.
Proof. induction l as [|y l IH]; cbn; [discriminate|]. destruct (f y); auto. Qed.
Lemma find_app_none A (f : A -> bool) l l' : find f l = None -> find f (l ++ l') = find f l'.
Proof. induction l as [|y l IH]; cbn; auto. destruct (f y); [discriminate|auto]. Qed.
Lemma first_same_in seen x : In x seen -> exists n, first_same seen x = Some n /\ In n seen /\ same x n = true.
Proof.
  intros H. unfold Purge_spec.first_same. destruct (find (same x) seen) as [n|] eqn:E.
  - apply find_some in E as [E1 E2]. eauto.
  - apply find_none with (x := x) in E; auto. rewrite same_refl in E. discriminate.
Qed.
Lemma find_ext A (f g : A -> bool) l : (forall x, f x = g x) -> find f l = find g l.
Proof. intros H. induction l as [|y l IH]; cbn; auto. rewrite H, IH. auto. Qed.
Lemma first_same_ext seen {x y} : same x y = true -> first_same seen x = first_same seen y.
Proof. intros H. apply find_ext. intros z. now apply same_ext. Qed.
Lemma values_spec o seen n : table_ok o seen -> In n (map snd o) -> In n seen /\ first_same seen n = Some n.
Proof.
  intros (T1 & T2 & _) H. apply in_map_iff in H as ([k v] & <- & H). cbn [snd].
  apply (in_dget Nat.eqb neq _ _ _ T2) in H. rewrite T1 in H.
  destruct (in_dec Nat.eq_dec k seen) as [Hk|]; [|discriminate].
  destruct (first_same_in _ _ Hk) as (m & E & Hm & Hs). rewrite E in H. injection H as <-. split; auto.
  rewrite <- E. symmetry. now apply first_same_ext.
Qed.
Lemma value_of o seen x : table_ok o seen -> In x seen -> exists n, dget Nat.eqb o x = Some n /\ first_same seen x = Some n /\ In n (map snd o) /\ same x n = true.
Proof.
  intros (T1 & T2 & T3) H. destruct (first_same_in _ _ H) as (n & E & Hn & Hs). exists n.
  assert (dget Nat.eqb o x = Some n) as D by (rewrite T1; destruct (in_dec Nat.eq_dec x seen); [auto|contradiction]).
  repeat split; auto. apply (dget_in Nat.eqb neq) in D. apply in_map_iff. now exists (x, n).
Qed.
Lemma remap_spec o seen b : table_ok o seen ->
  match remap o b with
  | Ok (o', n, fresh) => table_ok o' (seen ++ [b]) /\ first_same (seen ++ [b]) b = Some n /\
       (fresh = true <-> first_same seen b = None) /\ (fresh = true -> n = b) /\
       (forall c, In c seen -> undecidable b c = false)
  | Err e => e = OSError /\ exists c, In c seen /\ undecidable b c = true
  end.
Proof.
  intros T. destruct T as (T1 & T2 & T3) eqn:ET. clear ET. pose proof (conj T1 (conj T2 T3)) as T'. fold (table_ok o seen) in T'.
  unfold Purge_model.remap. destruct (dget Nat.eqb o b) as [n|] eqn:ED.
  - (* known object *)
    pose proof ED as ED'. rewrite T1 in ED'. destruct (in_dec Nat.eq_dec b seen) as [Hb|]; [|discriminate].
    split; [|split; [|split; [|split]]].
    + split; [|split; auto].
      * intros x. rewrite T1. destruct (in_dec Nat.eq_dec x seen) as [Hx|Hx], (in_dec Nat.eq_dec x (seen ++ [b])) as [Hx'|Hx']; auto.
        -- destruct (first_same_in _ _ Hx) as (m & E & _). rewrite E. symmetry. now apply find_app_some.
        -- exfalso. apply Hx', in_or_app; auto.
        -- exfalso. apply in_app_or in Hx' as [Hx'|[<-|[]]]; auto.
      * intros x y Hx Hy. apply in_app_or in Hx as [Hx|[<-|[]]], Hy as [Hy|[<-|[]]]; auto.
    + now apply find_app_some.
    + split; [discriminate|]. intros E. rewrite E in ED'. discriminate.
    + discriminate.
    + intros c Hc. auto.
  - assert (~ In b seen) as Hb.
    { intros H. destruct (value_of b T' H) as (n & E & _). congruence. }
    pose proof (search_spec b (order (map snd o))) as HS.
    assert (forall x, In x (order (map snd o)) <-> In x (map snd o)) as HO.
    { intros x. split; apply Permutation_in; [apply Permutation_sym|]; apply Horder. }
    assert (forall c, In c seen -> exists n, In n (map snd o) /\ same c n = true /\ first_same seen c = Some n) as Hrep.
    { intros c Hc. destruct (value_of c T' Hc) as (n & _ & E & Hn & Hs). eauto. }
    destruct (search b (order (map snd o))) as [[n|]|e]; cbn [bind].
    + destruct HS as [Hn Hs]. apply HO in Hn. destruct (values_spec n T' Hn) as [Hn1 Hn2].
      assert (first_same seen b = Some n) as Efs by (rewrite (first_same_ext _ Hs); auto).
      assert (forall c, In c seen -> undecidable b c = false) as Hdec.
      { intros c Hc. destruct (undecidable b c) eqn:E; auto. rewrite <- (T3 n c Hn1 Hc). symmetry. exact (undec_same c Hs E). }
      split; [|split; [|split; [|split]]]; auto.
      * split; [|split].
        -- intros x. destruct (Nat.eq_dec b x) as [<-|Hne].
           ++ rewrite (dget_dset_same Nat.eqb neq). destruct (in_dec Nat.eq_dec b (seen ++ [b])) as [_|H];
                [symmetry; now apply find_app_some|exfalso; apply H, in_or_app; right; left; auto].
           ++ rewrite (dget_dset_other Nat.eqb neq), T1 by auto.
              destruct (in_dec Nat.eq_dec x seen) as [Hx|Hx], (in_dec Nat.eq_dec x (seen ++ [b])) as [Hx'|Hx']; auto.
              ** destruct (first_same_in _ _ Hx) as (m & E & _). rewrite E. symmetry. now apply find_app_some.
              ** exfalso. apply Hx', in_or_app; auto.
              ** exfalso. apply in_app_or in Hx' as [Hx'|[<-|[]]]; auto.
        -- now apply (nodup_dset Nat.eqb neq).
        -- intros x y Hx Hy. apply in_app_or in Hx as [Hx|[<-|[]]], Hy as [Hy|[<-|[]]]; auto.
           ++ rewrite undec_sym. auto.
           ++ destruct (undecidable b b) eqn:E; auto. apply undec_iff in E. tauto.
      * now apply find_app_some.
      * rewrite Efs. split; discriminate.
      * discriminate.
    + assert (first_same seen b = None) as Efs.
      { destruct (first_same seen b) as [m|] eqn:E; auto. apply find_some in E as [E1 E2].
        destruct (Hrep m E1) as (n & Hn & Hs & _). destruct (HS n) as [H _]; [now apply HO|].
        rewrite (same_trans E2 Hs) in H. discriminate. }
      assert (forall c, In c seen -> undecidable b c = false) as Hdec.
      { intros c Hc. destruct (undecidable b c) eqn:E; auto. destruct (Hrep c Hc) as (n & Hn & Hs & _).
        destruct (HS n) as [_ H]; [now apply HO|]. rewrite undec_sym in E. apply (undec_same b Hs) in E.
        rewrite undec_sym in E. congruence. }
      split; [|split; [|split; [|split]]]; auto.
      * split; [|split].
        -- intros x. destruct (Nat.eq_dec b x) as [<-|Hne].
           ++ rewrite (dget_dset_same Nat.eqb neq). destruct (in_dec Nat.eq_dec b (seen ++ [b])) as [_|H];
                [|exfalso; apply H, in_or_app; right; left; auto].
              unfold Purge_spec.first_same in *. rewrite find_app_none by auto. cbn. now rewrite same_refl.
           ++ rewrite (dget_dset_other Nat.eqb neq), T1 by auto.
              destruct (in_dec Nat.eq_dec x seen) as [Hx|Hx], (in_dec Nat.eq_dec x (seen ++ [b])) as [Hx'|Hx']; auto.
              ** destruct (first_same_in _ _ Hx) as (m & E & _). rewrite E. symmetry. now apply find_app_some.
              ** exfalso. apply Hx', in_or_app; auto.
              ** exfalso. apply in_app_or in Hx' as [Hx'|[<-|[]]]; auto.
        -- now apply (nodup_dset Nat.eqb neq).
        -- intros x y Hx Hy. apply in_app_or in Hx as [Hx|[<-|[]]], Hy as [Hy|[<-|[]]]; auto.
           ++ rewrite undec_sym. auto.
           ++ destruct (undecidable b b) eqn:E; auto. apply undec_iff in E. tauto.
      * unfold Purge_spec.first_same in *. rewrite find_app_none by auto. cbn. now rewrite same_refl.
      * tauto.
    + destruct HS as (-> & x & Hx & E). split; auto. apply HO in Hx. destruct (values_spec x T' Hx) as [H _]. eauto.
Qed.

(** ** The loop *)
Lemma first_same_dup seen b x : In b seen -> first_same (seen ++ [b]) x = first_same seen x.
Proof.
  intros H. unfold Purge_spec.first_same. destruct (find (same x) seen) as [n|] eqn:E; [now apply find_app_some|].
  rewrite find_app_none by auto. cbn. now rewrite (find_none _ _ E b H).
Qed.
Lemma table_dup o seen b : table_ok o seen -> In b seen -> table_ok o (seen ++ [b]).
Proof.
  intros (T1 & T2 & T3) H. split; [|split; auto].
  - intros x. rewrite T1, first_same_dup by auto.
    destruct (in_dec Nat.eq_dec x seen) as [Hx|Hx], (in_dec Nat.eq_dec x (seen ++ [b])) as [Hx'|Hx']; auto.
    + exfalso. apply Hx', in_or_app; auto.
    + exfalso. apply in_app_or in Hx' as [Hx'|[<-|[]]]; auto.
  - intros x y Hx Hy. apply in_app_or in Hx as [Hx|[<-|[]]], Hy as [Hy|[<-|[]]]; auto.
Qed.
Lemma first_same_idem seen x a : first_same seen x = Some a -> In a seen /\ same x a = true /\ first_same seen a = Some a.
Proof.
  intros H. pose proof H as H'. apply find_some in H as [H1 H2]. split; [|split]; auto.
  rewrite <- (first_same_ext seen H2). auto.
Qed.
Definition inv (H0 h : heap) (dn : list nat) : Prop :=
  (forall p, In p dn -> first_same (in_use H0 dn) (fst (H0 p)) = Some (fst (h p)) /\
                        first_same (in_use H0 dn) (snd (H0 p)) = Some (snd (h p))) /\
  (forall p, ~ In p dn -> h p = H0 p).
Lemma in_use_app H ps qs : in_use H (ps ++ qs) = in_use H ps ++ in_use H qs.
Proof. apply flat_map_app. Qed.
Lemma in_use_in H ps p : In p ps -> In (fst (H p)) (in_use H ps) /\ In (snd (H p)) (in_use H ps).
Proof. intros Hp. split; apply in_flat_map; exists p; split; auto; [left|right; left]; auto. Qed.
Lemma inv_ext H0 h h' dn : (forall p, h p = h' p) -> inv H0 h dn -> inv H0 h' dn.
Proof. intros E [I1 I2]. split; intros p Hp; rewrite <- E; auto. Qed.
Lemma purge_loop_spec H0 : forall ps dn h o,
  table_ok o (in_use H0 dn) -> inv H0 h dn ->
  match purge_loop h o ps with
  | (h', None) => inv H0 h' (dn ++ ps) /\ (forall x y, In x (in_use H0 (dn ++ ps)) -> In y (in_use H0 (dn ++ ps)) -> undecidable x y = false)
  | (h', Some e) => e = OSError /\ (exists x y, In x (in_use H0 (dn ++ ps)) /\ In y (in_use H0 (dn ++ ps)) /\ undecidable x y = true) /\
                    exists k, inv H0 h' (dn ++ firstn k ps)
  end.
Proof.
  induction ps as [|p ps IH]; intros dn h o T I; cbn [Purge_model.purge_loop].
  { rewrite app_nil_r. split; auto. apply T. }
  assert (forall h1 o1, table_ok o1 (in_use H0 (dn ++ [p])) -> inv H0 h1 (dn ++ [p]) ->
    match purge_loop h1 o1 ps with
    | (h', None) => inv H0 h' (dn ++ p :: ps) /\ (forall x y, In x (in_use H0 (dn ++ p :: ps)) -> In y (in_use H0 (dn ++ p :: ps)) -> undecidable x y = false)
    | (h', Some e) => e = OSError /\ (exists x y, In x (in_use H0 (dn ++ p :: ps)) /\ In y (in_use H0 (dn ++ p :: ps)) /\ undecidable x y = true) /\
                    exists k, inv H0 h' (dn ++ firstn k (p :: ps))
    end) as IHp.
  { intros h1 o1 T1 I1. specialize (IH (dn ++ [p]) h1 o1 T1 I1). rewrite <- app_assoc in IH. cbn [app] in IH.
    destruct (purge_loop h1 o1 ps) as [h' [e|]]; auto. destruct IH as (E & X & k & K). split; [|split]; auto.
    exists (S k). rewrite <- app_assoc in K. exact K. }
  clear IH. destruct I as [I1 I2].
  assert (in_use H0 (dn ++ [p]) = (in_use H0 dn ++ [fst (H0 p)]) ++ [snd (H0 p)]) as EU
    by (rewrite in_use_app, <- app_assoc; reflexivity).
  destruct (in_dec Nat.eq_dec p dn) as [Hp|Hp].
  - destruct (I1 p Hp) as [A B]. destruct (in_use_in H0 dn p Hp) as [Ia Ib].
    destruct (first_same_idem _ _ A) as (A1 & _ & A3). destruct (first_same_idem _ _ B) as (B1 & _ & B3).
    assert (forall a, In a (in_use H0 dn) -> first_same (in_use H0 dn) a = Some a -> remap o a = Ok (o, a, false)) as R.
    { intros a Ha Ea. unfold Purge_model.remap. destruct T as (T1 & _). rewrite T1.
      destruct (in_dec Nat.eq_dec a (in_use H0 dn)); [|contradiction]. now rewrite Ea. }
    rewrite (R _ A1 A3). cbn [bind fst snd]. rewrite (R _ B1 B3). cbn [bind fst snd].
    assert (forall x, first_same (in_use H0 (dn ++ [p])) x = first_same (in_use H0 dn) x) as EF.
    { intros x. rewrite EU, !first_same_dup; auto. apply in_or_app; auto. }
    apply IHp.
    + rewrite EU. apply table_dup; [apply table_dup|]; auto. apply in_or_app; auto.
    + apply inv_ext with (h := h).
      * intros q. unfold upd. destruct (q =? p) eqn:E; auto. apply Nat.eqb_eq in E as ->. destruct (h p); reflexivity.
      * split.
        -- intros q Hq. rewrite !EF. apply I1. apply in_app_or in Hq as [Hq|[<-|[]]]; auto.
        -- intros q Hq. apply I2. intros K. apply Hq, in_or_app; auto.
  - rewrite (I2 p Hp). pose proof (remap_spec (fst (H0 p)) T) as R1.
    assert (forall q, In q (in_use H0 dn) \/ q = fst (H0 p) \/ q = snd (H0 p) -> In q (in_use H0 (dn ++ p :: ps))) as Hin.
    { intros q Hq. rewrite in_use_app. apply in_or_app. destruct Hq as [Hq|[->| ->]]; auto; right; [left|right; left]; auto. }
    destruct (remap o (fst (H0 p))) as [[[o1 a] fr1]|e]; cbn [bind fst snd].
    2:{ destruct R1 as (-> & c & Hc & Ec). split; [|split]; auto.
        - exists (fst (H0 p)), c. split; [|split]; auto; apply Hin; auto.
        - exists 0. cbn. rewrite app_nil_r. split; auto. }
    destruct R1 as (T1 & F1 & _ & _ & D1). pose proof (remap_spec (snd (H0 p)) T1) as R2.
    destruct (remap o1 (snd (H0 p))) as [[[o2 b] fr2]|e]; cbn [bind fst snd].
    2:{ destruct R2 as (-> & c & Hc & Ec). split; [|split]; auto.
        - exists (snd (H0 p)), c. split; [|split]; auto; apply Hin; auto.
          apply in_app_or in Hc as [Hc|[<-|[]]]; auto.
        - exists 0. cbn. rewrite app_nil_r. split; auto. }
    destruct R2 as (T2 & F2 & _ & _ & D2). apply IHp; [now rewrite EU|]. split.
    + intros q Hq. rewrite EU. unfold upd. destruct (q =? p) eqn:E.
      * apply Nat.eqb_eq in E as ->. cbn [fst snd]. split; auto. now apply find_app_some.
      * apply Nat.eqb_neq in E. apply in_app_or in Hq as [Hq|[<-|[]]]; [|congruence]. destruct (I1 q Hq).
        split; (apply find_app_some, find_app_some; auto).
    + intros q Hq. unfold upd. destruct (q =? p) eqn:E.
      * apply Nat.eqb_eq in E as ->. exfalso. apply Hq, in_or_app. right; left; auto.
      * apply I2. intros K. apply Hq, in_or_app; auto.
Qed.
Lemma table_init : table_ok [] [].
Proof. split; [|split]; [intros x; reflexivity|constructor|intros x y []]. Qed.
Lemma purge_all H0 ps :
  match purge_loop H0 [] ps with
  | (h', None) => inv H0 h' ps /\ (forall x y, In x (in_use H0 ps) -> In y (in_use H0 ps) -> undecidable x y = false)
  | (h', Some e) => e = OSError /\ (exists x y, In x (in_use H0 ps) /\ In y (in_use H0 ps) /\ undecidable x y = true) /\
                    exists k, inv H0 h' (firstn k ps)
  end.
Proof. apply (@purge_loop_spec H0 ps [] H0 []); [apply table_init|]. split; [intros p []|auto]. Qed.
Lemma inv_same H0 h dn p : inv H0 h dn -> same (fst (H0 p)) (fst (h p)) = true /\ same (snd (H0 p)) (snd (h p)) = true.
Proof.
  intros [I1 I2]. destruct (in_dec Nat.eq_dec p dn) as [H|H].
  - destruct (I1 p H) as [A B]. split; [apply find_some in A|apply find_some in B]; tauto.
  - rewrite (I2 p H), !same_refl. auto.
Qed.
End P.
