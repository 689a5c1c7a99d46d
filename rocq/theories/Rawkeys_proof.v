From Coq Require Import List ZArith Bool Lia Permutation.
Import ListNotations.
From Verif Require Import Py PyLemmas Cache_spec Cache_model Cache_proof1 Cache_proof2 Cache_proof3 Rawkeys_spec Rawkeys_model.
Set Implicit Arguments.
Section S.
Variables R K V : Type.
Variable keqb : K -> K -> bool.
Hypothesis keq : forall x y, keqb x y = true <-> x = y.
Variable none_key : K.
Variable str : R -> K.
Variable looks : R -> look.
Notation cache := (cache K V). Notation rcall := (rcall R K V). Notation rcache := (rcache R K V).
Notation dg := (dget keqb). Notation sub := (sub keqb).
Definition latest (cs : list rcall) (k : K) (v : V) (t : Z) : Prop :=
  exists cs1 c cs2, cs = cs1 ++ c :: cs2 /\ stores str looks c k v t /\ forall c', In c' cs2 -> ~ discards str looks c' k.
Lemma has_get (d : list (K * (V * Z))) k : dhas keqb d k = true <-> exists x, dg d k = Some x.
Proof. unfold dhas. destruct (dg d k) as [x|]; split; intros H; eauto; try discriminate. destruct H as [x H]; discriminate. Qed.
Lemma latest_snoc cs k v t c : latest cs k v t -> ~ discards str looks c k -> latest (cs ++ [c]) k v t.
Proof.
  intros (a & x & b & -> & H1 & H2) H. exists a, x, (b ++ [c]). split; [now rewrite <- app_assoc|]. split; auto.
  intros c' I. apply in_app_or in I as [I|[<-|[]]]; auto.
Qed.
Lemma latest_new cs k v t c : stores str looks c k v t -> latest (cs ++ [c]) k v t.
Proof. intros H. exists cs, c, []. split; [reflexivity|]. split; [exact H|]. intros c' []. Qed.
Record good (cs : list rcall) (s : rcache) : Prop := {
  g_dict : dict (base s);
  g_with : within (base s) 0;
  g_val : forall k v t, dg (values (base s)) k = Some (v, t) -> latest cs k v t;
  g_nd : NoDup (map fst (names s));
  g_names : forall k, In k (map fst (names s)) <-> dhas keqb (values (base s)) k = true;
  g_in : forall k r, In (k, r) (names s) -> str r = k /\ looks r <> Unhashable /\ exists c, In c cs /\ key_in c = Some r }.
Lemma nodup_left (ns : list (K * R)) f : NoDup (map fst ns) -> NoDup (map fst (filter f ns)).
Proof.
  induction ns as [|[k r] ns IH]; cbn; auto. intros H. inversion H; subst. destruct (f (k, r)); cbn; auto.
  constructor; auto. intros I. apply in_map_iff in I as ([k' r'] & E & I). apply filter_In in I as [I _]. cbn in E; subst.
  apply H2. apply in_map_iff. exists (k, r'); auto.
Qed.
Lemma left_in (c : cache) (ns : list (K * R)) k : In k (map fst (left_over keqb c ns)) <-> In k (map fst ns) /\ dhas keqb (values c) k = true.
Proof.
  unfold left_over. rewrite !in_map_iff. split.
  - intros ([k' r] & E & I). apply filter_In in I as [I H]. cbn in *; subst. split; auto. exists (k, r); auto.
  - intros [([k' r] & E & I) H]. cbn in E; subst. exists (k, r); split; auto. apply filter_In; auto.
Qed.
Lemma sub_has (c c' : cache) k : sub c c' -> dhas keqb (values c') k = true -> dhas keqb (values c) k = true.
Proof. intros S. rewrite !has_get. intros [x H]. exists x. apply S; auto. Qed.
Lemma good_sub cs s c' call : good cs s -> sub (base s) c' -> within c' 0 ->
  (forall k, dhas keqb (values c') k = true -> ~ discards str looks call k) -> good (cs ++ [call]) (plain keqb s c').
Proof.
  intros G S W D. destruct G as [G1 G2 G3 G4 G5 G6]. constructor; cbn [plain base names].
  - apply S.
  - exact W.
  - intros k v t H. apply latest_snoc; [apply G3; apply S; auto|]. apply D. apply has_get; eauto.
  - now apply nodup_left.
  - intros k. rewrite left_in, G5. split; [tauto|]. intros H; split; auto. eapply sub_has; eauto.
  - intros k r I. apply filter_In in I as [I _]. destruct (G6 _ _ I) as (A & B & c & C & E). split; auto. split; auto.
    exists c; split; auto. apply in_or_app; auto.
Qed.
Lemma good_same cs s call : good cs s -> (forall k, ~ discards str looks call k) -> good (cs ++ [call]) s.
Proof.
  intros [G1 G2 G3 G4 G5 G6] D. constructor; auto.
  - intros k v t H. apply latest_snoc; auto.
  - intros k r I. destruct (G6 _ _ I) as (A & B & c & C & E). split; auto. split; auto. exists c; split; auto. apply in_or_app; auto.
Qed.
(** insert *)
Lemma good_insert fuel cs s s' r v now call : good cs s -> looks r <> Unhashable ->
  raw_insert keqb none_key str looks fuel s r v now = Ok s' ->
  stores str looks call (str r) v now -> key_in call = Some r -> (forall k, discards str looks call k -> k = str r) -> good (cs ++ [call]) s'.
Proof.
  intros [G1 G2 G3 G4 G5 G6] L E St Ky Ds. unfold raw_insert in E.
  assert (exists c1, sub (base s) c1 /\ (dhas keqb (values c1) (str r) = true /\ within c1 0 \/ within c1 1) /\
    s' = {| base := with_content c1 (dset keqb (values c1) (str r) (v, now)) (add keqb (lru_of c1) (str r));
            names := let ns := left_over keqb c1 (names s) in if dhas keqb ns (str r) then ns else ns ++ [(str r, r)] |}) as (c1 & S & W & ->).
  { destruct (has_raw keqb str looks s r) as [fd|] eqn:F; cbn [bind] in E; [|discriminate].
    destruct fd.
    - cbn [bind] in E. injection E as <-. exists (base s). split; [now apply sub_refl|]. split; auto. left. split; auto.
      unfold has_raw in F. destruct (looks r); try discriminate. congruence.
    - destruct (shrink keqb none_key fuel 1 (base s)) as [c1|] eqn:Sh; cbn [bind] in E; [|discriminate].
      injection E as <-. exists c1. apply (sub_shrink keqb keq) in Sh as [A B]; auto. }
  clear E. constructor; cbn [base names with_content values maxsize].
  - unfold dict. cbn [base with_content values]. apply nodup_dset; auto. apply S.
  - unfold within. cbn [base with_content values maxsize]. destruct (dset_len keqb (values c1) (str r) (v, now)) as [D1 D2].
    destruct W as [[Hs W]|W]; unfold within in W; destruct (maxsize c1) as [[|m]|]; auto.
    + specialize (D2 Hs). lia.
    + lia.
  - intros k v' t'. destruct (k_dec keqb keq k (str r)) as [->|Ne].
    + rewrite (dget_dset_same keqb keq). intros Q. injection Q as <- <-. now apply latest_new.
    + rewrite (dget_dset_other keqb keq) by congruence. intros Q. apply latest_snoc; [apply G3; apply S; auto|].
      intros Q'. apply Ds in Q'. congruence.
  - cbv zeta. destruct (dhas keqb (left_over keqb c1 (names s)) (str r)) eqn:H; [now apply nodup_left|].
    rewrite map_app. cbn. apply nodup_snoc; [now apply nodup_left|].
    intros I. unfold dhas in H. destruct (dget keqb (left_over keqb c1 (names s)) (str r)) eqn:Q; [discriminate|].
    apply (dget_none keqb keq) in Q. auto.
  - intros k. cbv zeta.
    assert (A : dhas keqb (dset keqb (values c1) (str r) (v, now)) k = true <-> k = str r \/ dhas keqb (values c1) k = true).
    { rewrite !has_get. destruct (k_dec keqb keq k (str r)) as [->|Ne].
      - rewrite (dget_dset_same keqb keq). split; eauto.
      - rewrite (dget_dset_other keqb keq) by congruence. split; auto. intros [Q|Q]; auto. contradiction. }
    rewrite A. assert (B : In k (map fst (left_over keqb c1 (names s))) <-> dhas keqb (values c1) k = true).
    { rewrite left_in, G5. split; [tauto|]. intros H; split; auto. eapply sub_has; eauto. }
    destruct (dhas keqb (left_over keqb c1 (names s)) (str r)) eqn:H.
    + rewrite B. split; auto. intros [->|Q]; auto. apply B. unfold dhas in H.
      destruct (dget keqb (left_over keqb c1 (names s)) (str r)) as [r'|] eqn:Q; [|discriminate].
      apply (dget_in keqb keq) in Q. apply in_map_iff. exists (str r, r'); auto.
    + rewrite map_app, in_app_iff, B. cbn. split; [intros [Q|[Q|[]]]; auto|intros [Q|Q]; auto].
  - intros k r' I. cbv zeta in I.
    assert (Old : In (k, r') (left_over keqb c1 (names s)) -> str r' = k /\ looks r' <> Unhashable /\ exists c, In c (cs ++ [call]) /\ key_in c = Some r').
    { intros J. apply filter_In in J as [J _]. destruct (G6 _ _ J) as (A & B & c & C & E). split; auto. split; auto. exists c; split; auto. apply in_or_app; auto. }
    destruct (dhas keqb (left_over keqb c1 (names s)) (str r)); [auto|].
    apply in_app_or in I as [I|[I|[]]]; auto. injection I as <- <-. split; auto. split; auto. exists call. split; auto. apply in_or_app; right; left; auto.
Qed.
Lemma no_disc_fetch r now k : ~ discards str looks (RFetch K V r now) k.
Proof. intros [Q|(r' & _ & [Q|(_ & v & t & Q)])]; discriminate. Qed.
Lemma no_disc_gen r (v : V) now now' k : ~ discards str looks (RFetchGen K r v now now') k.
Proof. intros [Q|(r' & _ & [Q|(_ & v' & t & Q)])]; discriminate. Qed.
Lemma no_disc_coll now k : ~ discards str looks (RCollect R V now) k.
Proof. intros [Q|(r' & _ & [Q|(_ & v' & t & Q)])]; discriminate. Qed.
Lemma no_disc_conf m x k : ~ discards str looks (RReconfigure R K V m x) k.
Proof. intros [Q|(r' & _ & [Q|(_ & v' & t & Q)])]; discriminate. Qed.
Lemma disc_uninsert r (v : V) t k : looks r = Unhashable -> ~ discards str looks (RInsert K r v t) k.
Proof. intros U [Q|(r' & _ & [Q|(L & v' & t' & Q)])]; try discriminate. injection Q as -> _ _. auto. Qed.
Lemma good_call fuel cs s s' call a : good cs s -> raw_call keqb none_key str looks fuel s call = Ok (s', a) -> good (cs ++ [call]) s'.
Proof.
  intros G. pose proof (g_dict G) as D. pose proof (g_with G) as W. destruct call as [r now|r v now|r| |now|m x|r v now now']; cbn [raw_call spelled do_call].
  - destruct (sub_fetch keqb keq (str r) now D) as [S _]. destruct (fetch keqb (base s) (str r) now) as [c' o]; cbn [bind fst snd] in *.
    intros E; injection E as <- <-. apply good_sub; auto; [eapply within_sub; eauto|]. intros; apply no_disc_fetch.
  - unfold try_insert. destruct (looks r) eqn:L.
    + intros E; injection E as <- <-. apply good_same; auto. intros k. now apply disc_uninsert.
    + destruct (raw_insert keqb none_key str looks fuel s r v now) as [s1|] eqn:E1; cbn [bind]; [|discriminate].
      intros E; injection E as <- <-. eapply good_insert; try exact E1; try exact G; try congruence.
      * exists r. repeat split; auto. congruence.
      * reflexivity.
      * intros k [Q|(r' & Q1 & [Q|(_ & v' & t & Q)])]; try discriminate. injection Q as -> _ _. auto.
    + destruct (raw_insert keqb none_key str looks fuel s r v now) as [s1|] eqn:E1; cbn [bind]; [|discriminate].
      intros E; injection E as <- <-. eapply good_insert; try exact E1; try exact G; try congruence.
      * exists r. repeat split; auto. congruence.
      * reflexivity.
      * intros k [Q|(r' & Q1 & [Q|(_ & v' & t & Q)])]; try discriminate. injection Q as -> _ _. auto.
  - cbn [bind fst snd]. intros E; injection E as <- <-. destruct (sub_remove keqb keq (str r) D) as [S N].
    apply good_sub; auto; [eapply within_sub; eauto|]. intros k H [Q|(r' & Q1 & [Q|(_ & v' & t & Q)])]; try discriminate.
    injection Q as ->. subst k. apply has_get in H as [y H]. congruence.
  - cbn [bind fst snd]. intros E; injection E as <- <-. apply good_sub; auto.
    + unfold clear_all. repeat split; cbn; auto; try lia; try constructor; discriminate.
    + unfold within, clear_all; cbn. destruct (maxsize (base s)) as [[|m]|]; auto; lia.
    + cbn. intros k H. discriminate.
  - unfold collect. destruct (foldM _ _ _) as [c'|] eqn:E1; cbn [bind fst snd]; [|discriminate]. intros E; injection E as <- <-.
    apply (sub_collect keqb keq) in E1; auto. apply good_sub; auto; [eapply within_sub; eauto|]. intros; apply no_disc_coll.
  - unfold reconfigure. destruct (shrink _ _ _ _ _) as [c'|] eqn:E1; cbn [bind fst snd]; [|discriminate]. intros E; injection E as <- <-.
    set (c0 := {| maxsize := m; expiry := x; default_fail := default_fail (base s); values := values (base s); lru_of := lru_of (base s) |}) in *.
    apply (sub_shrink keqb keq) in E1 as [S W1]; auto.
    destruct G as [G1 G2 G3 G4 G5 G6].
    assert (Ssub : forall k y, dg (values c') k = Some y -> dg (values (base s)) k = Some y).
    { intros k y H. destruct S as (_ & _ & _ & _ & _ & S). apply S in H. exact H. }
    constructor; cbn [plain base names]; auto.
    + apply S.
    + intros k v t H. apply latest_snoc; auto. apply no_disc_conf.
    + now apply nodup_left.
    + intros k. rewrite left_in, G5. split; [tauto|]. intros H; split; auto. apply has_get in H as [y H]. apply has_get. exists y; auto.
    + intros k r I. apply filter_In in I as [I _]. destruct (G6 _ _ I) as (A & B & c & C & E). split; auto. split; auto. exists c; split; auto. apply in_or_app; auto.
  - destruct (sub_fetch keqb keq (str r) now D) as [S _]. destruct (fetch keqb (base s) (str r) now) as [c' o]; cbn [bind fst snd] in *.
    assert (Wc : within c' 0) by (eapply within_sub; eauto).
    assert (G1 : forall call, (forall k, ~ discards str looks call k) -> good (cs ++ [call]) (plain keqb s c')) by (intros; apply good_sub; auto).
    assert (G2 : good (cs ++ [RFetchGen K r v now now']) (plain keqb s c')) by (apply G1; intros; apply no_disc_gen).
    destruct o as [w|]; [intros E; injection E as <- <-; auto|].
    destruct (default_fail c'); [intros E; injection E as <- <-; auto|].
    unfold try_insert. destruct (looks r) eqn:L; [intros E; injection E as <- <-; auto| |].
    all: destruct (raw_insert keqb none_key str looks fuel (plain keqb s c') r v now') as [s1|] eqn:E1; cbn [bind]; [|discriminate];
      intros E; injection E as <- <-.
    all: assert (G3 : good cs (plain keqb s c'))
      by (constructor; cbn [plain base names]; [apply S|exact Wc|intros k v0 t H; apply (g_val G); apply S; auto|apply nodup_left; apply G
        |intros k; rewrite left_in, (g_names G); split; [tauto|]; intros H; split; auto; eapply sub_has; eauto
        |intros k r0 I; apply filter_In in I as [I _]; apply (g_in G _ _ I)]).
    all: eapply good_insert; try exact E1; try exact G3; try congruence;
      [exists r; split; auto; split; [congruence|]; right; eauto|reflexivity|intros k Q; apply no_disc_gen in Q; contradiction].
Qed.
Lemma good_run fuel cs2 : forall cs1 s s' l, good cs1 s -> raw_run keqb none_key str looks fuel s cs2 = Ok (s', l) -> good (cs1 ++ cs2) s'.
Proof.
  induction cs2 as [|c cs2 IH]; intros cs1 s s' l G; cbn [raw_run].
  - intros E; injection E as <- _. now rewrite app_nil_r.
  - destruct (raw_call keqb none_key str looks fuel s c) as [[s1 a]|] eqn:E1; cbn [bind fst snd]; [|discriminate].
    destruct (raw_run keqb none_key str looks fuel s1 cs2) as [[s2 l2]|] eqn:E2; cbn [bind fst snd]; [|discriminate].
    intros E; injection E as <- _. replace (cs1 ++ c :: cs2) with ((cs1 ++ [c]) ++ cs2) by (rewrite <- app_assoc; reflexivity).
    eapply IH; eauto. eapply good_call; eauto.
Qed.
Lemma good_new m x fail : good [] (new_rcache R K V m x fail).
Proof.
  constructor; cbn; try (constructor; fail); try discriminate; try tauto.
  - unfold within; cbn. destruct m as [[|m]|]; auto; lia.
  - intros k. split; [tauto|discriminate].
Qed.
Lemma raw_sound m x fail fuel calls s answers :
  raw_run keqb none_key str looks fuel (new_rcache R K V m x fail) calls = Ok (s, answers) ->
  (match maxsize (base s) with Some (S n) => size (base s) <= S n | _ => True end) /\
  forall r now v, raw_fetch keqb str s r now = Some v ->
    exists cs1 c cs2 t, calls = cs1 ++ c :: cs2 /\ stores str looks c (str r) v t /\
      (forall c', In c' cs2 -> ~ discards str looks c' (str r)) /\ outdated (expiry (base s)) now t = false.
Proof.
  intros E. apply (good_run _ _ (good_new m x fail)) in E. cbn in E. split.
  - pose proof (g_with E) as W. unfold within in W. unfold size. destruct (maxsize (base s)) as [[|n]|]; auto. lia.
  - intros r now v H. destruct (sub_fetch keqb keq (str r) now (g_dict E)) as [_ F]. destruct (F v H) as (t & D & O).
    destruct (g_val E _ D) as (a & c & b & E1 & E2 & E3). exists a, c, b, t. auto.
Qed.
Lemma raw_keys_ok m x fail fuel calls s answers :
  raw_run keqb none_key str looks fuel (new_rcache R K V m x fail) calls = Ok (s, answers) ->
  NoDup (map str (raw_keys s)) /\ length (raw_keys s) = size (base s) /\
  (forall k, In k (map str (raw_keys s)) <-> In k (stored_keys (base s))) /\
  forall r, In r (raw_keys s) -> looks r <> Unhashable /\ exists c, In c calls /\ key_in c = Some r.
Proof.
  intros E. apply (good_run _ _ (good_new m x fail)) in E. cbn in E. destruct E as [G1 G2 G3 G4 G5 G6].
  assert (A : map str (raw_keys s) = map fst (names s)).
  { unfold raw_keys. rewrite map_map. apply map_ext_in. intros [k r] I. destruct (G6 _ _ I). auto. }
  assert (B : forall k, In k (map str (raw_keys s)) <-> In k (stored_keys (base s))).
  { intros k. rewrite A, G5. unfold dhas, stored_keys. destruct (dg (values (base s)) k) as [y|] eqn:Q; split; auto.
    - intros _. apply (dget_in keqb keq) in Q. apply in_map_iff. exists (k, y); auto.
    - discriminate.
    - intros I. exfalso. apply (dget_none keqb keq) in Q. auto. }
  rewrite <- A in G4. split; auto. split; [|split; auto].
  - rewrite <- (map_length str (raw_keys s)). unfold size. rewrite <- (map_length fst (values (base s))).
    apply Permutation_length. apply NoDup_Permutation; auto.
  - intros r I. apply in_map_iff in I as ([k r'] & Q & I). cbn in Q; subst. destruct (G6 _ _ I) as (_ & H). exact H.
Qed.
Lemma raw_has m x fail fuel calls s answers r :
  raw_run keqb none_key str looks fuel (new_rcache R K V m x fail) calls = Ok (s, answers) ->
  looks r = Sees -> exists b, has_raw keqb str looks s r = Ok b /\ (b = true <-> In (str r) (map str (raw_keys s))).
Proof.
  intros E L. destruct (raw_keys_ok _ _ _ _ _ E) as (_ & _ & B & _). unfold has_raw. rewrite L. eexists; split; eauto.
  rewrite B. unfold dhas, stored_keys. destruct (dg (values (base s)) (str r)) as [y|] eqn:Q; split; auto.
  - intros _. apply (dget_in keqb keq) in Q. apply in_map_iff. exists (str r, y); auto.
  - discriminate.
  - intros I. exfalso. apply (dget_none keqb keq) in Q. auto.
Qed.
(** string-like keys *)
Lemma sees_insert fuel (s : rcache) r v now : looks r = Sees ->
  match raw_insert keqb none_key str looks fuel s r v now, insert keqb none_key fuel (base s) (str r) v now with
  | Ok s', Ok c' => base s' = c' | Err e, Err e' => e = e' | _, _ => False end.
Proof.
  intros L. unfold raw_insert, insert, has_raw. rewrite L. cbn [bind].
  destruct (dhas keqb (values (base s)) (str r)); cbn [bind]; auto.
  destruct (shrink keqb none_key fuel 1 (base s)); cbn [bind]; auto.
Qed.
Lemma sees_call fuel (s : rcache) call : (forall r, key_in call = Some r -> looks r = Sees) ->
  match raw_call keqb none_key str looks fuel s call, do_call keqb none_key fuel (base s) (spelled str call) with
  | Ok (s', a), Ok (c', a') => base s' = c' /\ a = RAnswer a' | Err e, Err e' => e = e' | _, _ => False end.
Proof.
  intros H. destruct call as [r now|r v now|r| |now|m x|r v now now']; cbn [raw_call].
  2:{ cbn [spelled do_call]. unfold try_insert. specialize (H r eq_refl). rewrite H. pose proof (@sees_insert fuel s r v now H) as Q.
      destruct (raw_insert _ _ _ _ _ _ _ _ _), (insert _ _ _ _ _ _ _); cbn [bind]; auto. }
  6:{ cbn [spelled do_call]. unfold fetch_gen. specialize (H r eq_refl). destruct (fetch keqb (base s) (str r) now) as [c' [w|]]; cbn [plain base]; auto.
      destruct (default_fail c'); cbn [plain base]; auto. unfold try_insert. rewrite H.
      pose proof (@sees_insert fuel (plain keqb s c') r v now' H) as Q. cbn [plain base] in Q.
      destruct (raw_insert _ _ _ _ _ _ _ _ _), (insert _ _ _ _ _ _ _); cbn [bind]; auto. }
  all: destruct (do_call keqb none_key fuel (base s) _) as [[c' a']|]; cbn [bind fst snd plain base]; auto.
Qed.
Lemma sees_run fuel cs : (forall c r, In c cs -> key_in c = Some r -> looks r = Sees) -> forall s : rcache,
  match raw_run keqb none_key str looks fuel s cs, run_calls keqb none_key fuel (base s) (map (spelled str) cs) with
  | Ok (s', l), Ok (c', l') => base s' = c' /\ l = map (@RAnswer V) l' | Err e, Err e' => e = e' | _, _ => False end.
Proof.
  induction cs as [|c cs IH]; intros H s; cbn [raw_run run_calls map]; auto.
  pose proof (@sees_call fuel s c (fun r => H c r (or_introl eq_refl))) as Q.
  destruct (raw_call _ _ _ _ _ _ _) as [[s1 a]|], (do_call _ _ _ _ _) as [[c1 a']|]; cbn [bind fst snd]; auto; try contradiction.
  destruct Q as [<- ->]. assert (H' : forall c r, In c cs -> key_in c = Some r -> looks r = Sees) by (intros c0 r0 I; apply H; right; auto).
  specialize (IH H' s1).
  destruct (raw_run _ _ _ _ _ _ _) as [[s2 l]|], (run_calls _ _ _ _ _) as [[c2 l']|]; cbn [bind fst snd]; auto; try contradiction.
  destruct IH as [<- ->]. auto.
Qed.
(** two keys with one string *)
Lemma raw_alias fuel (s s' : rcache) r r' v now now' : looks r <> Unhashable -> str r' = str r ->
  raw_insert keqb none_key str looks fuel s r v now = Ok s' -> outdated (expiry (base s')) now' now = false -> raw_fetch keqb str s' r' now' = Some v.
Proof.
  intros L E. unfold raw_insert. destruct (has_raw _ _ _ _ _) as [fd|]; cbn [bind]; [|discriminate].
  destruct (if fd then _ else _) as [c1|]; cbn [bind]; [|discriminate]. intros Q; injection Q as <-. cbn [base with_content expiry].
  intros O. unfold raw_fetch, fetch. cbn [base with_content values]. rewrite E, (dget_dset_same keqb keq).
  unfold has_expired, outdated in *. cbn [with_content expiry]. destruct (expiry c1) as [x|]; auto. revert O. destruct (x =? 0)%Z; auto. cbn [negb andb]. intros ->. auto.
Qed.
Lemma raw_unhashable_call fuel (s : rcache) r v now : looks r = Unhashable ->
  raw_call keqb none_key str looks fuel s (RInsert K r v now) = Ok (s, RTypeError V).
Proof. intros L. cbn [raw_call]. unfold try_insert. now rewrite L. Qed.
End S.
