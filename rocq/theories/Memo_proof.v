(** Proofs about memoised recursive functions. *)
From Coq Require Import ZArith Wf_nat.
From Verif Require Import Py PyLemmas Cache_spec Cache_model Cache_proof1 Cache_proof2 Memo_spec Memo_model.
Set Implicit Arguments.
Section P.
Variables A V K : Type.
Variable keqb : K -> K -> bool.
Hypothesis keq : forall x y, keqb x y = true <-> x = y.
Variable none_key : K.
Variable key : A -> K.
Hypothesis key_inj : forall a b, key a = key b -> a = b.
Variable body : A -> prog A V.
Variable clock : nat -> Z.
Notation runs := (runs body).
Notation evals := (evals body).
Notation needs := (needs body).
Notation calls := (calls body).
(** Evaluation with its size. *)
Inductive runn : prog A V -> res V -> nat -> Prop :=
| runn_ret v : runn (Ret v) (Ok v) 0
| runn_raise x : runn (Raise x) (Err x) 0
| runn_call a go_on r r' n m : runn (body a) r n -> runn (go_on r) r' m -> runn (Call a go_on) r' (S (n + m)).
Lemma runs_runn p r : runs p r -> exists n, runn p r n.
Proof. induction 1 as [v|x|a go_on r r' _ [n N] _ [m M]]; [exists 0; constructor|exists 0; constructor|exists (S (n + m)); econstructor; eassumption]. Qed.
Lemma runn_runs p r n : runn p r n -> runs p r.
Proof. induction 1; [constructor|constructor|econstructor; eassumption]. Qed.
Lemma runn_fun p r n : runn p r n -> forall r' n', runn p r' n' -> r = r' /\ n = n'.
Proof.
  induction 1 as [v|x|a go_on r r1 n m _ IH1 _ IH2]; intros r' n' H; inversion H as [| |? ? r2 ? n2 m2 H1 H2]; subst; [split; reflexivity|split; reflexivity|].
  destruct (IH1 _ _ H1) as [<- <-]. destruct (IH2 _ _ H2) as [<- <-]. split; reflexivity.
Qed.
Lemma evals_fun a r r' : evals a r -> evals a r' -> r = r'.
Proof. intros H H'. apply runs_runn in H, H'. destruct H as [n H], H' as [n' H']. exact (proj1 (runn_fun H H')). Qed.

Notation clean := (clean keqb).
(** All that is stored is right. *)
Definition right (s : scache K V) : Prop := forall k v t, In (k, (v, t)) (entries s) -> exists a, k = key a /\ evals a (Ok v).
Definition stored (s : scache K V) (k : K) : Prop := In k (keys_of (entries s)).
Lemma in_lookup k x (es : list (entry K V)) : lookup keqb k es = Some x -> In (k, x) es.
Proof. unfold lookup. destruct (find _ _) as [[k' y]|] eqn:F; [|discriminate]. intros [= <-]. apply find_some in F. destruct F as [F Q]. cbn in Q. apply keq in Q. now subst. Qed.
Lemma sfetch_in (s : scache K V) k now : forall e, In e (entries (fst (sfetch keqb s k now))) -> In e (entries s).
Proof.
  intros e. unfold sfetch. destruct (lookup keqb k (entries s)) as [[v t]|] eqn:L; [|auto]. destruct (outdated _ _ _); cbn [fst entries]; intros I.
  - unfold without in I. apply filter_In in I. tauto.
  - apply in_app_or in I. destruct I as [I|[<-|[]]]; [unfold without in I; apply filter_In in I; tauto|now apply in_lookup].
Qed.
Lemma sfetch_found (s : scache K V) k now v : snd (sfetch keqb s k now) = Some v -> exists t, In (k, (v, t)) (entries s).
Proof. unfold sfetch. destruct (lookup keqb k (entries s)) as [[w t]|] eqn:L; [|discriminate]. destruct (outdated _ _ _); [discriminate|]. cbn [snd]. intros [= <-]. exists t. now apply in_lookup. Qed.
Lemma sinsert_in (s : scache K V) k v now e : In e (entries (sinsert keqb s k v now)) -> In e (entries s) \/ e = (k, (v, now)).
Proof.
  unfold sinsert. cbn [entries]. intros I. apply in_app_or in I. destruct I as [I|[<-|[]]]; [|now right]. left. apply in_room in I. unfold without in I. apply filter_In in I. tauto.
Qed.
(** What an evaluation does to the cache: [below] are the arguments that may be newly stored. *)
Definition unlimited (s : scache K V) : Prop := (cap s = None \/ cap s = Some 0) /\ (ttl s = None \/ ttl s = Some 0%Z).
Record effect (n : nat) (fresh : A -> Prop) (s s' : scache K V) (made0 made1 : list A) : Prop := {
  ef_len : length (entries s') <= length (entries s) + n;
  ef_cap : cap s' = cap s; ef_ttl : ttl s' = ttl s;
  ef_right : right s';
  ef_new : forall k, stored s' k -> stored s k \/ exists b, k = key b /\ fresh b;
  ef_made : exists l, made1 = made0 ++ l /\ Forall fresh l /\
    (unlimited s -> (forall k, stored s k -> stored s' k) /\
       (forall b v, In b l -> evals b (Ok v) -> ~ stored s (key b) /\ stored s' (key b)) /\
       (forall l1 b l2 l3 v, l = l1 ++ b :: l2 ++ b :: l3 -> ~ evals b (Ok v))) }.
Lemma lookup_some_in k (es : list (entry K V)) : In k (keys_of es) -> exists x, lookup keqb k es = Some x.
Proof. intros I. destruct (lookup keqb k es) as [x|] eqn:L; [exists x; reflexivity|]. apply (lookup_none keqb keq) in L. contradiction. Qed.
Lemma unlimited_fetch (s : scache K V) k now k' : unlimited s -> stored s k' -> stored (fst (sfetch keqb s k now)) k'.
Proof.
  intros [_ T] I. unfold sfetch. destruct (lookup keqb k (entries s)) as [[v t]|] eqn:L; [|exact I].
  assert (O : outdated (ttl s) now t = false) by (destruct T as [->| ->]; reflexivity). rewrite O. cbn [fst]. unfold stored in *. cbn [entries]. unfold keys_of. rewrite map_app. apply in_or_app.
  destruct (k_dec keqb keq k' k) as [->|N]; [right; now left|]. left. change (In k' (keys_of (without keqb k (entries s)))). rewrite keys_without. now apply (in_wo keqb keq).
Qed.
Lemma unlimited_miss (s : scache K V) k now : unlimited s -> snd (sfetch keqb s k now) = None -> ~ stored s k.
Proof.
  intros [_ T]. unfold sfetch. destruct (lookup keqb k (entries s)) as [[v t]|] eqn:L.
  - assert (O : outdated (ttl s) now t = false) by (destruct T as [->| ->]; reflexivity). rewrite O. discriminate.
  - intros _. now apply (lookup_none keqb keq).
Qed.
Lemma unlimited_insert (s : scache K V) k v now k' : unlimited s -> stored s k' \/ k' = k -> stored (sinsert keqb s k v now) k'.
Proof.
  intros [C _] I. unfold stored, sinsert. cbn [entries]. unfold keys_of. rewrite map_app. apply in_or_app.
  destruct (k_dec keqb keq k' k) as [->|N]; [right; now left|]. left. destruct I as [I|I]; [|contradiction].
  replace (make_room (cap s) 1 (without keqb k (entries s))) with (without keqb k (entries s)) by (destruct C as [->| ->]; reflexivity).
  change (In k' (keys_of (without keqb k (entries s)))). rewrite keys_without. now apply (in_wo keqb keq).
Qed.
Lemma sfetch_caps (s : scache K V) k now : cap (fst (sfetch keqb s k now)) = cap s /\ ttl (fst (sfetch keqb s k now)) = ttl s.
Proof. unfold sfetch. destruct (lookup keqb k (entries s)) as [[v t]|]; [|split; reflexivity]. destruct (outdated _ _ _); split; reflexivity. Qed.
Lemma right_fetch (s : scache K V) k now : right s -> right (fst (sfetch keqb s k now)).
Proof. intros R k' v t I. apply sfetch_in in I. exact (R _ _ _ I). Qed.
Lemma stored_fetch (s : scache K V) k now k' : stored (fst (sfetch keqb s k now)) k' -> stored s k'.
Proof. unfold stored, keys_of. rewrite !in_map_iff. intros (e & <- & I). exists e. split; [reflexivity|]. now apply sfetch_in in I. Qed.
Lemma right_insert (s : scache K V) a v now : right s -> evals a (Ok v) -> right (sinsert keqb s (key a) v now).
Proof. intros R E k w t I. apply sinsert_in in I. destruct I as [I|[= -> -> ->]]; [exact (R _ _ _ I)|exists a; split; [reflexivity|exact E]]. Qed.
Lemma stored_insert (s : scache K V) k v now k' : stored (sinsert keqb s k v now) k' -> stored s k' \/ k' = k.
Proof. unfold stored, keys_of. rewrite !in_map_iff. intros (e & <- & I). apply sinsert_in in I. destruct I as [I| ->]; [left; exists e; split; [reflexivity|exact I]|now right]. Qed.

Lemma effect_refl n fresh (s : scache K V) l : right s -> effect n fresh s s l l.
Proof.
  intros R. split; [lia|reflexivity|reflexivity|exact R|now left|]. exists []. split; [now rewrite app_nil_r|]. split; [constructor|]. intros _. split; [auto|]. split; [intros b v []|]. intros l1 b l2 l3 v E. destruct l1; discriminate E.
Qed.
Lemma double_app (l l' l1 l2 l3 : list A) b : l ++ l' = l1 ++ b :: l2 ++ b :: l3 ->
  (exists m, l = l1 ++ b :: l2 ++ b :: m) \/ (exists m1 m2, l' = m1 ++ b :: m2 ++ b :: l3) \/ (In b l /\ In b l').
Proof.
  revert l1. induction l as [|x l IH]; intros l1 E; cbn [app] in E; [right; left; exists l1, l2; exact E|]. destruct l1 as [|y l1]; cbn [app] in E.
  - injection E as -> E. clear IH. assert (G : (exists m, l = l2 ++ b :: m) \/ In b l').
    { revert l E. induction l2 as [|z l2 IH2]; intros l E; destruct l as [|w l]; cbn [app] in E.
      - subst l'. right. now left.
      - injection E as -> _. left. exists l. reflexivity.
      - subst l'. right. right. apply in_or_app. right. now left.
      - injection E as -> E. destruct (IH2 l E) as [[m ->]|I]; [left; exists m; reflexivity|now right]. }
    destruct G as [[m ->]|I]; [left; exists m; reflexivity|]. right. right. split; [now left|exact I].
  - injection E as -> E. destruct (IH l1 E) as [[m ->]|[(m1 & m2 & ->)|[I J]]]; [left; exists m; reflexivity|right; left; exists m1, m2; reflexivity|right; right; split; [now right|exact J]].
Qed.
Lemma effect_weaken n m (fresh fresh' : A -> Prop) s s' l l' : n <= m -> (forall a, fresh a -> fresh' a) -> effect n fresh s s' l l' -> effect m fresh' s s' l l'.
Proof.
  intros L W [E1 E2 E3 E4 E5 (x & -> & F & U)]. split; [lia|exact E2|exact E3|exact E4| |].
  - intros k I. destruct (E5 k I) as [H|(b & -> & B)]; [now left|right; exists b; split; [reflexivity|auto]].
  - exists x. split; [reflexivity|]. split; [eapply Forall_impl; [|exact F]; exact W|exact U].
Qed.
Lemma effect_trans n m fresh s1 s2 s3 l1 l2 l3 : effect n fresh s1 s2 l1 l2 -> effect m fresh s2 s3 l2 l3 -> effect (n + m) fresh s1 s3 l1 l3.
Proof.
  intros [E1 E2 E3 E4 E5 (x & -> & F & U)] [D1 D2 D3 D4 D5 (y & -> & G & W)]. split; [lia|congruence|congruence|exact D4| |].
  - intros k I. destruct (D5 k I) as [H|H]; [now apply E5|now right].
  - exists (x ++ y). split; [now rewrite app_assoc|]. split; [now apply Forall_app|]. intros Un. destruct (U Un) as (U1 & U2 & U3).
    assert (Un2 : unlimited s2) by (unfold unlimited in *; rewrite E2, E3; exact Un). destruct (W Un2) as (W1 & W2 & W3). split; [|split].
    + intros k I. apply W1. now apply U1.
    + intros b v I B. apply in_app_or in I. destruct I as [I|I]; [destruct (U2 b v I B); split; [assumption|now apply W1]|]. destruct (W2 b v I B) as [N S3]. split; [|exact S3]. intros Q. apply N. now apply U1.
    + intros a1 b a2 a3 v E B. destruct (double_app _ _ _ _ _ _ E) as [[m1 ->]|[(m1 & m2 & ->)|[I J]]].
      * exact (U3 _ _ _ _ _ eq_refl B).
      * exact (W3 _ _ _ _ _ eq_refl B).
      * destruct (U2 b v I B) as [_ Q]. destruct (W2 b v J B) as [Q' _]. now apply Q'.
Qed.
Variable rounds : nat.
Notation inner := (inner keqb none_key key body clock rounds).
(** Smaller arguments that a program needs. *)
Definition inside (p : prog A V) (n : nat) (b : A) : Prop := (exists a, calls p a /\ needs a b) /\ exists r m, runn (body b) r m /\ m < n.
Definition answers (f : A -> state A V K -> state A V K * option (res V)) (n : nat) : Prop := forall a r m, runn (body a) r m -> m < n ->
  forall st s, clean (cache_of st) s -> default_fail (cache_of st) = false -> right s -> length (entries s) + S m <= rounds ->
  exists st' s', f a st = (st', Some r) /\ clean (cache_of st') s' /\ default_fail (cache_of st') = false /\
    effect (S m) (fun b => needs a b /\ exists r' m', runn (body b) r' m' /\ m' <= m) s s' (made st) (made st').
Lemma body_ok f n : answers f n -> forall p r m, runn p r m -> m <= n ->
  forall st s, clean (cache_of st) s -> default_fail (cache_of st) = false -> right s -> length (entries s) + m <= rounds ->
  exists st' s', run_body f p st = (st', Some r) /\ clean (cache_of st') s' /\ default_fail (cache_of st') = false /\
    effect m (inside p m) s s' (made st) (made st').
Proof.
  intros H p r m R. induction R as [v|x|a go_on r r1 n1 m1 R1 _ R2 IH2]; intros M st s C D G L; cbn [run_body].
  - exists st, s. refine (conj eq_refl (conj C (conj D _))). now apply effect_refl.
  - exists st, s. refine (conj eq_refl (conj C (conj D _))). now apply effect_refl.
  - destruct (H a r n1 R1 ltac:(lia) st s C D G ltac:(lia)) as (st1 & s1 & E1 & C1 & D1 & F1). rewrite E1. pose proof (ef_len F1) as L1.
    destruct (IH2 ltac:(lia) st1 s1 C1 D1 (ef_right F1) ltac:(lia)) as (st2 & s2 & E2 & C2 & D2 & F2). exists st2, s2. refine (conj E2 (conj C2 (conj D2 _))).
    change (S (n1 + m1)) with (S n1 + m1). eapply effect_trans; [eapply effect_weaken; [| |exact F1]|eapply effect_weaken; [| |exact F2]]; try lia.
    + intros b (B & r' & m' & B1 & B2). split; [exists a; split; [constructor|exact B]|]. exists r', m'. split; [exact B1|lia].
    + intros b [(b0 & B0 & B1) (r' & m' & B2 & B3)]. split; [exists b0; split; [|exact B1]; eapply calls_later; [exact (runn_runs R1)|exact B0]|]. exists r', m'. split; [exact B2|lia].
Qed.
Lemma inner_ok depth : answers (inner depth) depth.
Proof.
  induction depth as [|depth IH]; intros a r m R M; [lia|]. intros st s C D G L. cbn [Memo_model.inner].
  pose proof (@clean_fetch _ _ keqb keq (cache_of st) s (key a) (clock (ticks st)) C) as F.
  pose proof (sfetch_caps s (key a) (clock (ticks st))) as [Cp Tt]. pose proof (right_fetch (key a) (clock (ticks st)) G) as G1.
  pose proof (fun k => @stored_fetch s (key a) (clock (ticks st)) k) as St. pose proof (fun v => @sfetch_found s (key a) (clock (ticks st)) v) as Fo.
  pose proof (@unlimited_fetch s (key a) (clock (ticks st))) as UF. pose proof (@unlimited_miss s (key a) (clock (ticks st))) as UM.
  destruct (fetch keqb (cache_of st) (key a) (clock (ticks st))) as [c1 f]. destruct (sfetch keqb s (key a) (clock (ticks st))) as [s1 f']. cbn [fst snd] in *. destruct F as (<- & C1 & D1 & L1 & N1).
  assert (Self : needs a a /\ exists r' m', runn (body a) r' m' /\ m' <= m) by (split; [constructor|exists r, m; split; [exact R|lia]]).
  destruct f as [v|].
  - destruct (Fo v eq_refl) as [t I]. destruct (G _ _ _ I) as (b & Kb & B). apply key_inj in Kb. subst b.
    assert (r = Ok v) as -> by (apply (evals_fun (runn_runs R) B)).
    eexists _, s1. split; [reflexivity|]. cbn [cache_of made]. split; [exact C1|]. split; [congruence|]. split; [lia|exact Cp|exact Tt|exact G1| |].
    + intros k Q. left. now apply St.
    + exists []. split; [now rewrite app_nil_r|]. split; [constructor|]. intros U. split; [intros k Q; now apply UF|]. split; [intros b w []|]. intros q1 b q2 q3 w E. destruct q1; discriminate E.
  - rewrite D1, D.
    set (st1 := {| cache_of := c1; ticks := S (ticks st); made := made st ++ [a] |}).
    destruct (body_ok IH R ltac:(lia) st1 C1 ltac:(cbn; congruence) G1 ltac:(lia)) as (st2 & s2 & E2 & C2 & D2 & F2). rewrite E2. pose proof (ef_len F2) as L2.
    assert (Na : ~ stored s2 (key a)).
    { intros Q. destruct (ef_new F2 _ Q) as [H|(b & Kb & _ & r' & m' & B1 & B2)]; [exact (proj1 (lookup_none keqb keq _ _) (N1 eq_refl) H)|]. apply key_inj in Kb. subst b. destruct (runn_fun R B1). lia. }
    assert (Eff : forall s3, (length (entries s3) <= S (length (entries s2))) -> cap s3 = cap s2 -> ttl s3 = ttl s2 -> right s3 -> (forall k, stored s3 k -> stored s2 k \/ k = key a) ->
       (unlimited s2 -> (forall k, stored s2 k -> stored s3 k) /\ forall v, r = Ok v -> stored s3 (key a)) ->
       effect (S m) (fun b => needs a b /\ exists r' m', runn (body b) r' m' /\ m' <= m) s s3 (made st) (made st2)).
    { intros s3 A1 A2 A3 A4 A5 A6. destruct F2 as [B1 B2 B3 B4 B5 (x & X & FX & U)]. split; [lia|congruence|congruence|exact A4| |].
      - intros k Q. destruct (A5 k Q) as [Q1| ->]; [|right; exists a; split; [reflexivity|exact Self]]. destruct (B5 k Q1) as [Q2|(b & -> & (b0 & Q2 & Q3) & r' & m' & Q4 & Q5)]; [left; now apply St|].
        right. exists b. split; [reflexivity|]. split; [eapply needs_more; eassumption|]. exists r', m'. split; [exact Q4|lia].
      - exists (a :: x). split; [rewrite X; cbn [made st1]; now rewrite <- app_assoc|]. split.
        + constructor; [exact Self|]. eapply Forall_impl; [|exact FX]. intros b [(b0 & Q2 & Q3) (r' & m' & Q4 & Q5)]. split; [eapply needs_more; eassumption|]. exists r', m'. split; [exact Q4|lia].
        + intros Un. assert (Un1 : unlimited s1) by (unfold unlimited in *; rewrite Cp, Tt; exact Un). destruct (U Un1) as (U1 & U2 & U3).
          assert (Un2 : unlimited s2) by (unfold unlimited in *; rewrite B2, B3, Cp, Tt; exact Un). destruct (A6 Un2) as [A7 A8]. split; [|split].
          * intros k Q. apply A7, U1. now apply UF.
          * intros b v [<-|I] B.
            -- split; [now apply UM|]. apply (A8 v). exact (evals_fun (runn_runs R) B).
            -- destruct (U2 b v I B) as [Q1 Q2]. split; [|now apply A7]. intros Q. apply Q1. now apply UF.
          * intros l1 b l2 l3 v E B. destruct l1 as [|y l1]; cbn [app] in E.
            -- injection E as <- ->. rewrite Forall_app in FX. destruct FX as [_ FX]. inversion FX as [|? ? [_ (r' & m' & Q4 & Q5)] _]; subst. destruct (runn_fun R Q4). lia.
            -- injection E as _ E. exact (U3 _ _ _ _ _ E B). }
    destruct r as [v|x].
    + assert (NL : lookup keqb (key a) (entries s2) = None) by (now apply (lookup_none keqb keq)).
      destruct (@clean_insert _ _ keqb keq none_key rounds (cache_of st2) s2 (key a) v (clock (ticks st2)) C2 NL ltac:(lia)) as (c3 & I3 & C3 & D3 & L3). rewrite I3.
      eexists _, _. split; [reflexivity|]. cbn [cache_of made]. split; [exact C3|]. split; [congruence|].
      apply Eff; [exact L3|reflexivity|reflexivity|apply right_insert; [apply (ef_right F2)|exact (runn_runs R)]|intros k; apply stored_insert|].
      intros Un. split; [intros k Q; apply unlimited_insert; [exact Un|now left]|]. intros w _. apply unlimited_insert; [exact Un|now right].
    + exists st2, s2. split; [reflexivity|]. split; [exact C2|]. split; [exact D2|]. apply Eff; [lia|reflexivity|reflexivity|apply (ef_right F2)|intros k Q; now left|].
      intros Un. split; [auto|]. intros w [=].
Qed.

(** Sessions. *)
Inductive cost : list (event A V K) -> nat -> Prop :=
| cost_nil : cost [] 0
| cost_ask a r m es n : runn (body a) r m -> cost es n -> cost (Ask a :: es) (S m + n)
| cost_other c es n : no_store c -> cost es n -> cost (Other c :: es) (S n).
Definition answerable (e : event A V K) : Prop := match e with Ask a => exists r, evals a r | Other c => no_store c end.
Definition fits (e : event A V K) (y : reply V) : Prop := match e with Ask a => exists r, y = Answered r /\ evals a r | Other _ => True end.
Lemma cost_ex es : Forall answerable es -> exists n, cost es n.
Proof.
  induction 1 as [|e es H _ [n IH]]; [exists 0; constructor|]. destruct e as [a|c].
  - destruct H as [r R]. apply runs_runn in R. destruct R as [m R]. exists (S m + n). econstructor; eassumption.
  - exists (S n). now constructor.
Qed.
Notation session := (session keqb none_key key body clock rounds).
Lemma scall_sub (c : ccall K V) (s : scache K V) fail : no_store c -> forall e, In e (entries (fst (scall keqb fail s c))) -> In e (entries s).
Proof.
  intros N e. destruct c as [k now|k v now|k| |now|m x|k v now now']; cbn [scall]; try destruct N.
  - pose proof (@sfetch_in s k now) as F. destruct (sfetch keqb s k now) as [s' r]. exact (F e).
  - cbn [fst entries]. unfold without. intros I. apply filter_In in I. tauto.
  - intros [].
  - cbn [fst entries]. intros I. apply filter_In in I. tauto.
  - cbn [fst entries]. apply in_room.
Qed.
Lemma session_ok depth es n : cost es n -> n <= depth ->
  forall st s, clean (cache_of st) s -> default_fail (cache_of st) = false -> right s -> length (entries s) + n <= rounds ->
  exists st' s' ys, session depth st es = (st', Some ys) /\ clean (cache_of st') s' /\ right s' /\ Forall2 fits es ys.
Proof.
  induction 1 as [|a r m es n R _ IH|c es n N _ IH]; intros Dp st s C D G L; cbn [Memo_model.session].
  - exists st, s, []. repeat split; try assumption; try apply C. constructor.
  - destruct (@inner_ok depth a r m R ltac:(lia) st s C D G ltac:(lia)) as (st1 & s1 & E1 & C1 & D1 & F1). rewrite E1. cbn [option_map]. pose proof (ef_len F1).
    destruct (IH ltac:(lia) st1 s1 C1 D1 (ef_right F1) ltac:(lia)) as (st2 & s2 & ys & E2 & C2 & G2 & Y). rewrite E2. exists st2, s2, (Answered r :: ys). split; [reflexivity|]. split; [exact C2|]. split; [exact G2|].
    constructor; [|exact Y]. exists r. split; [reflexivity|exact (runn_runs R)].
  - destruct (@clean_call _ _ keqb keq none_key rounds (cache_of st) s c C ltac:(lia)) as (c1 & R1 & C1 & D1 & L1). { destruct c; try exact I. destruct N. }
    rewrite R1. destruct (IH ltac:(lia) {| cache_of := c1; ticks := ticks st; made := made st |} _ C1) as (st2 & s2 & ys & E2 & C2 & G2 & Y).
    { cbn [cache_of]. congruence. }
    { intros k v t I. apply (scall_sub _ _ _ N) in I. exact (G _ _ _ I). }
    { lia. }
    rewrite E2. eexists st2, s2, (_ :: ys). split; [reflexivity|]. split; [exact C2|]. split; [exact G2|]. constructor; [exact I|exact Y].
Qed.
Lemma asks_ok depth l n : cost (map Ask l) n -> n <= depth ->
  forall st s, clean (cache_of st) s -> default_fail (cache_of st) = false -> right s -> length (entries s) + n <= rounds ->
  exists s', effect n (fun b => exists a, In a l /\ needs a b) s s' (made st) (made (fst (session depth st (map Ask l)))).
Proof.
  revert n. induction l as [|a l IH]; intros n Co Dp st s C D G L; cbn [map Memo_model.session]; cbn [map] in Co.
  - exists s. now apply effect_refl.
  - inversion Co as [|? r m ? k R Co'|]; subst.
    destruct (@inner_ok depth a r m R ltac:(lia) st s C D G ltac:(lia)) as (st1 & s1 & E1 & C1 & D1 & F1). rewrite E1. cbn [option_map]. pose proof (ef_len F1).
    destruct (IH k Co' ltac:(lia) st1 s1 C1 D1 (ef_right F1) ltac:(lia)) as (s2 & F2). destruct (session depth st1 (map Ask l)) as [st2 ys]. cbn [fst] in *. exists s2.
    eapply effect_trans; [eapply effect_weaken; [| |exact F1]|eapply effect_weaken; [| |exact F2]]; try lia.
    + intros b (B & _). exists a. split; [now left|exact B].
    + intros b (a' & I & B). exists a'. split; [now right|exact B].
Qed.
End P.
