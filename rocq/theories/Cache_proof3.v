(** Arbitrary histories; memoised functions; counterexamples. *)
From Verif Require Import Py PyLemmas Cache_spec Cache_model Cache_proof1 Cache_proof2.
Set Implicit Arguments.
Section S.
Variables K V : Type.
Variable keqb : K -> K -> bool.
Hypothesis keq : forall x y, keqb x y = true <-> x = y.
Variable none_key : K.
Notation cache := (cache K V). Notation call := (ccall K V).

Definition dict (c : cache) := NoDup (dkeys (values c)).
Definition sub (c c' : cache) := dict c' /\ length (values c') <= length (values c) /\
  maxsize c' = maxsize c /\ expiry c' = expiry c /\ default_fail c' = default_fail c /\
  forall k x, dget keqb (values c') k = Some x -> dget keqb (values c) k = Some x.
Lemma sub_refl c : dict c -> sub c c.
Proof. intros D. repeat split; auto. Qed.
Lemma sub_trans a b c : sub a b -> sub b c -> sub a c.
Proof.
  intros (A1 & A2 & A3 & A4 & A5 & A6) (B1 & B2 & B3 & B4 & B5 & B6).
  split; auto. split; [lia|]. split; [congruence|]. split; [congruence|]. split; [congruence|]. auto.
Qed.
Lemma ddel_len (d : list (K * (V * Z))) k : length (ddel keqb d k) <= length d.
Proof. induction d as [|[k' x] d IH]; cbn; auto. destruct (keqb k k'); cbn; lia. Qed.
Lemma sub_remove (c : cache) k : dict c -> sub c (remove keqb c k) /\ dget keqb (values (remove keqb c k)) k = None.
Proof.
  intros D. unfold remove. destruct (dhas keqb (values c) k) eqn:E.
  - split; [|cbn; now apply (dget_ddel_same keqb keq)]. split; [cbn; apply nodup_ddel; auto|]. split; [cbn; apply ddel_len|].
    repeat split. cbn. intros k' x. destruct (k_dec keqb keq k' k) as [->|Ne].
    + rewrite (dget_ddel_same keqb keq) by exact D. discriminate.
    + rewrite (dget_ddel_other keqb keq) by (intros Q; apply Ne; auto). auto.
  - split; [now apply sub_refl|]. unfold dhas in E. now destruct (dget keqb (values c) k).
Qed.
Lemma sub_loop m nb fuel : forall c c', dict c -> shrink_loop keqb none_key fuel m nb c = Ok c' ->
  sub c c' /\ length (values c') + nb <= m.
Proof.
  induction fuel as [|fuel IH]; intros c c' D; cbn [shrink_loop]; destruct (Nat.ltb_spec m (length (values c) + nb)) as [H|H]; try discriminate.
  - intros E; injection E as <-. split; auto using sub_refl.
  - intros E. assert (S1 : sub c (remove_popped keqb none_key c)).
    { unfold remove_popped. destruct (pop _); now apply sub_remove. }
    apply IH in E as [S2 L]; [|apply S1]. split; auto. eapply sub_trans; eauto.
  - intros E; injection E as <-. split; auto using sub_refl.
Qed.
Definition within (c : cache) (nb : nat) := match maxsize c with Some (S m) => length (values c) + nb <= S m | _ => True end.
Lemma sub_shrink nb fuel c c' : dict c -> shrink keqb none_key fuel nb c = Ok c' -> sub c c' /\ within c' nb.
Proof.
  intros D. unfold shrink, within. destruct (maxsize c) as [[|m]|] eqn:M.
  - intros E; injection E as <-. rewrite M. split; auto using sub_refl.
  - intros E. apply sub_loop in E as [S L]; auto. split; auto. destruct S as (_ & _ & S & _). rewrite S, M. auto.
  - intros E; injection E as <-. rewrite M. split; auto using sub_refl.
Qed.
Lemma sub_fetch c k now : dict c -> sub c (fst (fetch keqb c k now)) /\
  forall v, snd (fetch keqb c k now) = Some v -> exists t, dget keqb (values c) k = Some (v, t) /\ outdated (expiry c) now t = false.
Proof.
  intros D. unfold fetch. destruct (dget keqb (values c) k) as [[v t]|] eqn:E; cbn [fst snd].
  - destruct (has_expired c now t) eqn:H; cbn [fst snd].
    + split; [now apply sub_remove|discriminate].
    + split; [repeat split; auto|]. intros v' E'. injection E' as <-. exists t. split; auto.
      unfold has_expired in H. unfold outdated. destruct (expiry c) as [x|]; auto. destruct (x =? 0)%Z; auto.
  - split; [now apply sub_refl|discriminate].
Qed.
Lemma sub_collect now ks : forall c c', dict c -> foldM (collect_one keqb now) c ks = Ok c' -> sub c c'.
Proof.
  induction ks as [|k ks IH]; intros c c' D; cbn [foldM].
  - intros E; injection E as <-. now apply sub_refl.
  - unfold collect_one at 1. destruct (dread keqb (values c) k) as [x|]; cbn [bind]; [|discriminate].
    set (c1 := if has_expired c (now k) (snd x) then remove keqb c k else c).
    assert (S1 : sub c c1). { unfold c1. destruct (has_expired _ _ _); [now apply sub_remove|now apply sub_refl]. }
    intros E. apply IH in E; [|apply S1]. eapply sub_trans; eauto.
Qed.

Definition sound (cs : list call) (c : cache) := dict c /\ within c 0 /\
  forall k v t, dget keqb (values c) k = Some (v, t) -> last_stored cs k v t.
Lemma stored_snoc (cs : list call) k v t c : last_stored cs k v t -> ~ forgets c k -> last_stored (cs ++ [c]) k v t.
Proof.
  intros (cs1 & c0 & cs2 & -> & O & F) N. exists cs1, c0, (cs2 ++ [c]). rewrite <- app_assoc. split; auto. split; auto.
  intros c' X. apply in_app_or in X as [X|[<-|[]]]; auto.
Qed.
Lemma stored_new (cs : list call) k v t c : offers c k v t -> last_stored (cs ++ [c]) k v t.
Proof. intros O. exists cs, c, []. split; auto. Qed.
Lemma within_sub c c' nb : sub c c' -> within c nb -> within c' nb.
Proof.
  intros (_ & L & M & _). unfold within. rewrite M. destruct (maxsize c) as [[|m]|]; auto. lia.
Qed.
Lemma sound_sub cs c c' call : sound cs c -> sub c c' -> (forall k, ~ forgets call k) -> sound (cs ++ [call]) c'.
Proof.
  intros (D & W & H) S N. split; [apply S|]. split; [eapply within_sub; eauto|]. intros k v t E. apply stored_snoc; auto. apply H. now apply S.
Qed.
Lemma dset_len (d : list (K * (V * Z))) k x : length (dset keqb d k x) <= S (length d) /\ (dhas keqb d k = true -> length (dset keqb d k x) = length d).
Proof.
  unfold dhas. induction d as [|[k' y] d [IH1 IH2]]; cbn; [split; auto; discriminate|]. destruct (keqb k k'); cbn; [split; auto|]. split; [lia|]. intros H. f_equal; auto.
Qed.
Lemma sound_insert fuel cs c c' k v now call : sound cs c -> insert keqb none_key fuel c k v now = Ok c' ->
  offers call k v now -> (forall k', k' <> k -> ~ forgets call k') -> sound (cs ++ [call]) c' /\ maxsize c' = maxsize c.
Proof.
  intros (D & W & H) E O N. unfold insert in E.
  destruct (if dhas keqb (values c) k then Ok c else shrink keqb none_key fuel 1 c) as [c1|] eqn:E1; cbn [bind] in E; [|discriminate].
  injection E as <-.
  assert (S1 : sub c c1 /\ (dhas keqb (values c1) k = true \/ within c1 1)).
  { destruct (dhas keqb (values c) k) eqn:Hk.
    - injection E1 as <-. split; [now apply sub_refl|auto].
    - apply sub_shrink in E1 as [S1 W1]; auto. }
  destruct S1 as [S1 W1]. destruct (dset_len (values c1) k (v, now)) as [L1 L2].
  split; [|cbn; apply S1]. split; [|split].
  - unfold dict. cbn. apply (nodup_dset keqb keq), S1.
  - pose proof (@within_sub _ _ _ S1 W) as W0. unfold within in *. cbn [with_content maxsize values]. destruct (maxsize c1) as [[|m]|]; auto.
    destruct W1 as [W1|W1]; [rewrite L2 by auto; lia|lia].
  - cbn [with_content values]. intros k' v' t' E. destruct (k_dec keqb keq k k') as [<-|Ne].
    + rewrite (dget_dset_same keqb keq) in E. injection E as <- <-. now apply stored_new.
    + rewrite (dget_dset_other keqb keq) in E by auto. apply stored_snoc; [|auto]. apply H. now apply S1.
Qed.
Ltac noforget := let F := fresh in intros ? F; destruct F as [F|[F|(? & ? & F)]]; discriminate.
Lemma sound_call fuel cs c c' call a : sound cs c -> do_call keqb none_key fuel c call = Ok (c', a) -> sound (cs ++ [call]) c'.
Proof.
  intros S E. destruct call as [k now|k v now|k| |now|m x|k v now now']; cbn [do_call] in E.
  - destruct (sub_fetch k now (proj1 S)) as [Sf _]. destruct (fetch keqb c k now) as [c1 r]. injection E as <- _.
    eapply sound_sub; eauto. noforget.
  - destruct (insert _ _ _ _ _ _ _) as [c1|] eqn:E1; cbn [bind] in E; [|discriminate]. injection E as <- _.
    eapply sound_insert; eauto; [now left|]. intros k' Ne [F|[F|(? & ? & F)]]; try discriminate. congruence.
  - injection E as <- _. destruct S as (D & W & H). destruct (sub_remove k D) as [S1 N]. split; [apply S1|].
    split; [eapply within_sub; eauto|]. intros k' v t E. destruct (k_dec keqb keq k' k) as [->|Ne]; [congruence|].
    apply stored_snoc; [apply H; now apply S1|]. intros [F|[F|(? & ? & F)]]; try discriminate. congruence.
  - injection E as <- _. destruct S as (D & W & H). split; [constructor|]. split.
    + unfold within, clear_all in *; cbn. destruct (maxsize c) as [[|m]|]; auto. lia.
    + cbn. discriminate.
  - destruct (collect keqb c now) as [c1|] eqn:E1; cbn [bind] in E; [|discriminate]. injection E as <- _.
    eapply sound_sub; eauto; [|noforget]. eapply sub_collect; eauto. apply S.
  - destruct (reconfigure _ _ _ _ _ _) as [c1|] eqn:E1; cbn [bind] in E; [|discriminate]. injection E as <- _.
    unfold reconfigure in E1. destruct S as (D & W & H). apply sub_shrink in E1 as [S1 W1]; [|exact D]. split; [apply S1|]. split; [exact W1|].
    intros k v t E. apply stored_snoc; [apply H; now apply S1 in E|]. revert k E. intros k _. revert k. noforget.
  - unfold fetch_gen in E. destruct (sub_fetch k now (proj1 S)) as [Sf _]. destruct (fetch keqb c k now) as [c1 r]. cbn [fst] in Sf.
    destruct r as [w|].
    + injection E as <- _. eapply sound_sub; eauto. noforget.
    + destruct (default_fail c1). { injection E as <- _. eapply sound_sub; eauto. noforget. }
      destruct (insert _ _ _ _ _ _ _) as [c2|] eqn:E1; cbn [bind] in E; [|discriminate]. injection E as <- _.
      assert (S1 : sound cs c1).
      { destruct S as (D & W & H). split; [apply Sf|]. split; [eapply within_sub; eauto|]. intros k' v' t' E'. apply H. now apply Sf. }
      eapply sound_insert; eauto; [right; eauto|]. intros k' Ne. revert k' Ne. intros k' _. revert k'. noforget.
Qed.
Lemma sound_run fuel cs2 : forall cs1 c c' l, sound cs1 c -> run_calls keqb none_key fuel c cs2 = Ok (c', l) -> sound (cs1 ++ cs2) c'.
Proof.
  induction cs2 as [|call cs2 IH]; intros cs1 c c' l S; cbn [run_calls].
  - intros E; injection E as <- _. now rewrite app_nil_r.
  - destruct (do_call keqb none_key fuel c call) as [[c1 a]|] eqn:E1; cbn [bind fst snd]; [|discriminate].
    destruct (run_calls keqb none_key fuel c1 cs2) as [[c2 l2]|] eqn:E2; cbn [bind fst snd]; [|discriminate].

    intros E. injection E as <- _. replace (cs1 ++ call :: cs2) with ((cs1 ++ [call]) ++ cs2) by (rewrite <- app_assoc; reflexivity).
    eapply IH; eauto. eapply sound_call; eauto.
Qed.
Lemma sound_new m x fail : sound [] (new_cache K V m x fail).
Proof.
  split; [constructor|]. split; [|cbn; discriminate]. unfold within. cbn. destruct m as [[|m]|]; auto. lia.
Qed.
Lemma cache_sound m x fail fuel cs c answers : run_calls keqb none_key fuel (new_cache K V m x fail) cs = Ok (c, answers) ->
  (match maxsize c with Some (S n) => size c <= S n | _ => True end) /\
  forall k now v, snd (fetch keqb c k now) = Some v ->
    exists t, last_stored cs k v t /\ outdated (expiry c) now t = false.
Proof.
  intros E. destruct (@sound_run fuel cs [] _ _ _ (sound_new m x fail) E) as (D & W & H). cbn [app] in H. split.
  - unfold within, size in *. destruct (maxsize c) as [[|n]|]; auto. lia.
  - intros k now v Ev. destruct (sub_fetch k now D) as [_ F]. destruct (F v Ev) as (t & E1 & E2). exists t. auto.
Qed.

(** memoised functions *)
Definition memo_call (g : K -> V) (c : call) : Prop :=
  match c with CFetchGen k v _ _ => v = g k | CInsert _ _ _ => False | _ => True end.
Definition memo_answer (g : K -> V) (c : call) (a : canswer V) : Prop :=
  match c with CFetchGen k _ _ _ => a = CFound (g k) | _ => True end.
Definition pure (g : K -> V) (s : scache K V) := forall k v t, In (k, (v, t)) (entries s) -> v = g k.
Lemma lookup_in k x (es : list (entry K V)) : lookup keqb k es = Some x -> In (k, x) es.
Proof.
  unfold lookup. destruct (find (fun e => keqb k (fst e)) es) as [[k' y]|] eqn:F; cbn; [|discriminate]. intros E; injection E as ->.
  apply find_some in F as [F1 F2]. cbn in F2. apply keq in F2. now subst.
Qed.
Lemma in_without' k (es : list (entry K V)) e : In e (without keqb k es) -> In e es.
Proof. unfold without. intros X. apply filter_In in X. tauto. Qed.
Lemma pure_fetch g s k now : pure g s -> let (s', r) := sfetch keqb s k now in pure g s' /\ (forall v, r = Some v -> v = g k).
Proof.
  intros P. unfold sfetch. destruct (lookup keqb k (entries s)) as [[v t]|] eqn:E.
  - apply lookup_in in E. destruct (outdated (ttl s) now t).
    + split; [|discriminate]. intros k' v' t' X. eapply P. eapply in_without'; eauto.
    + split.
      * intros k' v' t' X. cbn [entries] in X. apply in_app_or in X as [X|[X|[]]]; [eapply P, in_without'; eauto|]. injection X as <- <- <-. eapply P; eauto.
      * intros v' E'. injection E' as <-. eapply P; eauto.
  - split; [auto|discriminate].
Qed.
Lemma pure_insert g s k now : pure g s -> pure g (sinsert keqb s k (g k) now).
Proof.
  intros P k' v' t' X. unfold sinsert in X. cbn [entries] in X. apply in_app_or in X as [X|[X|[]]].
  - eapply P. eapply in_without', (in_room (cap s) 1). exact X.
  - injection X as <- <- _. reflexivity.
Qed.
Lemma memo_run g cs : forall s, pure g s -> (forall c, In c cs -> memo_call g c) ->
  Forall2 (memo_answer g) cs (snd (srun keqb false s cs)) /\ never_overwrites keqb false s cs.
Proof.
  induction cs as [|call cs IH]; intros s P H; cbn [srun never_overwrites]; [split; [constructor|auto]|].
  assert (M : memo_call g call) by (apply H; now left).
  assert (Q : pure g (fst (scall keqb false s call)) /\ memo_answer g call (snd (scall keqb false s call))).
  { destruct call as [k now|k v now|k| |now|m x|k v now now']; cbn [scall memo_answer] in *.
    - pose proof (pure_fetch k now P) as F. destruct (sfetch keqb s k now). cbn. tauto.
    - destruct M.
    - cbn. split; auto. intros k' v' t' X. eapply P, in_without'; eauto.
    - cbn. split; auto. intros k' v' t' [].
    - cbn. split; auto. intros k' v' t' X. cbn in X. apply filter_In in X. eapply P. apply X.
    - cbn. split; auto. intros k' v' t' X. cbn in X. eapply P, (in_room m 0). exact X.
    - cbn in M. subst v. pose proof (pure_fetch k now P) as F. destruct (sfetch keqb s k now) as [s' r]. destruct F as [P' F]. destruct r as [w|].
      + cbn. split; auto. f_equal. auto.
      + cbn [fst snd]. split; auto. now apply pure_insert. }
  destruct (scall keqb false s call) as [s1 a]. cbn [fst snd] in *. destruct Q as [P1 A1].
  destruct (IH s1 P1) as [F N]; [intros; apply H; now right|]. destruct (srun keqb false s1 cs) as [s2 l]. cbn [snd] in *.
  split; [constructor; auto|]. split; auto. destruct call; auto. destruct M.
Qed.
Lemma memo_ok g m x cs fuel : length cs <= fuel -> (forall c, In c cs -> memo_call g c) ->
  exists c answers, run_calls keqb none_key fuel (new_cache K V m x false) cs = Ok (c, answers) /\ Forall2 (memo_answer g) cs answers.
Proof.
  intros L H. destruct (@memo_run g cs {| cap := m; ttl := x; entries := [] |}) as [F N]; auto. { intros k v t []. }
  destruct (@cache_exact K V keqb keq none_key m x false cs fuel L N) as (c & E). destruct (srun _ _ _ _) as [s a]. destruct E as [E _].
  exists c, a. auto.
Qed.
Lemma gen_fails k v now now' fuel m x : do_call keqb none_key fuel (new_cache K V m x true) (CFetchGen k v now now') = Ok (new_cache K V m x true, CKeyError).
Proof. reflexivity. Qed.
End S.

(** counterexamples *)
Lemma stuck K V keqb none_key m nb (c : cache K V) : m < length (values c) + nb -> remove_popped keqb none_key c = c ->
  forall fuel, shrink_loop keqb none_key fuel m nb c = Err OutOfFuel.
Proof.
  intros L E. induction fuel as [|fuel IH]; cbn [shrink_loop]; rewrite (proj2 (Nat.ltb_lt _ _) L); auto. now rewrite E.
Qed.
Definition bad_calls : list (ccall nat nat) := [CInsert 1 10 0%Z; CInsert 1 11 0%Z; CInsert 2 20 0%Z; CInsert 3 30 0%Z].
Lemma hangs : forall fuel r, run_calls Nat.eqb 0 fuel (new_cache nat nat (Some 1) None false) bad_calls <> Ok r.
Proof.
  intros [|fuel] r; [vm_compute; discriminate|].
  assert (H : exists c, run_calls Nat.eqb 0 (S fuel) (new_cache nat nat (Some 1) None false) (firstn 3 bad_calls) = Ok (c, [CDone; CDone; CDone]) /\
     values c = [(2, (20, 0%Z))] /\ maxsize c = Some 1 /\ pop (lru_of c) = Some 1).
  { destruct fuel; (eexists; split; [reflexivity|]; repeat split). }
  destruct H as (c & R & Vc & Mc & Pc).
  assert (A : forall a b (c0 c1 : cache nat nat) l, run_calls Nat.eqb 0 (S fuel) c0 a = Ok (c1, l) ->
     run_calls Nat.eqb 0 (S fuel) c0 (a ++ b) = (q <- run_calls Nat.eqb 0 (S fuel) c1 b ;; Ok (fst q, l ++ snd q))).
  { clear. induction a as [|x a IH]; intros b c0 c1 l; cbn [run_calls app].
    - intros E; injection E as <- <-. destruct (run_calls Nat.eqb 0 (S fuel) c0 b) as [[? ?]|]; reflexivity.
    - destruct (do_call Nat.eqb 0 (S fuel) c0 x) as [[c2 y]|]; cbn [bind fst snd]; [|discriminate].
      destruct (run_calls Nat.eqb 0 (S fuel) c2 a) as [[c3 l3]|] eqn:E; cbn [bind fst snd]; [|discriminate].
      intros E'; injection E' as <- <-. rewrite (IH b _ _ _ E). destruct (run_calls Nat.eqb 0 (S fuel) c3 b) as [[? ?]|]; reflexivity. }
  change bad_calls with (firstn 3 bad_calls ++ [CInsert 3 30 0%Z]). rewrite (A _ _ _ _ _ R).
  cbn [run_calls do_call]. unfold insert. unfold dhas. rewrite Vc. cbn [dget Nat.eqb]. unfold shrink. rewrite Mc.
  rewrite stuck; [discriminate|rewrite Vc; cbn; lia|]. unfold remove_popped, remove, dhas. rewrite Pc, Vc. reflexivity.
Qed.
Definition victim_calls : list (ccall nat nat) := [CInsert 1 10 0%Z; CInsert 2 20 0%Z; CInsert 1 11 0%Z; CInsert 3 30 0%Z; CFetch 1 0%Z; CFetch 2 0%Z].
Lemma victim : exists c, run_calls Nat.eqb 0 10 (new_cache nat nat (Some 2) None false) victim_calls =
  Ok (c, [CDone; CDone; CDone; CDone; CMissing; CFound 20]) /\
  snd (srun Nat.eqb false {| cap := Some 2; ttl := None; entries := [] |} victim_calls) =
  [CDone; CDone; CDone; CDone; CFound 11; CMissing].
Proof. eexists. split; reflexivity. Qed.
Lemma victim_refutes : exists calls c answers, run_calls Nat.eqb 0 10 (new_cache nat nat (Some 2) None false) calls = Ok (c, answers) /\
  answers <> snd (srun Nat.eqb false {| cap := Some 2; ttl := None; entries := [] |} calls).
Proof. destruct victim as (c & E & S). exists victim_calls. eexists. eexists. split; [exact E|]. rewrite S. discriminate. Qed.
Lemma hangs_ex : exists calls : list (ccall nat nat), forall fuel r,
  run_calls Nat.eqb 0 fuel (new_cache nat nat (Some 1) None false) calls <> Ok r.
Proof. exists bad_calls. exact hangs. Qed.
