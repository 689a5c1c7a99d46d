From Coq Require Import List Bool Arith Lia.
From Verif Require Import Py PyLemmas Flight_spec Flight_model.
Import ListNotations.
Set Implicit Arguments.
Section S.
Variables J V : Type.
Variable jeqb : J -> J -> bool.
Hypothesis jeq : forall x y, jeqb x y = true <-> x = y.
Variable body : J -> comp J V.
Variable cache_of : J -> nat.
Notation thread := (thread J V). Notation world := (world J V).
Notation go := (go jeqb body cache_of). Notation happen := (happen jeqb body cache_of). Notation run := (run jeqb body cache_of).
Notation value := (value body). Notation ends := (ends body). Notation men := (@mentions J V).
Notation dgl := (dget Nat.eqb).
Lemma neq_spec : forall x y, Nat.eqb x y = true <-> x = y. Proof. exact Nat.eqb_eq. Qed.

Scheme value_mut := Minimality for Flight_spec.value Sort Prop
with ends_mut := Minimality for Flight_spec.ends Sort Prop.

(** locks *)
Definition cnt (c : nat) (l : list nat) := count_occ Nat.eq_dec l c.
Definition here (o : option (control J V)) : list nat :=
  match o with Some (Inside q) => [cache_of q] | Some (Run q _) => [cache_of q] | Some (Store q _) => [cache_of q] | Some (Leave q _) => [cache_of q] | _ => [] end.
Definition holds (t : thread) : list nat := here (now t) ++ map (fun f => cache_of (fst f)) (stack t).
Definition lock_ok (w : world) := NoDup (dkeys (locks w)) /\ forall c,
  match dgl (locks w) c with
  | None => forall i, cnt c (holds (threads w i)) = 0
  | Some (o, n) => n = cnt c (holds (threads w o)) /\ 0 < n /\ forall j, j <> o -> cnt c (holds (threads w j)) = 0
  end.
Lemma put_same w l m s i t : threads (put (J := J) (V := V) w l m s i t) i = t.
Proof. cbn. now rewrite Nat.eqb_refl. Qed.
Lemma put_other w l m s i t j : j <> i -> threads (put (J := J) (V := V) w l m s i t) j = threads w j.
Proof. intros H. cbn. now rewrite (proj2 (Nat.eqb_neq j i)). Qed.
Lemma lock_same w m s i t : lock_ok w -> holds t = holds (threads w i) -> lock_ok (put w (locks w) m s i t).
Proof.
  intros [N L] E. split; auto. assert (G : forall j, holds (threads (put w (locks w) m s i t) j) = holds (threads w j)).
  { intros j. destruct (Nat.eq_dec j i) as [->|Ne]; [now rewrite put_same|now rewrite put_other]. }
  intros c. specialize (L c). change (locks (put w (locks w) m s i t)) with (locks w). destruct (dgl (locks w) c) as [[o n]|].
  - rewrite G. destruct L as (A & B & C). split; auto. split; auto. intros j Nj. rewrite G. auto.
  - intros j. rewrite G. auto.
Qed.
Lemma cnt_cons c l : cnt c (c :: l) = S (cnt c l).
Proof. unfold cnt. cbn. destruct (Nat.eq_dec c c); congruence. Qed.
Lemma cnt_other c c' l : c' <> c -> cnt c (c' :: l) = cnt c l.
Proof. intros H. unfold cnt. cbn. destruct (Nat.eq_dec c' c); congruence. Qed.
Lemma acq_other l c i l' c' : acquire l c i = Some l' -> c' <> c -> dgl l' c' = dgl l c'.
Proof.
  unfold acquire. intros E Ne. destruct (dgl l c) as [[o n]|]; [destruct (o =? i); [|discriminate]|]; injection E as <-; now rewrite (dget_dset_other Nat.eqb neq_spec) by auto.
Qed.
Lemma lock_acq w l m s i t c : lock_ok w -> acquire (locks w) c i = Some l -> holds t = c :: holds (threads w i) -> lock_ok (put w l m s i t).
Proof.
  intros [N L] A E. split.
  { cbn. unfold acquire in A. destruct (dgl (locks w) c) as [[o n]|]; [destruct (o =? i); [|discriminate]|]; injection A as <-; apply (nodup_dset Nat.eqb neq_spec); auto. }
  intros c'. change (locks (put w l m s i t)) with l. destruct (Nat.eq_dec c' c) as [->|Ne].
  - specialize (L c). unfold acquire in A. destruct (dgl (locks w) c) as [[o n]|].
    + destruct (Nat.eqb_spec o i) as [->|]; [|discriminate]. injection A as <-. rewrite (dget_dset_same Nat.eqb neq_spec). destruct L as (A & B & C).
      rewrite put_same, E, cnt_cons. split; [auto|]. split; [lia|]. intros j Nj. rewrite put_other by auto. auto.
    + injection A as <-. rewrite (dget_dset_same Nat.eqb neq_spec), put_same, E, cnt_cons, L. split; auto. split; [lia|]. intros j Nj. rewrite put_other by auto. auto.
  - rewrite (@acq_other _ _ _ _ _ A Ne). specialize (L c').
    assert (G : forall j, cnt c' (holds (threads (put w l m s i t) j)) = cnt c' (holds (threads w j))).
    { intros j. destruct (Nat.eq_dec j i) as [->|Nj]; [rewrite put_same, E; now apply cnt_other; auto|now rewrite put_other]. }
    destruct (dgl (locks w) c') as [[o n]|].
    + rewrite G. destruct L as (A1 & B & C). split; auto. split; auto. intros j Nj. rewrite G. auto.
    + intros j. rewrite G. auto.
Qed.
Lemma lock_rel w m s i t c : lock_ok w -> c :: holds t = holds (threads w i) -> lock_ok (put w (release (locks w) c) m s i t).
Proof.
  intros [N L] E. split.
  { cbn. unfold release. destruct (dgl (locks w) c) as [[o [|[|n]]]|]; try (apply nodup_ddel; auto); try apply (nodup_dset Nat.eqb neq_spec); auto. }
  intros c'. change (locks (put w (release (locks w) c) m s i t)) with (release (locks w) c). destruct (Nat.eq_dec c' c) as [->|Ne].
  - specialize (L c). unfold release. destruct (dgl (locks w) c) as [[o n]|] eqn:D.
    + destruct L as (A & B & C). assert (o = i). { destruct (Nat.eq_dec i o); auto. specialize (C i n0). rewrite <- E, cnt_cons in C. discriminate. }
      subst o. rewrite <- E, cnt_cons in A. destruct n as [|[|n]]; [lia| |].
      * rewrite (dget_ddel_same Nat.eqb neq_spec) by auto. intros j. destruct (Nat.eq_dec j i) as [->|Nj]; [rewrite put_same; lia|rewrite put_other by auto; auto].
      * rewrite (dget_dset_same Nat.eqb neq_spec), put_same. split; [lia|]. split; [lia|]. intros j Nj. rewrite put_other by auto. auto.
    + specialize (L i). rewrite <- E, cnt_cons in L. discriminate.
  - assert (Dl : dgl (release (locks w) c) c' = dgl (locks w) c').
    { unfold release. destruct (dgl (locks w) c) as [[o [|[|n]]]|]; try (now rewrite (dget_ddel_other Nat.eqb neq_spec) by auto); now rewrite (dget_dset_other Nat.eqb neq_spec) by auto. }
    rewrite Dl. specialize (L c').
    assert (G : forall j, cnt c' (holds (threads (put w (release (locks w) c) m s i t) j)) = cnt c' (holds (threads w j))).
    { intros j. destruct (Nat.eq_dec j i) as [->|Nj]; [rewrite put_same, <- E; symmetry; now apply cnt_other; auto|now rewrite put_other]. }
    destruct (dgl (locks w) c') as [[o n]|].
    + rewrite G. destruct L as (A1 & B & C). split; auto. split; auto. intros j Nj. rewrite G. auto.
    + intros j. rewrite G. auto.
Qed.
Lemma lock_mem w m : lock_ok w -> lock_ok {| locks := locks w; mem := m; started := started w; threads := threads w |}.
Proof. intros H. exact H. Qed.

(** threads *)
Fixpoint chain (q : J) (st : list (J * (V -> comp J V))) : Prop :=
  match st with
  | [] => True
  | (q1, k) :: st' => men (body q1) q /\ (forall w, value q w -> forall v, ends (k w) v -> value q1 v) /\
                      (forall w q', men (k w) q' -> men (body q1) q') /\ chain q1 st'
  end.
Definition job_of (c : control J V) : J := match c with Want q => q | Inside q => q | Run q _ => q | Store q _ => q | Leave q _ => q end.
Definition ctl_ok (c : control J V) : Prop :=
  match c with
  | Run q c => (forall v, ends c v -> value q v) /\ forall q', men c q' -> men (body q) q'
  | Store q v => value q v
  | Leave q v => value q v
  | _ => True
  end.
Definition thread_ok (t : thread) : Prop :=
  match now t with None => stack t = [] | Some c => chain (job_of c) (stack t) /\ ctl_ok c end /\ forall q v, In (q, v) (outs t) -> value q v.
Record inv (w : world) : Prop := { i_lock : lock_ok w; i_thr : forall i, thread_ok (threads w i); i_mem : forall q v, dget jeqb (mem w) q = Some v -> value q v }.
Lemma inv_put w l m s i t : inv w -> lock_ok (put w l m s i t) -> thread_ok t -> (forall q v, dget jeqb m q = Some v -> value q v) -> inv (put w l m s i t).
Proof.
  intros I L T M. split; auto. intros j. destruct (Nat.eq_dec j i) as [->|Ne]; [now rewrite put_same|rewrite put_other by auto; apply (i_thr I)].
Qed.
Lemma go_inv w i : inv w -> inv (go w i).
Proof.
  intros I. pose proof (i_thr I i) as T. pose proof (i_lock I) as L. pose proof (i_mem I) as M. unfold Flight_model.go, thread_ok in *.
  destruct (now (threads w i)) as [ctl|] eqn:E.
  - destruct T as [[C K] O]. destruct ctl as [q|q|q c|q v|q v]; cbn [job_of ctl_ok] in *.
    + destruct (acquire (locks w) (cache_of q) i) as [l|] eqn:A; auto. apply inv_put; auto.
      * eapply lock_acq; eauto. unfold holds. cbn. now rewrite E.
      * split; cbn; auto.
    + destruct (dget jeqb (mem w) q) as [v|] eqn:D.
      * apply inv_put; auto; [apply lock_same; auto; unfold holds; cbn; now rewrite E|]. split; cbn; auto.
      * apply inv_put; auto; [apply lock_same; auto; unfold holds; cbn; now rewrite E|]. split; cbn; auto. split; auto. split; auto. intros v Q. now constructor.
    + destruct c as [v|q' k]; (apply inv_put; auto; [apply lock_same; auto; unfold holds; cbn; now rewrite E|]); split; cbn; auto; destruct K as [K1 K2].
      * split; auto. apply K1. constructor.
      * split; auto. split; [apply K2; constructor|]. split; [|split; auto].
        -- intros u Q v Q'. apply K1. econstructor; eauto.
        -- intros u q2 Q. apply K2. econstructor; eauto.
    + apply inv_put; auto; [apply lock_same; auto; unfold holds; cbn; now rewrite E| |].
      * split; cbn; auto.
      * intros q' v'. destruct (jeqb q q') eqn:Q.
        -- apply jeq in Q. subst. rewrite (dget_dset_same jeqb jeq). intros Z; injection Z as <-. auto.
        -- rewrite (dget_dset_other jeqb jeq) by (intros ->; rewrite (proj2 (jeq q' q') eq_refl) in Q; discriminate). apply M.
    + destruct (stack (threads w i)) as [|[q' k] st] eqn:St.
      * apply inv_put; auto; [apply lock_rel; auto; unfold holds; cbn; now rewrite E, St|]. split; cbn; auto.
        intros q' v' Q. apply in_app_or in Q as [Q|[Q|[]]]; auto. injection Q as <- <-. auto.
      * apply inv_put; auto; [apply lock_rel; auto; unfold holds; cbn; now rewrite E, St|]. cbn [chain] in C. destruct C as (C1 & C2 & C3 & C4).
        split; cbn; auto. split; auto. split; [intros u Q; eauto|intros q2 Q; eauto].
  - destruct T as [St O]. destruct (todo (threads w i)) as [|q qs]; auto. apply inv_put; auto; [apply lock_same; auto; unfold holds; cbn; now rewrite E, St|].
    split; cbn; auto.
Qed.
Lemma ddel_get (d : list (J * V)) q q' v : NoDup (dkeys d) -> dget jeqb (ddel jeqb d q) q' = Some v -> dget jeqb d q' = Some v.
Proof.
  intros N H. destruct (jeqb q q') eqn:Q.
  - apply jeq in Q. subst. rewrite (dget_ddel_same jeqb jeq) in H by auto. discriminate.
  - rewrite (dget_ddel_other jeqb jeq) in H; auto. intros ->. rewrite (proj2 (jeq q' q') eq_refl) in Q. discriminate.
Qed.
Lemma go_nodup w i : NoDup (dkeys (mem w)) -> NoDup (dkeys (mem (go w i))).
Proof.
  intros N. unfold Flight_model.go. destruct (now (threads w i)) as [[q|q|q [v|q' k]|q v|q v]|]; cbn; auto.
  - destruct (acquire _ _ _); auto.
  - destruct (dget jeqb (mem w) q); auto.
  - now apply (nodup_dset jeqb jeq).
  - destruct (todo _); auto.
Qed.
Lemma happen_inv w e : inv w -> NoDup (dkeys (mem w)) -> inv (happen w e) /\ NoDup (dkeys (mem (happen w e))).
Proof.
  intros I N. destruct e as [i|q]; cbn [Flight_model.happen].
  - split; [now apply go_inv|now apply go_nodup].
  - split; [|cbn; now apply nodup_ddel]. destruct I as [A B C]. split; auto. cbn. intros q' v H. apply C. eapply ddel_get; eauto.
Qed.
Lemma start_inv jobs : inv (start V jobs) /\ NoDup (dkeys (mem (start V jobs))).
Proof.
  split; [|constructor]. split.
  - split; [constructor|]. cbn. reflexivity.
  - intros i. split; cbn; auto. tauto.
  - cbn. discriminate.
Qed.
Lemma run_app w es es' : run w (es ++ es') = run (run w es) es'.
Proof. unfold Flight_model.run. apply fold_left_app. Qed.
Lemma run_inv jobs es : inv (run (start V jobs) es) /\ NoDup (dkeys (mem (run (start V jobs) es))).
Proof.
  induction es as [|e es IH] using rev_ind; [apply start_inv|]. rewrite run_app. cbn. apply happen_inv; apply IH.
Qed.
Lemma answers jobs es i q v : In (q, v) (outs (threads (run (start V jobs) es) i)) -> value q v.
Proof. destruct (run_inv jobs es) as [I _]. destruct (i_thr I i) as [_ O]. apply O. Qed.

(** once *)
Variable level : J -> nat.
Definition descends := forall q q', men (body q) q' -> level q' < level q.
Definition running (t : thread) : list J := match now t with Some (Run q _) => [q] | Some (Store q _) => [q] | _ => [] end ++ map fst (stack t).
Definition once (w : world) := NoDup (started w) /\ forall q, In q (started w) -> (exists v, dget jeqb (mem w) q = Some v) \/ exists i, In q (running (threads w i)).
Lemma once_put w l m s i t : once w -> s = started w -> (forall q v, dget jeqb (mem w) q = Some v -> exists v', dget jeqb m q = Some v') ->
  (forall q, In q (running (threads w i)) -> In q (running t) \/ exists v, dget jeqb m q = Some v) -> once (put w l m s i t).
Proof.
  intros [N O] -> M R. split; auto. intros q I. destruct (O q I) as [[v H]|[j H]]; [left; eapply M; eauto|].
  destruct (Nat.eq_dec j i) as [->|Ne].
  - destruct (R q H) as [H'|H']; auto. right. exists i. now rewrite put_same.
  - right. exists j. now rewrite put_other.
Qed.
Lemma chain_level q st : descends -> chain q st -> forall f, In f st -> level q < level (fst f).
Proof.
  intros D. revert q. induction st as [|[q1 k] st IH]; intros q C f I; [destruct I|]. cbn [chain] in C. destruct C as (C1 & _ & _ & C2).
  destruct I as [<-|I]; [now apply D|]. apply D in C1. specialize (IH _ C2 f I). lia.
Qed.
Lemma running_holds t q : In q (running t) -> 0 < cnt (cache_of q) (holds t).
Proof.
  intros I. unfold cnt. apply count_occ_In. unfold running, holds in *. apply in_app_or in I as [I|I].
  - apply in_or_app. left. destruct (now t) as [[q'|q'|q' c|q' v|q' v]|]; cbn in *; try tauto; destruct I as [<-|[]]; auto.
  - apply in_or_app. right. apply in_map_iff in I as (f & <- & I). apply in_map_iff. eauto.
Qed.
Lemma holder_unique w i j c : lock_ok w -> 0 < cnt c (holds (threads w i)) -> 0 < cnt c (holds (threads w j)) -> i = j.
Proof.
  intros [_ L] A B. specialize (L c). destruct (dgl (locks w) c) as [[o n]|]; [|specialize (L i); lia].
  destruct L as (_ & _ & C). destruct (Nat.eq_dec i o) as [->|Ni]; [|specialize (C i Ni); lia]. destruct (Nat.eq_dec j o) as [->|Nj]; auto. specialize (C j Nj); lia.
Qed.
Lemma go_once w i : descends -> inv w -> once w -> once (go w i).
Proof.
  intros D I O. pose proof (i_thr I i) as T. unfold Flight_model.go, thread_ok in *.
  destruct (now (threads w i)) as [ctl|] eqn:E.
  - destruct T as [[C K] _]. destruct ctl as [q|q|q c|q v|q v]; cbn [job_of ctl_ok] in *.
    + destruct (acquire (locks w) (cache_of q) i) as [l|] eqn:A; auto. apply once_put; eauto. unfold running. cbn. rewrite E. auto.
    + destruct (dget jeqb (mem w) q) as [v|] eqn:Dm.
      * apply once_put; eauto. unfold running. cbn. rewrite E. auto.
      * destruct O as [N O]. assert (Nq : ~ In q (started w)).
        { intros Q. destruct (O q Q) as [[v H]|[j H]]; [congruence|].
          assert (j = i). { apply (@holder_unique w j i (cache_of q) (i_lock I)); [now apply running_holds|]. unfold holds. rewrite E. cbn [here app]. rewrite cnt_cons. lia. }
          subst j. unfold running in H. rewrite E in H. cbn [app] in H. apply in_map_iff in H as (f & F1 & F2).
          pose proof (@chain_level _ _ D C _ F2) as Lv. rewrite F1 in Lv. lia. }
        split; [constructor; auto|]. intros q' [<-|Q].
        -- right. exists i. rewrite put_same. unfold running. cbn. auto.
        -- destruct (O q' Q) as [H|[j H]]; auto. right. exists j. destruct (Nat.eq_dec j i) as [->|Ne]; [|now rewrite put_other].
           rewrite put_same. unfold running in *. rewrite E in H. cbn in *. auto.
    + destruct c as [v|q' k]; apply once_put; eauto; unfold running; cbn; rewrite E; cbn; auto.
    + apply once_put; auto.
      * intros q' v' H. destruct (jeqb q q') eqn:Q.
        -- apply jeq in Q. subst. rewrite (dget_dset_same jeqb jeq). eauto.
        -- rewrite (dget_dset_other jeqb jeq) by (intros ->; rewrite (proj2 (jeq q' q') eq_refl) in Q; discriminate). eauto.
      * unfold running. cbn. rewrite E. cbn. intros q' [<-|Q]; auto. right. rewrite (dget_dset_same jeqb jeq). eauto.
    + destruct (stack (threads w i)) as [|[q' k] st] eqn:St; apply once_put; eauto; unfold running; cbn; rewrite E, St; cbn; auto.
  - destruct T as [St _]. destruct (todo (threads w i)) as [|q qs]; auto. apply once_put; eauto. unfold running. cbn. rewrite E, St. cbn. auto.
Qed.
Lemma once_run jobs es : descends -> (forall q, ~ In (Drop q) es) -> NoDup (started (run (start V jobs) es)).
Proof.
  intros D. assert (G : (forall q, ~ In (Drop q) es) -> once (run (start V jobs) es)); [|intros H; apply (G H)].
  induction es as [|e es IH] using rev_ind; intros H.
  - split; [constructor|]. cbn. tauto.
  - rewrite run_app. cbn. destruct e as [i|q].
    + apply go_once; auto; [apply run_inv|]. apply IH. intros q Q. apply (H q). apply in_or_app; auto.
    + exfalso. apply (H q). apply in_or_app. right. now left.
Qed.

(** progress *)
Variable rank : nat -> nat.
Definition ordered := forall q q', men (body q) q' -> cache_of q' = cache_of q \/ rank (cache_of q) < rank (cache_of q').
Lemma chain_rank q st : ordered -> chain q st -> forall f, In f st -> cache_of q = cache_of (fst f) \/ rank (cache_of (fst f)) < rank (cache_of q).
Proof.
  intros D. revert q. induction st as [|[q1 k] st IH]; intros q C f I; [destruct I|]. cbn [chain] in C. destruct C as (C1 & _ & _ & C2).
  apply D in C1. destruct I as [<-|I]; [cbn; destruct C1; auto|]. specialize (IH _ C2 f I). destruct C1 as [E|L], IH as [E'|L'].
  - left. congruence.
  - right. congruence.
  - right. rewrite <- E'. auto.
  - right. lia.
Qed.
Lemma free_or_blocked w i : inv w -> ~ finished (threads w i) -> (~ blocked cache_of w i) \/
  exists q o n, now (threads w i) = Some (Want q) /\ dgl (locks w) (cache_of q) = Some (o, n) /\ o <> i.
Proof.
  intros I _. unfold blocked. destruct (now (threads w i)) as [[q|q|q c|q v|q v]|] eqn:E; try (left; intros (q' & o & n & Q & _); discriminate).
  destruct (dgl (locks w) (cache_of q)) as [[o n]|] eqn:D.
  - destruct (Nat.eq_dec o i) as [->|Ne]; [|right; exists q, o, n; auto]. left. intros (q' & o & n' & Q & Q' & N). injection Q as <-. congruence.
  - left. intros (q' & o & n' & Q & Q' & N). injection Q as <-. congruence.
Qed.
Lemma in_max (l : list nat) x : In x l -> x <= list_max l.
Proof. intros I. induction l as [|y l IH]; [destruct I|]. change (list_max (y :: l)) with (Nat.max y (list_max l)). destruct I as [->|I]; [lia|]. specialize (IH I). lia. Qed.
Lemma progress w i : ordered -> inv w -> ~ finished (threads w i) -> exists j, ~ finished (threads w j) /\ ~ blocked cache_of w j.
Proof.
  intros Or I Nf. destruct (free_or_blocked i I Nf) as [F|(q & o & n & E & D & Ne)]; eauto.
  assert (B : forall c x, dgl (locks w) c = Some x -> rank c <= list_max (map rank (dkeys (locks w)))).
  { intros c x H. apply in_max. apply in_map. apply (dget_in Nat.eqb neq_spec) in H. unfold dkeys. apply in_map_iff. exists (c, x). auto. }
  clear E Nf. remember (list_max (map rank (dkeys (locks w))) - rank (cache_of q)) as m eqn:Em.
  assert (Nb : ~ finished (threads w o) /\ 0 < cnt (cache_of q) (holds (threads w o))).
  { destruct (i_lock I) as [_ L]. specialize (L (cache_of q)). rewrite D in L. destruct L as (A & P & _). split; [|lia]. intros [F1 F2].
    destruct (i_thr I o) as [T _]. rewrite F1 in T. unfold holds in A. rewrite F1, T in A. cbn in A. lia. }
  clear Ne i. revert q o n D Em Nb. induction m as [m IH] using lt_wf_ind. intros q o n D Em [Nf Ho].
  destruct (free_or_blocked o I Nf) as [F|(q2 & o2 & n2 & E2 & D2 & Ne2)]; eauto.
  destruct (i_thr I o) as [T _]. rewrite E2 in T. cbn [job_of] in T. destruct T as [C _].
  assert (L2 : forall c, 0 < cnt c (holds (threads w o)) -> exists n', dgl (locks w) c = Some (o, n')).
  { intros c P. destruct (i_lock I) as [_ L]. specialize (L c). destruct (dgl (locks w) c) as [[o' n']|].
    - destruct L as (_ & _ & Z). destruct (Nat.eq_dec o o') as [->|No]; eauto. specialize (Z o No). lia.
    - specialize (L o). lia. }
  unfold cnt in Ho. apply count_occ_In in Ho. unfold holds in Ho. rewrite E2 in Ho. cbn [here app] in Ho. apply in_map_iff in Ho as (f & F1 & F2).
  destruct (@chain_rank _ _ Or C f F2) as [Q|Q].
  - exfalso. destruct (L2 (cache_of q2)) as [n' H]; [|congruence]. unfold cnt. apply count_occ_In. unfold holds. apply in_or_app. right. apply in_map_iff. exists f. auto.
  - rewrite F1 in Q. pose proof (B _ _ D) as B1. pose proof (B _ _ D2) as B2. eapply (IH (list_max (map rank (dkeys (locks w))) - rank (cache_of q2))); [lia|exact D2|reflexivity|].
    destruct (i_lock I) as [_ L]. specialize (L (cache_of q2)). rewrite D2 in L. destruct L as (A & P & _). split; [|lia]. intros [G1 G2].
    destruct (i_thr I o2) as [T2 _]. rewrite G1 in T2. unfold holds in A. rewrite G1, T2 in A. cbn in A. lia.
Qed.
Lemma progress_run jobs es i : ordered -> ~ finished (threads (run (start V jobs) es) i) ->
  exists j, ~ finished (threads (run (start V jobs) es) j) /\ ~ blocked cache_of (run (start V jobs) es) j.
Proof. intros Or. apply progress; auto. apply run_inv. Qed.
Lemma unblocked_moves w j : ~ finished (threads w j) -> ~ blocked cache_of w j -> can_go cache_of w j = true /\ now (threads (go w j) j) <> now (threads w j).
Proof.
  intros Nf Nb. unfold can_go, Flight_model.go. destruct (now (threads w j)) as [[q|q|q c|q v|q v]|] eqn:E.
  - unfold acquire. destruct (dgl (locks w) (cache_of q)) as [[o n]|] eqn:D.
    + destruct (Nat.eqb_spec o j) as [->|Ne]; [|exfalso; apply Nb; exists q, o, n; auto]. rewrite put_same. split; auto. discriminate.
    + rewrite put_same. split; auto. discriminate.
  - split; auto. destruct (dget jeqb (mem w) q); rewrite put_same; discriminate.
  - split; auto. destruct c; rewrite put_same; discriminate.
  - split; auto. rewrite put_same; discriminate.
  - split; auto. rewrite put_same. destruct (stack _) as [|[]]; discriminate.
  - destruct (todo (threads w j)) eqn:T; [exfalso; apply Nf; split; auto|]. split; auto. rewrite put_same. discriminate.
Qed.
Lemma all_done jobs es : let w := run (start V jobs) es in (forall i, finished (threads w i)) -> locks w = [].
Proof.
  cbv zeta. intros F. destruct (run_inv jobs es) as [I _]. destruct (i_lock I) as [_ L]. destruct (locks (run (start V jobs) es)) as [|[c x] l] eqn:E; auto.
  specialize (L c). cbn in L. rewrite Nat.eqb_refl in L. destruct x as [o n]. destruct L as (A & P & _). destruct (F o) as [F1 _]. destruct (i_thr I o) as [T _]. rewrite F1 in T.
  unfold holds in A. rewrite F1, T in A. cbn in A. lia.
Qed.

(** number of steps *)
Lemma value_fun q v : value q v -> forall v', value q v' -> v = v'.
Proof.
  intros H. revert q v H. apply (@value_mut J V body (fun q v => forall v', value q v' -> v = v') (fun c v => forall v', ends c v' -> v = v')).
  - intros q v _ IH v' Q. inversion Q; subst. auto.
  - intros v v' Q. now inversion Q.
  - intros q next w v _ IH1 _ IH2 v' Q. inversion Q; subst. assert (w = w0) by auto. subst. auto.
Qed.
Scheme takes_mut := Minimality for Flight_spec.takes Sort Prop
with spends_mut := Minimality for Flight_spec.spends Sort Prop.
Lemma takes_value q v n : takes body q v n -> value q v.
Proof.
  intros H. revert q v n H. apply (@takes_mut J V body (fun q v _ => value q v) (fun c v _ => ends c v)).
  - intros. now constructor.
  - constructor.
  - intros. econstructor; eauto.
Qed.
Inductive rest : J -> list (J * (V -> comp J V)) -> nat -> Prop :=
| rest_nil q : rest q [] 0
| rest_cons q q1 k st w v m n : value q w -> spends body (k w) v m -> rest q1 st n -> rest q ((q1, k) :: st) (m + 3 + n).
Definition ahead (c : control J V) (n : nat) : Prop :=
  match c with
  | Want q => exists v m, takes body q v m /\ m <= n
  | Inside q => exists v m, takes body q v m /\ m <= S n
  | Run q c => exists v m, spends body c v m /\ m + 3 <= n
  | Store _ _ => 2 <= n
  | Leave _ _ => 1 <= n
  end.
Variable cost : J -> nat.
Definition due (l : list J) : nat := list_sum (map (fun q => S (cost q)) l).
Definition budget (t : thread) (n : nat) : Prop := (forall q, In q (todo t) -> exists v, takes body q v (cost q)) /\
  exists a b, a + b + due (todo t) <= n /\ match now t with None => True | Some c => ahead c a /\ rest (job_of c) (stack t) b end.
Lemma budget_go w i n : inv w -> budget (threads w i) n -> budget (threads (go w i) i) (n - (if can_go cache_of w i then 1 else 0)) /\ (can_go cache_of w i = true -> 0 < n).
Proof.
  intros I [T (a & b & Hn & H)]. pose proof (i_thr I i) as Th. unfold thread_ok in Th. unfold can_go, Flight_model.go. destruct (now (threads w i)) as [ctl|] eqn:E.
  - destruct Th as [[C K] _]. destruct H as [A R]. destruct ctl as [q|q|q c|q v|q v]; cbn [job_of ahead ctl_ok] in *.
    + destruct (acquire (locks w) (cache_of q) i) as [l|] eqn:Ac.
      * destruct A as (v & m & A & Le). inversion A as [? ? m' Hm]; subst. split; [|lia]. rewrite put_same. split; auto. exists (a - 1), b. split; [cbn [todo at_]; lia|].
        cbn. split; auto. exists v, (5 + m'). split; auto; lia.
      * split; [|discriminate]. rewrite Nat.sub_0_r. split; auto. exists a, b. rewrite E. auto.
    + destruct A as (v & m & A & Le). inversion A as [? ? m' Hm]; subst. split; [|lia].
      destruct (dget jeqb (mem w) q) as [u|]; rewrite put_same; (split; [exact T|]); exists (a - 1), b; (split; [cbn [todo at_]; lia|]); cbn; split; auto; try lia.
      exists v, m'. split; auto; lia.
    + destruct A as (v & m & A & Le). destruct c as [u|q' k]; rewrite put_same.
      * split; [|lia]. split; [exact T|]. exists (a - 1), b. split; [cbn [todo at_]; lia|]. cbn. split; auto; lia.
      * inversion A as [|? ? w' ? n1 m1 A1 A2]; subst. split; [|lia]. split; [exact T|]. exists n1, (m1 + 3 + b). split; [cbn [todo at_]; lia|]. cbn. split.
        -- exists w', n1. auto.
        -- econstructor; eauto. eapply takes_value; eauto.
    + split; [|lia]. rewrite put_same. split; [exact T|]. exists (a - 1), b. split; [cbn [todo at_]; lia|]. cbn. split; auto; lia.
    + split; [|lia]. rewrite put_same. destruct (stack (threads w i)) as [|[q' k] st] eqn:St.
      * split; [exact T|]. exists 0, 0. split; [cbn [todo at_]; lia|]. cbn. auto.
      * inversion R as [|? ? ? ? w' v' m n' R1 R2 R3]; subst. assert (v = w') by (eapply value_fun; eauto). subst w'.
        split; [exact T|]. exists (m + 3), n'. split; [cbn [todo at_]; lia|]. cbn. split; auto. exists v', m. auto.
  - destruct Th as [St _]. destruct (todo (threads w i)) as [|q qs] eqn:Td.
    + split; [|discriminate]. rewrite Nat.sub_0_r. split; [rewrite Td; auto|]. exists a, b. rewrite E, Td. auto.
    + rewrite put_same. unfold due in Hn. cbn [map list_sum fold_right Nat.add] in Hn. fold (due qs) in Hn. assert (Hs : a + b + S (cost q + due qs) <= n) by exact Hn. split; [|lia]. split; [intros q' Q; apply T; now right|]. destruct (T q (or_introl eq_refl)) as [v A].
      exists (cost q), 0. split; [cbn [todo]; lia|]. cbn. split; [exists v, (cost q); auto|constructor].
Qed.
Lemma go_other w i j : j <> i -> threads (go w i) j = threads w j.
Proof.
  intros Ne. unfold Flight_model.go. destruct (now (threads w i)) as [[q|q|q [v|q' k]|q v|q v]|]; try (now apply put_other).
  - destruct (acquire _ _ _); auto. now apply put_other.
  - destruct (dget _ _ _); now apply put_other.
  - destruct (todo _); auto. now apply put_other.
Qed.
Lemma budget_moves es w i n : inv w -> NoDup (dkeys (mem w)) -> budget (threads w i) n -> moves jeqb body cache_of w es i <= n.
Proof.
  revert w n. induction es as [|e es IH]; intros w n I N B; [cbn; lia|]. cbn [moves]. destruct (happen_inv e I N) as [I' N'].
  destruct e as [j|q].
  - destruct (Nat.eqb_spec j i) as [->|Ne]; cbn [andb].
    + destruct (@budget_go w i n I B) as [B' P]. specialize (IH _ _ I' N' B'). destruct (can_go cache_of w i); [specialize (P eq_refl); lia|lia].
    + cbn [Nat.add]. apply IH; auto. cbn [Flight_model.happen]. rewrite go_other by auto. auto.
  - cbn [Nat.add]. apply IH; auto.
Qed.
Lemma moves_bound jobs es i : (forall q, In q (jobs i) -> exists v, takes body q v (cost q)) -> moves jeqb body cache_of (start V jobs) es i <= due (jobs i).
Proof.
  intros T. destruct (start_inv jobs) as [I N]. apply budget_moves; auto. split; auto. exists 0, 0. cbn. split; auto.
Qed.

Lemma idle_run jobs es i : jobs i = [] -> finished (threads (run (start V jobs) es) i).
Proof.
  intros H. induction es as [|e es IH] using rev_ind; [split; auto|]. rewrite run_app. destruct e as [j|q]; [|exact IH].
  change (run (run (start V jobs) es) [Go j]) with (go (run (start V jobs) es) j).
  destruct (Nat.eq_dec i j) as [<-|Ne]; [|now rewrite go_other]. destruct IH as [A B]. unfold Flight_model.go. rewrite A, B. split; auto.
Qed.
Lemma finished_dec (t : thread) : {finished t} + {~ finished t}.
Proof. unfold finished. destruct (now t), (todo t); try (right; intros [A B]; congruence); left; auto. Qed.
Lemma some_unfinished (w : world) n : (forall i, i < n -> finished (threads w i)) \/ exists i, i < n /\ ~ finished (threads w i).
Proof.
  induction n as [|n [IH|(i & A & B)]]; [left; lia| |right; exists i; split; auto].
  destruct (finished_dec (threads w n)) as [F|F]; [left|right; exists n; auto]. intros i L. destruct (Nat.eq_dec i n) as [->|]; auto. apply IH. lia.
Qed.
Definition upto (f : nat -> nat) n := list_sum (map f (seq 0 n)).
Lemma upto_S f n : upto f (S n) = upto f n + f n.
Proof. unfold upto. rewrite seq_S, map_app, list_sum_app. cbn. lia. Qed.
Lemma upto_dec f g n j : j < n -> g j < f j -> (forall i, i <> j -> g i = f i) -> upto g n < upto f n.
Proof.
  intros L G E. induction n as [|n IH]; [lia|]. rewrite !upto_S. destruct (Nat.eq_dec j n) as [->|Ne]; [|rewrite (E n) by auto; assert (upto g n < upto f n) by (apply IH; lia); lia].
  assert (upto g n = upto f n); [|lia]. unfold upto. f_equal. apply map_ext_in. intros i I. apply in_seq in I. apply E. lia.
Qed.
Lemma drive jobs n : ordered -> (forall i, n <= i -> jobs i = []) -> forall m es f, upto f n = m -> (forall i, i < n -> budget (threads (run (start V jobs) es) i) (f i)) ->
  exists es', (forall e, In e es' -> exists i, e = Go i) /\ forall i, finished (threads (run (start V jobs) (es ++ es')) i).
Proof.
  intros Or Idle m. induction m as [m IH] using lt_wf_ind. intros es f Em B.
  destruct (some_unfinished (run (start V jobs) es) n) as [F|(i & Li & F)].
  - exists []. split; [intros e []|]. rewrite app_nil_r. intros i. destruct (le_lt_dec n i) as [L|L]; auto. apply idle_run; auto.
  - destruct (@progress_run jobs es i Or F) as (j & Fj & Bj). assert (Lj : j < n).
    { destruct (le_lt_dec n j) as [L|L]; auto. exfalso. apply Fj. apply idle_run; auto. }
    destruct (@unblocked_moves _ j Fj Bj) as [Cg _]. destruct (run_inv jobs es) as [I _].
    destruct (@budget_go _ j (f j) I (B j Lj)) as [B' P]. rewrite Cg in B'. specialize (P Cg).
    set (g := fun x => if x =? j then f j - 1 else f x).
    assert (Eg : run (start V jobs) (es ++ [Go j]) = go (run (start V jobs) es) j) by (rewrite run_app; reflexivity).
    destruct (IH (upto g n)) with (es := es ++ [Go j]) (f := g) as (es' & E1 & E2).
    + rewrite <- Em. apply upto_dec with j; auto; unfold g; [rewrite Nat.eqb_refl; lia|]. intros x Nx. now rewrite (proj2 (Nat.eqb_neq x j)).
    + reflexivity.
    + intros x Lx. rewrite Eg. unfold g. destruct (Nat.eqb_spec x j) as [->|Nx]; auto. rewrite go_other by auto. auto.
    + exists (Go j :: es'). split; [intros e [<-|Q]; eauto|]. intros x. specialize (E2 x). now rewrite <- app_assoc in E2.
Qed.
Lemma budget_run jobs es i : (forall q, In q (jobs i) -> exists v, takes body q v (cost q)) -> exists n, budget (threads (run (start V jobs) es) i) n.
Proof.
  intros T. induction es as [|e es [n IH]] using rev_ind.
  - exists (due (jobs i)). split; auto. exists 0, 0. cbn. auto.
  - rewrite run_app. destruct e as [j|q]; [|exists n; exact IH]. change (run (run (start V jobs) es) [Go j]) with (go (run (start V jobs) es) j).
    destruct (Nat.eq_dec i j) as [<-|Ne]; [|exists n; now rewrite go_other]. destruct (run_inv jobs es) as [I _]. destruct (@budget_go _ i n I IH) as [B _]. eauto.
Qed.

(** answers in order *)
Definition root (c : control J V) (st : list (J * (V -> comp J V))) : J := last (map fst st) (job_of c).
Definition line (t : thread) : list J := map fst (outs t) ++ match now t with None => [] | Some c => [root c (stack t)] end ++ todo t.
Lemma last_def (l : list J) x a b : last (x :: l) a = last (x :: l) b.
Proof. revert x. induction l as [|y l IH]; intros x; auto. change (last (y :: l) a = last (y :: l) b). auto. Qed.
Lemma go_line w i : inv w -> line (threads (go w i) i) = line (threads w i).
Proof.
  intros I. pose proof (i_thr I i) as T. unfold Flight_model.go, thread_ok in *. destruct (now (threads w i)) as [ctl|] eqn:E.
  - destruct T as [[C _] _]. destruct ctl as [q|q|q c|q v|q v]; cbn [job_of] in *.
    + destruct (acquire _ _ _); auto. rewrite put_same. unfold line. now rewrite E.
    + destruct (dget _ _ _); rewrite put_same; unfold line; now rewrite E.
    + destruct c as [v|q' k]; rewrite put_same; unfold line; rewrite E; cbn [now stack outs todo at_]; auto.
      do 3 f_equal. unfold root. cbn [map fst job_of]. destruct (stack (threads w i)) as [|f st]; auto. change (last (map fst (f :: st)) q' = last (map fst (f :: st)) q). cbn [map]. apply last_def.
    + rewrite put_same. unfold line. now rewrite E.
    + rewrite put_same. unfold line. rewrite E. destruct (stack (threads w i)) as [|[q' k] st] eqn:St; cbn [now stack outs todo].
      * rewrite map_app. cbn. now rewrite <- app_assoc.
      * do 3 f_equal. unfold root. cbn [map fst job_of]. destruct st as [|f st]; auto. change (last (map fst (f :: st)) q' = last (map fst (f :: st)) q). cbn [map]. apply last_def.
  - destruct T as [St _]. destruct (todo (threads w i)) as [|q qs] eqn:Td; auto. rewrite put_same. unfold line. rewrite E, Td. cbn. auto.
Qed.
Lemma line_run jobs es i : line (threads (run (start V jobs) es) i) = jobs i.
Proof.
  induction es as [|e es IH] using rev_ind; auto. rewrite run_app. destruct e as [j|q]; [|exact IH]. change (run (run (start V jobs) es) [Go j]) with (go (run (start V jobs) es) j).
  destruct (Nat.eq_dec i j) as [<-|Ne]; [|now rewrite go_other]. rewrite go_line; auto. apply run_inv.
Qed.
Lemma finished_outs jobs es i : finished (threads (run (start V jobs) es) i) -> Forall2 (fun q a => fst a = q /\ value q (snd a)) (jobs i) (outs (threads (run (start V jobs) es) i)).
Proof.
  intros [A B]. rewrite <- (line_run jobs es i) at 1. unfold line. rewrite A, B, app_nil_l, app_nil_r. assert (G : forall q v, In (q, v) (outs (threads (run (start V jobs) es) i)) -> value q v) by (intros; eapply answers; eauto).
  induction (outs (threads (run (start V jobs) es) i)) as [|[q v] l IH]; cbn; constructor; cbn; auto.
  - split; auto. apply G. now left.
  - apply IH. intros. apply G. now right.
Qed.
(** deadlock *)
Definition waits (w : world) (i j : nat) := exists q n, now (threads w i) = Some (Want q) /\ dgl (locks w) (cache_of q) = Some (j, n).
Lemma go_lock w k c o n : inv w -> dgl (locks w) c = Some (o, n) -> o <> k -> dgl (locks (go w k)) c = Some (o, n).
Proof.
  intros I D Ne. unfold Flight_model.go. destruct (now (threads w k)) as [[q|q|q [v|q' f]|q v|q v]|] eqn:E; auto.
  - destruct (acquire (locks w) (cache_of q) k) as [l|] eqn:A; auto. cbn. rewrite <- D. destruct (Nat.eq_dec c (cache_of q)) as [->|Nc].
    + unfold acquire in A. rewrite D in A. rewrite (proj2 (Nat.eqb_neq o k)) in A by auto. discriminate.
    + eapply acq_other; eauto.
  - now destruct (dget jeqb (mem w) q).
  - cbn [locks put]. assert (Nc : c <> cache_of q).
    { intros ->. apply Ne. apply (@holder_unique w o k (cache_of q) (i_lock I)).
      - destruct (i_lock I) as [_ L]. specialize (L (cache_of q)). rewrite D in L. destruct L as (A & P & _). lia.
      - unfold holds. rewrite E. cbn [here app]. rewrite cnt_cons. lia. }
    unfold release. destruct (dgl (locks w) (cache_of q)) as [[o' [|[|m]]]|]; try (now rewrite (dget_ddel_other Nat.eqb neq_spec) by auto); now rewrite (dget_dset_other Nat.eqb neq_spec) by auto.
  - destruct (todo _); auto.
Qed.
Lemma waits_go w i j k : inv w -> i <> j -> waits w i j -> waits w j i -> waits (go w k) i j.
Proof.
  intros I Ne (q & n & A & B) (q' & n' & A' & B'). destruct (Nat.eq_dec k i) as [->|Ni].
  - exists q, n. unfold Flight_model.go. rewrite A. unfold acquire. rewrite B, (proj2 (Nat.eqb_neq j i)); auto.
  - destruct (Nat.eq_dec k j) as [->|Nj].
    + exists q, n. unfold Flight_model.go. rewrite A'. unfold acquire. rewrite B', (proj2 (Nat.eqb_neq i j)); auto.
    + exists q, n. rewrite go_other by auto. split; auto. apply go_lock; auto.
Qed.
Lemma waits_run jobs es es' i j : i <> j -> waits (run (start V jobs) es) i j -> waits (run (start V jobs) es) j i ->
  waits (run (start V jobs) (es ++ es')) i j /\ waits (run (start V jobs) (es ++ es')) j i.
Proof.
  intros Ne A B. induction es' as [|e es' [IA IB]] using rev_ind; [now rewrite app_nil_r|]. rewrite app_assoc, run_app. destruct e as [k|q]; [|split; assumption].
  destruct (run_inv jobs (es ++ es')) as [I _]. change (run (run (start V jobs) (es ++ es')) [Go k]) with (go (run (start V jobs) (es ++ es')) k). split; apply waits_go; auto.
Qed.
End S.
Section Takes.
Variables J V : Type.
Variable body : J -> comp J V.
Variable level : J -> nat.
Lemma takes_total : descends body level -> forall q, exists v n, takes body q v n.
Proof.
  intros D q. remember (level q) as m eqn:Em. revert q Em. induction m as [m IH] using lt_wf_ind. intros q ->.
  assert (G : forall c, (forall q', mentions c q' -> mentions (body q) q') -> exists v n, spends body c v n).
  { induction c as [v|q' k IHk]; intros M.
    - exists v, 0. constructor.
    - destruct (IH (level q')) with (q := q') as (w & n & T); auto. { apply D. apply M. constructor. }
      destruct (IHk w) as (v & m & Sp). { intros q2 Q. apply M. econstructor; eauto. }
      exists v, (S (n + m)). econstructor; eauto. }
  destruct (G (body q)) as (v & n & Sp); auto. exists v, (5 + n). now constructor.
Qed.
End Takes.
