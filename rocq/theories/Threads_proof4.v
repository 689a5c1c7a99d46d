(** A call that never returns blocks the synchronized calls of every thread; calls without the lock. *)
From Verif Require Import Py PyLemmas Cache_spec Cache_model Cache_proof1 Cache_proof2 Cache_proof3 Cachem_spec Cachem_proof Threads_spec Threads_model Threads_proof Threads_proof2 Threads_proof3.
Set Implicit Arguments.

Section T.
Variables K V : Type.
Variable keqb : K -> K -> bool.
Hypothesis keq : forall x y, keqb x y = true <-> x = y.
Variable none_key : K.
Notation cache := (cache K V). Notation prog := (prog K V). Notation top := (top K V). Notation sop := (sop K V).
Notation method := (method keqb none_key). Notation tstep := (tstep keqb none_key). Notation run := (run keqb none_key).
Notation seq_op := (seq_op keqb none_key). Notation seq_run := (seq_run keqb none_key).
Notation world := (world K V). Notation thread := (thread K V).
Notation fin := (@fin K V). Notation account := (account keqb none_key).

Lemma run_grows s : forall (w : world) i, exists l, outs (threads (run w s) i) = outs (threads w i) ++ l.
Proof.
  induction s as [|j s IH]; intros w i.
  - exists []. now rewrite app_nil_r.
  - rewrite run_cons. destruct (IH (tstep w j) i) as [l E]. destruct (@tstep_grows K V keqb none_key w j i) as [l' E'].
    exists (l' ++ l). now rewrite E, E', app_assoc.
Qed.
Lemma kind_len (done : list top) outs : Forall2 (@in_kind K V) done outs -> length done = length outs.
Proof. induction 1; cbn; congruence. Qed.
Lemma blocked_outs progs (w w' : world) h i o rest :
  book progs w h i -> book progs w' h i -> pend (threads w i) = [] -> todo (threads w i) = TSync o :: rest ->
  (exists l, outs (threads w' i) = outs (threads w i) ++ l) -> outs (threads w' i) = outs (threads w i).
Proof.
  intros (d1 & P1 & K1 & E1) (d2 & P2 & K2 & E2) Pn T (l & El). destruct l as [|a l]; [now rewrite El, app_nil_r|exfalso].
  assert (Ex : exists d3, d2 = d1 ++ TSync o :: d3).
  { rewrite P1, T in P2. assert (L : length d1 < length d2).
    { rewrite (kind_len K1), (kind_len K2), El, app_length. cbn. lia. }
    clear - P2 L. revert d2 P2 L. induction d1 as [|t d1 IH]; intros [|t2 d2] P L; cbn in L; try lia.
    - cbn in P. injection P as <- _. exists d2. reflexivity.
    - cbn in P. injection P as <- P. destruct (IH d2 P ltac:(lia)) as [d3 ->]. exists d3. reflexivity. }
  destruct Ex as [d3 ->]. rewrite El in K2, E2. rewrite Pn, app_nil_r in E1. rewrite E1 in E2.
  rewrite synced_app in E2 by (apply kind_len; exact K1).
  apply Forall2_app_inv_l in K2 as (o1 & o2 & K21 & K22 & Eo).
  assert (Lo : o1 = outs (threads w i)).
  { apply kind_len in K21. apply kind_len in K1. rewrite K1 in K21. clear - Eo K21. revert o1 Eo K21. induction (outs (threads w i)) as [|b os IH]; intros [|b1 o1] E L; try discriminate; auto.
    cbn in E. injection E as <- E. f_equal. apply IH; auto. }
  subst o1. apply app_inv_head in Eo. subst o2. inversion K22 as [|? ? ? ? Ka _]; subst.
  destruct a; try (now destruct o). cbn [synced] in E2. apply (f_equal (@length _)) in E2. rewrite !app_length in E2. cbn in E2. lia.
Qed.
Lemma hang_outs m x fail (progs : nat -> list top) s1 s2 j o rest : let w := run (start m x fail progs) s1 in
  lock w = None -> todo (threads w j) = TSync o :: rest -> cur (threads w j) = Some (method (TSync o)) ->
  (forall fuel r, seq_op fuel (mem w) o <> Ok r) ->
  forall i o' rest', i = j \/ cur (threads w i) = None -> todo (threads w i) = TSync o' :: rest' ->
  outs (threads (run w (j :: s2)) i) = outs (threads w i).
Proof.
  intros w Lw T Q Hang i o' rest' Hi Ti.
  pose proof (@inv_schedule K V keqb keq none_key m x fail progs s1) as I0. fold w in I0. set (h := account (start m x fail progs) s1) in *.
  pose proof I0 as [B (c & S0 & L)]. unfold lock_ok in L. rewrite Lw in L. destruct L as [<- Qt].
  pose proof (@inv_step K V keqb keq none_key progs _ w h j I0) as I1.
  destruct (bal_method keqb none_key 0 o) as (q & Eq & _).
  assert (Em : emit w j = []) by (unfold emit; rewrite Q, Eq; reflexivity). rewrite Em, app_nil_r in I1.
  assert (Et : tstep w j = set_thread w (mem w) (Some (j, 0)) j (at_ (threads w j) q)) by (unfold Threads_model.tstep; rewrite Q, Eq, Lw; reflexivity).
  assert (St : stuck_at keqb none_key progs (new_cache K V m x fail) (tstep w j) h j).
  { destruct I1 as [B1 (c1 & S1 & L1)]. split; auto. exists c1, 0.
    assert (c1 = mem w).
    { destruct S0 as [[f0 R0] _]. destruct S1 as [[f1 R1] _].
      apply seq_run_more with (f' := max f0 f1) in R0; [|lia]. apply seq_run_more with (f' := max f0 f1) in R1; [|lia]. congruence. }
    subst c1. split; auto. split; [now rewrite Et|]. split; auto. exists o, rest. split; [rewrite Et, set_same; exact T|auto]. }
  destruct (@stuck_run K V keqb keq none_key progs _ j s2 _ _ St) as [(B2 & _) _].
  rewrite run_cons. apply blocked_outs with (progs := progs) (h := h) (o := o') (rest := rest'); auto.
  - destruct Hi as [->|Hi]; unfold pend; [rewrite Q, Eq|rewrite Hi]; auto.
  - rewrite <- run_cons. apply run_grows.
Qed.
End T.

(** keys() in the middle of an insert *)
Definition writer : list (top nat nat) := [TSync (SCall (CInsert 1 10 0%Z)); TSync (SCall (CInsert 2 20 0%Z))].
Definition reader : list (top nat nat) := [TSync SSize; TKeys].
Definition two : nat -> list (top nat nat) := fun i => match i with 0 => writer | 1 => reader | _ => [] end.
Definition torn_schedule : list nat := repeat 0 15 ++ repeat 1 5 ++ repeat 0 16 ++ repeat 1 3.
Lemma torn : outs (threads (run Nat.eqb 0 (start (Some 1) None false two) torn_schedule) 1) = [TAns (ASize 1); TList []].
Proof. vm_compute. reflexivity. Qed.
Lemma torn_seq n fuel c l : 1 <= n -> seq_run Nat.eqb 0 fuel (new_cache nat nat (Some 1) None false)
  (firstn n [SCall (CInsert 1 10 0%Z); SCall (CInsert 2 20 0%Z)]) = Ok (c, l) -> stored_keys c <> [].
Proof.
  intros Ln R. apply seq_run_more with (f' := S fuel) in R; [|lia].
  destruct n as [|[|n]]; [lia| |].
  - vm_compute in R. injection R as <- _. discriminate.
  - cbn [firstn] in R. rewrite firstn_nil in R. destruct fuel; vm_compute in R; injection R as <- _; discriminate.
Qed.
(** four inserts, the last of which hangs *)
Definition hanging : nat -> list (top nat nat) := fun i => match i with
  | 0 => map (fun c => TSync (SCall c)) [CInsert 1 10 0%Z; CInsert 1 11 0%Z; CInsert 2 20 0%Z; CInsert 3 30 0%Z] | 1 => [TSync SSize] | _ => [] end.
