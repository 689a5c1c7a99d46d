From Coq Require Import Lia.
From Verif Require Import Py Child_spec Child_model Child_proof Child_proof2 Child_proof3.
Open Scope list_scope.

Lemma lives_happens h p : lives p -> (forall e, h <> Ends e) -> lives (happens h p).
Proof. intros [-> | ->] N; destruct h as [|e| |]; cbn; unfold lives; auto; now elim (N e). Qed.
Lemma lives_dies e p : lives p -> happens (Ends e) p = Ended e.
Proof. now intros [-> | ->]. Qed.
Lemma await_none : forall l p, lives p -> await p l = None -> forall e, ~ In (Ends e) l.
Proof.
  induction l as [|h l IH]; intros p L A e; [easy|].
  assert (await (happens h p) l = None) as A2 by (destruct L as [-> | ->]; exact A).
  intros [-> |H].
  - rewrite (lives_dies e p L) in A2. now destruct l.
  - apply (IH (happens h p)) in H; [easy| |easy]. apply lives_happens; [easy|]. intros e' ->. rewrite (lives_dies e' p L) in A2. now destruct l.
Qed.
Lemma tick_no_end w : lives (child w) -> lives (child (tick w)) -> (forall e, ~ In (Ends e) (schedule (tick w))) -> forall e, ~ In (Ends e) (schedule w).
Proof.
  unfold tick. intros L. destruct (schedule w) as [|h r] eqn:E; [intros _ N; rewrite E in N; exact N|]. cbn [child schedule]. intros L2 N e [-> |H]; [|now apply (N e)].
  rewrite (lives_dies e _ L) in L2. destruct L2; discriminate.
Qed.
Lemma asked_waits b o w o' w' : asked b o w = (Waits, o', w') -> b = true /\ lives (child (tick w)) /\ forall e, ~ In (Ends e) (schedule (tick w)).
Proof.
  unfold asked, waitpid. destruct (child (tick w)) as [| |e|] eqn:C; try (intros H; discriminate H); (destruct b; [|intros H; discriminate H]);
    (destruct (await _ (schedule (tick w))) as [[e r]|] eqn:W; [intros H; discriminate H|]); intros _; (split; [easy|]); (split; [unfold lives; auto|]); (eapply await_none; [|exact W]); unfold lives; auto.
Qed.
Lemma asked_true b o w o' w' : asked b o w = (Val true, o', w') -> w' = log [Asks] (tick w) /\ lives (child (tick w)).
Proof.
  unfold asked, waitpid. destruct (child (tick w)) as [| |e|] eqn:C; try (intros H; discriminate H); (destruct b; [destruct (await _ (schedule (tick w))) as [[e r]|]; intros H; discriminate H|]);
    intros H; injection H as <- <-; (split; [easy|]); unfold lives; auto.
Qed.
Lemma lives_before w : lives (child (tick w)) -> lives (child w).
Proof.
  unfold tick. destruct (schedule w) as [|h r]; [easy|]. cbn [child]. destruct (child w) as [| |e|] eqn:C; [now left|now right|rewrite happens_ended; intros [H|H]; discriminate|].
  intros [H|H]; destruct h; discriminate.
Qed.
Lemma isalive_waits o w o' w' : isalive o w = (Waits, o', w') -> forall e, ~ In (Ends e) (schedule w).
Proof.
  destruct (terminated o) eqn:T; [unfold isalive, bind, get; rewrite T; discriminate|]. rewrite (isalive_asked o w T). unfold bind.
  destruct (asked (flag_eof o) o w) as [[[[|]|e|] o1] w1] eqn:E; try discriminate.
  - apply asked_true in E as (-> & L1). intros E. apply asked_waits in E as (_ & L2 & N). apply tick_no_end; [now apply lives_before|easy|].
    apply (tick_no_end (log [Asks] (tick w))); [exact L1|exact L2|exact N].
  - intros _. apply asked_waits in E as (_ & L1 & N). apply tick_no_end; [now apply lives_before|easy|exact N].
Qed.
Lemma isalive_true o w o' w' : isalive o w = (Val true, o', w') -> flag_eof o = false /\ lives (child w) /\ lives (child w') /\ ((forall e, ~ In (Ends e) (schedule w')) -> forall e, ~ In (Ends e) (schedule w)).
Proof.
  destruct (terminated o) eqn:T; [unfold isalive, bind, get; rewrite T; discriminate|]. rewrite (isalive_asked o w T). unfold bind.
  destruct (asked (flag_eof o) o w) as [[[[|]|e|] o1] w1] eqn:E; try discriminate. pose proof E as E'.
  apply asked_true in E as (-> & L1). intros E2. pose proof E2 as E2'. apply asked_true in E2 as (-> & L2).
  split. { destruct (flag_eof o) eqn:FE; [|easy]. unfold asked, waitpid in E'. destruct (child (tick w)); try discriminate; destruct (await _ (schedule (tick w))) as [[? ?]|]; discriminate. }
  split; [now apply lives_before|]. split; [exact L2|]. intros N. apply tick_no_end; [now apply lives_before|easy|]. apply (tick_no_end (log [Asks] (tick w))); [exact L1|exact L2|exact N].
Qed.
Lemma wait_waits o w o' w' : wait o w = (Waits, o', w') -> forall e, ~ In (Ends e) (schedule w).
Proof.
  rewrite wait_asked. unfold bind. destruct (isalive o w) as [[[[|]|e|] o1] w1] eqn:E; try discriminate.
  - apply isalive_true in E as (_ & _ & L & N). destruct (asked true o1 w1) as [[[b|e|] o2] w2] eqn:A; try discriminate. intros _. apply N. apply asked_waits in A as (_ & L2 & N2).
    now apply tick_no_end.
  - intros _. now apply (isalive_waits _ _ _ _ E).
Qed.
Lemma wait_ended o w e : terminated o = false -> child w = Ended e -> exists o' w', wait o w = (Raises Pexpect, o', w') /\ tells o' e /\ terminated o' = true.
Proof. intros T C. destruct (isalive_ended o w e T C) as (o' & w' & E & R). exists o', w'. split; [|easy]. unfold wait, bind. now rewrite E. Qed.

(** *** The end that is told *)
Lemma good_about s0 o w : good s0 o w -> about_the_child (acts w).
Proof.
  intros [_ _ _ _ _ U _ _|e pre post _ _ _ E U P _] before e' after H.
  - elim (U e'). rewrite H. apply in_or_app. right. now left.
  - rewrite E in H. clear E. revert before H. induction pre as [|a pre IH]; intros [|b before] H; cbn in H.
    + congruence.
    + injection H as <- ->. exfalso. apply Forall_app in P as [_ P]. inversion P. discriminate.
    + injection H as -> _. elim (U e'). now left.
    + injection H as <- H. apply (IH (fun x I => U x (or_intror I)) before H).
Qed.
Lemma good_in s0 o w : good s0 o w -> terminated o = true ->
  exists e, In (Collects e) (acts w) /\ (forall e', In (Collects e') (acts w) -> e' = e) /\ tells o e /\ origin s0 (acts w) e.
Proof.
  intros [|e pre post _ A C E U P O] T; [congruence|]. exists e. split; [rewrite E; apply in_or_app; right; now left|]. split; [|easy].
  intros e' H. rewrite E in H. apply in_app_or in H as [H|[H|H]]; [now elim (U e')|congruence|]. rewrite Forall_forall in P. apply P in H. discriminate.
Qed.
Lemma good_terminated s0 o w : good s0 o w -> (terminated o = true <-> child w = Collected).
Proof. intros [T A B C D F O S|e pre post T A C E F P O]; split; congruence. Qed.
Lemma good_before s0 o w : good s0 o w -> terminated o = false -> exitstatus o = None /\ signalstatus o = None /\ status o = None /\ forall e, ~ In (Collects e) (acts w).
Proof. intros [T A B C D F O S|e pre post T A C E F P O] T'; [easy|congruence]. Qed.
