(** C73: a child process. *)
From Coq Require Import Lia.
From Verif Require Import Py Child_spec Child_model Child_proof Child_proof2 Child_proof3 Child_proof4.
Open Scope list_scope.

(** The object [o] and the world [w] after some use of a new child, to which the things in [s] happen in turn. *)
Definition reached (may : nat -> bool) (s : list happening) (o : spawn) (w : world) : Prop :=
  exists uses answers, use may uses new_spawn (new_world s) = (answers, o, w).
Lemma reached_ok may s o w : reached may s o w -> ok s o w.
Proof. intros (l & a & H). pose proof (use_ok s may l _ _ (new_ok s)) as P. now rewrite H in P. Qed.

(** Whatever is asked and whatever happens, the child is not asked for or signalled after its end was collected. *)
Theorem only_its_child_is_signalled may s o w : reached may s o w -> about_the_child (acts w).
Proof. intros [G _]%reached_ok. now apply (good_about s o). Qed.

(** [terminated] is set exactly when the end was collected; then the attributes tell this one end, that came about by itself or by SIGKILL. *)
Theorem attributes_tell_the_end may s o w : reached may s o w ->
  (terminated o = true <-> child w = Collected) /\
  (terminated o = true -> exists e,
     In (Collects e) (acts w) /\ (forall e', In (Collects e') (acts w) -> e' = e) /\
     status o = Some e /\ match e with Exited n => exitstatus o = Some n /\ signalstatus o = None | Killed n => exitstatus o = None /\ signalstatus o = Some n end /\
     (In (Ends e) s \/ e = Killed kill9 /\ In (Signals kill9) (acts w))) /\
  (terminated o = false -> status o = None /\ exitstatus o = None /\ signalstatus o = None /\ forall e, ~ In (Collects e) (acts w)).
Proof.
  intros [G _]%reached_ok. split; [now apply (good_terminated s)|]. split.
  - intros T. destruct (good_in s o w G T) as (e & A & B & (ST & X & S) & O). exists e. rewrite X, S, ST. now destruct e.
  - intros T. destruct (good_before s o w G T) as (A & B & D & C). easy.
Qed.

(** After the end nothing changes any more. *)
Theorem after_the_end may o w n f : terminated o = true ->
  call may IsAlive o w = (No, o, w) /\ call may (Terminate f) o w = (Yes, o, w) /\ call may (Kill n) o w = (Done, o, w) /\ call may Wait o w = (PexpectError, o, w).
Proof. intros T. unfold call, wait, terminate, kill, isalive, bind, get. rewrite T. easy. Qed.

(** isalive: its answer is true, it sends nothing and never fails. *)
Theorem isalive_is_truthful may s o w a o' w' : reached may s o w -> call may IsAlive o w = (a, o', w') ->
  signals (acts w') = signals (acts w) /\ closings (acts w') = closings (acts w) /\
  (a = Yes /\ o' = o /\ lives (child w') \/ a = No /\ terminated o' = true /\ child w' = Collected \/ a = Hangs /\ flag_eof o = true /\ lives (child w') /\ forall e, ~ In (Ends e) (schedule w)).
Proof.
  intros [G _]%reached_ok. cbn [call]. pose proof (isalive_spec s o w G) as P. pose proof (isalive_waits o w) as N. unfold wp in P. destruct (isalive o w) as [[r o1] w1]. intros E.
  destruct P as (G1 & (_ & _ & _ & F) & S & _ & H). destruct r as [[|]|e|]; cbn in E; injection E as <- <- <-; (split; [easy|]; split; [easy|]).
  - left. tauto.
  - right. left. split; [easy|]. split; [easy|]. now apply (good_terminated s o1 w1).
  - easy.
  - right. right. split; [easy|]. split; [tauto|]. split; [tauto|]. now apply (N o1 w1).
Qed.
(** It notices every end. *)
Theorem isalive_notices_the_end may s o w e : reached may s o w -> child w = Ended e ->
  exists o' w', call may IsAlive o w = (No, o', w') /\ status o' = Some e.
Proof.
  intros [G _]%reached_ok C. assert (terminated o = false) as T by (destruct G; congruence). destruct (isalive_ended o w e T C) as (o' & w' & E & (S & _) & _).
  exists o', w'. cbn [call]. rewrite E. easy.
Qed.
(** But after EOF was read it does not answer before the child has ended, so never Yes, and never at all if it does not end. *)
Theorem isalive_after_eof_waits may s o w a o' w' : reached may s o w -> flag_eof o = true -> call may IsAlive o w = (a, o', w') ->
  a = No \/ a = Hangs /\ forall e, ~ In (Ends e) (schedule w).
Proof.
  intros R F E. pose proof (isalive_is_truthful _ _ _ _ _ _ _ R E) as (_ & _ & [(-> & -> & _)|[(-> & _)|(-> & _ & _ & N)]]); [|now left|now right].
  exfalso. cbn [call] in E. destruct (isalive o w) as [[[[|]|[|]|] o1] w1] eqn:I; cbn in E; try discriminate. apply isalive_true in I as [I _]. congruence.
Qed.

(** wait: the code is that of the end; without an answer the child never ends. *)
Theorem wait_gives_the_code may s o w a o' w' : reached may s o w -> call may Wait o w = (a, o', w') ->
  signals (acts w') = signals (acts w) /\
  ((exists c, a = Code c /\ terminated o = false /\ child w' = Collected /\ c = exitstatus o') \/ a = PexpectError /\ child w' = Collected \/
   a = Hangs /\ o' = o /\ lives (child w') /\ forall e, ~ In (Ends e) (schedule w)).
Proof.
  intros [G _]%reached_ok. cbn [call]. pose proof (wait_spec s o w G) as P. pose proof (wait_waits o w) as N. unfold wp in P. destruct (wait o w) as [[r o1] w1]. intros E.
  destruct P as (G1 & _ & S & _ & H). pose proof (good_terminated s o1 w1 G1) as K. destruct r as [c|e|]; cbn in E.
  - injection E as <- <- <-. split; [easy|]. left. exists c. tauto.
  - destruct H as [-> H]. injection E as <- <- <-. split; [easy|]. right. left. tauto.
  - injection E as <- <- <-. split; [easy|]. right. right. split; [easy|]. split; [tauto|]. split; [tauto|]. now apply (N o1 w1).
Qed.
(** A finding: for a child that has ended already, wait fails and does not give its code. *)
Theorem wait_too_late may s o w e : reached may s o w -> child w = Ended e -> exists o' w', call may Wait o w = (PexpectError, o', w') /\ status o' = Some e.
Proof.
  intros [G _]%reached_ok C. assert (terminated o = false) as T by (destruct G; congruence). destruct (wait_ended o w e T C) as (o' & w' & E & (S & _) & _).
  exists o', w'. cbn [call]. rewrite E. easy.
Qed.

(** terminate: Yes if and only if the child has ended; the signals are sent in the order HUP, CONT, INT and, only if forced, KILL. *)
Theorem terminate_in_order may s o w f a o' w' : reached may s o w -> call may (Terminate f) o w = (a, o', w') ->
  (exists sent, signals (acts w') = signals (acts w) ++ sent /\ prefix sent (if f then [hup; cont; int; kill9] else [hup; cont; int])) /\
  (a = Yes /\ child w' = Collected \/
   a = No /\ o' = o /\ lives (child w') /\ (f = true -> exists n, In n [hup; cont; int; kill9] /\ may n = false) \/
   a = Hangs /\ flag_eof o = true).
Proof.
  intros [G _]%reached_ok. cbn [call]. pose proof (terminate_spec s may f o w G) as P. unfold wp in P. destruct (terminate may f o w) as [[r o1] w1]. intros E.
  destruct P as (G1 & _ & _ & (sent & X & S) & H).
  assert (exists sent, signals (acts w1) = signals (acts w) ++ sent /\ prefix sent (if f then [hup; cont; int; kill9] else [hup; cont; int])) as Y by (exists sent; split; [exact S|destruct f; exact X]). pose proof (good_terminated s o1 w1 G1) as K.
  destruct r as [[|]|e|]; cbn in E; try easy; injection E as <- <- <-; tauto.
Qed.
Theorem terminate_by_force may s o w : reached may s o w -> flag_eof o = false -> (forall n, may n = true) ->
  exists o' w', call may (Terminate true) o w = (Yes, o', w') /\ child w' = Collected.
Proof.
  intros R F A. destruct (call may (Terminate true) o w) as [[a o'] w'] eqn:E. exists o', w'.
  destruct (terminate_in_order _ _ _ _ _ _ _ _ R E) as (_ & [(-> & C)|[(-> & _ & _ & N)|(-> & Q)]]); [easy| |congruence].
  destruct (N eq_refl) as (n & _ & Q). now rewrite A in Q.
Qed.
(** kill: the signal is sent to a child that was alive, once; an error means that the parent may not send it. *)
Theorem kill_sends_once may s o w n a o' w' : reached may s o w -> call may (Kill n) o w = (a, o', w') ->
  a = Done /\ terminated o' = true /\ signals (acts w') = signals (acts w) \/
  a = Done /\ o' = o /\ may n = true /\ signals (acts w') = signals (acts w) ++ [n] \/
  a = SystemError /\ o' = o /\ may n = false /\ signals (acts w') = signals (acts w) ++ [n] \/
  a = Hangs /\ flag_eof o = true /\ signals (acts w') = signals (acts w).
Proof.
  intros [G _]%reached_ok. cbn [call]. pose proof (kill_spec s may n o w G) as P. unfold wp in P. destruct (kill may n o w) as [[r o1] w1]. intros E.
  destruct P as (_ & _ & _ & H). destruct r as [u|e|]; cbn in E.
  - injection E as <- <- <-. intuition.
  - destruct H as [-> H]. injection E as <- <- <-. intuition.
  - injection E as <- <- <-. intuition.
Qed.

(** close: when it returns, the child has ended and the connection was closed once, however often close is called. *)
Theorem close_ends_the_child may s o w f o' w' : reached may s o w -> call may (Close f) o w = (Done, o', w') ->
  closed o' = true /\ child w' = Collected /\ closings (acts w') = 1 /\ call may (Close f) o' w' = (Done, o', w').
Proof.
  intros [G K]%reached_ok. cbn [call]. pose proof (close_spec s may f o w G) as P. unfold wp in P. destruct (close may f o w) as [[r o1] w1]. intros E.
  destruct P as (G1 & _ & _ & C & D). destruct r as [u|[|]|]; cbn in E; try discriminate. injection E as <- <-.
  assert (closed o1 = true /\ terminated o1 = true /\ closings (acts w1) = 1) as (A & B & N).
  { destruct K as [(C0 & I0 & N0)|[(C0 & I0 & T0 & N0)|(C0 & I0 & N0)]].
    - destruct (D C0) as (I1 & N1 & H). rewrite I0 in H. rewrite N1, N0. easy.
    - destruct (C C0) as (_ & -> & ->). easy.
    - destruct (D C0) as (I1 & N1 & H). rewrite I0 in H. destruct H. discriminate. }
  split; [easy|]. split; [now apply (good_terminated s o1 w1)|]. split; [easy|]. unfold close, bind, get. now rewrite A.
Qed.
(** The first close: Done, or an error for a child that lives on, although the connection is closed. *)
Theorem first_close may s o w f a o' w' : reached may s o w -> closings (acts w) = 0 -> call may (Close f) o w = (a, o', w') ->
  closings (acts w') = 1 /\
  (exists sent, signals (acts w') = signals (acts w) ++ sent /\ prefix sent (if f then [hup; cont; int; kill9] else [hup; cont; int])) /\
  (a = Done \/ a = PexpectError /\ closed o' = false /\ lives (child w') /\ (f = true -> exists n, In n [hup; cont; int; kill9] /\ may n = false) \/ a = Hangs /\ flag_eof o = true).
Proof.
  intros [G K]%reached_ok Z. cbn [call]. pose proof (close_spec s may f o w G) as P. unfold wp in P. destruct (close may f o w) as [[r o1] w1]. intros E.
  destruct P as (G1 & (sent & X & S) & _ & C & D). destruct K as [(C0 & I0 & N0)|[(C0 & I0 & T0 & N0)|(C0 & I0 & N0)]]; [|lia..].
  destruct (D C0) as (I1 & N1 & H). rewrite I0 in H. rewrite Z in N1.
  destruct r as [u|e|]; cbn in E; [injection E as <- <- <-|destruct H as [-> H]; injection E as <- <- <-|injection E as <- <- <-]; (split; [easy|]; split; [exists sent; split; [exact S|destruct f; exact X]|]); tauto.
Qed.
Theorem close_by_force may s o w : reached may s o w -> closings (acts w) = 0 -> flag_eof o = false -> (forall n, may n = true) ->
  exists o' w', call may (Close true) o w = (Done, o', w') /\ child w' = Collected.
Proof.
  intros R Z F A. destruct (call may (Close true) o w) as [[a o'] w'] eqn:E. exists o', w'. pose proof R as R'.
  destruct (first_close _ _ _ _ _ _ _ _ R Z E) as (_ & _ & [->|[(-> & _ & _ & N)|(-> & Q)]]); [|destruct (N eq_refl) as (n & _ & Q); now rewrite A in Q|congruence].
  split; [easy|]. now destruct (close_ends_the_child _ _ _ _ _ _ _ R' E) as (_ & C & _).
Qed.
(** A finding: after a close that failed, to close again only closes the same descriptor a second time, which fails or closes another file;
    the child is not ended by that, not even by force. *)
Theorem close_again_is_an_error may s o w f : reached may s o w -> closed o = false -> 1 <= closings (acts w) ->
  exists w', call may (Close f) o w = (SystemError, o, w') /\ closings (acts w') = S (closings (acts w)) /\ signals (acts w') = signals (acts w).
Proof.
  intros [G K]%reached_ok C0 N0. destruct K as [(_ & _ & Q)|[(Q & _)|(_ & I0 & _)]]; [lia|congruence|]. exists (log [Closes] (tick w)). cbn [call].
  unfold close, bind, get, os_close. rewrite C0, I0. cbn [answer_of]. split; [easy|]. cbn [log acts]. rewrite closings_app, signals_app. destruct (tick_same w) as [-> _]. cbn. rewrite app_nil_r. split; [lia|easy].
Qed.

Print Assumptions only_its_child_is_signalled.
Print Assumptions attributes_tell_the_end.
Print Assumptions after_the_end.
Print Assumptions isalive_is_truthful.
Print Assumptions isalive_notices_the_end.
Print Assumptions isalive_after_eof_waits.
Print Assumptions wait_gives_the_code.
Print Assumptions wait_too_late.
Print Assumptions terminate_in_order.
Print Assumptions terminate_by_force.
Print Assumptions kill_sends_once.
Print Assumptions close_ends_the_child.
Print Assumptions first_close.
Print Assumptions close_by_force.
Print Assumptions close_again_is_an_error.

(** Concrete cases. *)
Definition all_signals (n : nat) : bool := true.
Definition outcome (x : list answer * spawn * world) := let '(a, o, w) := x in (a, (terminated o, closed o), (exitstatus o, signalstatus o), acts w).
(** the child ends by itself, with code 3, while its parent waits *)
Example waited : outcome (use all_signals [IsAlive; Wait; IsAlive; Wait; Kill 15; Close true] new_spawn (new_world [Nothing; Stops; Nothing; Continues; Nothing; Nothing; Ends (Exited 3)])) =
  ([Yes; Code (Some 3); No; PexpectError; Done; Done], (true, true), (Some 3, None), [Asks; Asks; Asks; Asks; Asks; Collects (Exited 3); Closes]).
Proof. reflexivity. Qed.
(** a child that ignores HUP and INT *)
Example stubborn : outcome (use all_signals [Terminate false; Close true; Close true] new_spawn (new_world [])) =
  ([No; Done; Done], (true, true), (None, Some 9),
   [Asks; Asks; Asks; Asks; Signals 1; Asks; Asks; Asks; Asks; Signals 18; Asks; Asks; Asks; Asks; Signals 2; Asks; Asks; Closes; Asks; Asks; Asks; Asks;
    Asks; Asks; Signals 1; Asks; Asks; Asks; Asks; Signals 18; Asks; Asks; Asks; Asks; Signals 2; Asks; Asks; Asks; Asks; Signals 9; Asks; Collects (Killed 9)]).
Proof. reflexivity. Qed.
(** the same child, closed without force, then with *)
Example not_closed : let '(a, o, w) := use all_signals [Close false; Close true; IsAlive] new_spawn (new_world []) in
  a = [PexpectError; SystemError; Yes] /\ closed o = false /\ closings (acts w) = 2.
Proof. now vm_compute. Qed.
(** a child of another user (a setuid program) *)
Example not_permitted : fst (fst (use (fun n => n =? 18) [Kill 18; Kill 15; Terminate true; Close true] new_spawn (new_world []))) = [Done; SystemError; No; PexpectError].
Proof. reflexivity. Qed.
(** the child closes its output, and lives on for a while, or for ever *)
Example after_eof : outcome (use all_signals [IsAlive; SeesEof; IsAlive; IsAlive] new_spawn (new_world [Nothing; Nothing; Nothing; Nothing; Nothing; Ends (Killed 15)])) =
  ([Yes; Done; No; No], (true, false), (None, Some 15), [Asks; Asks; Asks; Collects (Killed 15)]).
Proof. reflexivity. Qed.
Example after_eof_forever : fst (fst (use all_signals [IsAlive; SeesEof; Close true; IsAlive] new_spawn (new_world []))) = [Yes; Done; Hangs].
Proof. reflexivity. Qed.
Example reached_after_an_end : exists o w, reached all_signals [Nothing; Nothing; Nothing; Nothing; Ends (Exited 3)] o w /\ child w = Ended (Exited 3).
Proof. eexists _, _. split; [exists [IsAlive; Kill 15], [Yes; Done]; cbn; reflexivity|]. reflexivity. Qed.
