From Coq Require Import Lia.
From Verif Require Import Py Child_spec Child_model Child_proof.
Open Scope list_scope.

Lemma wp_get {A} (f : spawn -> A) (Q : res A -> spawn -> world -> Prop) o w : Q (Val (f o)) o w -> wp (get f) Q o w.
Proof. easy. Qed.
Lemma wp_ret {A} (a : A) (Q : res A -> spawn -> world -> Prop) o w : Q (Val a) o w -> wp (ret a) Q o w.
Proof. easy. Qed.
Lemma wp_except {A} (m h : M A) Q o w : wp m (fun r o' w' => match r with Raises OSErr => wp h Q o' w' | _ => Q r o' w' end) o w -> wp (except_oserror m h) Q o w.
Proof. unfold wp, except_oserror. destruct (m o w) as [[[a|[|]|] o'] w']; easy. Qed.
Lemma happens_ended h e : happens h (Ended e) = Ended e.
Proof. now destruct h. Qed.
Lemma tick_ended w e : child w = Ended e -> child (tick w) = Ended e.
Proof. intros H. unfold tick. destruct (schedule w) as [|h r]; [easy|]. cbn [child]. rewrite H. apply happens_ended. Qed.
Lemma isalive_ended o w e : terminated o = false -> child w = Ended e -> exists o' w', isalive o w = (Val false, o', w') /\ tells o' e /\ terminated o' = true.
Proof.
  intros T C. rewrite (isalive_asked o w T). unfold bind, asked, waitpid. rewrite (tick_ended w e C). cbn. do 2 eexists. split; [reflexivity|]. now repeat split.
Qed.

Section S.
Variable s0 : list happening.
Variable may : nat -> bool.
(** the signals of terminate *)
Fixpoint chain (l : list nat) : M bool :=
  match l with [] => ret false | s :: l' => _ <~ kill may s ;; a <~ isalive ;; if negb a then ret true else chain l' end.
Lemma terminate_chain force : terminate may force =
  (a <~ isalive ;; if negb a then ret true else except_oserror (chain (if force : bool then [hup; cont; int; kill9] else [hup; cont; int])) (a <~ isalive ;; if negb a then ret true else ret false)).
Proof. now destruct force. Qed.
Definition chain_post (l : list nat) (o : spawn) (w : world) (r : res bool) (o' : spawn) (w' : world) : Prop :=
  good s0 o' w' /\ frame o w o' w' /\ exists sent, prefix sent l /\ signals (acts w') = signals (acts w) ++ sent /\
  match r with
  | Val true => terminated o' = true
  | Val false => o' = o /\ terminated o = false /\ lives (child w') /\ sent = l /\ Forall (fun s => may s = true) l /\ ~ In kill9 l
  | Raises e => e = OSErr /\ o' = o /\ terminated o = false /\ exists s, In s l /\ may s = false
  | Waits => o' = o /\ flag_eof o = true
  end.
Lemma prefix_cons {A} (x : A) a b : prefix a b -> prefix (x :: a) (x :: b).
Proof. intros (r & ->). now exists r. Qed.
Lemma prefix_nil {A} (b : list A) : prefix [] b.
Proof. now exists b. Qed.
Lemma chain_spec l : forall o w, good s0 o w -> terminated o = false -> lives (child w) -> wp (chain l) (chain_post l o w) o w.
Proof.
  induction l as [|s l IH]; intros o w G T L.
  - cbn. split; [easy|]. split; [apply frame_refl|]. exists []. rewrite app_nil_r. repeat split; try easy. now exists [].
  - cbn [chain]. apply wp_bind. eapply wp_mono; [apply (kill_spec s0 may s o w G)|]. intros [u|e|] o1 w1 (G1 & F1 & N1 & H).
    + apply wp_bind. destruct H as [[T1 S1]|(-> & _ & MS & S1 & K)].
      * eapply wp_mono; [apply (isalive_spec s0 o1 w1 G1)|]. intros [[|]|e|] o2 w2 (G2 & F2 & S2 & N2 & H2); try (destruct H2; intuition congruence).
        cbn [negb]. apply wp_ret. split; [easy|]. split; [now apply (frame_trans o w o1 w1)|]. exists []. split; [apply prefix_nil|]. split; [rewrite app_nil_r; congruence|easy].
      * assert (s = kill9 -> exists o2 w2, isalive o w1 = (Val false, o2, w2)) as K9.
        { intros ->. destruct (K eq_refl) as (e & C). destruct (isalive_ended o w1 e T C) as (o3 & w3 & E3 & _). eauto. }
        pose proof (isalive_spec s0 o w1 G1) as P. unfold wp in P |- *. destruct (isalive o w1) as [[r o2] w2]. destruct P as (G2 & F2 & S2 & N2 & H2). destruct r as [[|]|e|].
        -- cbn [negb]. destruct H2 as (-> & _ & L2). eapply wp_mono; [apply (IH o w2 G2 T L2)|]. intros r o3 w3 (G3 & F3 & sent & P3 & S3 & H3).
           split; [easy|]. split; [apply (frame_trans o w o w2); [now apply (frame_trans o w o w1)|easy]|]. exists (s :: sent). split; [now apply prefix_cons|]. split; [rewrite S3, S2, S1; now rewrite <- app_assoc|].
           destruct r as [[|]|e|]; try tauto.
           ++ destruct H3 as (A & B & C & D & E' & F'). repeat split; try easy; [congruence|now constructor|]. intros [Q|Q]; [|easy]. destruct (K9 Q) as (? & ? & ?). discriminate.
           ++ destruct H3 as (A & B & C & x & D & E'). repeat split; try easy. exists x. split; [now right|easy].
        -- cbn [negb]. apply wp_ret. split; [easy|]. split; [now apply (frame_trans o w o w1)|]. exists [s]. split; [apply prefix_cons, prefix_nil|]. split; [congruence|easy].
        -- easy.
        -- split; [easy|]. split; [now apply (frame_trans o w o w1)|]. exists [s]. split; [apply prefix_cons, prefix_nil|]. split; [congruence|tauto].
    + destruct H as (-> & -> & _ & MS & S1). split; [easy|]. split; [easy|]. exists [s]. split; [apply prefix_cons, prefix_nil|]. split; [easy|]. repeat split; try easy. exists s. split; [now left|easy].
    + destruct H as (-> & E & _ & S1). split; [easy|]. split; [easy|]. exists []. split; [apply prefix_nil|]. split; [now rewrite app_nil_r|easy].
Qed.
End S.
