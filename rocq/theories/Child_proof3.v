From Coq Require Import Lia.
From Verif Require Import Py Child_spec Child_model Child_proof Child_proof2.
Open Scope list_scope.

Section S.
Variable s0 : list happening.
Variable may : nat -> bool.
Definition sequence (force : bool) : list nat := if force then [hup; cont; int; kill9] else [hup; cont; int].
Definition terminate_post (force : bool) (o : spawn) (w : world) (r : res bool) (o' : spawn) (w' : world) : Prop :=
  good s0 o' w' /\ frame o w o' w' /\ (terminated o = true -> o' = o /\ w' = w /\ r = Val true) /\
  (exists sent, prefix sent (sequence force) /\ signals (acts w') = signals (acts w) ++ sent) /\
  match r with
  | Val true => terminated o' = true
  | Val false => o' = o /\ terminated o = false /\ lives (child w') /\ (force = true -> exists s, In s (sequence true) /\ may s = false)
  | Raises _ => False
  | Waits => o' = o /\ flag_eof o = true
  end.
Lemma terminate_spec force o w : good s0 o w -> wp (terminate may force) (terminate_post force o w) o w.
Proof.
  intros G. rewrite terminate_chain. apply wp_bind. destruct (terminated o) eqn:T.
  { unfold wp, isalive, bind, get. rewrite T. cbn. split; [easy|]. split; [apply frame_refl|]. split; [easy|]. split; [|easy]. exists []. rewrite app_nil_r. split; [apply prefix_nil|easy]. }
  eapply wp_mono; [apply (isalive_spec s0 o w G)|]. intros [[|]|e|] o1 w1 (G1 & F1 & S1 & _ & H).
  - cbn [negb]. destruct H as (-> & _ & L). apply wp_except. eapply wp_mono; [apply (chain_spec s0 may _ o w1 G1 T L)|].
    intros r o2 w2 (G2 & F2 & sent & P2 & S2 & H2). pose proof (frame_trans _ _ _ _ _ _ F1 F2) as F3.
    assert (exists sent, prefix sent (sequence force) /\ signals (acts w2) = signals (acts w) ++ sent) as X by (exists sent; split; [exact P2|congruence]).
    destruct r as [[|]|e|].
    + split; [easy|]. split; [easy|]. split; [congruence|]. split; easy.
    + split; [easy|]. split; [easy|]. split; [congruence|]. split; [easy|]. destruct H2 as (-> & _ & L2 & _ & _ & N). repeat split; try easy. intros ->. elim N. cbn. auto.
    + destruct H2 as (-> & -> & _ & s & I & MS). apply wp_bind. eapply wp_mono; [apply (isalive_spec s0 o w2 G2)|]. intros [[|]|e|] o3 w3 (G3 & F4 & S4 & _ & H3).
      * cbn [negb]. apply wp_ret. destruct H3 as (-> & _ & L3). split; [easy|]. split; [now apply (frame_trans o w o w2)|]. split; [congruence|]. split; [rewrite S4; exact X|].
        repeat split; try easy. intros ->. now exists s.
      * cbn [negb]. apply wp_ret. split; [easy|]. split; [now apply (frame_trans o w o w2)|]. split; [congruence|]. split; [rewrite S4; exact X|easy].
      * easy.
      * split; [easy|]. split; [now apply (frame_trans o w o w2)|]. split; [congruence|]. split; [rewrite S4; exact X|tauto].
    + split; [easy|]. split; [easy|]. split; [congruence|]. split; [easy|tauto].
  - cbn [negb]. apply wp_ret. split; [easy|]. split; [easy|]. split; [congruence|]. split; [|easy]. exists []. rewrite app_nil_r. split; [apply prefix_nil|easy].
  - easy.
  - split; [easy|]. split; [easy|]. split; [congruence|]. split; [|tauto]. exists []. rewrite app_nil_r. split; [apply prefix_nil|easy].
Qed.

Lemma good_closed o w b : good s0 o w -> good s0 {| terminated := terminated o; closed := b; flag_eof := flag_eof o; exitstatus := exitstatus o; signalstatus := signalstatus o; status := status o |} w.
Proof. intros [T A B C D F O S|e pre post T A C E F P O]; [now apply before_end|now apply (after_end _ _ _ e pre post)]. Qed.
Lemma good_eof o w : good s0 o w -> good s0 {| terminated := terminated o; closed := closed o; flag_eof := true; exitstatus := exitstatus o; signalstatus := signalstatus o; status := status o |} w.
Proof. intros [T A B C D F O S|e pre post T A C E F P O]; [now apply before_end|now apply (after_end _ _ _ e pre post)]. Qed.
Lemma good_open o w b : good s0 o w -> good s0 o {| child := child w; schedule := schedule w; acts := acts w; is_open := b |}.
Proof. intros [T A B C D F O S|e pre post T A C E F P O]; [now apply before_end|now apply (after_end _ _ _ e pre post)]. Qed.
Lemma log_closes o w : good s0 o w -> good s0 o (log [Closes] w).
Proof.
  intros G. destruct (terminated o) eqn:T; [|apply log_good; [easy|apply uncollected_closes|easy]].
  destruct G as [T' |e pre post T' A C E F P O]; [congruence|]. apply (after_end _ _ _ e pre (post ++ [Closes])); cbn [log child acts]; try easy.
  - rewrite E, <- app_assoc. easy.
  - apply Forall_app. split; [easy|]. now constructor.
  - now apply origin_app.
Qed.
Definition closing_ok (o : spawn) (w : world) : Prop :=
  closed o = false /\ is_open w = true /\ closings (acts w) = 0 \/ closed o = true /\ is_open w = false /\ terminated o = true /\ closings (acts w) = 1 \/
  closed o = false /\ is_open w = false /\ 1 <= closings (acts w).
Definition close_post (force : bool) (o : spawn) (w : world) (r : res unit) (o' : spawn) (w' : world) : Prop :=
  good s0 o' w' /\ (exists sent, prefix sent (sequence force) /\ signals (acts w') = signals (acts w) ++ sent) /\ (terminated o = true -> terminated o' = true) /\
  (closed o = true -> r = Val tt /\ o' = o /\ w' = w) /\
  (closed o = false -> is_open w' = false /\ closings (acts w') = S (closings (acts w)) /\
    if is_open w then
      match r with
      | Val _ => closed o' = true /\ terminated o' = true
      | Raises e => e = Pexpect /\ closed o' = false /\ lives (child w') /\ (force = true -> exists s, In s (sequence true) /\ may s = false)
      | Waits => closed o' = false /\ flag_eof o = true
      end
    else r = Raises OSErr /\ o' = o).
Lemma close_spec force o w : good s0 o w -> wp (close may force) (close_post force o w) o w.
Proof.
  intros G. unfold close. apply wp_bind, wp_get. destruct (closed o) eqn:C.
  { apply wp_ret. split; [easy|]. split; [exists []; rewrite app_nil_r; split; [apply prefix_nil|easy]|]. split; [easy|]. split; [easy|congruence]. }
  assert (forall s, signals (acts (log [Closes] (tick w))) ++ s = signals (acts w) ++ s) as SG.
  { intros s. cbn [log acts]. rewrite signals_app. destruct (tick_same w) as [-> _]. cbn. now rewrite app_nil_r. }
  assert (closings (acts (log [Closes] (tick w))) = S (closings (acts w))) as CG.
  { cbn [log acts]. rewrite closings_app. destruct (tick_same w) as [-> _]. cbn. lia. }
  pose proof (log_closes o _ (tick_good _ _ _ G)) as G1. apply wp_bind. unfold wp at 1, os_close. destruct (is_open w) eqn:IO.
  2:{ split; [exact G1|]. split; [exists []; split; [apply prefix_nil|]; rewrite <- SG; now rewrite app_nil_r|]. split; [easy|]. split; [congruence|]. intros _. split; [cbn [log is_open]; destruct (tick_same w) as [_ ->]; easy|].
      split; [exact CG|]. now rewrite IO. }
  set (w1 := Build_world _ _ _ _). assert (good s0 o w1) as G2 by (apply (good_open o _ false G1)).
  assert (forall s, signals (acts w1) ++ s = signals (acts w) ++ s) as SG1 by exact SG. assert (closings (acts w1) = S (closings (acts w))) as CG1 by exact CG. assert (is_open w1 = false) as IO1 by easy. clearbody w1. clear SG CG G1.
  apply wp_bind. eapply wp_mono; [apply (isalive_spec s0 o w1 G2)|]. intros [[|]|e|] o2 w2 (G3 & F2 & S2 & N2 & H2).
  - destruct H2 as (-> & T & L). apply wp_bind. apply wp_bind. eapply wp_mono; [apply (terminate_spec force o w2 G3)|]. intros r o3 w3 (G4 & F3 & _ & (sent & P3 & S3) & H3).
    pose proof (frame_trans _ _ _ _ _ _ F2 F3) as (E1 & E2 & E3 & E4).
    assert (exists sent, prefix sent (sequence force) /\ signals (acts w3) = signals (acts w) ++ sent) as X by (exists sent; split; [easy|]; rewrite S3, S2; apply SG1).
    destruct r as [[|]|e|].
    + apply wp_ret. unfold wp, put. split; [now apply good_closed|]. split; [exact X|]. split; [now cbn|]. split; [congruence|]. intros _. split; [congruence|]. split; [congruence|]. rewrite IO. cbn. easy.
    + unfold wp, raise. split; [easy|]. split; [exact X|]. split; [congruence|]. split; [congruence|]. intros _. split; [congruence|]. split; [congruence|]. rewrite IO. destruct H3 as (-> & _ & L3 & K). easy.
    + easy.
    + split; [easy|]. split; [exact X|]. split; [congruence|]. split; [congruence|]. intros _. split; [congruence|]. split; [congruence|]. rewrite IO. destruct H3 as (-> & K). easy.
  - apply wp_bind, wp_ret. unfold wp, put. destruct F2 as (E1 & E2 & E3 & E4). split; [now apply good_closed|]. split; [exists []; split; [apply prefix_nil|]; rewrite <- SG1, S2; now rewrite app_nil_r|].
    split; [now cbn|]. split; [congruence|]. intros _. split; [congruence|]. split; [congruence|]. rewrite IO. cbn. easy.
  - easy.
  - destruct F2 as (E1 & E2 & E3 & E4). split; [easy|]. split; [exists []; split; [apply prefix_nil|]; rewrite <- SG1, S2; now rewrite app_nil_r|]. destruct H2 as (-> & T & K & _).
    split; [congruence|]. split; [congruence|]. intros _. split; [congruence|]. split; [congruence|]. rewrite IO. easy.
Qed.

Lemma wait_asked o w : wait o w = bind isalive (fun a => if a : bool then fun o w => match asked true o w with (Val _, o', w') => (Val (exitstatus o'), o', w') | (Raises _, o', w') => (Raises OSErr, o', w') | (Waits, o', w') => (Waits, o', w') end else raise Pexpect) o w.
Proof.
  unfold wait, bind. destruct (isalive o w) as [[[[|]|e|] o1] w1]; [|easy..]. unfold asked, get. unfold waitpid. set (w2 := tick w1). clearbody w2.
  destruct (child w2); try easy; destruct (await _ (schedule w2)) as [[e r]|]; easy.
Qed.
Definition wait_post (o : spawn) (w : world) (r : res (option nat)) (o' : spawn) (w' : world) : Prop :=
  good s0 o' w' /\ frame o w o' w' /\ signals (acts w') = signals (acts w) /\
  (terminated o = true -> o' = o /\ w' = w /\ r = Raises Pexpect) /\
  match r with
  | Val c => terminated o = false /\ terminated o' = true /\ c = exitstatus o'
  | Raises e => e = Pexpect /\ terminated o' = true
  | Waits => o' = o /\ terminated o = false /\ lives (child w')
  end.
Lemma wait_spec o w : good s0 o w -> wp wait (wait_post o w) o w.
Proof.
  intros G. destruct (terminated o) eqn:T.
  { unfold wp, wait, isalive, bind, get. rewrite T. cbn. split; [easy|]. split; [apply frame_refl|]. rewrite T. now repeat split. }
  unfold wp. rewrite (wait_asked o w). apply wp_bind. eapply wp_mono; [apply (isalive_spec s0 o w G)|]. intros [[|]|e|] o1 w1 (G1 & F1 & S1 & _ & H).
  - destruct H as (-> & _ & L). pose proof (asked_spec s0 true o w1 T G1) as P. unfold wp in P |- *. destruct (asked true o w1) as [[r o2] w2]. destruct P as (G2 & F2 & S2 & H2). destruct r as [[|]|e|].
    + destruct H2 as (_ & _ & Q). discriminate.
    + split; [easy|]. split; [now apply (frame_trans o w o w1)|]. split; [congruence|]. split; [congruence|]. easy.
    + easy.
    + split; [easy|]. split; [now apply (frame_trans o w o w1)|]. split; [congruence|]. split; [congruence|]. tauto.
  - split; [easy|]. split; [easy|]. split; [easy|]. split; [congruence|]. easy.
  - easy.
  - split; [easy|]. split; [easy|]. split; [easy|]. split; [congruence|]. tauto.
Qed.

(** *** Any use *)
Definition ok (o : spawn) (w : world) : Prop := good s0 o w /\ closing_ok o w.
Lemma frame_closing o w o' w' : frame o w o' w' -> (terminated o = true -> terminated o' = true) -> closing_ok o w -> closing_ok o' w'.
Proof. intros (A & B & C & D) T. unfold closing_ok. rewrite A, C, D. tauto. Qed.
Lemma call_ok q o w : ok o w -> wp (fun o w => let '(a, o', w') := call may q o w in (Val a, o', w')) (fun _ o' w' => ok o' w') o w.
Proof.
  intros [G K]. unfold wp. destruct q as [| |n|f|f|]; cbn [call].
  - pose proof (isalive_spec s0 o w G) as P. unfold wp in P. destruct (isalive o w) as [[r o'] w']. cbn. destruct P as (G' & F & S & T & H). split; [easy|]. apply (frame_closing o w); [easy| |easy]. intros T'. now destruct (T T') as [-> _].
  - pose proof (wait_spec o w G) as P. unfold wp in P. destruct (wait o w) as [[r o'] w']. cbn. destruct P as (G' & F & S & T & H). split; [easy|]. apply (frame_closing o w); [easy| |easy]. intros T'. now destruct (T T') as [-> _].
  - pose proof (kill_spec s0 may n o w G) as P. unfold wp in P. destruct (kill may n o w) as [[r o'] w']. cbn. destruct P as (G' & F & T & H). split; [easy|]. apply (frame_closing o w); [easy| |easy]. intros T'. now destruct (T T') as [-> _].
  - pose proof (terminate_spec f o w G) as P. unfold wp in P. destruct (terminate may f o w) as [[r o'] w']. cbn. destruct P as (G' & F & T & H). split; [easy|]. apply (frame_closing o w); [easy| |easy]. intros T'. now destruct (T T') as [-> _].
  - pose proof (close_spec f o w G) as P. unfold wp in P. destruct (close may f o w) as [[r o'] w']. cbn. destruct P as (G' & _ & T & C & D). split; [easy|].
    destruct K as [(C0 & I0 & N0)|[(C0 & I0 & T0 & N0)|(C0 & I0 & N0)]].
    + destruct (D C0) as (I1 & N1 & H). rewrite I0 in H. rewrite N0 in N1. unfold closing_ok. rewrite I1, N1. destruct r as [u|e|]; [right; left|right; right|right; right]; intuition.
    + destruct (C C0) as (_ & -> & ->). right. left. easy.
    + destruct (D C0) as (I1 & N1 & H). rewrite I0 in H. destruct H as [_ ->]. right. right. rewrite N1. repeat split; [easy|easy|lia].
  - cbn. split; [now apply good_eof|]. exact K.
Qed.
Lemma use_ok : forall l o w, ok o w -> let '(_, o', w') := use may l o w in ok o' w'.
Proof.
  induction l as [|q l IH]; intros o w K; [exact K|]. cbn [use]. pose proof (call_ok q o w K) as P. unfold wp in P. destruct (call may q o w) as [[a o1] w1].
  specialize (IH o1 w1 P). destruct (use may l o1 w1) as [[x o2] w2]. destruct a; assumption.
Qed.
End S.
Lemma new_ok s0 : ok s0 new_spawn (new_world s0).
Proof.
  split; [|left; easy]. apply before_end; try easy. now exists [].
Qed.
