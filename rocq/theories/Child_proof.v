From Coq Require Import Lia.
From Verif Require Import Py Child_spec Child_model.
Open Scope list_scope.

(** *** Facts about lists of calls *)
Lemma signals_app a b : signals (a ++ b) = signals a ++ signals b.
Proof. induction a as [|[| |n|] a IH]; cbn; now rewrite ?IH. Qed.
Lemma closings_app a b : closings (a ++ b) = closings a + closings b.
Proof. induction a as [|[| |n|] a IH]; cbn; now rewrite ?IH. Qed.
Definition uncollected (l : list act) : Prop := forall e, ~ In (Collects e) l.
Lemma uncollected_app a b : uncollected a -> uncollected b -> uncollected (a ++ b).
Proof. intros A B e [H|H]%in_app_or; [now apply (A e)|now apply (B e)]. Qed.
Lemma uncollected_asks : uncollected [Asks].
Proof. intros e [H|[]]. discriminate. Qed.
Lemma uncollected_signals n : uncollected [Signals n].
Proof. intros e [H|[]]. discriminate. Qed.
Lemma uncollected_closes : uncollected [Closes].
Proof. intros e [H|[]]. discriminate. Qed.

(** *** Invariant *)
Definition origin (s0 : list happening) (l : list act) (e : ending) : Prop := In (Ends e) s0 \/ e = Killed kill9 /\ In (Signals kill9) l.
Definition tells (o : spawn) (e : ending) : Prop :=
  status o = Some e /\ exitstatus o = (match e with Exited n => Some n | Killed _ => None end) /\ signalstatus o = (match e with Exited _ => None | Killed n => Some n end).
Inductive good (s0 : list happening) (o : spawn) (w : world) : Prop :=
| before_end : terminated o = false -> exitstatus o = None -> signalstatus o = None -> status o = None -> child w <> Collected -> uncollected (acts w) ->
    (forall e, child w = Ended e -> origin s0 (acts w) e) -> (exists used, s0 = used ++ schedule w) -> good s0 o w
| after_end e pre post : terminated o = true -> tells o e -> child w = Collected -> acts w = pre ++ Collects e :: post -> uncollected pre -> Forall (fun a => a = Closes) post -> origin s0 (acts w) e -> good s0 o w.
Lemma origin_app s0 l a e : origin s0 l e -> origin s0 (l ++ a) e.
Proof. intros [H|[H1 H2]]; [now left|right]. split; [easy|]. apply in_or_app. now left. Qed.
Lemma happens_end h p e : happens h p = Ended e -> p = Ended e \/ h = Ends e.
Proof. destruct h as [|e'| |], p; cbn; intros H; try (now left); try discriminate; right; congruence. Qed.
Lemma happens_collected h p : happens h p = Collected <-> p = Collected.
Proof. destruct h, p; cbn; split; intros H; congruence. Qed.
Lemma tick_good s0 o w : good s0 o w -> good s0 o (tick w).
Proof.
  intros G. unfold tick. destruct (schedule w) as [|h r] eqn:E; [easy|]. destruct G as [T A B C D F O (used & U)|e pre post T A C E' F P O].
  - apply before_end; cbn [child acts schedule]; try easy.
    + now rewrite happens_collected.
    + intros e [H|H]%happens_end; [now apply O|]. left. rewrite U, E, H. apply in_or_app. right. now left.
    + exists (used ++ [h]). rewrite U, E. now rewrite <- app_assoc.
  - apply (after_end _ _ _ e pre post); cbn [child acts schedule]; try easy. now rewrite happens_collected.
Qed.
Lemma tick_same w : acts (tick w) = acts w /\ is_open (tick w) = is_open w.
Proof. unfold tick. now destruct (schedule w). Qed.
Lemma log_good s0 o w a : terminated o = false -> uncollected a -> good s0 o w -> good s0 o (log a w).
Proof.
  intros T U [T' A B C D F O S|e pre post T' A C E F P O]; [|congruence]. apply before_end; cbn [log child acts schedule]; try easy; [now apply uncollected_app|].
  intros e H. now apply origin_app, O.
Qed.
Lemma collect_good s0 o w e : terminated o = false -> good s0 o w -> child w = Ended e ->
  good s0 {| terminated := true; closed := closed o; flag_eof := flag_eof o; exitstatus := match e with Exited n => Some n | Killed _ => None end;
             signalstatus := match e with Exited _ => None | Killed n => Some n end; status := Some e |} (set_child Collected (log [Asks; Collects e] w)).
Proof.
  intros T [T' A B C D F O S|e' pre post T' A C E F P O] H; [|congruence]. apply (after_end _ _ _ e (acts w ++ [Asks]) []); cbn [log set_child child acts]; try easy.
  - now rewrite <- app_assoc.
  - apply uncollected_app; [easy|apply uncollected_asks].
  - now apply origin_app, O.
Qed.
Lemma await_end : forall r c e r', await c r = Some (e, r') -> c = Ended e \/ In (Ends e) r.
Proof.
  induction r as [|h r IH]; intros c e r'; destruct c; cbn [await]; intros H; try discriminate; try (left; congruence).
  all: apply IH in H as [H|H]; [apply happens_end in H as [H|H]; [discriminate|right; left; easy]|right; now right].
Qed.

(** *** Hoare triples *)
Definition wp {A} (m : M A) (Q : res A -> spawn -> world -> Prop) (o : spawn) (w : world) : Prop := let '(r, o', w') := m o w in Q r o' w'.
Lemma wp_bind {A B} (m : M A) (f : A -> M B) Q o w :
  wp m (fun r o' w' => match r with Val a => wp (f a) Q o' w' | Raises e => Q (Raises e) o' w' | Waits => Q Waits o' w' end) o w -> wp (bind m f) Q o w.
Proof. unfold wp, bind. now destruct (m o w) as [[[a|e|] o'] w']. Qed.
Lemma wp_mono {A} (m : M A) (P Q : res A -> spawn -> world -> Prop) o w : wp m P o w -> (forall r o' w', P r o' w' -> Q r o' w') -> wp m Q o w.
Proof. unfold wp. destruct (m o w) as [[r o'] w']. auto. Qed.
Definition frame (o : spawn) (w : world) (o' : spawn) (w' : world) : Prop :=
  closed o' = closed o /\ flag_eof o' = flag_eof o /\ is_open w' = is_open w /\ closings (acts w') = closings (acts w).
Lemma frame_refl o w : frame o w o w.
Proof. now repeat split. Qed.
Lemma frame_trans o w o1 w1 o2 w2 : frame o w o1 w1 -> frame o1 w1 o2 w2 -> frame o w o2 w2.
Proof. intros (A & B & C & D) (A' & B' & C' & D'). repeat split; congruence. Qed.

Section S.
Variable s0 : list happening.
Definition isalive_post (o : spawn) (w : world) (r : res bool) (o' : spawn) (w' : world) : Prop :=
  good s0 o' w' /\ frame o w o' w' /\ signals (acts w') = signals (acts w) /\ (terminated o = true -> o' = o /\ w' = w) /\
  match r with
  | Val true => o' = o /\ terminated o = false /\ lives (child w')
  | Val false => terminated o' = true
  | Raises _ => False
  | Waits => o' = o /\ terminated o = false /\ flag_eof o = true /\ lives (child w')
  end.
Lemma not_ended_lives p : p <> Collected -> (forall e, p <> Ended e) -> lives p.
Proof. destruct p; intros A B; [now left|now right|now elim (B e)|easy]. Qed.
(** a call of waitpid in isalive, with the attributes that follow from it *)
Definition asked (blocking : bool) : M bool :=
  fun o w => match waitpid blocking o w with
             | (Raises _, o', w') => (Raises Pexpect, o', w')
             | (Val None, o', w') => (Val true, o', w')
             | (Val (Some e), o', w') => let '(_, o2, w2) := record_end e o' w' in (Val false, o2, w2)
             | (Waits, o', w') => (Waits, o', w')
             end.
Lemma isalive_asked o w : terminated o = false -> isalive o w = bind (asked (flag_eof o)) (fun a => if a then asked (flag_eof o) else ret false) o w.
Proof.
  intros T. unfold isalive, bind, get. rewrite T. unfold asked. cbv beta iota. destruct (waitpid (flag_eof o) o w) as [[[[e|]|e|] o'] w'] eqn:E; try easy.
  destruct (waitpid (flag_eof o) o' w') as [[[[e|]|e|] o2] w2] eqn:E2; easy.
Qed.
Lemma await_lives : forall r c, await c r = None -> lives c \/ c = Collected.
Proof. intros r c. destruct c; [left; now left|left; now right| |now right]. now destruct r. Qed.
Lemma asked_spec blocking o w : terminated o = false -> good s0 o w -> wp (asked blocking) (fun r o' w' =>
  good s0 o' w' /\ frame o w o' w' /\ signals (acts w') = signals (acts w) /\
  match r with Val true => o' = o /\ lives (child w') /\ blocking = false | Val false => terminated o' = true | Raises _ => False | Waits => o' = o /\ blocking = true /\ lives (child w') end) o w.
Proof.
  intros T G0. pose proof (tick_good _ _ _ G0) as G. destruct (tick_same w) as [TA TO]. unfold wp, asked, waitpid. set (w1 := tick w) in *. clearbody w1.
  assert (child w1 <> Collected) as NC by (destruct G; congruence).
  assert (forall c, child w1 = c -> lives c -> good s0 o (log [Asks] w1) /\ frame o w o (log [Asks] w1) /\ signals (acts (log [Asks] w1)) = signals (acts w)) as L.
  { intros c _ _. split; [now apply log_good; [|apply uncollected_asks|]|]. split; [repeat split; [exact TO|]|]; cbn [log acts]; rewrite ?closings_app, ?signals_app, ?TA; cbn; now rewrite ?Nat.add_0_r, ?app_nil_r. }
  destruct (child w1) as [| |e|] eqn:C; [| | |easy].
  1,2: destruct blocking; [|destruct (L _ eq_refl ltac:(unfold lives; auto)) as (A & B & D); split; [exact A|split; [exact B|split; [exact D|]]]; cbn [log child]; rewrite ?C; unfold lives; auto].
  1,2: destruct (await _ (schedule w1)) as [[e r]|] eqn:W; [|destruct (L _ eq_refl ltac:(unfold lives; auto)) as (A & B & D); split; [exact A|split; [exact B|split; [exact D|]]]; cbn [log child]; rewrite ?C; unfold lives; auto].
  1,2: cbn [record_end put]; split; [|split; [repeat split; [exact TO|]|split; [|easy]]]; cbn [acts]; rewrite ?closings_app, ?signals_app, ?TA; cbn; rewrite ?Nat.add_0_r, ?app_nil_r; try easy.
  1,2: destruct G as [T' GA GB GC GD GF GO (used & U)|]; [|congruence]; apply (after_end _ _ _ e (acts w1 ++ [Asks]) []); cbn; try easy;
    [now rewrite <- TA, <- app_assoc|apply uncollected_app; [easy|apply uncollected_asks]|];
    apply await_end in W as [W|W]; [discriminate|]; left; rewrite U; apply in_or_app; now right.
  cbn [record_end put]. split; [now apply collect_good|]. split; [repeat split; [exact TO|]|split; [|easy]]; cbn [log set_child acts]; rewrite ?closings_app, ?signals_app, ?TA; cbn; now rewrite ?Nat.add_0_r, ?app_nil_r.
Qed.
Lemma isalive_spec o w : good s0 o w -> wp isalive (isalive_post o w) o w.
Proof.
  intros G. destruct (terminated o) eqn:T.
  - unfold wp, isalive, bind, get. rewrite T. cbn. split; [easy|]. split; [apply frame_refl|]. split; [easy|]. split; [easy|]. now rewrite T.
  - unfold wp. rewrite (isalive_asked o w T). apply wp_bind. eapply wp_mono; [apply (asked_spec (flag_eof o) o w T G)|]. intros [[|]|e|] o1 w1 (G1 & F1 & S1 & H); [| |easy|].
    + destruct H as (-> & L1 & B). eapply wp_mono; [apply (asked_spec (flag_eof o) o w1 T G1)|]. intros [[|]|e|] o2 w2 (G2 & F2 & S2 & H2); [| |easy|];
        (split; [easy|]; split; [now apply (frame_trans o w o w1)|]; split; [congruence|]; split; [congruence|]); try tauto.
    + cbn. split; [easy|]. split; [easy|]. split; [easy|]. split; [congruence|easy].
    + split; [easy|]. split; [easy|]. split; [easy|]. split; [congruence|tauto].
Qed.

Variable may : nat -> bool.
Definition kill_post (sig : nat) (o : spawn) (w : world) (r : res unit) (o' : spawn) (w' : world) : Prop :=
  good s0 o' w' /\ frame o w o' w' /\ (terminated o = true -> o' = o /\ w' = w) /\
  match r with
  | Val _ => terminated o' = true /\ signals (acts w') = signals (acts w) \/
             o' = o /\ terminated o = false /\ may sig = true /\ signals (acts w') = signals (acts w) ++ [sig] /\ (sig = kill9 -> exists e, child w' = Ended e)
  | Raises e => e = OSErr /\ o' = o /\ terminated o = false /\ may sig = false /\ signals (acts w') = signals (acts w) ++ [sig]
  | Waits => o' = o /\ flag_eof o = true /\ terminated o = false /\ signals (acts w') = signals (acts w)
  end.
Lemma kill_spec sig o w : good s0 o w -> wp (kill may sig) (kill_post sig o w) o w.
Proof.
  intros G. apply wp_bind. eapply wp_mono; [apply (isalive_spec o w G)|]. intros [[|]|e|] o1 w1 (G1 & F1 & S1 & N1 & H); [| |easy|].
  - destruct H as (-> & T & L). pose proof (tick_good _ _ _ G1) as G2. destruct (tick_same w1) as [TA TO]. unfold wp, os_kill. set (w2 := tick w1) in *. clearbody w2.
    pose proof (log_good s0 o w2 [Signals sig] T (uncollected_signals sig) G2) as G3. cbn [log child].
    assert (child w2 <> Collected) as NC by (destruct G2; congruence).
    assert (frame o w o (log [Signals sig] w2)) as F3. { apply (frame_trans o w o w1); [easy|]. repeat split; [exact TO|]. cbn [log acts]. rewrite closings_app, TA. cbn. lia. }
    assert (signals (acts (log [Signals sig] w2)) = signals (acts w) ++ [sig]) as S3 by (cbn [log acts]; rewrite signals_app, TA, S1; easy).
    assert (may sig = true -> forall c', c' = child w2 \/ sig = kill9 /\ c' = happens (Ends (Killed kill9)) (child w2) -> good s0 o (set_child c' (log [Signals sig] w2)) /\ frame o w o (set_child c' (log [Signals sig] w2)) /\ signals (acts (set_child c' (log [Signals sig] w2))) = signals (acts w) ++ [sig]) as Q.
    { intros _ c' Hc. split; [|split; [exact F3|exact S3]]. destruct G3 as [T3 A3 B3 C3 D3 U3 O3 R3|]; [|congruence]. apply before_end; cbn [set_child child acts schedule]; try easy.
      - destruct Hc as [->|[_ ->]]; [easy|]. now rewrite happens_collected.
      - intros e He. destruct Hc as [->|[-> ->]]; [now apply O3|]. apply happens_end in He as [He|He]; [now apply O3|]. right. split; [congruence|]. cbn [log acts]. apply in_or_app. right. now left. }
    assert (kill_post sig o w (if may sig then Val tt else Raises OSErr) o (if may sig then set_child (if sig =? kill9 then happens (Ends (Killed kill9)) (child w2) else child w2) (log [Signals sig] w2) else log [Signals sig] w2)) as R.
    { destruct (may sig) eqn:MS.
      - destruct (Q eq_refl (if sig =? kill9 then happens (Ends (Killed kill9)) (child w2) else child w2)) as (A & B & D); [destruct (Nat.eqb_spec sig kill9); [now right|now left]|].
        split; [easy|]. split; [easy|]. split; [congruence|]. right. repeat split; try easy. intros ->. cbn [set_child child Nat.eqb kill9]. destruct (child w2) as [| |e|]; [now eexists|now eexists|now exists e|easy].
      - split; [easy|]. split; [easy|]. split; [congruence|]. now repeat split. }
    destruct (child w2) as [| |e|] eqn:C; [| | |easy]; destruct (may sig); exact R.
  - unfold wp. cbn. split; [easy|]. split; [easy|]. split; [easy|]. now left.
  - split; [easy|]. split; [easy|]. split; [easy|]. tauto.
Qed.
End S.
