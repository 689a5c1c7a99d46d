From Coq Require Import String Ascii Lia.
From Verif Require Import Py Interact_spec Interact_model.
Open Scope nat_scope.
Open Scope list_scope.

(** *** rfind *)
Lemma starts_with_iff e : forall s, starts_with e s = true <-> exists y, s = e ++ y.
Proof.
  induction e as [|c e IH]; intros s; cbn [starts_with].
  - split; [|easy]. intros _. now exists s.
  - destruct s as [|d s]; [split; [easy|intros (y & H); discriminate]|]. rewrite andb_true_iff, IH. split.
    + intros (E & y & ->). apply Ascii.eqb_eq in E as ->. now exists y.
    + intros (y & H). cbn in H. injection H as -> ->. split; [apply Ascii.eqb_refl|now exists y].
Qed.
Lemma occurs_cons e c s x : occurs_after e s x -> occurs_after e (c :: s) (c :: x).
Proof. intros (y & ->). now exists y. Qed.
Lemma occurs_inv e c s x : occurs_after e (c :: s) x -> x = [] /\ starts_with e (c :: s) = true \/ exists x', x = c :: x' /\ occurs_after e s x'.
Proof.
  intros (y & H). destruct x as [|d x]; cbn in H.
  - left. split; [easy|]. apply starts_with_iff. now exists y.
  - right. injection H as <- ->. exists x. split; [easy|]. now exists y.
Qed.
Lemma rfind_spec e : forall s, match rfind e s with Some i => last_after e s (firstn i s) | None => ~ contains e s end.
Proof.
  induction s as [|c s IH]; cbn [rfind].
  - destruct (starts_with e []) eqn:E.
    + apply starts_with_iff in E as (y & E). split; [now exists y|]. intros x' (y' & H). destruct x'; [cbn; lia|discriminate].
    + intros (x & y & H). destruct x; [|discriminate]. cbn in H. assert (starts_with e [] = true) by (apply starts_with_iff; now exists y). congruence.
  - destruct (rfind e s) as [i|].
    + cbn [firstn]. destruct IH as [O L]. split; [now apply occurs_cons|]. intros x' [[-> _]|(x2 & -> & H)]%occurs_inv; cbn; [lia|]. apply L in H. lia.
    + destruct (starts_with e (c :: s)) eqn:E.
      * apply starts_with_iff in E as (y & E). split; [exists y; exact E|]. intros x' [[-> _]|(x2 & -> & H)]%occurs_inv; [cbn; lia|]. elim IH. now exists x2.
      * intros (x & [[-> H]|(x2 & -> & H)]%occurs_inv); [congruence|]. apply IH. now exists x2.
Qed.

(** *** One write *)
Lemma takes_spec l data n l' : takes l data = (n, l') -> n <= length data /\ (data <> [] -> 1 <= n).
Proof.
  unfold takes. destruct l as [|m l0]; intros H; injection H as <- <-.
  - split; [easy|]. destruct data; [easy|cbn; lia].
  - destruct data as [|c d]; [easy|]. cbn [length]. change (match Nat.min m (S (length d)) with 0 => 1 | S m' => S m' end) with (Nat.max 1 (Nat.min m (S (length d)))). split; [|intros _]; lia.
Qed.
(** the part of the world that writing to the child leaves *)
Definition only_child (w w' : world) (p : txt) : Prop :=
  to_child w' = to_child w ++ p /\ to_user w' = to_user w /\ user_takes w' = user_takes w /\ logfile w' = logfile w /\ logfile_send w' = logfile_send w /\ raw w' = raw w /\ buffer w' = buffer w.
Lemma write_child_spec data w n w' : write_child data w = (n, w') -> n <= length data /\ (data <> [] -> 1 <= n) /\ lives w' = lives w /\ only_child w w' (firstn n data).
Proof.
  unfold write_child. destruct (takes (child_takes w) data) as [m l] eqn:T. apply takes_spec in T. intros H. injection H as <- <-. split; [easy|]. split; [easy|]. split; [easy|]. now repeat split.
Qed.
Lemma isalive_cases w : (exists n, lives w = S n /\ isalive w = (true, set_lives n w)) \/ lives w = 0 /\ isalive w = (false, w).
Proof. unfold isalive. destruct (lives w) as [|n]; [now right|left]. now exists n. Qed.
Lemma writen_loop_spec : forall fuel data w, length data < fuel ->
  exists p q, data = p ++ q /\ only_child w (writen_loop fuel data w) p /\ lives (writen_loop fuel data w) <= lives w /\ (0 < lives (writen_loop fuel data w) -> q = []) /\ (lives w = 0 -> p = []).
Proof.
  induction fuel as [|fuel IH]; intros data w L; [lia|]. cbn [writen_loop]. destruct data as [|c data0].
  - exists [], []. split; [easy|]. split; [repeat split; now rewrite ?app_nil_r|]. easy.
  - remember (c :: data0) as data eqn:ED. destruct (isalive_cases w) as [(n & LW & ->)|[LW ->]].
    + destruct (write_child data (set_lives n w)) as [m w1] eqn:E. apply write_child_spec in E as (M1 & M2 & L1 & C1).
      assert (1 <= m) as M3 by (apply M2; subst; easy).
      destruct (IH (skipn m data) w1) as (p & q & PQ & C2 & L2 & Q & _); [rewrite skipn_length; lia|].
      exists (firstn m data ++ p), q. split; [now rewrite <- app_assoc, <- PQ, firstn_skipn|]. split.
      * destruct C1 as (A1 & A2 & A3 & A4 & A5 & A6 & A7), C2 as (B1 & B2 & B3 & B4 & B5 & B6 & B7). cbn [set_lives to_child to_user user_takes logfile logfile_send raw buffer] in *.
        repeat split; try congruence. now rewrite B1, A1, app_assoc.
      * cbn [set_lives lives] in L1. split; [lia|]. split; [easy|lia].
    + exists [], data. split; [easy|]. split; [repeat split; now rewrite ?app_nil_r|]. split; [easy|]. split; [lia|easy].
Qed.

(** *** Copying *)
Definition typed (rs : list round) : list txt := flat_map (fun r => match from_user r with Some d => [d] | None => [] end) rs.
Definition printed (rs : list round) : list txt := flat_map (fun r => match from_child r with Some (Some d) => [d] | _ => [] end) rs.
Section S.
Variables (escape : txt) (fin fout : txt -> txt).
Definition piece (r : round) : txt := match from_user r with Some d => fin d | None => [] end.
Definition result (o : outcome) (done rest : list round) (sent : txt) : Prop :=
  match o with
  | Escaped => up_to_escape escape (map fin (typed done)) sent
  | ChildEnded => without_escape escape (map fin (typed done)) sent
  | Going => rest = [] /\ without_escape escape (map fin (typed done)) sent
  | SystemError => without_escape escape (map fin (typed done)) sent /\ exists r rest', rest = r :: rest' /\ from_child r = Some None
  end.
Definition copied (rounds : list round) (w : world) (o : outcome) (w' : world) : Prop :=
  exists done rest sent p shown, rounds = done ++ rest /\ result o done rest sent /\
    to_child w' = to_child w ++ p /\ prefix p sent /\ (0 < lives w' -> p = sent) /\ (lives w = 0 -> p = []) /\ lives w' <= lives w /\ (o = ChildEnded -> lives w' = 0) /\
    to_user w' = to_user w ++ shown /\ length shown <= length (concat (map fout (printed done))) /\ (user_takes w = [] -> user_takes w' = [] /\ shown = concat (map fout (printed done))) /\
    logfile w' = add_log (concat (map fout (printed done))) (logfile w) /\ logfile_send w' = logfile_send w /\ raw w' = raw w /\ buffer w' = buffer w /\
    (o <> ChildEnded -> 0 < lives w).
Lemma add_log_app a b l : add_log b (add_log a l) = add_log (a ++ b) l.
Proof. destruct l; cbn; [now rewrite app_assoc|easy]. Qed.
Lemma add_log_nil l : add_log [] l = l.
Proof. destruct l; cbn; now rewrite ?app_nil_r. Qed.
Lemma without_nil : without_escape escape [] [].
Proof. now split. Qed.
Lemma without_cons c l s : ~ contains escape c -> without_escape escape l s -> without_escape escape (c :: l) (c ++ s).
Proof. intros N [F ->]. split; [now constructor|easy]. Qed.
Lemma up_to_cons c l s : ~ contains escape c -> up_to_escape escape l s -> up_to_escape escape (c :: l) (c ++ s).
Proof. intros N (b & p & x & -> & F & L & ->). exists (c :: b), p, x. split; [easy|]. split; [now constructor|]. split; [easy|]. cbn. now rewrite app_assoc. Qed.
Lemma result_cons o r done rest sent : (forall d, from_user r = Some d -> ~ contains escape (fin d)) -> result o done rest sent ->
  result o (r :: done) rest ((piece r) ++ sent).
Proof.
  intros N R. unfold result, typed, piece in *. cbn [flat_map]. destruct (from_user r) as [d|]; cbn [app map].
  - specialize (N d eq_refl). destruct o; [now apply up_to_cons|now apply without_cons|destruct R; split; [now apply without_cons|easy]|destruct R; split; [easy|now apply without_cons]].
  - exact R.
Qed.
Lemma prefix_app a b c : prefix b c -> prefix (a ++ b) (a ++ c).
Proof. intros (r & ->). exists r. now rewrite app_assoc. Qed.

Lemma shows (r : round) w : from_child r <> Some None ->
  exists w1 part, match from_child r with Some (Some d) => let data := fout d in snd (write_user data (write_log data w)) | _ => w end = w1 /\
    lives w1 = lives w /\ to_child w1 = to_child w /\ to_user w1 = to_user w ++ part /\ length part <= length (concat (map fout (printed [r]))) /\ (user_takes w = [] -> user_takes w1 = [] /\ part = concat (map fout (printed [r]))) /\
    logfile w1 = add_log (concat (map fout (printed [r]))) (logfile w) /\ logfile_send w1 = logfile_send w /\ raw w1 = raw w /\ buffer w1 = buffer w.
Proof.
  intros N. unfold printed. cbn [flat_map]. destruct (from_child r) as [[d|]|]; [|easy|].
  - cbn [app map concat]. rewrite app_nil_r. unfold write_user. destruct (takes (user_takes (write_log (fout d) w)) (fout d)) as [n l] eqn:T. exists (snd (n, {| lives := lives w; child_takes := child_takes w; user_takes := l; to_child := to_child w; to_user := to_user w ++ firstn n (fout d); logfile := add_log (fout d) (logfile w); logfile_send := logfile_send w; raw := raw w; buffer := buffer w |})), (firstn n (fout d)).
    cbn [snd]. pose proof (takes_spec _ _ _ _ T) as [T1 _]. split; [easy|]. repeat split; cbn [lives to_child to_user logfile logfile_send raw buffer user_takes]; try easy.
    + rewrite firstn_length. lia.
    + unfold takes in T. cbn [write_log user_takes] in T. rewrite H in T. injection T as _ <-. easy.
    + unfold takes in T. cbn [write_log user_takes] in T. rewrite H in T. injection T as <- _. now rewrite firstn_all.
  - exists w, []. cbn. rewrite app_nil_r, add_log_nil. split; [easy|]. repeat split; try easy; lia.
Qed.

Lemma copy_spec : forall rounds w, let '(o, w') := interact_copy escape fin fout rounds w in copied rounds w o w'.
Proof.
  induction rounds as [|r rounds IH]; intros w.
  - cbn [interact_copy]. destruct (isalive_cases w) as [(n & L & ->)|[L ->]]; cbn [negb].
    + exists [], [], [], [], []. cbn. rewrite !app_nil_r, add_log_nil. split; [easy|]. split; [split; [easy|apply without_nil]|]. repeat split; try easy; try lia. now exists [].
    + exists [], [], [], [], []. cbn. rewrite !app_nil_r, add_log_nil. split; [easy|]. split; [apply without_nil|]. repeat split; try easy; try lia. now exists [].
  - cbn [interact_copy]. destruct (isalive_cases w) as [(n & L & ->)|[L ->]]; cbn [negb].
    2:{ exists [], (r :: rounds), [], [], []. cbn. rewrite !app_nil_r, add_log_nil. split; [easy|]. split; [apply without_nil|]. repeat split; try easy; try lia. now exists []. }
    assert (from_child r = Some None \/ from_child r <> Some None) as [FC|FC] by (destruct (from_child r) as [[d|]|]; [now right|now left|now right]).
    { rewrite FC. exists [], (r :: rounds), [], [], []. cbn. rewrite !app_nil_r, add_log_nil. split; [easy|]. split; [split; [apply without_nil|now exists r, rounds]|]. repeat split; try easy; try lia. now exists []. }
    destruct (shows r (set_lives n w) FC) as (w1 & part & E1 & L1 & C1 & U1 & P1 & T1 & G1 & S1 & R1 & B1).
    cbn [set_lives lives to_child to_user user_takes logfile logfile_send raw buffer] in *.
    match goal with |- let '(_, _) := ?X in _ => assert (X = match from_user r with
                   | None => interact_copy escape fin fout rounds w1
                   | Some d => let data := fin d in match rfind escape data with Some i => (Escaped, interact_writen (firstn i data) w1) | None => interact_copy escape fin fout rounds (interact_writen data w1) end
                   end) as -> end.
    { rewrite <- E1. destruct (from_child r) as [[d|]|]; easy. }
    clear E1.
    assert (forall done, concat (map fout (printed (r :: done))) = concat (map fout (printed [r])) ++ concat (map fout (printed done))) as PC.
    { intros done. unfold printed. cbn [flat_map]. rewrite app_nil_r, map_app, concat_app. easy. }
    (* what follows when the loop goes on from w2, where p0 of what was typed was sent *)
    assert (forall w2 p0, (forall d, from_user r = Some d -> ~ contains escape (fin d)) -> only_child w1 w2 p0 -> prefix p0 (piece r) ->
              (0 < lives w2 -> p0 = piece r) -> lives w2 <= lives w1 ->
              let '(o, w') := interact_copy escape fin fout rounds w2 in copied (r :: rounds) w o w') as Step.
    { intros w2 p0 N (A1 & A2 & A3 & A4 & A5 & A6 & A7) PP PF LL. pose proof (IH w2) as Q. destruct (interact_copy escape fin fout rounds w2) as [o w'].
      destruct Q as (done & rest & sent & p & shown & -> & R & Q1 & Q2 & Q3 & Q4 & Q5 & Q6 & Q7 & Q8 & Q9 & Q10 & Q11 & Q12 & Q13 & Q14).
      exists (r :: done), rest, (piece r ++ sent), (p0 ++ p), (part ++ shown). split; [easy|]. split; [now apply result_cons|]. rewrite PC.
      split; [rewrite Q1, A1, C1; now rewrite app_assoc|]. split.
      { destruct (Nat.eq_dec (lives w2) 0) as [Z|Z]; [rewrite (Q4 Z), app_nil_r; destruct PP as (q & ->); exists (q ++ sent); now rewrite app_assoc|].
        rewrite (PF ltac:(lia)). now apply prefix_app. }
      split; [intros H; rewrite (Q3 H), (PF ltac:(lia)); easy|]. split; [lia|]. split; [lia|]. split; [easy|].
      split; [rewrite Q7, A2, U1; now rewrite app_assoc|]. split; [rewrite !app_length; lia|]. split.
      { intros T. destruct (T1 T) as [T2 ->]. destruct Q9 as [Q9 ->]; [congruence|]. easy. }
      split; [rewrite Q10, A4, G1; now rewrite add_log_app|]. repeat split; try congruence. lia. }
    destruct (from_user r) as [d|] eqn:FU.
    + cbv zeta. pose proof (rfind_spec escape (fin d)) as RF. unfold interact_writen. destruct (rfind escape (fin d)) as [i|].
      * destruct (writen_loop_spec (S (length (firstn i (fin d)))) (firstn i (fin d)) w1 ltac:(lia)) as (p & q & PQ & (A1 & A2 & A3 & A4 & A5 & A6 & A7) & LL & Q & Z).
        set (w2 := writen_loop _ _ _) in *. clearbody w2. exists [r], rounds, (firstn i (fin d)), p, part. split; [easy|]. split.
        { unfold result, typed. cbn [flat_map]. rewrite FU. exists [], (fin d), (firstn i (fin d)). split; [easy|]. now split. }
        split; [congruence|]. split; [now exists q|]. split; [intros H; rewrite PQ, (Q H); now rewrite app_nil_r|]. split; [lia|]. split; [lia|]. split; [easy|]. split; [congruence|]. split; [easy|].
        split; [intros T; destruct (T1 T); split; [congruence|easy]|]. split; [congruence|]. repeat split; try congruence. lia.
      * destruct (writen_loop_spec (S (length (fin d))) (fin d) w1 ltac:(lia)) as (p & q & PQ & C2 & LL & Q & Z). apply (Step _ p); try easy.
        -- intros d' H. injection H as <-. easy.
        -- unfold piece. rewrite FU. now exists q.
        -- unfold piece. rewrite FU. intros H. rewrite PQ. rewrite (Q H). now rewrite app_nil_r.
    + apply (Step w1 []); unfold piece; rewrite ?FU; try easy; [repeat split; now rewrite ?app_nil_r|now exists []].
Qed.
End S.
