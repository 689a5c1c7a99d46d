From Coq Require Import Ascii Lia.
From Verif Require Import Py Reading_spec Reading_model Reading_proof.
Open Scope nat_scope.
Open Scope list_scope.

Lemma add_log_nil l : add_log [] l = l.
Proof. destruct l; cbn; now rewrite ?app_nil_r. Qed.
Lemma add_log_app a b l : add_log b (add_log a l) = add_log (a ++ b) l.
Proof. destruct l; cbn; [now rewrite app_assoc|easy]. Qed.
Definition piece (r : result) : txt := match r with Data s => s | _ => [] end.
(** what one read does, with the time-out [t] *)
Definition read_post (size : nat) (t : option nat) (o : spawn) (e : env) (r : result) (o' : spawn) (e' : env) : Prop :=
  sane o' e' /\ now e <= now e' /\ closed o' = closed o /\ timeout o' = timeout o /\ total e = piece r ++ total e' /\
  logfile o' = add_log (piece r) (logfile o) /\ logfile_read o' = add_log (piece r) (logfile_read o) /\
  match r with
  | Data s => s <> [] /\ length s <= size /\ flag_eof o' = flag_eof o
  | EOF => flag_eof o' = true /\ (size = 0 \/ pending e' = [] /\ (hung e' = true \/ alive e' = false))
  | TIMEOUT => alive e' = true /\ pending e' = [] /\ hung e' = false /\ flag_eof o' = false /\ exists x, t = Some x /\ now e' = now e + x
  | ClosedFile => closed o = true /\ o' = o /\ e' = e
  | Blocks => flag_eof o = true /\ terminated o = false /\ alive e = true /\ ~ In Dies (schedule e) \/ t = None /\ pending e' = [] /\ hung e' = false /\ schedule e' = []
  end /\
  (flag_eof o = false -> forall x, t = Some x -> now e' <= now e + x).
Lemma readable_false e : readable e = false -> pending e = [] /\ hung e = false.
Proof. unfold readable. now destruct (pending e). Qed.

Lemma read_ready_spec size t o e : closed o = false -> sane o e -> readable e = true -> let '(r, o', e') := read_ready size o e in
  read_post size t o e r o' e' /\ (pending e <> [] -> 0 < size -> (exists s, r = Data s) /\ now e' = now e).
Proof.
  intros CL S R. unfold read_ready, os_read, readable in *. destruct (pending e) as [|c p0] eqn:P.
  - split; [|easy]. unfold read_post. cbn [piece set_eof closed timeout logfile logfile_read flag_eof]. rewrite !add_log_nil. repeat split; try easy; [|intros _ x _; lia]. right. auto.
  - cbv zeta. set (p := c :: p0). set (n := match size with 0 => 0 | S _ => _ end).
    assert (n <= size) as N1. { unfold n. destruct size; [easy|]. destruct (gives o) as [|g l]; [easy|]. lia. }
    assert (0 < size -> 1 <= n) as N2. { unfold n. destruct size; [easy|]. destruct (gives o) as [|g l]; [lia|]. lia. }
    clearbody n. assert (total e = firstn n p ++ skipn n p ++ (if hung e then [] else output (schedule e))) as TT.
    { unfold total, future. rewrite P. fold p. now rewrite app_assoc, firstn_skipn. }
    destruct (firstn n p) as [|d s] eqn:F.
    + assert (n = 0) as -> by (destruct n; [easy|discriminate]). assert (size = 0) as -> by (destruct size; [easy|exfalso; specialize (N2 ltac:(lia)); lia]).
      split; [|lia]. unfold read_post. cbn. rewrite !add_log_nil. repeat split; try easy; [now left|intros _ x _; lia].
    + split; [|intros _ _; split; [now eexists|easy]]. unfold read_post. cbn [piece closed timeout logfile logfile_read flag_eof now pending hung alive schedule].
      assert (length (d :: s) <= n) by (rewrite <- F; apply firstn_le_length). repeat split; try easy; [lia|intros _ x _; lia].
Qed.
Lemma post_weaken size t o e e1 r o' e' : later (schedule e) e e1 -> (flag_eof o = false -> forall x, t = Some x -> now e1 <= now e + x) -> (readable e1 = true) -> closed o = false ->
  read_post size (Some 0) o e1 r o' e' -> now e' = now e1 -> r <> TIMEOUT -> r <> Blocks -> read_post size t o e r o' e'.
Proof.
  intros (T & N & _ & _ & _ & _) W R CL (A & B & C & D & F & G & H & I & J) E N1 N2. unfold read_post. split; [easy|]. split; [lia|]. split; [easy|]. split; [easy|]. split; [unfold total in *; congruence|]. split; [easy|]. split; [easy|].
  split; [|intros K x X; specialize (W K x X); lia]. destruct r; try easy. destruct I as [I _]. congruence.
Qed.
Lemma read_ready_time size o e : let '(r, o', e') := read_ready size o e in now e' = now e /\ r <> TIMEOUT /\ r <> Blocks.
Proof. unfold read_ready, os_read. destruct (pending e) as [|c p]; [easy|]. cbv zeta. destruct (firstn _ _) as [|d s]; easy. Qed.
Lemma total_later e e1 : later (schedule e) e e1 -> total e = total e1.
Proof. now intros (A & _). Qed.
Lemma read_waiting_spec size t o e : closed o = false -> sane o e -> (readable e = true \/ flag_eof o = false) -> let '(r, o', e') := read_waiting size t o e in read_post size t o e r o' e'.
Proof.
  intros CL S Q. unfold read_waiting. pose proof (self_select_spec t e) as P. destruct (self_select t e) as [r e1]. destruct P as (L & RR & P).
  assert (sane o e1) as S1. { intros T. specialize (S T). destruct (alive e1) eqn:A1; [|easy]. destruct L as (_ & _ & L & _). rewrite (L A1) in S. discriminate. }
  destruct r.
  - destruct P as [P1 P2]. pose proof (read_ready_spec size (Some 0) o e1 CL S1 P1) as Y. pose proof (read_ready_time size o e1) as Z. destruct (read_ready size o e1) as [[r o'] e']. destruct Y as [Y _], Z as (Z1 & Z2 & Z3).
    apply (post_weaken size t o e e1); auto.
  - destruct P as (P1 & x & -> & P2). assert (readable e = false) as RF by (destruct (readable e); [destruct (RR eq_refl); discriminate|easy]). assert (flag_eof o = false) as FE by (destruct Q; congruence).
    destruct (readable_false e1 P1) as [PE HU]. pose proof (isalive_spec o e1 S1) as I. destruct (isalive o e1) as [[[a o2] e2]|]; [|destruct I; congruence].
    destruct I as (I1 & (I2 & I3 & I4 & I5 & I6 & I7) & I8 & I9 & I10 & I11 & I12). specialize (I11 FE). subst e2. pose proof (total_later e e1 L) as TT. destruct a.
    + destruct (I10 eq_refl) as (-> & _ & _). unfold read_post. cbn [piece]. rewrite !add_log_nil. repeat split; try easy; [lia|now exists x|]. intros _ y Y. injection Y as <-. lia.
    + unfold read_post. cbn [piece set_eof closed timeout logfile logfile_read flag_eof]. rewrite !add_log_nil. repeat split; try easy; [lia|auto|]. intros _ y Y. injection Y as <-. lia.
  - easy.
  - destruct P as (-> & P1 & P2). destruct (readable_false e1 P1) as [PE HU]. unfold read_post. cbn [piece]. rewrite !add_log_nil. pose proof (total_later e e1 L) as TT. destruct L as (_ & L2 & _). repeat split; try easy. auto.
Qed.
Lemma read_spec size t0 o e : sane o e -> let '(r, o', e') := read_nonblocking size t0 o e in
  let t := match t0 with None => timeout o | Some t => t end in read_post size t o e r o' e'.
Proof.
  intros S. unfold read_nonblocking. destruct (closed o) eqn:CL.
  { unfold read_post. cbn [piece]. rewrite !add_log_nil. repeat split; try easy. intros _ x _. lia. }
  cbv zeta. set (t := match t0 with None => timeout o | Some t => t end). clearbody t. pose proof (isalive_spec o e S) as I. destruct (isalive o e) as [[[a o1] e1]|].
  2:{ unfold read_post. cbn [piece]. rewrite !add_log_nil. repeat split; try easy; [left; easy|]. intros _ x _. lia. }
  destruct I as (I1 & (I2 & I3 & I4 & I5 & I6 & I7) & I8 & I9 & I10 & I11 & I12). pose proof (total_later e e1 I1) as T1. destruct a.
  - destruct (I10 eq_refl) as (-> & -> & F). apply read_waiting_spec; auto.
  - pose proof (self_select_spec (Some 0) e1) as P. destruct (self_select (Some 0) e1) as [r e2]. destruct P as (L & RR & P). pose proof (total_later e1 e2 L) as T2.
    assert (sane o1 e2) as S2. { intros _. destruct (alive e2) eqn:A2; [|easy]. destruct L as (_ & _ & L & _). rewrite (L A2) in I9. discriminate. }
    assert (alive e2 = false) as A2 by (apply S2; now apply I12).
    assert (now e <= now e1) as N1 by apply I1. assert (now e1 <= now e2) as N2 by apply L. destruct r.
    + destruct P as [P1 P2]. specialize (P2 0 eq_refl). pose proof (self_select_spec t e2) as W. unfold read_waiting. destruct (self_select t e2) as [r e3]. destruct W as (_ & W & _). destruct (W P1) as [-> ->].
      pose proof (read_ready_spec size (Some 0) o1 e2 ltac:(congruence) S2 P1) as Y. pose proof (read_ready_time size o1 e2) as Z. destruct (read_ready size o1 e2) as [[r o'] e']. destruct Y as [(Y1 & Y2 & Y3 & Y4 & Y5 & Y6 & Y7 & Y8 & Y9) _], Z as (Z1 & Z2 & Z3).
      unfold read_post. split; [easy|]. split; [lia|]. split; [congruence|]. split; [congruence|]. split; [congruence|]. split; [congruence|]. split; [congruence|].
      split; [|intros F x _; rewrite (I11 F) in *; lia]. destruct r; try easy; [|destruct Y8; congruence]. destruct Y8 as (U & V & W'). repeat split; try easy; congruence.
    + destruct P as (P1 & x & X & P2). injection X as <-. destruct (readable_false e2 P1) as [PE HU]. unfold read_post. cbn [piece set_eof closed timeout logfile logfile_read flag_eof]. rewrite !add_log_nil.
      split; [exact S2|]. split; [lia|]. split; [congruence|]. split; [congruence|]. split; [exact (eq_trans T1 T2)|]. split; [congruence|]. split; [congruence|]. split; [auto|]. intros F x _. rewrite (I11 F) in *. lia.
    + easy.
    + destruct P. discriminate.
Qed.
(** What is there is read at once. *)
Lemma read_directly size t0 o e : sane o e -> closed o = false -> flag_eof o = false -> pending e <> [] ->
  exists o1, same o o1 /\ sane o1 e /\ read_nonblocking size t0 o e = read_ready size o1 e.
Proof.
  intros S CL F P. unfold read_nonblocking. rewrite CL. cbv zeta. set (t := match t0 with None => timeout o | Some t => t end). clearbody t. pose proof (isalive_spec o e S) as I.
  assert (readable e = true) as RD by (unfold readable; now destruct (pending e)).
  assert (forall x v, let '(r, e') := self_select x v in readable v = true -> r = Ready /\ e' = v) as SS.
  { intros x v. pose proof (self_select_spec x v) as Q. destruct (self_select x v). apply Q. }
  destruct (isalive o e) as [[[a o1] e1]|]; [|destruct I; congruence]. destruct I as (I1 & I2 & I8 & I9 & I10 & I11 & I12). specialize (I11 F). subst e1.
  exists o1. split; [easy|]. split; [easy|].
  assert (read_waiting size t o1 e = read_ready size o1 e) as R.
  { unfold read_waiting. specialize (SS t e). destruct (self_select t e) as [r e1]. now destruct (SS RD) as [-> ->]. }
  destruct a; [exact R|]. specialize (SS (Some 0) e). destruct (self_select (Some 0) e) as [r e1]. destruct (SS RD) as [-> ->]. exact R.
Qed.
Lemma read_at_once size t0 o e : sane o e -> closed o = false -> flag_eof o = false -> pending e <> [] -> 0 < size ->
  exists s o' e', read_nonblocking size t0 o e = (Data s, o', e') /\ now e' = now e.
Proof.
  intros S CL F P Z. destruct (read_directly size t0 o e S CL F P) as (o1 & (I2 & _) & S1 & ->). assert (readable e = true) as RD by (unfold readable; now destruct (pending e)).
  pose proof (read_ready_spec size None o1 e ltac:(congruence) S1 RD) as Y. destruct (read_ready size o1 e) as [[r o'] e']. destruct Y as [_ Y]. destruct (Y P Z) as [(s & ->) N]. now exists s, o', e'.
Qed.
Lemma read_nothing t0 o e : sane o e -> closed o = false -> flag_eof o = false -> pending e <> [] -> exists o' e', read_nonblocking 0 t0 o e = (EOF, o', e') /\ pending e' = pending e.
Proof.
  intros S CL F P. destruct (read_directly 0 t0 o e S CL F P) as (o1 & _ & _ & ->). unfold read_ready, os_read. destruct (pending e) as [|c p]; [easy|]. cbn. now do 2 eexists.
Qed.
(** *** Many reads *)
Lemma reads_spec : forall l o e, sane o e -> let '(rs, o', e') := reads l o e in
  sane o' e' /\ now e <= now e' /\ closed o' = closed o /\ timeout o' = timeout o /\ total e = data rs ++ total e' /\ logfile o' = add_log (data rs) (logfile o) /\ logfile_read o' = add_log (data rs) (logfile_read o).
Proof.
  induction l as [|[size t] l IH]; intros o e S; cbn [reads].
  - cbn. rewrite !add_log_nil. easy.
  - pose proof (read_spec size t o e S) as P. destruct (read_nonblocking size t o e) as [[r o1] e1]. destruct P as (A & B & C & D & T & G & H & _).
    specialize (IH o1 e1 A). destruct (reads l o1 e1) as [[rs o2] e2]. destruct IH as (A' & B' & C' & D' & T' & G' & H').
    assert (r <> Blocks -> sane o2 e2 /\ now e <= now e2 /\ closed o2 = closed o /\ timeout o2 = timeout o /\ total e = data (r :: rs) ++ total e2 /\ logfile o2 = add_log (data (r :: rs)) (logfile o) /\ logfile_read o2 = add_log (data (r :: rs)) (logfile_read o)) as Q.
    { intros _. assert (data (r :: rs) = piece r ++ data rs) as -> by easy. split; [easy|]. split; [lia|]. split; [congruence|]. split; [congruence|]. split; [rewrite T, T'; now rewrite app_assoc|]. split; [rewrite G', G; now rewrite add_log_app|rewrite H', H; now rewrite add_log_app]. }
    destruct r; try (apply Q; easy). cbn [piece] in T. cbn. rewrite !add_log_nil in *. easy.
Qed.
(** *** After EOF *)
Lemma wait_end_none : forall l e, alive e = true -> ~ In Dies l -> wait_end l e = None.
Proof.
  induction l as [|h l IH]; intros e A N; cbn [wait_end]; rewrite A; [easy|]. apply IH; [destruct h; try exact A; elim N; now left|]. intros H. apply N. now right.
Qed.
Lemma read_dead size t0 o e o1 e1 r o' e' : sane o e -> closed o = false -> isalive o e = Some (false, o1, e1) -> read_nonblocking size t0 o e = (r, o', e') -> r <> TIMEOUT /\ r <> Blocks /\ alive e' = false.
Proof.
  intros S CL E H. pose proof (isalive_spec o e S) as I. unfold read_nonblocking in H. rewrite CL in H. cbv zeta in H. rewrite E in I, H. destruct I as (_ & _ & I8 & I9 & _).
  pose proof (self_select_spec (Some 0) e1) as Q. destruct (self_select (Some 0) e1) as [r1 e2]. destruct Q as (L & RR & Q).
  assert (alive e2 = false) as A2. { destruct (alive e2) eqn:A2; [|easy]. destruct L as (_ & _ & L & _). rewrite (L A2) in I9. discriminate. }
  destruct r1.
  - destruct Q as [Q _]. unfold read_waiting in H. pose proof (self_select_spec (match t0 with None => timeout o | Some t => t end) e2) as W2.
    destruct (self_select (match t0 with None => timeout o | Some t => t end) e2) as [r2 e3]. destruct W2 as (_ & W2 & _). destruct (W2 Q) as [-> ->].
    unfold read_ready, os_read in H. destruct (pending e2) as [|c p]; [injection H as <- <- <-; easy|]. cbv zeta in H. destruct (firstn _ _) as [|d q]; injection H as <- <- <-; easy.
  - injection H as <- <- <-. easy.
  - easy.
  - destruct Q. discriminate.
Qed.

Lemma isalive_flag o e b o1 e1 : isalive o e = Some (b, o1, e1) -> flag_eof o1 = flag_eof o.
Proof. unfold isalive. destruct (terminated o); [now intros [= <- <- <-]|]. destruct (flag_eof o) eqn:F. - destruct (wait_end _ _); [|easy]. now intros [= <- <- <-]. - destruct (alive e); now intros [= <- <- <-]. Qed.
Lemma read_ready_flag size o e r o1 e1 : read_ready size o e = (r, o1, e1) -> flag_eof o1 = true <-> flag_eof o = true \/ r = EOF.
Proof.
  unfold read_ready, os_read. destruct (pending e) as [|c p]. { intros [= <- <- <-]. cbn. tauto. }
  match goal with |- context [firstn ?n ?p] => destruct (firstn n p) end; intros [= <- <- <-]; cbn.
  - tauto.
  - split; [tauto|intros [Q|Q]; [easy|discriminate]].
Qed.
Lemma read_waiting_flag size t o e r o1 e1 : read_waiting size t o e = (r, o1, e1) -> flag_eof o1 = true <-> flag_eof o = true \/ r = EOF.
Proof.
  unfold read_waiting. destruct (self_select t e) as [[] e0]; try (intros [= <- <- <-]; split; [tauto|intros [Q|Q]; [easy|discriminate]]).
  - apply read_ready_flag.
  - destruct (isalive o e0) as [[[[] o2] e2]|] eqn:I; [| |intros [= <- <- <-]; split; [tauto|intros [Q|Q]; [easy|discriminate]]].
    + apply isalive_flag in I. intros [= <- <- <-]. rewrite I. split; [tauto|intros [Q|Q]; [easy|discriminate]].
    + intros [= <- <- <-]. cbn. tauto.
Qed.
Lemma read_flag size t o e r o1 e1 : read_nonblocking size t o e = (r, o1, e1) -> flag_eof o1 = true <-> flag_eof o = true \/ r = EOF.
Proof.
  unfold read_nonblocking. destruct (closed o). { intros [= <- <- <-]. split; [tauto|intros [Q|Q]; [easy|discriminate]]. }
  cbv zeta. destruct (isalive o e) as [[[[] o2] e2]|] eqn:I; [| |intros [= <- <- <-]; split; [tauto|intros [Q|Q]; [easy|discriminate]]]; apply isalive_flag in I.
  - intros H. apply read_waiting_flag in H. now rewrite I in H.
  - destruct (self_select (Some 0) e2) as [[] e3]; try (intros [= <- <- <-]; cbn; tauto).
    + intros H. apply read_waiting_flag in H. now rewrite I in H.
    + intros [= <- <- <-]. rewrite I. split; [tauto|intros [Q|Q]; [easy|discriminate]].
Qed.
Lemma reads_flag l : forall o e, let '(rs, o1, _) := reads l o e in flag_eof o1 = true <-> flag_eof o = true \/ In EOF rs.
Proof.
  induction l as [|[size t] l IH]; intros o e; cbn [reads]. { cbn. tauto. }
  destruct (read_nonblocking size t o e) as [[r o1] e1] eqn:R. pose proof (read_flag _ _ _ _ _ _ _ R) as F. specialize (IH o1 e1). destruct (reads l o1 e1) as [[rs o2] e2].
  destruct r; try (cbn; rewrite IH, F; split; [intros [[Q|Q]|Q]; try discriminate; tauto|intros [Q|[Q|Q]]; try discriminate; tauto]).
  cbn. rewrite F. split; [intros [Q|Q]; [tauto|discriminate]|intros [Q|[Q|[]]]; [tauto|discriminate]].
Qed.
