From Coq Require Import String Ascii Lia.
From Verif Require Import Py Interact_spec Interact_model Interact_proof.
Open Scope nat_scope.
Open Scope list_scope.

(** *** An escape of one character *)
Lemma contains_in e s : contains [e] s <-> In e s.
Proof.
  split.
  - intros (x & y & ->). apply in_or_app. right. now left.
  - intros (x & y & ->)%in_split. now exists x, y.
Qed.
Lemma count_app (e : ascii) (a b : txt) : count_occ ascii_dec (a ++ b) e = count_occ ascii_dec a e + count_occ ascii_dec b e.
Proof. induction a as [|c a IH]; cbn; [easy|]. destruct (ascii_dec c e); rewrite IH; lia. Qed.
Lemma concat_not_in (e : ascii) (l : list txt) : Forall (fun p => ~ contains [e] p) l -> ~ In e (concat l).
Proof. intros F H. apply in_concat in H as (p & I & H). rewrite Forall_forall in F. apply (F p I). now apply contains_in. Qed.
Lemma up_to_first e pieces sent : Forall (fun p => count_occ ascii_dec p e <= 1) pieces -> up_to_escape [e] pieces sent -> ~ In e sent /\ exists y, concat pieces = sent ++ e :: y.
Proof.
  intros F (before & piece & x & -> & N & [(y & ->) _] & ->). apply Forall_app in F as [_ F]. inversion F as [|a b C _]; subst. rewrite count_app in C. cbn [app count_occ] in C.
  destruct (ascii_dec e e) as [_|Q]; [|easy]. split.
  - intros [H|H]%in_app_or; [now apply (concat_not_in e before)|]. rewrite (count_occ_In ascii_dec) in H. lia.
  - exists y. rewrite concat_app. cbn. rewrite app_nil_r. now rewrite <- app_assoc.
Qed.
Lemma without_one e pieces sent : without_escape [e] pieces sent -> ~ In e sent /\ sent = concat pieces.
Proof. intros [F ->]. split; [now apply concat_not_in|easy]. Qed.
Lemma not_in_prefix (e : ascii) p s : prefix p s -> ~ In e s -> ~ In e p.
Proof. intros (r & ->) N H. apply N. apply in_or_app. now left. Qed.

(** *** interact *)
Definition started (w : world) : world :=
  {| lives := lives w; child_takes := child_takes w; user_takes := user_takes w; to_child := to_child w; to_user := to_user w ++ buffer w; logfile := logfile w;
     logfile_send := logfile_send w; raw := true; buffer := [] |}.
Lemma interact_unfold escape fin fout rounds w : interact escape fin fout rounds w =
  let (o, w1) := interact_copy escape fin fout rounds (started w) in (o, match o with Going => w1 | _ => set_raw (raw w) w1 end).
Proof. reflexivity. Qed.
(** [w] and [w'] differ only in whether the terminal is raw *)
Lemma interact_spec escape fin fout rounds w o w' : interact escape fin fout rounds w = (o, w') ->
  exists w1, copied escape fin fout rounds (started w) o w1 /\ w' = match o with Going => w1 | _ => set_raw (raw w) w1 end.
Proof.
  rewrite interact_unfold. pose proof (copy_spec escape fin fout rounds (started w)) as P. destruct (interact_copy escape fin fout rounds (started w)) as [o1 w1].
  intros H. injection H as <- <-. now exists w1.
Qed.
Lemma set_raw_same b w : lives (set_raw b w) = lives w /\ to_child (set_raw b w) = to_child w /\ to_user (set_raw b w) = to_user w /\ logfile (set_raw b w) = logfile w /\ logfile_send (set_raw b w) = logfile_send w /\ buffer (set_raw b w) = buffer w /\ raw (set_raw b w) = b.
Proof. now repeat split. Qed.
Lemma interact_all escape fin fout rounds w o w' : interact escape fin fout rounds w = (o, w') ->
  exists done rest sent p shown, rounds = done ++ rest /\ result escape fin o done rest sent /\
    to_child w' = to_child w ++ p /\ prefix p sent /\ (0 < lives w' -> p = sent) /\ (o = ChildEnded -> lives w' = 0) /\
    to_user w' = to_user w ++ buffer w ++ shown /\ length shown <= length (concat (map fout (printed done))) /\ (user_takes w = [] -> shown = concat (map fout (printed done))) /\
    logfile w' = add_log (concat (map fout (printed done))) (logfile w) /\ logfile_send w' = logfile_send w /\ raw w' = (match o with Going => true | _ => raw w end) /\ buffer w' = [].
Proof.
  intros (w1 & (done & rest & sent & p & shown & E & R & Q1 & Q2 & Q3 & Q4 & Q5 & Q6 & Q7 & Q8 & Q9 & Q10 & Q11 & Q12 & Q13 & Q14) & W)%interact_spec.
  exists done, rest, sent, p, shown. split; [easy|]. split; [easy|]. cbn [started to_child to_user user_takes logfile logfile_send raw buffer lives] in *.
  assert (lives w' = lives w1 /\ to_child w' = to_child w1 /\ to_user w' = to_user w1 /\ logfile w' = logfile w1 /\ logfile_send w' = logfile_send w1 /\ buffer w' = buffer w1 /\ raw w' = match o with Going => true | _ => raw w end) as (A1 & A2 & A3 & A4 & A5 & A6 & A7).
  { subst w'. now destruct o. }
  rewrite A1, A2, A3, A4, A5, A6, A7. split; [easy|]. split; [easy|]. split; [easy|]. split; [easy|]. split; [rewrite Q7; now rewrite app_assoc|]. split; [easy|]. split; [intros T; now apply Q9|]. easy.
Qed.

(** *** Sending *)
Lemma send_spec s w n w' : send s w = (n, w') ->
  n <= length s /\ (s <> [] -> 1 <= n) /\ (child_takes w = [] -> n = length s /\ child_takes w' = []) /\
  to_child w' = to_child w ++ firstn n s /\ logfile w' = add_log s (logfile w) /\ logfile_send w' = add_log s (logfile_send w) /\ lives w' = lives w.
Proof.
  unfold send. intros H. pose proof H as H'. apply write_child_spec in H as (A & B & C & (D & _ & _ & E & F & _)). split; [easy|]. split; [easy|]. split.
  { intros T. unfold write_child, takes in H'. cbn in H'. rewrite T in H'. injection H' as <- <-. easy. }
  split; [exact D|]. split; [exact E|]. split; [exact F|exact C].
Qed.
Lemma control_code : forall c w, sendcontrol c w = match control c with Some d => send [d] w | None => (0, w) end.
Proof. intros [[|] [|] [|] [|] [|] [|] [|] [|]] w; reflexivity. Qed.
Lemma send_one c w : exists w', send [c] w = (1, w') /\ to_child w' = to_child w ++ [c].
Proof.
  destruct (send [c] w) as [n w'] eqn:E. apply send_spec in E as (A & B & _ & D & _). exists w'. cbn [length] in A. assert (n = 1) as -> by (specialize (B ltac:(easy)); lia). easy.
Qed.
Lemma writelines_spec : forall seq w, exists parts,
  to_child (writelines seq w) = to_child w ++ concat parts /\ Forall2 (fun s p => prefix p s /\ (s <> [] -> p <> [])) seq parts /\ (child_takes w = [] -> parts = seq) /\
  logfile (writelines seq w) = add_log (concat seq) (logfile w) /\ logfile_send (writelines seq w) = add_log (concat seq) (logfile_send w).
Proof.
  induction seq as [|s seq IH]; intros w.
  - exists []. cbn. rewrite app_nil_r, !add_log_nil. easy.
  - unfold writelines in *. cbn [fold_left]. destruct (send s w) as [n w1] eqn:E. assert (write s w = w1) as -> by (unfold write; now rewrite E). apply send_spec in E as (A & B & C & D & L1 & L2 & _).
    destruct (IH w1) as (parts & P1 & P2 & P3 & P4 & P5). exists (firstn n s :: parts). split; [rewrite P1, D; cbn [concat]; now rewrite app_assoc|]. split.
    + constructor; [|easy]. split; [exists (skipn n s); now rewrite firstn_skipn|]. intros N H. specialize (B N). destruct s; [easy|]. destruct n; [lia|discriminate].
    + split; [intros T; destruct (C T) as [-> T1]; rewrite firstn_all; now rewrite (P3 T1)|]. rewrite P4, P5, L1, L2, !add_log_app. easy.
Qed.
