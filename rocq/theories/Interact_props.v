(** C74: what is sent to a child process. *)
From Coq Require Import String Ascii Lia.
From Verif Require Import Py Interact_spec Interact_model Interact_proof Interact_proof2.
Open Scope nat_scope.
Open Scope list_scope.

(** interact: the rounds are those that are done and a rest. What the user typed in them reaches the child in order and completely, if the child
    is alive at the end, up to the (last) escape text of the first piece that has one; only then it ends so. *)
Theorem typed_text_reaches_the_child escape fin fout rounds w o w' : interact escape fin fout rounds w = (o, w') -> 0 < lives w' ->
  exists done rest sent, rounds = done ++ rest /\ to_child w' = to_child w ++ sent /\
  let pieces := map fin (flat_map (fun r => match from_user r with Some d => [d] | None => [] end) done) in
  match o with
  | Escaped => up_to_escape escape pieces sent
  | ChildEnded => False
  | Going => rest = [] /\ without_escape escape pieces sent
  | SystemError => without_escape escape pieces sent /\ exists r rest', rest = r :: rest' /\ from_child r = Some None
  end.
Proof.
  intros H L. apply interact_all in H as (done & rest & sent & p & shown & E & R & P1 & P2 & P3 & P4 & _). exists done, rest, sent. split; [easy|]. split; [rewrite P1, (P3 L); easy|].
  destruct o; try exact R. specialize (P4 eq_refl). lia.
Qed.
(** If the child ends meanwhile, it has got the first part of that. *)
Theorem child_gets_the_first_part escape fin fout rounds w o w' : interact escape fin fout rounds w = (o, w') ->
  exists done rest sent got, rounds = done ++ rest /\ to_child w' = to_child w ++ got /\ prefix got sent /\ (o = ChildEnded -> lives w' = 0) /\
  let pieces := map fin (flat_map (fun r => match from_user r with Some d => [d] | None => [] end) done) in
  match o with Escaped => up_to_escape escape pieces sent | _ => without_escape escape pieces sent end.
Proof.
  intros H. apply interact_all in H as (done & rest & sent & p & shown & E & R & P1 & P2 & P3 & P4 & _). exists done, rest, sent, p. do 4 (split; [easy|]). destruct o; now try apply R.
Qed.
(** What the child writes in them is shown after the buffer; all of it goes to the log, and to the terminal if that takes what is written. *)
Theorem output_is_shown escape fin fout rounds w o w' : interact escape fin fout rounds w = (o, w') ->
  exists done rest shown, rounds = done ++ rest /\ (o = Going -> rest = []) /\
  let output := concat (map fout (flat_map (fun r => match from_child r with Some (Some d) => [d] | _ => [] end) done)) in
  to_user w' = to_user w ++ buffer w ++ shown /\ length shown <= length output /\ (user_takes w = [] -> shown = output) /\
  logfile w' = (match logfile w with Some t => Some (t ++ output) | None => None end) /\ logfile_send w' = logfile_send w.
Proof.
  intros H. apply interact_all in H as (done & rest & sent & p & shown & E & R & P1 & P2 & P3 & P4 & P5 & P6 & P7 & P8 & P9 & _). exists done, rest, shown. split; [easy|].
  split; [intros ->; apply R|]. easy.
Qed.
(** However it ends, the terminal is as before, and the buffer is empty. *)
Theorem terminal_is_restored escape fin fout rounds w o w' : interact escape fin fout rounds w = (o, w') -> buffer w' = [] /\ (o <> Going -> raw w' = raw w) /\ (o = Going -> raw w' = true).
Proof.
  intros H. apply interact_all in H as (done & rest & sent & p & shown & _ & _ & _ & _ & _ & _ & _ & _ & _ & _ & _ & A & B). split; [easy|]. now destruct o.
Qed.
(** An escape character that is read at most once at a time is not sent, whatever the pieces are: the child gets what was typed before it. *)
Theorem escape_is_not_sent e fin fout rounds w o w' : interact [e] fin fout rounds w = (o, w') ->
  Forall (fun p => count_occ ascii_dec p e <= 1) (map fin (flat_map (fun r => match from_user r with Some d => [d] | None => [] end) rounds)) ->
  exists got, to_child w' = to_child w ++ got /\ ~ In e got /\ exists rest, concat (map fin (flat_map (fun r => match from_user r with Some d => [d] | None => [] end) rounds)) = got ++ rest /\
  (o = Escaped -> 0 < lives w' -> exists y, rest = e :: y).
Proof.
  intros H F. apply interact_all in H as (done & rest & sent & p & shown & -> & R & P1 & P2 & P3 & _). exists p. split; [easy|]. rewrite flat_map_app, map_app, concat_app in *. apply Forall_app in F as [F _].
  assert (~ In e sent /\ exists y, concat (map fin (typed done)) = sent ++ y /\ (o = Escaped -> exists y', y = e :: y')) as (N & y & Y & Z).
  { destruct o.
    - apply (up_to_first e) in R as [A (y & B)]; [|exact F]. split; [easy|]. exists (e :: y). split; [easy|]. now exists y.
    - apply without_one in R as [A ->]. split; [easy|]. exists []. rewrite app_nil_r. split; [easy|discriminate].
    - destruct R as [R _]. apply without_one in R as [A ->]. split; [easy|]. exists []. rewrite app_nil_r. split; [easy|discriminate].
    - destruct R as [_ R]. apply without_one in R as [A ->]. split; [easy|]. exists []. rewrite app_nil_r. split; [easy|discriminate]. }
  fold (typed done) (typed rest). split; [now apply (not_in_prefix e p sent)|]. destruct P2 as (q & ->). exists (q ++ y ++ concat (map fin (typed rest))). split; [rewrite Y; now rewrite <- !app_assoc|].
  intros Oe L. destruct (Z Oe) as (y' & ->). specialize (P3 L). assert (q = []) as -> by (apply (app_inv_head p); rewrite app_nil_r; congruence). now eexists.
Qed.
(** A finding: if it is read twice at once, the first one is sent, and what follows it. *)
Theorem first_of_two_escapes_is_sent e fout x y z rest w : ~ In e z -> 2 <= lives w -> child_takes w = [] ->
  let '(o, w') := interact [e] (fun d => d) fout ({| from_child := None; from_user := Some (x ++ e :: y ++ e :: z) |} :: rest) w in
  o = Escaped /\ to_child w' = to_child w ++ x ++ e :: y.
Proof.
  intros N L T. rewrite interact_unfold. cbn [interact_copy]. unfold isalive. cbn [started lives]. destruct (lives w) as [|[|n]] eqn:LW; [lia|lia|]. cbn [negb from_child from_user].
  set (d := x ++ e :: y ++ e :: z). pose proof (rfind_spec [e] d) as RF. destruct (rfind [e] d) as [i|].
  - assert (firstn i d = x ++ e :: y) as ->.
    { destruct RF as [(q & Q) M]. specialize (M (x ++ e :: y)). assert (occurs_after [e] d (x ++ e :: y)) as Oc by (exists z; unfold d; now rewrite <- app_assoc).
      specialize (M Oc). revert Q M. generalize (firstn i d) as p. unfold d. intros p Q M.
      assert (x ++ e :: y ++ e :: z = (x ++ e :: y) ++ e :: z) as Q2 by now rewrite <- app_assoc. rewrite Q2 in Q. clear Q2 Oc. revert Q M. generalize (x ++ e :: y) as a. intros a Q M.
      apply app_eq_app in Q as (l & [[-> Q]|[-> Q]]).
      - rewrite app_length in M. destruct l; [now rewrite app_nil_r|cbn in M; lia].
      - destruct l as [|c l]; [now rewrite app_nil_r|]. cbn in Q. injection Q as -> ->. elim N. apply in_or_app. right. now left. }
    split; [easy|]. unfold interact_writen. destruct (x ++ e :: y) as [|c s] eqn:XY; [now destruct x|]. cbn [length writen_loop]. unfold isalive. cbn [set_lives lives].
    unfold write_child. cbn [takes set_lives started child_takes]. rewrite T. unfold takes. rewrite firstn_all, skipn_all2 by easy. cbn [writen_loop set_raw to_child set_lives started]. easy.
  - elim RF. exists x. now exists (y ++ e :: z).
Qed.
(** A finding: at the end of the input of the user the loop goes on as long as the child lives, without doing anything. *)
Theorem end_of_input_is_not_noticed escape fin fout n w : escape <> [] -> fin [] = [] -> n < lives w ->
  let '(o, w') := interact escape fin fout (repeat {| from_child := None; from_user := Some [] |} n) w in o = Going /\ to_child w' = to_child w /\ lives w' = lives w - n - 1.
Proof.
  intros NE FN L. rewrite interact_unfold.
  assert (forall v, n < lives v -> let '(o, w') := interact_copy escape fin fout (repeat {| from_child := None; from_user := Some [] |} n) v in o = Going /\ to_child w' = to_child v /\ lives w' = lives v - n - 1) as Q.
  { clear w L. induction n as [|n IH]; intros v L.
    - cbn [repeat interact_copy]. unfold isalive. destruct (lives v) as [|m] eqn:E; [lia|]. cbn. split; [easy|]. split; [easy|lia].
    - cbn [repeat interact_copy]. unfold isalive. destruct (lives v) as [|m] eqn:E; [lia|]. cbn [negb from_child from_user]. rewrite FN. cbn [rfind]. destruct escape as [|c e]; [easy|]. cbn [starts_with].
      unfold interact_writen. cbn [length writen_loop]. specialize (IH (set_lives m v)). cbn [set_lives lives to_child] in IH. specialize (IH ltac:(lia)).
      destruct (interact_copy _ _ _ _ _) as [o w']. destruct IH as (A & B & D). split; [easy|]. split; [easy|lia]. }
  specialize (Q (started w) L). destruct (interact_copy _ _ _ _ _) as [o w1]. destruct Q as (-> & A & B). easy.
Qed.

(** send: the number returned is the number of characters the child got; the logs get all of them. *)
Theorem send_counts s w n w' : send s w = (n, w') ->
  n <= length s /\ (s <> [] -> 1 <= n) /\ to_child w' = to_child w ++ firstn n s /\ (child_takes w = [] -> n = length s) /\
  logfile w' = (match logfile w with Some t => Some (t ++ s) | None => None end) /\ logfile_send w' = (match logfile_send w with Some t => Some (t ++ s) | None => None end).
Proof. intros (A & B & C & D & E & F & _)%send_spec. repeat split; try easy. intros T. now apply C. Qed.
(** A finding: sendline ends the line even if it sent only part of it. *)
Theorem sendline_ends_the_line s w n w' : sendline s w = (n, w') ->
  exists k, n = k + 1 /\ k <= length s /\ to_child w' = to_child w ++ firstn k s ++ ["010"%char] /\ (child_takes w = [] -> k = length s).
Proof.
  unfold sendline. destruct (send s w) as [k w1] eqn:E. destruct (send_one "010"%char w1) as (w2 & E2 & C2). unfold linesep. rewrite E2. intros H. injection H as <- <-.
  apply send_spec in E as (A & B & C & D & _). exists k. repeat split; try easy; [|intros T; now apply C]. rewrite C2, D. now rewrite app_assoc.
Qed.
(** writelines: all of it, if writes take all; a finding: otherwise only the first part of each string, which nobody is told; the logs get all. *)
Theorem writelines_sends sequence w : exists parts,
  to_child (writelines sequence w) = to_child w ++ concat parts /\ Forall2 (fun s p => prefix p s /\ (s <> [] -> p <> [])) sequence parts /\ (child_takes w = [] -> parts = sequence) /\
  logfile (writelines sequence w) = (match logfile w with Some t => Some (t ++ concat sequence) | None => None end) /\
  logfile_send (writelines sequence w) = (match logfile_send w with Some t => Some (t ++ concat sequence) | None => None end).
Proof. exact (writelines_spec sequence w). Qed.
(** sendcontrol: the control character, and 1; for other characters nothing, and 0. *)
Theorem sendcontrol_sends_the_code c w :
  match control c with
  | Some d => exists w', sendcontrol c w = (1, w') /\ to_child w' = to_child w ++ [d]
  | None => sendcontrol c w = (0, w)
  end.
Proof. rewrite control_code. destruct (control c) as [d|]; [apply send_one|easy]. Qed.

Print Assumptions typed_text_reaches_the_child.
Print Assumptions child_gets_the_first_part.
Print Assumptions output_is_shown.
Print Assumptions terminal_is_restored.
Print Assumptions escape_is_not_sent.
Print Assumptions first_of_two_escapes_is_sent.
Print Assumptions end_of_input_is_not_noticed.
Print Assumptions send_counts.
Print Assumptions sendline_ends_the_line.
Print Assumptions writelines_sends.
Print Assumptions sendcontrol_sends_the_code.

(** Concrete cases. *)
Definition chars (s : string) : txt := list_ascii_of_string s.
Definition new (n : nat) (c u : list nat) : world :=
  {| lives := n; child_takes := c; user_takes := u; to_child := []; to_user := []; logfile := Some []; logfile_send := None; raw := false; buffer := chars "$ " |}.
Definition same (s : txt) : txt := s.
Definition says (s : string) := {| from_child := Some (Some (chars s)); from_user := None |}.
Definition types (s : string) := {| from_child := None; from_user := Some (chars s) |}.
Example a_session : let '(o, w) := interact (chars "!") same same [types "l"; says "l"; types "s"; {| from_child := Some (Some (chars "s")); from_user := Some (chars " -a!ignored") |}; says "never read"] (new 20 [1; 1; 2] []) in
  o = Escaped /\ to_child w = chars "ls -a" /\ to_user w = chars "$ ls" /\ logfile w = Some (chars "ls") /\ raw w = false /\ 0 < lives w.
Proof. vm_compute. repeat split; auto. apply Nat.lt_0_succ. Qed.
Example child_dies : let '(o, w) := interact (chars "!") same same [types "exit"; types "more"] (new 3 [2] []) in o = ChildEnded /\ to_child w = chars "exit" /\ raw w = false.
Proof. now vm_compute. Qed.
Example read_fails : let '(o, w) := interact (chars "!") same same [types "exit"; {| from_child := Some None; from_user := Some (chars "x") |}] (new 9 [] []) in o = SystemError /\ to_child w = chars "exit" /\ raw w = false.
Proof. now vm_compute. Qed.
(** the terminal takes only part of the output: the rest is lost *)
Example output_lost : let '(o, w) := interact (chars "!") same same [says "hello"; says " world"] (new 9 [] [3]) in o = Going /\ to_user w = chars "$ hel world" /\ logfile w = Some (chars "hello world").
Proof. now vm_compute. Qed.
Example two_escapes : let '(o, w) := interact (chars "!") same same [types "a!b!c"] (new 9 [] []) in o = Escaped /\ to_child w = chars "a!b".
Proof. now vm_compute. Qed.
(** an escape text of two characters typed one by one *)
Example long_escape : let '(o, w) := interact (chars "~.") same same [types "a"; types "~"; types "."] (new 9 [] []) in o = Going /\ to_child w = chars "a~.".
Proof. now vm_compute. Qed.
Example line_cut : let '(n, w) := sendline (chars "rm -r /tmp/x") (new 9 [7] []) in n = 8 /\ to_child w = chars "rm -r /" ++ ["010"%char].
Proof. now vm_compute. Qed.
Example control_g : control "g" = Some "007"%char /\ control "[" = Some "027"%char /\ control "1" = None.
Proof. now vm_compute. Qed.
