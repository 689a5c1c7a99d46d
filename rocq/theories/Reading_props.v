(** C75: reading from a child process. *)
From Coq Require Import Ascii Lia String.
From Verif Require Import Py Reading_spec Reading_model Reading_proof Reading_proof2.
Open Scope nat_scope.
Open Scope list_scope.

(** [o] and [e] are what [results] leave: reads from a new child, while the things in [s] happen. *)
Definition reached (s : list happening) (results : list result) (o : spawn) (e : env) : Prop :=
  exists t log log_read g l, reads l (new_spawn t log log_read g) (new_env s) = (results, o, e).
Lemma reached_all s rs o e : reached s rs o e -> sane o e /\ closed o = false /\ output s = data rs ++ total e.
Proof.
  intros (t & log & lr & g & l & H). pose proof (reads_spec l (new_spawn t log lr g) (new_env s)) as P. rewrite H in P. destruct P as (A & _ & B & _ & C & _); [now intros Q|]. split; [easy|]. split; [easy|exact C].
Qed.

(** Nothing is lost, repeated or reordered, whatever the sizes, time-outs and pieces. *)
Theorem nothing_is_lost s rs o e : reached s rs o e -> exists rest, output s = data rs ++ pending e ++ rest /\ (hung e = true -> rest = []).
Proof. intros (S & _ & T)%reached_all. exists (if hung e then [] else output (schedule e)). split; [exact T|]. now intros ->. Qed.
(** The flag for EOF tells whether a read raised EOF. *)
Theorem flag_tells_eof s rs o e : reached s rs o e -> (flag_eof o = true <-> In EOF rs).
Proof.
  intros (t & log & lr & g & l & H). pose proof (reads_flag l (new_spawn t log lr g) (new_env s)) as P. rewrite H in P. cbn in P. rewrite P. split; [intros [Q|Q]; [discriminate|easy]|now right].
Qed.
(** The log files get exactly what is returned. *)
Theorem logs_get_what_is_read t log log_read g l s rs o e : reads l (new_spawn t log log_read g) (new_env s) = (rs, o, e) ->
  logfile o = (match log with Some a => Some (a ++ data rs) | None => None end) /\ logfile_read o = (match log_read with Some a => Some (a ++ data rs) | None => None end).
Proof. intros H. pose proof (reads_spec l (new_spawn t log log_read g) (new_env s)) as P. rewrite H in P. destruct P as (_ & _ & _ & _ & _ & A & B); [now intros Q|]. now split. Qed.
(** What a read returns is not empty, not longer than asked for, and came in time. *)
Theorem data_in_time s rs o e size t x o' e' : reached s rs o e -> read_nonblocking size t o e = (Data x, o', e') ->
  x <> [] /\ length x <= size /\ (flag_eof o = false -> forall d, (match t with Some t => t | None => timeout o end) = Some d -> now e' <= now e + d).
Proof.
  intros (S & _ & _)%reached_all H. pose proof (read_spec size t o e S) as P. rewrite H in P. destruct P as (_ & _ & _ & _ & _ & _ & _ & (A & B & _) & C). split; [easy|]. split; [easy|]. intros F d D. apply (C F). now destruct t.
Qed.
(** What is there already is returned at once, even by a child that has ended. *)
Theorem read_at_once s rs o e size t : reached s rs o e -> flag_eof o = false -> pending e <> [] -> 0 < size ->
  exists x o' e', read_nonblocking size t o e = (Data x, o', e') /\ now e' = now e.
Proof. intros (S & C & _)%reached_all F P Z. now apply Reading_proof2.read_at_once. Qed.
(** EOF: there is nothing to read, and the terminal is hung up or the child has ended; after hanging up all the output was returned. *)
Theorem eof_is_the_end s rs o e size t o' e' : reached s rs o e -> 0 < size -> read_nonblocking size t o e = (EOF, o', e') ->
  flag_eof o' = true /\ pending e' = [] /\ (hung e' = true \/ alive e' = false) /\ (hung e' = true -> data rs = output s).
Proof.
  intros (S & _ & T)%reached_all Z H. pose proof (read_spec size t o e S) as P. rewrite H in P. destruct P as (_ & _ & _ & _ & T2 & _ & _ & (A & [B|[B C]]) & _); [lia|]. split; [easy|]. split; [easy|]. split; [easy|].
  intros HU. rewrite T, T2. unfold total, future. rewrite B, HU. cbn. now rewrite app_nil_r.
Qed.
(** TIMEOUT: exactly the time has passed, there is nothing to read, and the child lives. *)
Theorem timeout_is_exact s rs o e size t o' e' : reached s rs o e -> read_nonblocking size t o e = (TIMEOUT, o', e') ->
  (exists d, (match t with Some t => t | None => timeout o end) = Some d /\ now e' = now e + d) /\ pending e' = [] /\ hung e' = false /\ alive e' = true.
Proof.
  intros (S & _ & _)%reached_all H. pose proof (read_spec size t o e S) as P. rewrite H in P. destruct P as (_ & _ & _ & _ & _ & _ & _ & (A & B & C & _ & (d & D & E)) & _). repeat split; try easy. exists d. split; [now destruct t|easy].
Qed.
(** Before EOF, a read with a time-out returns in time, in spite of signals; one without only waits if nothing more happens. *)
Theorem read_returns s rs o e size t r o' e' : reached s rs o e -> flag_eof o = false -> read_nonblocking size t o e = (r, o', e') ->
  match (match t with Some t => t | None => timeout o end) with
  | Some d => r <> Blocks /\ now e' <= now e + d
  | None => r = Blocks -> schedule e' = [] /\ pending e' = [] /\ hung e' = false
  end.
Proof.
  intros (S & _ & _)%reached_all F H. pose proof (read_spec size t o e S) as P. rewrite H in P. cbv zeta in P.
  destruct P as (_ & _ & _ & _ & _ & _ & _ & A & B). destruct (match t with Some t => t | None => timeout o end) as [d|].
  - split; [intros ->; destruct A as [(Q & _)|(Q & _)]; congruence|]. now apply B.
  - intros ->. destruct A as [(Q & _)|(_ & Q)]; [congruence|easy].
Qed.
(** A finding: after EOF, a read waits for the end of the child, whatever its time-out is, and even if there is something to read. *)
Theorem read_after_eof_waits s rs o e size t r o' e' : reached s rs o e -> flag_eof o = true -> alive e = true -> read_nonblocking size t o e = (r, o', e') ->
  r = Blocks /\ ~ In Dies (schedule e) \/ alive e' = false /\ r <> TIMEOUT /\ r <> Blocks /\ In Dies (schedule e).
Proof.
  intros (S & CL & _)%reached_all F A H. assert (terminated o = false) as T by (destruct (terminated o) eqn:T; [rewrite (S T) in A; discriminate|easy]).
  assert (In Dies (schedule e) \/ ~ In Dies (schedule e)) as [D|D]. { destruct (existsb (fun h => match h with Dies => true | _ => false end) (schedule e)) eqn:X.
    - apply existsb_exists in X as (h & X & Y). destruct h; try discriminate. now left.
    - right. intros D. assert (existsb (fun h => match h with Dies => true | _ => false end) (schedule e) = true) by (apply existsb_exists; now exists Dies). congruence. }
  - right. pose proof (isalive_spec o e S) as I. destruct (isalive o e) as [[[a o1] e1]|] eqn:E; [|now destruct I as (_ & _ & _ & I)]. destruct a; [destruct I as (_ & _ & _ & _ & I & _); destruct (I eq_refl) as (_ & _ & Q); congruence|].
    destruct (read_dead size t o e o1 e1 r o' e' S CL E H) as (B & C & K). easy.
  - left. split; [|easy]. unfold read_nonblocking in H. rewrite CL in H. cbv zeta in H. unfold isalive in H. rewrite T, F, (wait_end_none _ _ A D) in H. congruence.
Qed.
(** A finding: to read 0 characters raises EOF although there is something to read, and counts as EOF. *)
Theorem reading_nothing_is_eof s rs o e t : reached s rs o e -> flag_eof o = false -> pending e <> [] ->
  exists o' e', read_nonblocking 0 t o e = (EOF, o', e') /\ pending e' = pending e.
Proof. intros (S & CL & _)%reached_all F P. now apply read_nothing. Qed.

Print Assumptions nothing_is_lost.
Print Assumptions flag_tells_eof.
Print Assumptions logs_get_what_is_read.
Print Assumptions data_in_time.
Print Assumptions read_at_once.
Print Assumptions eof_is_the_end.
Print Assumptions timeout_is_exact.
Print Assumptions read_returns.
Print Assumptions read_after_eof_waits.
Print Assumptions reading_nothing_is_eof.

(** Concrete cases. *)
Definition chars (s : string) : txt := list_ascii_of_string s.
Definition outcome (x : list result * spawn * env) := let '(rs, o, e) := x in (rs, now e, pending e, logfile o).
Definition forever : option (option nat) := Some None.
Definition within (d : nat) : option (option nat) := Some (Some d).
Example a_program : outcome (reads [(2, within 10); (10, None); (10, within 5); (10, forever); (10, forever)] (new_spawn (Some 30) (Some []) None [1; 9])
    (new_env [Passes 4; Writes (chars "abc"); Passes 3; Writes (chars "d"); Interrupt; Passes 20; Interrupt; Writes (chars "e"); Dies; HangsUp])) =
  ([Data (chars "a"); Data (chars "bc"); Data (chars "d"); Data (chars "e"); EOF], 27, [], Some (chars "abcde")).
Proof. now vm_compute. Qed.
(** interrupted twice, the time-out is still exact *)
Example interrupted : outcome (reads [(2, within 10)] (new_spawn None None None []) (new_env [Passes 4; Interrupt; Passes 3; Interrupt; Passes 8; Writes (chars "late")])) = ([TIMEOUT], 10, [], None).
Proof. now vm_compute. Qed.
(** a program in the background goes on writing after the child has ended *)
Example background : outcome (reads [(9, within 10); (9, within 10); (9, within 10)] (new_spawn None None None []) (new_env [Dies; Passes 5; Writes (chars "more"); HangsUp])) = ([Data (chars "more"); EOF; EOF], 5, [], None).
Proof. now vm_compute. Qed.
(** the child closes its terminal and goes on as a daemon *)
Example daemon : outcome (reads [(9, within 10); (9, within 10); (9, within 10)] (new_spawn None None None []) (new_env [Writes (chars "x"); HangsUp; Passes 100])) = ([Data (chars "x"); EOF; Blocks], 0, [], None).
Proof. now vm_compute. Qed.
Example nothing_asked : outcome (reads [(1, within 10); (0, within 10); (9, within 10)] (new_spawn None None None []) (new_env [Writes (chars "xyz"); Passes 5; Dies])) = ([Data (chars "x"); EOF; Data (chars "yz")], 5, [], None).
Proof. now vm_compute. Qed.
