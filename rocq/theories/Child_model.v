(** Model of the child process in spawn of lib/daeso/thirdparty/pexpect.py 391-413, 565-566, 657-674, 1049-1189: isalive, wait, kill, terminate and close, with
    the attributes terminated, closed, flag_eof, exitstatus, signalstatus, status.  Before every system call one thing can happen to the child
    (a schedule, given in advance); time.sleep does nothing.  waitpid without WUNTRACED does not report stopped
    processes, so the branches for WIFSTOPPED cannot be reached; no other part of the program waits for the child.  SIGKILL ends the
    child at once, the effect of other signals is part of the schedule. *)
From Verif Require Import Py Child_spec.
Open Scope list_scope.

(** the attributes, 391-413; exit status and signal as in os.WEXITSTATUS and os.WTERMSIG *)
Record spawn := { terminated : bool; closed : bool; flag_eof : bool; exitstatus : option nat; signalstatus : option nat; status : option ending }.
(** 391-413, 565-566: a new child *)
Definition new_spawn : spawn := {| terminated := false; closed := false; flag_eof := false; exitstatus := None; signalstatus := None; status := None |}.
(** the child, what is going to happen, and the system calls so far; whether the descriptor is that of the child *)
Record world := { child : process; schedule : list happening; acts : list act; is_open : bool }.
(** a child that has just been started *)
Definition new_world (l : list happening) : world := {| child := Running; schedule := l; acts := []; is_open := true |}.
(** ExceptionPexpect and OSError; Waits: a system call does not return *)
Inductive error := Pexpect | OSErr.
Inductive res (A : Type) := Val (a : A) | Raises (e : error) | Waits.
Arguments Val {A}. Arguments Raises {A}. Arguments Waits {A}.
Definition M (A : Type) := spawn -> world -> res A * spawn * world.
Definition ret {A} (a : A) : M A := fun o w => (Val a, o, w).
Definition raise {A} (e : error) : M A := fun o w => (Raises e, o, w).
Definition bind {A B} (m : M A) (f : A -> M B) : M B :=
  fun o w => match m o w with (Val a, o', w') => f a o' w' | (Raises e, o', w') => (Raises e, o', w') | (Waits, o', w') => (Waits, o', w') end.
Notation "x <~ m ;; k" := (bind m (fun x => k)) (at level 61, m at next level, right associativity).
(** try ... except OSError *)
Definition except_oserror {A} (m h : M A) : M A := fun o w => match m o w with (Raises OSErr, o', w') => h o' w' | r => r end.
Definition get {A} (f : spawn -> A) : M A := fun o w => (Val (f o), o, w).
Definition put (f : spawn -> spawn) : M unit := fun o w => (Val tt, f o, w).

(** what happens before a system call *)
Definition tick (w : world) : world :=
  match schedule w with
  | [] => w
  | h :: r => {| child := happens h (child w); schedule := r; acts := acts w; is_open := is_open w |}
  end.
(** system calls, in order *)
Definition log (a : list act) (w : world) : world := {| child := child w; schedule := schedule w; acts := acts w ++ a; is_open := is_open w |}.
Definition set_child (c : process) (w : world) : world := {| child := c; schedule := schedule w; acts := acts w; is_open := is_open w |}.
(** waiting for the end: None if it does not come *)
Fixpoint await (c : process) (l : list happening) : option (ending * list happening) :=
  match c with
  | Ended e => Some (e, l)
  | _ => match l with [] => None | h :: r => await (happens h c) r end
  end.
(** os.waitpid(self.pid, WNOHANG or 0): None for (0, 0) *)
Definition waitpid (blocking : bool) : M (option ending) := fun o w =>
  let w := tick w in
  match child w with
  | Collected => (Raises OSErr, o, log [Asks] w)
  | Ended e => (Val (Some e), o, set_child Collected (log [Asks; Collects e] w))
  | _ => if blocking then match await (child w) (schedule w) with
                          | Some (e, r) => (Val (Some e), o, {| child := Collected; schedule := r; acts := acts w ++ [Asks; Collects e]; is_open := is_open w |})
                          | None => (Waits, o, log [Asks] w)
                          end
         else (Val None, o, log [Asks] w)
  end.
(** os.kill(self.pid, sig); [may]: the signals the parent is allowed to send *)
Definition os_kill (may : nat -> bool) (sig : nat) : M unit := fun o w =>
  let w := log [Signals sig] (tick w) in
  match child w with
  | Collected => (Raises OSErr, o, w)
  | c => if may sig then (Val tt, o, set_child (if sig =? kill9 then happens (Ends (Killed kill9)) c else c) w) else (Raises OSErr, o, w)
  end.
(** os.close(self.child_fd): a second time it is an error, or the descriptor of another file *)
Definition os_close : M unit := fun o w =>
  let w' := log [Closes] (tick w) in
  if is_open w then (Val tt, o, {| child := child w'; schedule := schedule w'; acts := acts w'; is_open := false |}) else (Raises OSErr, o, w').

(** 1166-1175 and 1102-1112: the attributes for an end *)
Definition record_end (e : ending) : M unit :=
  put (fun o => {| terminated := true; closed := closed o; flag_eof := flag_eof o;
                   exitstatus := match e with Exited n => Some n | Killed _ => None end; signalstatus := match e with Exited _ => None | Killed n => Some n end; status := Some e |}).
(** 1117-1178 *)
Definition isalive : M bool :=
  t <~ get terminated ;;
  if t : bool then ret false
  else
    blocking <~ get flag_eof ;;
    let ask := fun o w => match waitpid blocking o w with (Raises _, o', w') => (Raises Pexpect, o', w') | r => r end in
    r <~ ask ;;
    match r with
    | None => r2 <~ ask ;; match r2 with None => ret true | Some e => _ <~ record_end e ;; ret false end
    | Some e => _ <~ record_end e ;; ret false
    end.
(** 1090-1115 *)
Definition wait : M (option nat) :=
  a <~ isalive ;;
  if a : bool then r <~ waitpid true ;; match r with Some e => _ <~ record_end e ;; get exitstatus | None => get exitstatus end
  else raise Pexpect.
(** 1180-1189 *)
Definition kill (may : nat -> bool) (sig : nat) : M unit := a <~ isalive ;; if a : bool then os_kill may sig else ret tt.
(** 1049-1088 *)
Definition terminate (may : nat -> bool) (force : bool) : M bool :=
  a <~ isalive ;;
  if negb a then ret true
  else
    except_oserror
      (_ <~ kill may hup ;; a <~ isalive ;; if negb a then ret true else
       _ <~ kill may cont ;; a <~ isalive ;; if negb a then ret true else
       _ <~ kill may int ;; a <~ isalive ;; if negb a then ret true else
       if force then _ <~ kill may kill9 ;; a <~ isalive ;; if negb a then ret true else ret false
       else ret false)
      (a <~ isalive ;; if negb a then ret true else ret false).
(** 657-674 *)
Definition close (may : nat -> bool) (force : bool) : M unit :=
  c <~ get closed ;;
  if c : bool then ret tt
  else
    _ <~ os_close ;;
    a <~ isalive ;;
    _ <~ (if a : bool then t <~ terminate may force ;; if t : bool then ret tt else raise Pexpect else ret tt) ;;
    put (fun o => {| terminated := terminated o; closed := true; flag_eof := flag_eof o; exitstatus := exitstatus o; signalstatus := signalstatus o; status := status o |}).
(** read_nonblocking when it raises EOF (774-838): flag_eof is set *)
Definition sees_eof : M unit := put (fun o => {| terminated := terminated o; closed := closed o; flag_eof := true; exitstatus := exitstatus o; signalstatus := signalstatus o; status := status o |}).

Definition answer_of {A} (f : A -> answer) (r : res A * spawn * world) : answer * spawn * world :=
  let '(x, o, w) := r in (match x with Val a => f a | Raises Pexpect => PexpectError | Raises OSErr => SystemError | Waits => Hangs end, o, w).
Definition yes_no (b : bool) : answer := if b then Yes else No.
(** a call of a method *)
Definition call (may : nat -> bool) (r : request) (o : spawn) (w : world) : answer * spawn * world :=
  match r with
  | IsAlive => answer_of yes_no (isalive o w)
  | Wait => answer_of Code (wait o w)
  | Kill n => answer_of (fun _ => Done) (kill may n o w)
  | Terminate f => answer_of yes_no (terminate may f o w)
  | Close f => answer_of (fun _ => Done) (close may f o w)
  | SeesEof => answer_of (fun _ => Done) (sees_eof o w)
  end.
(** any use of the object: the answers up to one that does not come *)
Fixpoint use (may : nat -> bool) (l : list request) (o : spawn) (w : world) : list answer * spawn * world :=
  match l with
  | [] => ([], o, w)
  | r :: l' => match call may r o w with
               | (Hangs, o', w') => ([Hangs], o', w')
               | (a, o', w') => let '(x, o2, w2) := use may l' o' w' in (a :: x, o2, w2)
               end
  end.
