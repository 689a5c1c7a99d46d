(** Model of how spawn of lib/daeso/thirdparty/pexpect.py reads from its child: read_nonblocking (774-850) and __select (1541-1566).  The terminal and the clock are an environment to which
    the things in a schedule happen, only while select, waitpid or sleep waits; os.read gives at least one character and perhaps not all
    there are (numbers given in advance).  Times are natural numbers (of milliseconds); time-outs below 0 other than -1 are left out, and
    so is __irix_hack, which is False on other systems. *)
From Coq Require Import Ascii.
From Verif Require Import Py Reading_spec.
Open Scope nat_scope.
Open Scope list_scope.

(** the clock, what is going to happen, what was written and not read yet, whether the terminal was hung up, whether the child runs *)
Record env := { now : nat; schedule : list happening; pending : txt; hung : bool; alive : bool }.
(** the attributes used, 391-413; gives: how much the next calls of os.read give *)
Record spawn := { closed : bool; terminated : bool; flag_eof : bool; timeout : option nat; logfile : option txt; logfile_read : option txt; gives : list nat }.
(** something happens; after hanging up there is nobody to write *)
Definition happen (h : happening) (e : env) : env :=
  match h with
  | Writes s => {| now := now e; schedule := schedule e; pending := if hung e then pending e else pending e ++ s; hung := hung e; alive := alive e |}
  | Dies => {| now := now e; schedule := schedule e; pending := pending e; hung := hung e; alive := false |}
  | HangsUp => {| now := now e; schedule := schedule e; pending := pending e; hung := true; alive := alive e |}
  | Interrupt => e
  | Passes d => {| now := now e + d; schedule := schedule e; pending := pending e; hung := hung e; alive := alive e |}
  end.
Definition set_schedule (l : list happening) (e : env) : env := {| now := now e; schedule := l; pending := pending e; hung := hung e; alive := alive e |}.
(** select finds the descriptor readable: there is something to read, or the terminal is hung up *)
Definition readable (e : env) : bool := match pending e with [] => hung e | _ => true end.
(** select.select([fd], [], [], timeout): readable, nothing, select.error with EINTR, or it never returns *)
Inductive selected := Ready | Quiet | Interrupted | Never.
Fixpoint select (l : list happening) (t : option nat) (e : env) : selected * env :=
  if readable e then (Ready, set_schedule l e)
  else match l with
  | [] => match t with Some x => (Quiet, set_schedule [] (happen (Passes x) e)) | None => (Never, set_schedule [] e) end
  | Interrupt :: r => (Interrupted, set_schedule r e)
  | Passes d :: r =>
      match t with
      | Some x => if x <? d then (Quiet, set_schedule (Passes (d - x) :: r) (happen (Passes x) e)) else select r (Some (x - d)) (happen (Passes d) e)
      | None => select r None (happen (Passes d) e)
      end
  | h :: r => select r t (happen h e)
  end.
(** 1553-1566; fuel: every interruption is in the schedule *)
Fixpoint select_loop (fuel : nat) (end_time : nat) (t : option nat) (e : env) : selected * env :=
  match fuel with
  | 0 => (Never, e)
  | S fuel' =>
      match select (schedule e) t e with
      | (Interrupted, e') =>
          match t with
          | Some _ => if end_time <? now e' then (Quiet, e') else select_loop fuel' end_time (Some (end_time - now e')) e'
          | None => select_loop fuel' end_time None e'
          end
      | r => r
      end
  end.
(** 1541-1552 *)
Definition self_select (t : option nat) (e : env) : selected * env := select_loop (S (length (schedule e))) (match t with Some x => now e + x | None => 0 end) t e.

(** os.waitpid without WNOHANG: until the child ends; None: it never does *)
Fixpoint wait_end (l : list happening) (e : env) : option env :=
  if alive e then match l with [] => None | h :: r => wait_end r (happen h e) end else Some (set_schedule l e).
Definition set_terminated (o : spawn) : spawn :=
  {| closed := closed o; terminated := true; flag_eof := flag_eof o; timeout := timeout o; logfile := logfile o; logfile_read := logfile_read o; gives := gives o |}.
(** isalive, 1117-1178 (C73): None if it does not return *)
Definition isalive (o : spawn) (e : env) : option (bool * spawn * env) :=
  if terminated o then Some (false, o, e)
  else if flag_eof o then match wait_end (schedule e) e with Some e' => Some (false, set_terminated o, e') | None => None end
  else if alive e then Some (true, o, e) else Some (false, set_terminated o, e).
Definition set_eof (o : spawn) : spawn :=
  {| closed := closed o; terminated := terminated o; flag_eof := true; timeout := timeout o; logfile := logfile o; logfile_read := logfile_read o; gives := gives o |}.
Definition add_log (s : txt) (l : option txt) : option txt := match l with Some t => Some (t ++ s) | None => None end.
(** os.read(self.child_fd, size): None for OSError *)
Definition os_read (size : nat) (o : spawn) (e : env) : option txt * spawn * env :=
  match pending e with
  | [] => (None, o, e)
  | p => let n := match size, gives o with 0, _ => 0 | _, [] => size | _, g :: _ => Nat.max 1 (Nat.min g size) end in
         (Some (firstn n p),
          {| closed := closed o; terminated := terminated o; flag_eof := flag_eof o; timeout := timeout o; logfile := logfile o; logfile_read := logfile_read o; gives := tl (gives o) |},
          {| now := now e; schedule := schedule e; pending := skipn n p; hung := hung e; alive := alive e |})
  end.
(** 829-850 *)
Definition read_ready (size : nat) (o : spawn) (e : env) : result * spawn * env :=
  match os_read size o e with
  | (None, o, e) => (EOF, set_eof o, e)
  | (Some [], o, e) => (EOF, set_eof o, e)
  | (Some s, o, e) =>
      (Data s, {| closed := closed o; terminated := terminated o; flag_eof := flag_eof o; timeout := timeout o; logfile := add_log s (logfile o); logfile_read := add_log s (logfile_read o); gives := gives o |}, e)
  end.
(** 816-828 *)
Definition read_waiting (size : nat) (t : option nat) (o : spawn) (e : env) : result * spawn * env :=
  match self_select t e with
  | (Ready, e) => read_ready size o e
  | (Quiet, e) => match isalive o e with
                  | None => (Blocks, o, e)
                  | Some (false, o, e) => (EOF, set_eof o, e)
                  | Some (true, o, e) => (TIMEOUT, o, e)
                  end
  | (_, e) => (Blocks, o, e)
  end.
(** 774-815; time-out None stands for -1, the default *)
Definition read_nonblocking (size : nat) (t : option (option nat)) (o : spawn) (e : env) : result * spawn * env :=
  if closed o then (ClosedFile, o, e)
  else
    let t := match t with None => timeout o | Some t => t end in
    match isalive o e with
    | None => (Blocks, o, e)
    | Some (true, o, e) => read_waiting size t o e
    | Some (false, o, e) =>
        match self_select (Some 0) e with
        | (Ready, e) => read_waiting size t o e
        | (Never, e) => (Blocks, o, e)
        | (_, e) => (EOF, set_eof o, e)
        end
    end.
(** a number of reads, up to one that does not return *)
Fixpoint reads (l : list (nat * option (option nat))) (o : spawn) (e : env) : list result * spawn * env :=
  match l with
  | [] => ([], o, e)
  | (size, t) :: l' => match read_nonblocking size t o e with
                       | (Blocks, o', e') => ([Blocks], o', e')
                       | (r, o', e') => let '(rs, o2, e2) := reads l' o' e' in (r :: rs, o2, e2)
                       end
  end.
(** a child that has just been started, 391-413; the terminal *)
Definition new_spawn (t : option nat) (log log_read : option txt) (g : list nat) : spawn :=
  {| closed := false; terminated := false; flag_eof := false; timeout := t; logfile := log; logfile_read := log_read; gives := g |}.
Definition new_env (l : list happening) : env := {| now := 0; schedule := l; pending := []; hung := false; alive := true |}.
