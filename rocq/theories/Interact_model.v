(** Model of what spawn of lib/daeso/thirdparty/pexpect.py 928-995 and 1455-1539 sends to its child: write, writelines, send, sendline,
    sendcontrol, interact with __interact_copy and __interact_writen.  The child is alive for a number of tests, an
    os.write takes at least one character and perhaps not all of them (numbers given in advance; all when there are no more), select
    and the reads that follow give the rounds; reading from the terminal does not fail; time.sleep and signals (__select, 1541-1566)
    do nothing.  logfile_read is not used here. *)
From Coq Require Import String Ascii.
From Verif Require Import Py Interact_spec.
Open Scope nat_scope.
Open Scope list_scope.

(** what select reports and is read then, 1523-1532: the output of the child ([Some None]: OSError) and the input of the user *)
Record round := { from_child : option (option txt); from_user : option txt }.
(** the tests of the child that will find it alive, what writes will take, what was written to the child, the terminal and the log
    files ([None]: not set), whether the terminal is raw, and self.buffer *)
Record world := { lives : nat; child_takes : list nat; user_takes : list nat; to_child : txt; to_user : txt; logfile : option txt; logfile_send : option txt; raw : bool; buffer : txt }.
Definition set_lives (n : nat) (w : world) : world :=
  {| lives := n; child_takes := child_takes w; user_takes := user_takes w; to_child := to_child w; to_user := to_user w; logfile := logfile w; logfile_send := logfile_send w; raw := raw w; buffer := buffer w |}.
Definition set_raw (b : bool) (w : world) : world :=
  {| lives := lives w; child_takes := child_takes w; user_takes := user_takes w; to_child := to_child w; to_user := to_user w; logfile := logfile w; logfile_send := logfile_send w; raw := b; buffer := buffer w |}.
(** self.isalive() (C73) *)
Definition isalive (w : world) : bool * world := match lives w with S n => (true, set_lives n w) | 0 => (false, w) end.
(** how much os.write takes of data, and the numbers for later writes *)
Definition takes (l : list nat) (data : txt) : nat * list nat :=
  match l with [] => (length data, []) | n :: l' => (match data with [] => 0 | _ => Nat.max 1 (Nat.min n (length data)) end, l') end.
(** os.write(self.child_fd, data) *)
Definition write_child (data : txt) (w : world) : nat * world :=
  let (n, l) := takes (child_takes w) data in
  (n, {| lives := lives w; child_takes := l; user_takes := user_takes w; to_child := to_child w ++ firstn n data; to_user := to_user w; logfile := logfile w; logfile_send := logfile_send w; raw := raw w; buffer := buffer w |}).
(** os.write(self.STDOUT_FILENO, data) *)
Definition write_user (data : txt) (w : world) : nat * world :=
  let (n, l) := takes (user_takes w) data in
  (n, {| lives := lives w; child_takes := child_takes w; user_takes := l; to_child := to_child w; to_user := to_user w ++ firstn n data; logfile := logfile w; logfile_send := logfile_send w; raw := raw w; buffer := buffer w |}).
Definition add_log (s : txt) (l : option txt) : option txt := match l with Some t => Some (t ++ s) | None => None end.
(** self.logfile.write(s), and self.logfile_send.write(s) *)
Definition write_log (s : txt) (w : world) : world :=
  {| lives := lives w; child_takes := child_takes w; user_takes := user_takes w; to_child := to_child w; to_user := to_user w; logfile := add_log s (logfile w); logfile_send := logfile_send w; raw := raw w; buffer := buffer w |}.
Definition write_log_send (s : txt) (w : world) : world :=
  {| lives := lives w; child_takes := child_takes w; user_takes := user_takes w; to_child := to_child w; to_user := to_user w; logfile := logfile w; logfile_send := add_log s (logfile_send w); raw := raw w; buffer := buffer w |}.

(** 944-958 *)
Definition send (s : txt) (w : world) : nat * world := write_child s (write_log_send s (write_log s w)).
(** 928-932 *)
Definition write (s : txt) (w : world) : world := snd (send s w).
(** 934-942 *)
Definition writelines (sequence : list txt) (w : world) : world := fold_left (fun w s => write s w) sequence w.
(** os.linesep *)
Definition linesep : txt := ["010"%char].
(** 960-967 *)
Definition sendline (s : txt) (w : world) : nat * world := let (n, w1) := send s w in let (m, w2) := send linesep w1 in (n + m, w2).
(** str.lower of one character *)
Definition lower (c : ascii) : ascii := let n := nat_of_ascii c in if (65 <=? n) && (n <=? 90) then ascii_of_nat (n + 32) else c.
(** 985-992: the dictionary d *)
Definition controls : list (string * nat) :=
  [("@", 0); ("`", 0); ("[", 27); ("{", 27); ("\", 28); ("|", 28); ("]", 29); ("}", 29); ("^", 30); ("~", 30); ("_", 31); ("?", 127)]%string.
Definition lookup_control (c : ascii) : option nat :=
  match find (fun p => String.eqb (fst p) (String c EmptyString)) controls with Some p => Some (snd p) | None => None end.
(** 969-995 *)
Definition sendcontrol (char : ascii) (w : world) : nat * world :=
  let c := lower char in
  let a := nat_of_ascii c in
  if (97 <=? a) && (a <=? 122) then send [ascii_of_nat (a - 97 + 1)] w
  else match lookup_control c with None => (0, w) | Some n => send [ascii_of_nat n] w end.

(** 1501-1508; fuel: every write takes at least one character *)
Fixpoint writen_loop (fuel : nat) (data : txt) (w : world) : world :=
  match fuel with
  | 0 => w
  | S fuel' => match data with
               | [] => w
               | _ => let (a, w) := isalive w in
                      if a : bool then let (n, w) := write_child data w in writen_loop fuel' (skipn n data) w else w
               end
  end.
Definition interact_writen (data : txt) (w : world) : world := writen_loop (S (length data)) data w.
(** s.startswith(e) *)
Fixpoint starts_with (e s : txt) : bool :=
  match e, s with [], _ => true | c :: e', d :: s' => Ascii.eqb c d && starts_with e' s' | _, [] => false end.
(** data.rfind(escape_character): None for -1 *)
Fixpoint rfind (e s : txt) : option nat :=
  match s with
  | [] => if starts_with e [] then Some 0 else None
  | _ :: s' => match rfind e s' with Some i => Some (S i) | None => if starts_with e s then Some 0 else None end
  end.
(** how __interact_copy ends: by the escape character, as the child has ended, by OSError, or not yet *)
Inductive outcome := Escaped | ChildEnded | SystemError | Going.
(** 1517-1539; filters that are None are the identity *)
Section Copy.
Variables (escape : txt) (input_filter output_filter : txt -> txt).
Fixpoint interact_copy (rounds : list round) (w : world) : outcome * world :=
  let (a, w) := isalive w in
  if negb a then (ChildEnded, w)
  else match rounds with
  | [] => (Going, w)
  | r :: rounds' =>
      match from_child r with
      | Some None => (SystemError, w)
      | c =>
          let w := match c with Some (Some d) => let data := output_filter d in snd (write_user data (write_log data w)) | _ => w end in
          match from_user r with
          | None => interact_copy rounds' w
          | Some d =>
              let data := input_filter d in
              match rfind escape data with
              | Some i => (Escaped, interact_writen (firstn i data) w)
              | None => interact_copy rounds' (interact_writen data w)
              end
          end
      end
  end.
(** 1488-1499: the buffer is written, the terminal is raw while copying; Going: not finished *)
Definition interact (rounds : list round) (w : world) : outcome * world :=
  let w := {| lives := lives w; child_takes := child_takes w; user_takes := user_takes w; to_child := to_child w; to_user := to_user w ++ buffer w; logfile := logfile w;
              logfile_send := logfile_send w; raw := raw w; buffer := [] |} in
  let mode := raw w in
  let (o, w) := interact_copy rounds (set_raw true w) in
  (o, match o with Going => w | _ => set_raw mode w end).
End Copy.
