(** Model of running a command with lib/daeso/thirdparty/pexpect.py: split_command_line() (1795-1847), which() (1768-1793), the arguments of
    spawn._spawn() (507-520) and run() (145-262).  Left out: the test of types in _spawn(), the pseudo terminal and the process themselves, log files,
    the exit status; what a response sends has its effect in the list of events, which is arbitrary. *)
From Coq Require Import String Ascii.
From Verif Require Import Py Expect_spec Expect_model Runcmd_spec.
Open Scope string_scope.
Open Scope nat_scope.
Open Scope list_scope.

Definition eqc (c d : ascii) : bool := if ascii_dec c d then true else false.
(** str.isspace() of one character *)
Definition isspace (c : ascii) : bool := let n := nat_of_ascii c in (n =? 32) || (9 <=? n) && (n <=? 13).
(** 1806-1811 *)
Inductive state := Basic | Esc | InSingle | InDouble | Whitespace.
(** 1814-1843, one character: the state, arg and arg_list *)
Definition split_step (x : state * text * list text) (c : ascii) : state * text * list text :=
  let '(st, arg, args) := x in
  match st with
  | Basic | Whitespace =>
      if eqc c backslash then (Esc, arg, args)
      else if eqc c apostrophe then (InSingle, arg, args)
      else if eqc c quotation then (InDouble, arg, args)
      else if isspace c then match st with Whitespace => x | _ => (Whitespace, [], args ++ [arg]) end
      else (Basic, arg ++ [c], args)
  | Esc => (Basic, arg ++ [c], args)
  | InSingle => if eqc c apostrophe then (Basic, arg, args) else (InSingle, arg ++ [c], args)
  | InDouble => if eqc c quotation then (Basic, arg, args) else (InDouble, arg ++ [c], args)
  end.
(** 1795-1847 *)
Definition split_command_line (s : text) : list text :=
  let '(_, arg, args) := fold_left split_step s (Basic, [], []) in
  match arg with [] => args | _ => args ++ [arg] end.

(** posixpath.join *)
Definition path_join (path b : text) : text :=
  match b with c :: _ => if eqc c slash then b else
                           match rev path with [] => b | e :: _ => if eqc e slash then path ++ b else path ++ slash :: b end
          | [] => match rev path with [] => b | e :: _ => if eqc e slash then path ++ b else path ++ slash :: b end end.
(** string.split(p, ':') *)
Fixpoint split_colon (p : text) : list text :=
  match p with
  | [] => [[]]
  | c :: r => if eqc c colon then [] :: split_colon r else match split_colon r with d :: l => (c :: d) :: l | [] => [[c]] end
  end.
(** os.defpath *)
Definition defpath : text := list_ascii_of_string ":/bin:/usr/bin".
(** os.path.dirname(filename) != '' *)
Definition has_dirname (f : text) : bool := existsb (fun c => eqc c slash) f.
(** which, 1768-1793; access is os.access(_, os.X_OK) *)
Fixpoint search_dirs (access : text -> bool) (ds : list text) (f : text) : option text :=
  match ds with [] => None | d :: r => let p := path_join d f in if access p then Some p else search_dirs access r f end.
Definition which (access : text -> bool) (env : option text) (f : text) : option text :=
  if has_dirname f && access f then Some f
  else search_dirs access (split_colon (match env with Some (c :: p) => c :: p | _ => defpath end)) f.

(** _spawn, 507-520: the arguments the child is started with; None: IndexError or ExceptionPexpect *)
Definition spawn_args (access : text -> bool) (env : option text) (command : text) (args : list text) : option (list text) :=
  match (match args with [] => split_command_line command | _ => command :: args end) with
  | [] => None
  | c :: r => option_map (fun p => p :: r) (which access env c)
  end.

(** run, 224-258: the loop, with the pieces of child_result_list, and the number of calls of expect() that may be made (None: too few) *)
Fixpoint converse (fuel : nat) (ps : list pattern) (respond : responses) (pieces : list text) (event_count : nat) (st : spawn) (now : Z) (evs : list event)
  : option (result text * spawn * Z * list event) :=
  match fuel with
  | 0 => None
  | S fuel' =>
      let '(o, st', t, rest) := expect ps (Some (-1)%Z) None st now evs in
      match o with
      | Index i =>
          let pieces' := pieces ++ [match after st' with TheText s => before st' ++ s | _ => before st' end] in
          match respond i event_count st' with
          | Continue => converse fuel' ps respond pieces' (S event_count) st' t rest
          | Break => Some (Value (concat pieces'), st', t, rest)
          | Bad => Some (Stopped RaisesOther, st', t, rest)
          end
      | RaisesEof | RaisesTimeout => Some (Value (concat (pieces ++ [before st'])), st', t, rest)
      | RaisesOther | Waits => Some (Stopped o, st', t, rest)
      end
  end.
(** run, 212-223; tm is the argument timeout, or 30, the default of spawn, if that is -1 *)
Definition run (fuel : nat) (ps : list pattern) (respond : responses) (tm : option Z) (now : Z) (evs : list event) :=
  converse fuel ps respond [] 0 (new_spawn (match tm with Some z => if (z =? -1)%Z then Some 30%Z else tm | None => None end)) now evs.
