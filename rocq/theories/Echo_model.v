(** Model of the echo mode in spawn of lib/daeso/thirdparty/pexpect.py 690-772: getecho, setecho, waitnoecho.  The local flags of the terminal
    are any function of the time; time.sleep takes exactly as long as it should, everything else no time; times are integers of milliseconds. *)
From Coq Require Import ZArith NArith.
From Verif Require Import Py Echo_spec.
Open Scope list_scope.

(** termios.ECHO *)
Definition ECHO : N := 8%N.
(** the attributes of termios.tcgetattr: those before the local flags, attr[3], and those after *)
Record attributes := { before : list N; lflag : N; after : list N }.
(** 725-736 *)
Definition getecho (a : attributes) : bool := negb (N.land (lflag a) ECHO =? 0)%N.
(** 738-772 *)
Definition setecho (state : bool) (a : attributes) : attributes :=
  {| before := before a; lflag := if state then N.lor (lflag a) ECHO else N.ldiff (lflag a) ECHO; after := after a |}.
(** 713-723: the loop of waitnoecho, with the answer and when it comes, or None if it has not ended after the given number of rounds *)
Fixpoint noecho_loop (rounds : nat) (terminal : nat -> attributes) (end_time : Z) (timeout : option Z) (now : nat) : option (bool * nat) :=
  match rounds with
  | 0%nat => None
  | S rounds' =>
      if negb (getecho (terminal now)) then Some (true, now)
      else
        let again := noecho_loop rounds' terminal end_time in
        match timeout with
        | Some t => if (t <? 0)%Z then Some (false, now) else again (Some (end_time - Z.of_nat now)%Z) (now + 100)%nat
        | None => again None (now + 100)%nat
        end
  end.
(** 690-712; timeout None stands for -1, the default *)
Definition waitnoecho (rounds : nat) (default : option Z) (timeout : option (option Z)) (terminal : nat -> attributes) (now : nat) : option (bool * nat) :=
  let timeout := match timeout with None => default | Some t => t end in
  let end_time := match timeout with Some t => (Z.of_nat now + t)%Z | None => 0%Z end in
  noecho_loop rounds terminal end_time timeout now.
