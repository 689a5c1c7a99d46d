(** The life of a child process as its parent sees it: what can happen to it, which system calls the parent makes, and what
    they tell.  Does not use the model. *)
From Coq Require Import List Arith Bool.
Import ListNotations.
Open Scope list_scope.

(** How a process ends, and what can happen to it between two system calls of its parent. *)
Inductive ending := Exited (code : nat) | Killed (signal : nat).
Inductive happening := Nothing | Ends (e : ending) | Stops | Continues.
(** A process: running, stopped, ended but not yet collected, collected.  After that its number can be that of another process. *)
Inductive process := Running | Stopped | Ended (e : ending) | Collected.
Definition happens (h : happening) (p : process) : process :=
  match h, p with
  | Ends e, (Running | Stopped) => Ended e
  | Stops, Running => Stopped
  | Continues, Stopped => Running
  | _, _ => p
  end.
Definition lives (p : process) : Prop := p = Running \/ p = Stopped.
(** Signals. *)
Definition hup := 1.
Definition int := 2.
Definition kill9 := 9.
Definition cont := 18.

(** The system calls about a child: to ask for its end (and get it), to send it a signal, to close the connection to it. *)
Inductive act := Asks | Collects (e : ending) | Signals (n : nat) | Closes.
(** To ask for or signal a process after it was collected can concern another process. *)
Definition about_the_child (l : list act) : Prop :=
  forall before e after, l = before ++ Collects e :: after -> Forall (fun a => a = Closes) after.
(** What can be asked of the object for the child; [SeesEof]: a read that raises EOF. *)
Inductive request := IsAlive | Wait | Kill (n : nat) | Terminate (force : bool) | Close (force : bool) | SeesEof.
Inductive answer := Yes | No | Code (n : option nat) | Done | PexpectError | SystemError | Hangs.
(** The signals of a list of calls. *)
Fixpoint signals (l : list act) : list nat := match l with [] => [] | Signals n :: l' => n :: signals l' | _ :: l' => signals l' end.
Fixpoint closings (l : list act) : nat := match l with [] => 0 | Closes :: l' => S (closings l') | _ :: l' => closings l' end.
Definition prefix {A} (a b : list A) : Prop := exists r, b = a ++ r.
