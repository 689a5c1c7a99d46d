(** What happens at a terminal while somebody reads from it.  Does not use the model. *)
From Coq Require Import List Arith Bool Ascii.
Import ListNotations.
Open Scope list_scope.

Definition txt := list ascii.
(** A program writes; the child process ends; the last program that can write is gone; a signal comes; time passes. *)
Inductive happening := Writes (s : txt) | Dies | HangsUp | Interrupt | Passes (d : nat).
(** Everything that is written before the terminal hangs up. *)
Fixpoint output (l : list happening) : txt :=
  match l with
  | [] => []
  | Writes s :: l' => s ++ output l'
  | HangsUp :: _ => []
  | _ :: l' => output l'
  end.
(** What can be called, and what comes of it. A time-out: [None] for ever, [Some t] at most this long. *)
Inductive result := Data (s : txt) | EOF | TIMEOUT | ClosedFile | Blocks.
Definition data (l : list result) : txt := flat_map (fun r => match r with Data s => s | _ => [] end) l.
