(** What a user types and a child process writes, in the pieces in which they are read; the escape text.  Does not use the model. *)
From Coq Require Import List Arith Bool Ascii.
Import ListNotations.
Open Scope list_scope.

Definition txt := list ascii.
Definition prefix (a b : txt) : Prop := exists r, b = a ++ r.
(** [e] occurs in [s] after [x]; and for the last time. *)
Definition occurs_after (e s x : txt) : Prop := exists y, s = x ++ e ++ y.
Definition contains (e s : txt) : Prop := exists x, occurs_after e s x.
Definition last_after (e s x : txt) : Prop := occurs_after e s x /\ forall x', occurs_after e s x' -> length x' <= length x.
(** Pieces up to one that contains [e]: what is before [e] in them. *)
Definition up_to_escape (e : txt) (pieces : list txt) (sent : txt) : Prop :=
  exists before piece x, pieces = before ++ [piece] /\ Forall (fun p => ~ contains e p) before /\ last_after e piece x /\ sent = concat before ++ x.
Definition without_escape (e : txt) (pieces : list txt) (sent : txt) : Prop := Forall (fun p => ~ contains e p) pieces /\ sent = concat pieces.

(** The control characters of a terminal: Ctrl with a character from @ to ~ has its last five bits, Ctrl-? is DEL; others have none. *)
Definition control (c : ascii) : option ascii :=
  let n := nat_of_ascii c in
  if (64 <=? n) && (n <=? 126) then Some (ascii_of_nat (n mod 32)) else if n =? 63 then Some (ascii_of_nat 127) else None.
