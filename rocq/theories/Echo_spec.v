(** The echo flag of a terminal over time, and when it is found off by looking every 0.1 seconds.  Does not use the model. *)
From Coq Require Import ZArith NArith.

(** [echo] is on or off at every time, in milliseconds; one looks at the times [start], [start + 100], ... *)
Definition on_before (echo : nat -> bool) (start k : nat) : Prop := forall j, j < k -> echo (start + 100 * j) = true.
(** The first time that it is found off is the k-th. *)
Definition first_off (echo : nat -> bool) (start k : nat) : Prop := on_before echo start k /\ echo (start + 100 * k) = false.
