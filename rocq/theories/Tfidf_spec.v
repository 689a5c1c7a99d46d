(** Specification of term and document frequencies: plain counting. *)
From Coq Require Import Reals.
From Verif Require Import Py.
Open Scope nat_scope.
Set Implicit Arguments.
Section S.
Variable T : Type.
Variable teqb : T -> T -> bool.
(** number of occurrences of a term in a document; number of documents that contain it *)
Definition occurrences (t : T) (doc : list T) : nat := length (filter (teqb t) doc).
Definition containing (t : T) (docs : list (list T)) : nat := length (filter (fun d => mem teqb t d) docs).
End S.
(** the inverse document frequency of a term in [df] of [n] documents *)
Definition idf_of (n df : nat) : R := ln (INR n / INR df).
