(** Recursive functions and what they compute without a cache (GenericCache/decorators.py). *)
From Coq Require Import ZArith.
From Verif Require Import Py Cache_spec.
Set Implicit Arguments.
Section Spec.
Variables A V : Type.   (* arguments (of all functions that share the cache), results *)
(** The body of a function for given arguments: it returns, raises, or calls a cached function first and goes on
    with what that call gives, a value or an exception (which the body may catch). *)
Inductive prog := Ret (v : V) | Raise (x : exc) | Call (a : A) (go_on : res V -> prog).
Variable body : A -> prog.
(** Plain evaluation. *)
Inductive runs : prog -> res V -> Prop :=
| runs_ret v : runs (Ret v) (Ok v)
| runs_raise x : runs (Raise x) (Err x)
| runs_call a go_on r r' : runs (body a) r -> runs (go_on r) r' -> runs (Call a go_on) r'.
Definition evals (a : A) (r : res V) : Prop := runs (body a) r.
(** The calls made while a body is evaluated, and the calls that are needed directly or indirectly. *)
Inductive calls : prog -> A -> Prop :=
| calls_here a go_on : calls (Call a go_on) a
| calls_later a go_on r b : evals a r -> calls (go_on r) b -> calls (Call a go_on) b.
Inductive needs : A -> A -> Prop :=
| needs_self a : needs a a
| needs_more a b c : calls (body a) b -> needs b c -> needs a c.

(** What the user does: call a function, or work on the cache (without storing into it). *)
Variable K : Type.
Inductive event := Ask (a : A) | Other (c : ccall K V).
Definition no_store (c : ccall K V) : Prop := match c with CInsert _ _ _ | CFetchGen _ _ _ _ => False | _ => True end.
Inductive reply := Answered (r : res V) | Did (d : canswer V).
End Spec.
Arguments Call {A V}. Arguments Ret {A V}. Arguments Raise {A V}. Arguments Ask {A V K}. Arguments Other {A V K}.
