(** Model of the cached() decorator (GenericCache/decorators.py) on recursive functions, on top of Cache_model.
    One thread (the lock is reentrant).  [depth] bounds the depth of recursion, [rounds] the loop of _shrink;
    None stands for a call that does not return within these bounds.  [clock n] is the n-th reading of the clock. *)
From Coq Require Import ZArith.
From Verif Require Import Py Cache_spec Cache_model Memo_spec.
Set Implicit Arguments.
Section Memo.
Variables A V K : Type.
Variable keqb : K -> K -> bool.
Variable none_key : K.
(** decorators.py 24: key = marshaller(func, *args, **kwargs) *)
Variable key : A -> K.
Variable body : A -> prog A V.
Variable clock : nat -> Z.
Variable rounds : nat.
(** The cache, the number of clock readings, and the generator calls made so far. *)
Record state := { cache_of : cache K V; ticks : nat; made : list A }.

(** Running a body; [call] is the decorated function. *)
Fixpoint run_body (call : A -> state -> state * option (res V)) (p : prog A V) (s : state) : state * option (res V) :=
  match p with
  | Ret v => (s, Some (Ok v))
  | Raise x => (s, Some (Err x))
  | Call a go_on => match call a s with
                    | (s', Some r) => run_body call (go_on r) s'
                    | (s', None) => (s', None)
                    end
  end.
(** decorators.py 23-28: inner; GenericCache.py 105-115: fetch_with_generator, where the generator is the body *)
Fixpoint inner (depth : nat) (a : A) (s : state) : state * option (res V) :=
  match depth with
  | O => (s, None)
  | S depth' =>
      let (c, r) := fetch keqb (cache_of s) (key a) (clock (ticks s)) in
      match r with
      | Some v => ({| cache_of := c; ticks := S (ticks s); made := made s |}, Some (Ok v))
      | None =>
          if default_fail c then ({| cache_of := c; ticks := S (ticks s); made := made s |}, Some (Err KeyError))
          else
            match run_body (inner depth') (body a) {| cache_of := c; ticks := S (ticks s); made := made s ++ [a] |} with
            | (s', Some (Ok v)) =>
                match insert keqb none_key rounds (cache_of s') (key a) v (clock (ticks s')) with
                | Ok c' => ({| cache_of := c'; ticks := S (ticks s'); made := made s' |}, Some (Ok v))
                | Err _ => (s', None)
                end
            | (s', r) => (s', r)
            end
      end
  end.
(** A session: exceptions of functions are caught by the user. *)
Fixpoint session (depth : nat) (s : state) (events : list (event A V K)) : state * option (list (reply V)) :=
  match events with
  | [] => (s, Some [])
  | e :: events' =>
      match (match e with
             | Ask a => let (s', r) := inner depth a s in (s', option_map (@Answered V) r)
             | Other c => match do_call keqb none_key rounds (cache_of s) c with
                          | Ok (c', d) => ({| cache_of := c'; ticks := ticks s; made := made s |}, Some (Did d))
                          | Err _ => (s, None)
                          end
             end) with
      | (s', Some r) => let (s'', rs) := session depth s' events' in (s'', option_map (cons r) rs)
      | (s', None) => (s', None)
      end
  end.
Definition start (m : option nat) (x : option Z) (fail : bool) : state := {| cache_of := new_cache K V m x fail; ticks := 0; made := [] |}.
End Memo.
(** decorators.py 11-15: default_marshaller, for functions with names; [repr] shows a name and arguments *)
Definition default_marshaller {F N X K : Type} (name : F -> N) (repr : N * X -> K) (a : F * X) : K := repr (name (fst a), snd a).
