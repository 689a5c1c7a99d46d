(** Model of GenericCache (lib/daeso/thirdparty/GenericCache/GenericCache.py 16-202) for keys that need not be
    strings: fetch and remove use str(key), insert and has_key use the key itself, for a dict whose keys are CacheNodes,
    which hash and compare as strings.  An object is found in such a dict if its hash is that of its string and
    a node with that string is stored (its own comparison gives way to CacheNode.__cmp__).  Built on Cache_model,
    which is the cache for strings. *)
From Coq Require Import List ZArith.
From Verif Require Import Py Cache_spec Cache_model Rawkeys_spec.
Import ListNotations.
Set Implicit Arguments.
Section Raw.
Variables R K V : Type.
Variable keqb : K -> K -> bool.
Variable none_key : K.
Variable str : R -> K.
Variable looks : R -> look.
Notation cache := (cache K V).
Notation rcall := (rcall R K V).
(** [names]: for each string, the attribute key of the CacheNode that is the key in the dict (GenericCache.py 147-156). *)
Record rcache := { base : cache; names : list (K * R) }.
Definition new_rcache (m : option nat) (x : option Z) (fail : bool) : rcache := {| base := new_cache K V m x fail; names := [] |}.
(** the nodes that are still keys of the dict *)
Definition left_over (c : cache) (ns : list (K * R)) : list (K * R) := filter (fun n => dhas keqb (values c) (fst n)) ns.
(** GenericCache.py 198-203: has_key; TypeError for an object that cannot be hashed *)
Definition has_raw (s : rcache) (r : R) : res bool :=
  match looks r with Unhashable => Err TypeError | Blind => Ok false | Sees => Ok (dhas keqb (values (base s)) (str r)) end.
(** GenericCache.py 192-196: keys *)
Definition raw_keys (s : rcache) : list R := map snd (names s).
(** GenericCache.py 137-157: insert; d[node] = node keeps the old key object *)
Definition raw_insert (fuel : nat) (s : rcache) (r : R) (v : V) (now : Z) : res rcache :=
  found <- has_raw s r ;;
  c1 <- (if found : bool then Ok (base s) else shrink keqb none_key fuel 1 (base s)) ;;
  let ns := left_over c1 (names s) in
  Ok {| base := with_content c1 (dset keqb (values c1) (str r) (v, now)) (add keqb (lru_of c1) (str r));
        names := if dhas keqb ns (str r) then ns else ns ++ [(str r, r)] |}.
(** one call; a TypeError comes before any change of insert *)
Definition try_insert (fuel : nat) (s : rcache) (r : R) (v : V) (now : Z) (a : canswer V) : res (rcache * ranswer V) :=
  match looks r with
  | Unhashable => Ok (s, RTypeError V)
  | _ => s' <- raw_insert fuel s r v now ;; Ok (s', RAnswer a)
  end.
Definition plain (s : rcache) (c : cache) : rcache := {| base := c; names := left_over c (names s) |}.
Definition raw_call (fuel : nat) (s : rcache) (call : rcall) : res (rcache * ranswer V) :=
  match call with
  | RInsert _ r v now => try_insert fuel s r v now CDone
  | RFetchGen _ r v now now' =>
      match fetch keqb (base s) (str r) now with
      | (c', Some w) => Ok (plain s c', RAnswer (CFound w))
      | (c', None) => if default_fail c' then Ok (plain s c', RAnswer CKeyError)
                      else try_insert fuel (plain s c') r v now' (CFound v)
      end
  | _ => x <- do_call keqb none_key fuel (base s) (spelled str call) ;; Ok (plain s (fst x), RAnswer (snd x))
  end.
Fixpoint raw_run (fuel : nat) (s : rcache) (cs : list rcall) : res (rcache * list (ranswer V)) :=
  match cs with
  | [] => Ok (s, [])
  | c :: cs' => p <- raw_call fuel s c ;; q <- raw_run fuel (fst p) cs' ;; Ok (fst q, snd p :: snd q)
  end.
(** GenericCache.py 81-103: fetch *)
Definition raw_fetch (s : rcache) (r : R) (now : Z) : option V := snd (fetch keqb (base s) (str r) now).
End Raw.
