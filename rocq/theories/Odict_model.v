(** Model of lib/daeso/thirdparty/odict.py (OrderedDict).
    The underlying built-in dict is an association list accessed only by key
    (dget/dset/ddel); its own iteration order is never observed by the class. *)
From Verif Require Import Py Odict_spec.
Set Implicit Arguments.

Section Odict.
Variables K V : Type.
Variable keqb : K -> K -> bool.

(** odict.py 14-23: instance = the built-in dict part and the list [_keys]. *)
Record odict := { od_dict : list (K * V); od_keys : list K }.
Definition empty_odict : odict := {| od_dict := []; od_keys := [] |}.

(** [list.remove(x)]: first equal element, ValueError if there is none. *)
Fixpoint list_remove (l : list K) (x : K) : res (list K) :=
  match l with
  | [] => Err ValueError
  | y :: l' => if keqb x y then Ok l' else r <- list_remove l' x ;; Ok (y :: r)
  end.
(** [list.pop()] *)
Definition list_pop (l : list K) : res (K * list K) :=
  match rev l with [] => Err IndexError | x :: r => Ok (x, rev r) end.

(** odict.py 25-27: clear. *)
Definition od_clear (d : odict) : odict := empty_odict.
(** odict.py 29-32: __setitem__. *)
Definition od_set (d : odict) (k : K) (v : V) : odict :=
  {| od_dict := dset keqb (od_dict d) k v;
     od_keys := if dhas keqb (od_dict d) k then od_keys d else od_keys d ++ [k] |}.
(** odict.py 34-36: __delitem__; dict.__delitem__ raises KeyError before anything is changed. *)
Definition od_del (d : odict) (k : K) : res odict :=
  if dhas keqb (od_dict d) k then
    ks <- list_remove (od_keys d) k ;; Ok {| od_dict := ddel keqb (od_dict d) k; od_keys := ks |}
  else Err KeyError.
(** dict.__getitem__ (inherited, odict.py 14). *)
Definition od_get (d : odict) (k : K) : res V := dread keqb (od_dict d) k.
(** odict.py 38-42: __iter__, __reversed__. *)
Definition od_iter (d : odict) : list K := od_keys d.
Definition od_reversed (d : odict) : list K := rev (od_keys d).
(** odict.py 44-49: popitem; [if not self] is the emptiness of the built-in dict. *)
Definition od_popitem (d : odict) : res ((K * V) * odict) :=
  if length (od_dict d) =? 0 then Err KeyError else
  p <- list_pop (od_keys d) ;;
  v <- dread keqb (od_dict d) (fst p) ;;
  Ok ((fst p, v), {| od_dict := ddel keqb (od_dict d) (fst p); od_keys := snd p |}).
(** odict.py 62 = MutableMapping.items: [[(key, self[key]) for key in self]]. *)
Definition od_items (d : odict) : res (list (K * V)) :=
  mapM (fun k => v <- od_get d k ;; Ok (k, v)) (od_iter d).
(** odict.py 57 = MutableMapping.setdefault. *)
Definition od_setdefault (d : odict) (k : K) (dflt : V) : V * odict :=
  match od_get d k with Ok v => (v, d) | Err _ => (dflt, od_set d k dflt) end.
(** odict.py 59 = MutableMapping.pop, with or without a default. *)
Definition od_pop (d : odict) (k : K) (dflt : option V) : res (V * odict) :=
  match od_get d k with
  | Err _ => match dflt with Some x => Ok (x, d) | None => Err KeyError end
  | Ok v => d' <- od_del d k ;; Ok (v, d')
  end.
(** odict.py 58 = MutableMapping.update with an iterable of pairs (keyword arguments are more pairs). *)
Definition od_update (d : odict) (l : list (K * V)) : odict :=
  fold_left (fun d p => od_set d (fst p) (snd p)) l d.
(** odict.py 18-23: __init__ from pairs; 73-74: copy (update from a Mapping: its items in its order);
    51-55 __reduce__ rebuilds from the items too; 76-81: fromkeys. *)
Definition od_init (l : list (K * V)) : odict := od_update empty_odict l.
Definition od_copy (d : odict) : res odict := l <- od_items d ;; Ok (od_init l).
Definition od_fromkeys (l : list K) (v : V) : odict := od_update empty_odict (map (fun k => (k, v)) l).

(** One call of a mutating method. *)
Definition od_call (d : odict) (c : call K V) : odict * answer K V :=
  match c with
  | CSet k v => (od_set d k v, ANone)
  | CDel k => match od_del d k with Ok d' => (d', ANone) | Err e => (d, ARaise e) end
  | CClear => (od_clear d, ANone)
  | CPopitem => match od_popitem d with Ok (i, d') => (d', AItem (fst i) (snd i)) | Err e => (d, ARaise e) end
  | CSetdefault k v => let (r, d') := od_setdefault d k v in (d', AValue r)
  | CPop k dflt => match od_pop d k dflt with Ok (r, d') => (d', AValue r) | Err e => (d, ARaise e) end
  | CUpdate l => (od_update d l, ANone)
  end.
(** A history of calls: the final object and the answers. *)
Fixpoint od_run (d : odict) (cs : list (call K V)) : odict * list (answer K V) :=
  match cs with
  | [] => (d, [])
  | c :: cs' => let (d1, a) := od_call d c in let (d2, l) := od_run d1 cs' in (d2, a :: l)
  end.
End Odict.
