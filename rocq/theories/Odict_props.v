(** C16: OrderedDict is an insertion-ordered map, for every history of calls. *)
From Coq Require Import List Sorted.
Import ListNotations.
From Verif Require Import Py Odict_spec Odict_model.
From Verif Require Odict_proof.
Set Implicit Arguments.

(** Every history of calls on a new OrderedDict, with the answers the code gives, is one the
    specification allows; and afterwards items, iteration, reversed iteration and lookup show
    exactly the map which the resulting log of events describes. *)
Theorem ordereddict_history :
  forall (K V : Type) (keqb : K -> K -> bool), (forall x y, keqb x y = true <-> x = y) ->
  forall calls : list (call K V), exists h items,
  let d := fst (od_run keqb (empty_odict K V) calls) in
  history [] calls (snd (od_run keqb (empty_odict K V) calls)) h /\ describes h items /\
  od_items keqb d = Ok items /\ od_iter d = map fst items /\ od_reversed d = rev (map fst items) /\
  (forall k v, od_get keqb d k = Ok v <-> In (k, v) items) /\
  (forall k, absent items k -> od_get keqb d k = Err KeyError).
Proof. exact Odict_proof.odict_history. Qed.
Print Assumptions ordereddict_history.

(** The specification leaves no freedom: a log describes at most one list of items. *)
Theorem ordereddict_log_determines_items :
  forall (K V : Type) (keqb : K -> K -> bool), (forall x y, keqb x y = true <-> x = y) ->
  forall (h : log K V) items items', describes h items -> describes h items' -> items = items'.
Proof. exact Odict_proof.describes_unique. Qed.
Print Assumptions ordereddict_log_determines_items.

(** copy() gives an equal map in the same order. *)
Theorem ordereddict_copy :
  forall (K V : Type) (keqb : K -> K -> bool), (forall x y, keqb x y = true <-> x = y) ->
  forall calls : list (call K V), let d := fst (od_run keqb (empty_odict K V) calls) in
  exists d', od_copy keqb d = Ok d' /\ od_items keqb d' = od_items keqb d /\ od_iter d' = od_iter d /\
   forall k, od_get keqb d' k = od_get keqb d k.
Proof. exact Odict_proof.copy_ok. Qed.
Print Assumptions ordereddict_copy.

(** A new map from pairs, or from keys with one value, holds what assigning them in order gives. *)
Theorem ordereddict_new :
  forall (K V : Type) (keqb : K -> K -> bool), (forall x y, keqb x y = true <-> x = y) ->
  (forall l : list (K * V), exists items, describes (map (fun p => Assign (fst p) (snd p)) l) items /\
    od_items keqb (od_init keqb l) = Ok items /\ od_iter (od_init keqb l) = map fst items) /\
  (forall (l : list K) (v : V), exists items, describes (map (fun k => Assign k v) l) items /\
    od_items keqb (od_fromkeys keqb l v) = Ok items /\ od_iter (od_fromkeys keqb l v) = map fst items).
Proof.
  intros K V keqb H. split; [exact (Odict_proof.init_ok keqb H)|]. intros l v.
  destruct (Odict_proof.init_ok keqb H (map (fun k => (k, v)) l)) as [items X]. rewrite map_map in X. exists items. exact X.
Qed.
Print Assumptions ordereddict_new.
Example ordereddict_new_ex : od_items Nat.eqb (od_fromkeys Nat.eqb [3; 1; 3; 2] 7) = Ok [(3, 7); (1, 7); (2, 7)].
Proof. reflexivity. Qed.

Example ordereddict_ex :
  let (d, answers) := od_run Nat.eqb (empty_odict nat nat)
    [CSet 1 10; CSet 2 20; CSet 3 30; CSet 1 11; CDel 2; CDel 9; CSet 2 21; CSetdefault 3 5; CPop 3 None; CPopitem] in
  od_items Nat.eqb d = Ok [(1, 11)] /\
  answers = [ANone; ANone; ANone; ANone; ANone; ARaise KeyError; ANone; AValue 30; AValue 30; AItem 2 21].
Proof. vm_compute. auto. Qed.
