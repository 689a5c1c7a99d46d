(** What the links of a parallel text corpus mean (lib/daeso/ptc/document.py). *)
From Coq Require Import String.
From Verif Require Import Py Ielem_spec.
Set Implicit Arguments.

(** The content of the <alignment> section: a pair of tag + key for each link.  A key is a number
    (None for an unreadable number) or an id (None for a missing one). *)
Record link (key : Type) := { l_from_tag : string; l_from : key; l_to_tag : string; l_to : key }.
Arguments l_from_tag {key} _.
Arguments l_from {key} _.
Arguments l_to_tag {key} _.
Arguments l_to {key} _.

Definition option_string_dec (a b : option string) : {a = b} + {a <> b}.
Proof. decide equality; apply string_dec. Defined.

Section Spec.
Variable char : Type.
Notation elem := (elem char).

Definition tagged (root : elem) (t : string) : list elem :=
  filter (fun d => String.eqb (tag d) t) (doc_order root).
(** The n-th element tagged t, counting from 1. *)
Definition named_n (root : elem) (t : string) (k : option Z) (e : elem) : Prop :=
  exists n, k = Some (Z.of_nat (S n)) /\ nth_error (tagged root t) n = Some e.
(** The one element tagged t with the given id. *)
Definition named_id (root : elem) (t : string) (k : option string) (e : elem) : Prop :=
  In e (doc_order root) /\ tag e = t /\ id_of e = k /\
  forall d, In d (doc_order root) -> tag d = t -> id_of d = k -> d = e.

(** The element meant by tag t and number k when numbers below 1 are allowed: as with Python indices,
    0 is the last element, -1 the one before it and so on. *)
Definition pick_n (root : elem) (t : string) (k : option Z) : res elem :=
  match k, tagged root t with
  | None, _ => Err ValueError
  | Some _, [] => Err KeyError
  | Some k, l =>
      let position := (if k <=? 0 then Z.of_nat (length l) + k else k)%Z in
      match nth_error l (Z.to_nat position - 1) with
      | Some e => if (1 <=? position)%Z then Ok e else Err IndexError
      | None => Err IndexError
      end
  end.
(** The element meant by tag t and id k: the last one if ids are shared. *)
Definition pick_id (root : elem) (t : string) (k : option string) : res elem :=
  match rev (filter (fun e => if option_string_dec (id_of e) k then true else false) (tagged root t)) with
  | e :: _ => Ok e
  | [] => Err KeyError
  end.

Section Keys.
Variable key : Type.
Variable named : elem -> string -> key -> elem -> Prop.
(** The elements a link connects. *)
Definition connects (from_root to_root : elem) (l : link key) (p : elem * elem) : Prop :=
  named from_root (l_from_tag l) (l_from l) (fst p) /\ named to_root (l_to_tag l) (l_to l) (snd p).
(** The pair of elements a link means, or the first error met. *)
Definition link_pick (pick : elem -> string -> key -> res elem) (from_root to_root : elem) (l : link key) : res (elem * elem) :=
  f <- pick from_root (l_from_tag l) (l_from l) ;;
  t <- pick to_root (l_to_tag l) (l_to l) ;;
  Ok (f, t).
(** Alignment lists read off connected pairs. *)
Definition sources (pairs : list (elem * elem)) (e : elem) : list elem :=
  map fst (filter (fun p => uid (snd p) =? uid e) pairs).
Definition targets (pairs : list (elem * elem)) (e : elem) : list elem :=
  map snd (filter (fun p => uid (fst p) =? uid e) pairs).
(** The connected pairs grouped by source in document order. *)
Definition grouped (from_root : elem) (pairs : list (elem * elem)) : list (elem * elem) :=
  flat_map (fun e => filter (fun p => uid (fst p) =? uid e) pairs) (doc_order from_root).
(** The sources come in document order. *)
Definition in_doc_order (from_root : elem) (pairs : list (elem * elem)) : Prop :=
  forall a p b q c, pairs = a ++ p :: b ++ q :: c ->
    exists x y, doc_order from_root = x ++ fst p :: y /\ In (fst q) (fst p :: y).
End Keys.
End Spec.
