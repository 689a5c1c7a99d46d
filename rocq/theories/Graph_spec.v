(** Specification vocabulary for ordered graphs built by a history of calls. *)
From Coq Require Import List Bool.
Import ListNotations.
From Verif Require Import Py.
Set Implicit Arguments.
Section S.
Variables N A W : Type.   (* node identifiers; attribute names; attribute values *)
Variable neqb : N -> N -> bool.
Variable aeqb : A -> A -> bool.
Variable label_key : A.
Definition attrs := list (A * W).

(** Calls.  [GNewDict d]: the caller makes a dict (numbered 0, 1, ... in order); the optional argument
    attr_dict of the other calls is the number of such a dict. *)
Inductive gcall :=
| GNewDict (d : attrs)
| GAddNode (n : N) (label tokens : W) (attr_dict : option nat) (attr : attrs)
| GAddEdge (u v : N) (label : W) (attr_dict : option nat) (attr : attrs)
| GAddEdges (ebunch : list (N * N * attrs)) (label : W) (attr_dict : option nat) (attr : attrs).

(** Arguments that are possible in Python: dicts have distinct keys, and keyword arguments are not
    named like the explicit parameters. *)
Variable tokens_key : A.
Definition is_dict (d : attrs) : Prop := NoDup (map fst d).
Definition possible (c : gcall) : Prop :=
  match c with
  | GNewDict d => is_dict d
  | GAddNode _ _ _ _ a => is_dict a /\ ~ In label_key (map fst a) /\ ~ In tokens_key (map fst a)
  | GAddEdge _ _ _ _ a => is_dict a /\ ~ In label_key (map fst a)
  | GAddEdges es _ _ a => is_dict a /\ ~ In label_key (map fst a) /\ Forall (fun e => is_dict (snd e)) es
  end.
(** The call does not hand a dict of the caller's to add_node. *)
Definition no_shared_dict (c : gcall) : Prop := match c with GAddNode _ _ _ d _ => d = None | _ => True end.

(** What a history amounts to: number of caller dicts, nodes in order of first insertion, and the
    labelled edges inserted, oldest first (with repetitions). *)
Record summary := { dicts : nat; all_nodes : list N; inserted : list (N * N * W) }.
Definition valid (s : summary) (d : option nat) : bool :=
  match d with None => true | Some i => i <? dicts s end.
Definition both (s : summary) (u v : N) : bool := mem neqb u (all_nodes s) && mem neqb v (all_nodes s).
Definition insert_edge (s : summary) (u v : N) (l : W) : summary :=
  {| dicts := dicts s; all_nodes := all_nodes s; inserted := inserted s ++ [(u, v, l)] |}.
(** Edges of a bunch are inserted up to the first one with an unknown node. *)
Fixpoint insert_bunch (s : summary) (es : list (N * N * attrs)) (l : W) : summary * option exc :=
  match es with
  | [] => (s, None)
  | (u, v, d) :: es' =>
      if both s u v then insert_bunch (insert_edge s u v (match dget aeqb d label_key with Some l' => l' | None => l end)) es' l
      else (s, Some ValueError)
  end.
Definition summarize (s : summary) (c : gcall) : summary * option exc :=
  match c with
  | GNewDict _ => ({| dicts := S (dicts s); all_nodes := all_nodes s; inserted := inserted s |}, None)
  | GAddNode n _ _ d _ =>
      if valid s d then
        ({| dicts := dicts s; all_nodes := if mem neqb n (all_nodes s) then all_nodes s else all_nodes s ++ [n]; inserted := inserted s |}, None)
      else (s, Some NameError)
  | GAddEdge u v l d _ =>
      if valid s d then if both s u v then (insert_edge s u v l, None) else (s, Some ValueError)
      else (s, Some NameError)
  | GAddEdges es l d _ => if valid s d then insert_bunch s es l else (s, Some NameError)
  end.
Fixpoint summary_of (s : summary) (cs : list gcall) : summary * list (option exc) :=
  match cs with
  | [] => (s, [])
  | c :: cs' => let (s1, e) := summarize s c in let (s2, l) := summary_of s1 cs' in (s2, e :: l)
  end.
Definition nothing : summary := {| dicts := 0; all_nodes := []; inserted := [] |}.

(** First occurrences, in order. *)
Fixpoint firsts_from (seen l : list N) : list N :=
  match l with
  | [] => []
  | x :: l' => if mem neqb x seen then firsts_from seen l' else x :: firsts_from (x :: seen) l'
  end.
Definition firsts (l : list N) : list N := firsts_from [] l.
Definition targets (s : summary) (u : N) : list N :=
  firsts (map (fun e => snd (fst e)) (filter (fun e => neqb u (fst (fst e))) (inserted s))).
Definition sources (s : summary) (v : N) : list N :=
  firsts (map (fun e => fst (fst e)) (filter (fun e => neqb v (snd (fst e))) (inserted s))).
(** The label given last to an edge. *)
Definition last_label (s : summary) (u v : N) : option W :=
  match rev (filter (fun e => neqb u (fst (fst e)) && neqb v (snd (fst e))) (inserted s)) with
  | [] => None | e :: _ => Some (snd e) end.
(** The label (tokens) given last to a node. *)
Fixpoint last_node (n : N) (cs : list gcall) : option (W * W) :=
  match cs with
  | [] => None
  | c :: cs' => match last_node n cs' with
                | Some x => Some x
                | None => match c with GAddNode m l t _ _ => if neqb n m then Some (l, t) else None | _ => None end
                end
  end.
(** Nodes that can be reached along edges. *)
Inductive reach (s : summary) (u : N) : N -> Prop :=
| reach_self : reach s u u
| reach_step v w : reach s u v -> In w (targets s v) -> reach s u w.
(** Whether a leaf is asked for, given what its tokens are like. *)
Variables no_tokens all_punct : W -> bool.
Definition wanted (cs : list gcall) (with_punct with_empty : bool) (n : N) : bool :=
  match last_node n cs with
  | None => false
  | Some (_, t) => (with_punct || no_tokens t || negb (all_punct t)) && (with_empty || negb (no_tokens t))
  end.
(** A terminal is a node without outgoing edges. *)
Definition terminal (s : summary) (cs : list gcall) (with_punct with_empty : bool) (n : N) : Prop :=
  targets s n = [] /\ wanted cs with_punct with_empty n = true.
(** The part of a graph below a node being an ordered tree. *)
Inductive tree := T (n : N) (children : list tree).
Definition top (t : tree) : N := let (n, _) := t in n.
Fixpoint labels (t : tree) : list N := let (n, ts) := t in n :: flat_map labels ts.
Fixpoint leaves (t : tree) : list N := let (n, ts) := t in match ts with [] => [n] | _ => flat_map leaves ts end.
Inductive hangs (s : summary) : tree -> Prop :=
| hangs_T n ts : targets s n = map top ts -> Forall (hangs s) ts -> hangs s (T n ts).
End S.
Arguments T {N}.
Arguments GNewDict {N A W}. Arguments GAddNode {N A W}. Arguments GAddEdge {N A W}. Arguments GAddEdges {N A W}.
