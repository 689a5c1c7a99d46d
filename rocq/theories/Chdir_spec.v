(** What changing the paths in corpora means (bin/pgc_chdir.py, bin/ptc_chdir.py). *)
From Coq Require Import String.
From Verif Require Import Py Etree_spec.
Open Scope nat_scope.

Definition starts (p t : text) : Prop := exists r, t = p ++ r.
(** [t'] is [t] with prefix [a] replaced by [b], if it has it. *)
Definition moved (a b t t' : text) : Prop := (forall r, t = a ++ r -> t' = b ++ r) /\ (~ starts a t -> t' = t).

(** The elements below an element, in document order. *)
Fixpoint below (e : node) : list node :=
  match e with Node _ _ _ _ ch => flat_map (fun c => c :: below c) ch end.
Definition file_elems (e : node) : list node := filter (fun d => String.eqb (tag d) "file") (below e).

(** [e'] differs from [e] at most in the texts of the file elements, where prefix [a] became [b]. *)
Inductive rebased (a b : text) : bool -> node -> node -> Prop :=
| Rebased : forall root e e', tag e' = tag e -> tail e' = tail e -> attrib e' = attrib e ->
    (root = true \/ tag e <> "file"%string -> txt e' = txt e) ->
    (root = false /\ tag e = "file"%string -> exists t t', txt e = Some t /\ txt e' = Some t' /\ moved a b t t') ->
    Forall2 (rebased a b false) (children e) (children e') -> rebased a b root e e'.

(** The last component of a path written with slashes or backslashes. *)
Definition separator (c : N) : Prop := c = 47%N \/ c = 92%N.
Definition last_component (p b : text) : Prop :=
  Forall (fun c => ~ separator c) b /\ (p = b \/ exists d c, separator c /\ p = d ++ c :: b).
(** A path with its drive letter removed. *)
Definition drive (c : N) : Prop := (65 <= c <= 90)%N.
Definition without_drive (p q : text) : Prop :=
  (exists c, drive c /\ p = c :: 58%N :: q) \/ ((forall c r, p = c :: 58%N :: r -> ~ drive c) /\ q = p).
(** A directory and a name joined. *)
Definition in_dir (d b p : text) : Prop :=
  ((d = [] \/ exists d', d = d' ++ [47%N]) -> p = d ++ b) /\ (~ (d = [] \/ exists d', d = d' ++ [47%N]) -> p = d ++ [47%N] ++ b).
