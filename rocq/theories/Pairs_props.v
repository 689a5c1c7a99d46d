(** C64: Pair objects.  [contains h v t]: following references, the value v holds the finite tree t. *)
From Coq Require Import String List.
From Verif Require Import Py Pairs_spec Pairs_model.
From Verif Require Pairs_proof.
Import ListNotations.
Set Implicit Arguments.

(** == gives True exactly if the contents are the same, None exactly if the first difference is between a Pair and something
    else, and False otherwise. *)
Theorem pair_equality :
  forall (A : Type) (aeqb : A -> A -> bool) h v t, contains h v t -> forall w u fuel, contains h w u -> height t <= fuel ->
  exists x, eq aeqb fuel h v w = Ok x /\ (x = Yes <-> same aeqb t u) /\ (x = Neither <-> unlike aeqb t u).
Proof. exact Pairs_proof.eq_trees. Qed.
Print Assumptions pair_equality.

(** It is an equivalence if == of the items is. *)
Theorem pair_equality_equivalence :
  forall (A : Type) (aeqb : A -> A -> bool),
  (forall a, aeqb a a = true) -> (forall a b, aeqb a b = true -> aeqb b a = true) ->
  (forall a b c, aeqb a b = true -> aeqb b c = true -> aeqb a c = true) ->
  forall (h : heap A) u v w a b c fuel, contains h u a -> contains h v b -> contains h w c ->
  height a <= fuel -> height b <= fuel -> height c <= fuel ->
  eq aeqb fuel h u u = Ok Yes /\
  (eq aeqb fuel h u v = Ok Yes -> eq aeqb fuel h v u = Ok Yes) /\
  (eq aeqb fuel h u v = Ok Yes -> eq aeqb fuel h v w = Ok Yes -> eq aeqb fuel h u w = Ok Yes).
Proof. exact Pairs_proof.eq_equiv. Qed.
Print Assumptions pair_equality_equivalence.

(** p == p returns, with some recursion limit, exactly if p does not contain itself. *)
Theorem pair_equality_returns :
  forall (A : Type) (aeqb : A -> A -> bool), (forall a, aeqb a a = true) -> forall (h : heap A) v,
  (exists fuel x, eq aeqb fuel h v v = Ok x) <-> exists t, contains h v t.
Proof. exact Pairs_proof.eq_self_iff. Qed.
Print Assumptions pair_equality_returns.
(** For example not after p.source = p ... *)
Theorem self_containing_pair_never_returns :
  forall (A : Type) (aeqb : A -> A -> bool) (h : heap A) i t, nth_error h i = Some (Ref i, t) ->
  forall fuel x, eq aeqb fuel h (Ref i) (Ref i) <> Ok x.
Proof. exact Pairs_proof.self_loop. Qed.
Print Assumptions self_containing_pair_never_returns.
(** ... but always if pairs are only made and never changed. *)
Theorem pairs_never_changed_are_finite :
  forall (A : Type) (none : A) os, (forall o, In o os -> exists s t, o = New s t) ->
  forall i, i < length (run none [] os) -> exists t, contains (run none [] os) (Ref i) t.
Proof. exact Pairs_proof.new_only. Qed.
Print Assumptions pairs_never_changed_are_finite.

(** Iterating over Pair(s, t) gives s, t, and making a pair changes no contents. *)
Theorem new_pair_unpacks :
  forall (A : Type) (none : A) (h : heap A) s t, valid h s = true -> valid h t = true ->
  iter (step none h (New s t)) (length h) = Ok [s; t] /\
  (forall v x, contains h v x -> contains (step none h (New s t)) v x).
Proof. exact Pairs_proof.iter_new. Qed.
Print Assumptions new_pair_unpacks.

(** set() replaces both items, by None if not given; other pairs keep their items, and values from which the pair
    cannot be reached keep their contents. *)
Theorem set_replaces_both :
  forall (A : Type) (none : A) (h : heap A) i s t, i < length h -> valid_opt h s = true -> valid_opt h t = true ->
  let h' := step none h (SetBoth i s t) in
  iter h' i = Ok [match s with Some v => v | None => Atom none end; match t with Some v => v | None => Atom none end] /\
  (forall j, j <> i -> iter h' j = iter h j) /\ (forall v x, contains h v x -> ~ reaches h v i -> contains h' v x).
Proof. exact Pairs_proof.iter_set. Qed.
Print Assumptions set_replaces_both.

(** Assigning to one attribute keeps the other one, and other pairs. *)
Theorem assigning_one_item :
  forall (A : Type) (none : A) (h : heap A) i v s t, valid h v = true -> iter h i = Ok [s; t] ->
  iter (step none h (SetSource i v)) i = Ok [v; t] /\ iter (step none h (SetTarget i v)) i = Ok [s; v] /\
  forall j, j <> i -> iter (step none h (SetSource i v)) j = iter h j /\ iter (step none h (SetTarget i v)) j = iter h j.
Proof. exact Pairs_proof.iter_assign. Qed.
Print Assumptions assigning_one_item.

(** repr and str print the contents; they return only for finite contents. *)
Theorem pair_text :
  forall (A : Type) (show : A -> string) (h : heap A) v t, contains h v t -> forall fuel, height t <= fuel ->
  text_of show fuel h v = Ok (shown show t).
Proof. exact Pairs_proof.text_tree. Qed.
Print Assumptions pair_text.
Theorem pair_text_finite :
  forall (A : Type) (show : A -> string) fuel (h : heap A) v x, text_of show fuel h v = Ok x -> exists t, contains h v t.
Proof. exact Pairs_proof.text_tree_inv. Qed.
Print Assumptions pair_text_finite.

(** p in a list: p is there, or something with the same contents. *)
Theorem pair_in_list :
  forall (A : Type) (aeqb : A -> A -> bool) fuel (h : heap A) i t, contains h (Ref i) t ->
  forall l ts, Forall2 (contains h) l ts -> Forall (fun u => height u <= fuel) ts ->
  exists b, in_list aeqb fuel h i l = Ok b /\ (b = true <-> In (Ref i) l \/ exists u, In u ts /\ same aeqb u t).
Proof. exact Pairs_proof.in_list_ok. Qed.
Print Assumptions pair_in_list.

(** Two pairs can be equal and unequal at once: != compares identities. *)
Theorem unequal_is_not_equal_refuted :
  let h := run 0 [] [New (Atom 1) (Atom 2); New (Atom 1) (Atom 2)] in
  eq Nat.eqb 1 h (Ref 0) (Ref 1) = Ok Yes /\ ne 0 1 = true.
Proof. split; reflexivity. Qed.
Print Assumptions unequal_is_not_equal_refuted.
(** A dict with a pair as key is not found under an equal pair, though a list of its keys contains it. *)
Theorem equal_pairs_equal_keys_refuted :
  let h := run 0 [] [New (Atom 1) (Atom 2); New (Atom 1) (Atom 2)] in
  lookup [(0, true)] 1 = Err KeyError /\ in_list Nat.eqb 1 h 1 [Ref 0] = Ok true.
Proof. split; reflexivity. Qed.
Print Assumptions equal_pairs_equal_keys_refuted.
(** set() of the source alone does not keep the target. *)
Theorem set_source_keeps_target_refuted :
  iter (run 0 [] [New (Atom 1) (Atom 2); SetBoth 0 (Some (Atom 3)) None]) 0 = Ok [Atom 3; Atom 0].
Proof. reflexivity. Qed.
Print Assumptions set_source_keeps_target_refuted.

Example pairs_ex :
  let h := run 0 [] [New (Atom 1) (Atom 2); New (Ref 0) (Atom 3); New (Ref 0) (Ref 0); SetTarget 0 (Atom 5)] in
  contains h (Ref 1) (Node (Node (Leaf 1) (Leaf 5)) (Leaf 3)) /\
  eq Nat.eqb 2 h (Ref 1) (Ref 2) = Ok Neither /\ eq Nat.eqb 2 h (Ref 0) (Ref 2) = Ok Neither /\
  eq Nat.eqb 2 h (Ref 1) (Ref 1) = Ok Yes /\ ~ reaches h (Ref 0) 2.
Proof.
  cbv zeta. split; [|split; [reflexivity|split; [reflexivity|split; [reflexivity|]]]].
  - repeat (econstructor; try reflexivity).
  - intros R. inversion R; subst; cbn in *; match goal with H : Some _ = Some _ |- _ => injection H as <- <- end;
      match goal with H : reaches _ (Atom _) _ |- _ => inversion H end.
Qed.
Example cyclic_ex : nth_error (run 0 [] [New (Atom 1) (Atom 2); SetSource 0 (Ref 0)]) 0 = Some (Ref 0, Atom 2).
Proof. reflexivity. Qed.
