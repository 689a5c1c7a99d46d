(** C17: Counter is a multiset.  A counter is any dict content ([is_dict]), in any iteration order. *)
From Coq Require Import List ZArith Sorted Permutation.
Import ListNotations.
From Verif Require Import Py Counter_spec Counter_model.
From Verif Require Counter_proof.
Set Implicit Arguments.

(** c[k] is the stored count, 0 for a missing key (never KeyError). *)
Theorem counter_lookup :
  forall (K : Type) (keqb : K -> K -> bool), (forall x y, keqb x y = true <-> x = y) ->
  forall (c : counter K) k, is_dict c -> multiplicity c k (cget keqb c k).
Proof. exact Counter_proof.missing_ok. Qed.
Print Assumptions counter_lookup.

(** Counter(iterable) counts occurrences. *)
Theorem counter_counts_occurrences :
  forall (K : Type) (keqb : K -> K -> bool), (forall x y, keqb x y = true <-> x = y) ->
  forall l : list K, is_dict (counter_of keqb l) /\
  forall k, cget keqb (counter_of keqb l) k = Z.of_nat (occurrences keqb k l).
Proof. exact Counter_proof.counter_of_ok. Qed.
Print Assumptions counter_counts_occurrences.

(** update() adds: from an iterable, and from a mapping. *)
Theorem counter_update_iterable :
  forall (K : Type) (keqb : K -> K -> bool), (forall x y, keqb x y = true <-> x = y) ->
  forall (l : list K) (c : counter K), is_dict c -> is_dict (update_elems keqb c l) /\
  forall k, cget keqb (update_elems keqb c l) k = (cget keqb c k + Z.of_nat (occurrences keqb k l))%Z.
Proof. exact Counter_proof.update_elems_ok. Qed.
Print Assumptions counter_update_iterable.
Theorem counter_update_mapping :
  forall (K : Type) (keqb : K -> K -> bool), (forall x y, keqb x y = true <-> x = y) ->
  forall c m : counter K, is_dict c -> is_dict m -> is_dict (update_mapping keqb c m) /\
  forall k, cget keqb (update_mapping keqb c m) k = (cget keqb c k + cget keqb m k)%Z.
Proof. exact Counter_proof.update_mapping_ok. Qed.
Print Assumptions counter_update_mapping.

(** del c[k] never raises and forgets exactly k. *)
Theorem counter_delete :
  forall (K : Type) (keqb : K -> K -> bool), (forall x y, keqb x y = true <-> x = y) ->
  forall (c : counter K) k, is_dict c -> is_dict (cdel keqb c k) /\
  forall k', cget keqb (cdel keqb c k) k' = if keqb k k' then 0%Z else cget keqb c k'.
Proof. exact Counter_proof.del_ok. Qed.
Print Assumptions counter_delete.

(** elements() repeats each key by its count; non-positive counts give nothing. *)
Theorem counter_elements :
  forall (K : Type) (keqb : K -> K -> bool), (forall x y, keqb x y = true <-> x = y) ->
  forall (c : counter K) k, is_dict c -> occurrences keqb k (elements c) = Z.to_nat (cget keqb c k).
Proof. exact Counter_proof.elements_ok. Qed.
Print Assumptions counter_elements.

(** most_common(n): n items (all of them without n) in order of decreasing count, none of the others more frequent. *)
Theorem counter_most_common :
  forall (K : Type) (c : counter K) (n : option nat), exists rest,
  Permutation (most_common c n ++ rest) c /\
  StronglySorted (fun p q => (snd q <= snd p)%Z) (most_common c n) /\
  (forall p q, In p (most_common c n) -> In q rest -> (snd q <= snd p)%Z) /\
  length (most_common c n) = match n with None => length c | Some n => Nat.min n (length c) end.
Proof. exact Counter_proof.most_common_ok. Qed.
Print Assumptions counter_most_common.

(** The operators, pointwise; results contain positive counts only. *)
Theorem counter_algebra :
  forall (K : Type) (keqb : K -> K -> bool), (forall x y, keqb x y = true <-> x = y) ->
  forall elems (a b : counter K), is_dict a -> is_dict b -> all_keys elems a b ->
  let correct r (f : Z -> Z -> Z) :=
    is_dict r /\ (forall k, cget keqb r k = Z.max 0 (f (cget keqb a k) (cget keqb b k))) /\
    (forall k n, In (k, n) r -> 0 < n)%Z in
  correct (c_add keqb elems a b) Z.add /\ correct (c_sub keqb elems a b) Z.sub /\
  correct (c_or keqb elems a b) Z.max /\ correct (c_and keqb a b) Z.min.
Proof. exact Counter_proof.counter_algebra_ok. Qed.
Print Assumptions counter_algebra.

Example counter_ex :
  counter_of Nat.eqb [1;2;2;2] = [(1,1%Z);(2,3%Z)] /\
  c_add Nat.eqb [1;2;3] [(1,1%Z);(2,3%Z)] [(2,1%Z);(3,(-2)%Z)] = [(1,1%Z);(2,4%Z)] /\
  c_sub Nat.eqb [1;2;3] [(1,1%Z);(2,3%Z)] [(2,1%Z);(3,(-2)%Z)] = [(1,1%Z);(2,2%Z);(3,2%Z)] /\
  c_and Nat.eqb [(1,1%Z);(2,3%Z)] [(2,1%Z);(3,(-2)%Z)] = [(2,1%Z)] /\
  most_common [(1,1%Z);(2,3%Z);(3,2%Z)] (Some 2) = [(2,3%Z);(3,2%Z)] /\
  all_keys [1;2;3] [(1,1%Z);(2,3%Z)] [(2,1%Z);(3,(-2)%Z)].
Proof.
  repeat (split; [reflexivity|]). split; [repeat constructor; cbn; intuition discriminate|]. intros k; cbn; intuition.
Qed.
