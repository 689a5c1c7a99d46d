(** C65: LRUStock by itself.  [run keqb os] is a stock after the operations os; node 0 is the stock object. *)
From Coq Require Import String List.
From Verif Require Import Py Cache_spec Cache_model Stock_spec Stock_model.
From Verif Require Stock_proof.
Import ListNotations.
Set Implicit Arguments.

(** After any history list(stock), pop(), len(stock), "in" and str() are those of the specified occurrences. *)
Theorem stock_observations :
  forall (K : Type) (keqb : K -> K -> bool), (forall x y, keqb x y = true <-> x = y) ->
  forall os (show : K -> string), let r := run keqb os in let e := sruns keqb os in forall fuel, length e < fuel ->
  lru_tolist fuel r 0 = Ok (map (fun x => Some (fst x)) e) /\
  pop r = match e with [] => None | x :: _ => Some (fst x) end /\
  size r = length (filter snd e) /\
  (forall k, is_in keqb fuel r k = Ok (existsb (fun x => keqb (fst x) k) e)) /\
  text_of (fun x => match x with Some k => show k | None => "None"%string end) fuel r = Ok (shown show (map fst e)).
Proof. exact Stock_proof.stock_exact. Qed.
Print Assumptions stock_observations.

(** If no item is added while it is there, the items are distinct and len(stock) is their number. *)
Theorem stock_without_adding_twice :
  forall (K : Type) (keqb : K -> K -> bool), (forall x y, keqb x y = true <-> x = y) ->
  forall os, adds_new keqb os -> let r := run keqb os in exists ks, NoDup ks /\ size r = length ks /\
  (forall fuel, length ks < fuel -> lru_tolist fuel r 0 = Ok (map Some ks)) /\ ks = map fst (sruns keqb os).
Proof. exact Stock_proof.stock_clean. Qed.
Print Assumptions stock_without_adding_twice.

(** An item that is added while it is there can never be discarded again: it stays until clear(). *)
Theorem item_added_twice_stays :
  forall (K : Type) (keqb : K -> K -> bool), (forall x y, keqb x y = true <-> x = y) ->
  forall os1 k os2, In (k, true) (sruns keqb os1) -> ~ In SClear os2 ->
  forall fuel, length (sruns keqb (os1 ++ SAdd k :: os2)) < fuel -> is_in keqb fuel (run keqb (os1 ++ SAdd k :: os2)) k = Ok true.
Proof. exact Stock_proof.ghosts. Qed.
Print Assumptions item_added_twice_stays.

(** for x in stock: stock.discard(x) visits every item once, in order, and leaves the stock empty. *)
Theorem discarding_loop :
  forall (K : Type) (keqb : K -> K -> bool), (forall x y, keqb x y = true <-> x = y) ->
  forall os, adds_new keqb os -> forall fuel, length (sruns keqb os) < fuel ->
  exists r', for_each (discard keqb) fuel (run keqb os) 0 = Ok (r', map fst (sruns keqb os)) /\ size r' = 0 /\
  forall f, lru_tolist (S f) r' 0 = Ok [].
Proof. exact Stock_proof.stock_drain. Qed.
Print Assumptions discarding_loop.

(** for x in stock: stock.update(x) never ends if there are two items or more ... *)
Theorem updating_loop_endless :
  forall (K : Type) (keqb : K -> K -> bool), (forall x y, keqb x y = true <-> x = y) ->
  forall os, adds_new keqb os -> 2 <= length (sruns keqb os) ->
  forall fuel, for_each (lru_update keqb) fuel (run keqb os) 0 = Err OutOfFuel.
Proof. exact Stock_proof.stock_endless. Qed.
Print Assumptions updating_loop_endless.
(** ... and visits a single item once. *)
Theorem updating_loop_single :
  forall (K : Type) (keqb : K -> K -> bool), (forall x y, keqb x y = true <-> x = y) ->
  forall os k, adds_new keqb os -> map fst (sruns keqb os) = [k] ->
  forall fuel, 2 <= fuel -> exists r', for_each (lru_update keqb) fuel (run keqb os) 0 = Ok (r', [k]).
Proof. exact Stock_proof.stock_single. Qed.
Print Assumptions updating_loop_single.

(** len(stock) need not be len(list(stock)), and a discarded item can still be in the stock. *)
Theorem stock_length_refuted :
  let r := run Nat.eqb [SAdd 1; SAdd 1; SAdd 2] in size r = 2 /\ lru_tolist 5 r 0 = Ok [Some 1; Some 1; Some 2].
Proof. split; reflexivity. Qed.
Print Assumptions stock_length_refuted.
Theorem discarded_is_gone_refuted :
  is_in Nat.eqb 5 (run Nat.eqb [SAdd 1; SAdd 1; SDiscard 1; SDiscard 1]) 1 = Ok true.
Proof. reflexivity. Qed.
Print Assumptions discarded_is_gone_refuted.

Example stock_ex :
  let os := [SAdd 1; SAdd 2; SUpdate 1; SDiscard 3; SUpdate 4] in
  adds_new Nat.eqb os /\ map fst (sruns Nat.eqb os) = [2; 1; 4] /\ pop (run Nat.eqb os) = Some 2 /\
  text_of (fun x => match x with Some 1 => "a" | Some 2 => "b" | _ => "c" end%string) 5 (run Nat.eqb os) = Ok "c <- a <- b / b -> a -> c"%string.
Proof.
  cbv zeta. split; [|split; [reflexivity|split; reflexivity]].
  intros [|? [|? [|? [|? [|? [|]]]]]] k b E; inversion E; subst; cbn; intuition discriminate.
Qed.
Example ghost_ex : In (1, true) (sruns Nat.eqb [SAdd 2; SAdd 1]) /\ ~ In SClear [SUpdate 1; SDiscard 1].
Proof. split; [cbn; auto|]. intros [Q|[Q|[]]]; discriminate. Qed.
