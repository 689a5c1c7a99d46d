(** Model of lib/daeso/thirdparty/GenericCache/LRUStock.py used by itself: the operations are those of Cache_model
    (23-71, 106-112), here with the rest of the class, and iteration with changes in between. *)
From Coq Require Import String.
From Verif Require Import Py Cache_spec Cache_model Stock_spec.
Import ListNotations.
Set Implicit Arguments.
Open Scope string_scope.
Open Scope nat_scope.
Open Scope list_scope.
Section Stock.
Variable K : Type.
Variable keqb : K -> K -> bool.
Notation lru := (lru K).
(** LRUStock.py 36-63, 106-112: one call *)
Definition step (r : lru) (o : sop K) : lru :=
  match o with
  | SAdd k => add keqb r k | SUpdate k => lru_update keqb r k | SDiscard k => discard keqb r k | SClear => lru_clear r
  end.
(** LRUStock.py 28-34: a new stock, then calls *)
Definition run (os : list (sop K)) : lru := fold_left step os (new_lru K).
(** LRUStock.py 114-120: size, __len__ *)
Definition size (r : lru) : nat := length (lkeys r).
(** LRUStock.py 93-96: node = self.prev, while node is not self *)
Fixpoint backwards (fuel : nat) (r : lru) (at_ : nat) : res (list (option K)) :=
  match fuel with
  | O => Err OutOfFuel
  | S f => if pv r at_ =? 0 then Ok [] else x <- backwards f r (pv r at_) ;; Ok (item r (pv r at_) :: x)
  end.
(** sep.join(l) *)
Fixpoint join (sep : string) (l : list string) : string :=
  match l with [] => "" | [x] => x | x :: l' => (x ++ sep ++ join sep l')%string end.
(** LRUStock.py 88-104: __str__; the loop of 99-102 visits what __iter__ does *)
Definition text_of (show : option K -> string) (fuel : nat) (r : lru) : res string :=
  b <- backwards fuel r 0 ;;
  f <- lru_tolist fuel r 0 ;;
  Ok (join " <- " (map show b) ++ " / " ++ join " -> " (map show f))%string.
(** LRUStock.py 73-80: a for loop over the stock whose body changes it; the items visited *)
Fixpoint for_each (body : lru -> K -> lru) (fuel : nat) (r : lru) (at_ : nat) : res (lru * list K) :=
  match fuel with
  | O => Err OutOfFuel
  | S f =>
      if nx r at_ =? 0 then Ok (r, [])
      else match item r (nx r at_) with
           | None => Err TypeError
           | Some k => x <- for_each body f (body r k) (nx r at_) ;; Ok (fst x, k :: snd x)
           end
  end.
(** item in stock: there is no __contains__, so Python iterates *)
Definition is_in (fuel : nat) (r : lru) (k : K) : res bool :=
  l <- lru_tolist fuel r 0 ;; Ok (existsb (fun x => match x with Some y => keqb y k | None => false end) l).
End Stock.
