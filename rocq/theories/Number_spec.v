(** Specification for the Dutch number words: what the groups of three digits of a number are, and how a
    group and a sequence of groups is read.  (That this reading says "nul" at the end of every
    multiple of 1000 and names empty groups is the behaviour of the library, not Dutch.) *)
From Coq Require Import List NArith String.
Import ListNotations.
Open Scope string_scope.
Open Scope N_scope.
(** value of groups of three digits, least significant group first *)
Fixpoint group_value (gs : list N) : N := match gs with [] => 0 | g :: r => g + 1000 * group_value r end.
(** [gs] are the groups of three digits of n *)
Definition groups_of (n : N) (gs : list N) : Prop :=
  group_value gs = n /\ Forall (fun g => g < 1000) gs /\ gs <> [] /\ (gs = [0] \/ last gs 0 <> 0).
Definition small_words : list string :=
  [""; "een"; "twee"; "drie"; "vier"; "vijf"; "zes"; "zeven"; "acht"; "negen"; "tien"; "elf"; "twaalf"; "dertien"; "veertien";
   "vijftien"; "zestien"; "zeventien"; "achttien"; "negentien"].
Definition tens_words : list string :=
  [""; ""; "twintig"; "dertig"; "veertig"; "vijftig"; "zestig"; "zeventig"; "tachtig"; "negentig"].
Definition small_word (k : N) : string := nth (N.to_nat k) small_words "".
Definition tens_word (k : N) : string := nth (N.to_nat k) tens_words "".
Definition read_below_100 (k : N) : string :=
  if k <? 20 then small_word k
  else (if k mod 10 =? 0 then "" else small_word (k mod 10) ++ "en") ++ tens_word (k / 10).
Definition read_group (k : N) : string :=
  (if k <? 100 then "" else (if k <? 200 then "" else small_word (k / 100)) ++ "honderd") ++ read_below_100 (k mod 100).
Definition magnitudes : list string :=
  [""; "duizend "; " miljoen "; " miljard "; " biljoen "; " biljard "; " triljoen "; " triljard "].
(** reading group i: "nul" for a last group 0, only "duizend" for 1 (and for 0) thousand *)
Definition read_at (i : nat) (g : N) : string :=
  match i with
  | O => if g =? 0 then "nul" else read_group g
  | S O => (if g =? 1 then "" else read_group g) ++ "duizend "
  | _ => read_group g ++ nth i magnitudes ""
  end.
Fixpoint read_groups (i : nat) (gs : list N) : string :=
  match gs with [] => "" | g :: r => read_groups (S i) r ++ read_at i g end.
(** n and m differ at most in their thousands, which are 0 or 1, below at least one million *)
Definition thousand_confused (n m : N) : Prop :=
  exists hi a b lo, 1 <= hi /\ a <= 1 /\ b <= 1 /\ lo < 1000 /\
    n = hi * 1000000 + a * 1000 + lo /\ m = hi * 1000000 + b * 1000 + lo.
