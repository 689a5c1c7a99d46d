(** Model of /repo/lib/daeso/string/median.py 27-53 *)
From Coq Require Import QArith.
From Verif Require Import Py.
Open Scope nat_scope.
Set Implicit Arguments.

Section Median.
Variable A : Type.
Variable dist : A -> A -> Q.   (* dist_func; its float or int values are exact rationals *)

(** median.py 34-38: [sod[i] += d; sod[j] += d]. *)
Definition sod_step (strings : list A) (i : nat) (sod : list Q) (j : nat) : res (list Q) :=
  a <- get strings i ;;
  b <- get strings j ;;
  let d := dist a b in
  vi <- get sod i ;;
  sod1 <- set sod i (vi + d)%Q ;;
  vj <- get sod1 j ;;
  set sod1 j (vj + d)%Q.

(** median.py 31-38: the double loop. *)
Definition sod_all (strings : list A) : res (list Q) :=
  foldM (fun sod i => foldM (sod_step strings i) sod (seq 0 i))
        (repeat 0%Q (length strings)) (seq 0 (length strings)).

(** median.py 45-51: linear search; state (i, min_sum). *)
Definition min_step (sod : list Q) (st : nat * Q) (j : nat) : res (nat * Q) :=
  v <- get sod j ;;
  if negb (Qle_bool (snd st) v) then Ok (j, v) else Ok st.

(** median.py 27-53: [set_median_string]; [sod[0]] fails with IndexError on an empty list. *)
Definition set_median_string (strings : list A) : res A :=
  sod <- sod_all strings ;;
  m0 <- get sod 0 ;;
  st <- foldM (min_step sod) (0, m0) (seq 1 (length sod - 1)) ;;
  get strings (fst st).
End Median.
