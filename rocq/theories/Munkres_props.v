(** C20, C21, C22: the assignment solver.
    [maxint] is sys.maxint, used by the code as the starting value of a minimum search; [fuel] bounds
    the number of iterations of the two unbounded while loops, and the statements say that one
    sufficient number exists and that every larger one gives the same answer: the program stops.
    Costs are integers of any size and sign. *)
From Coq Require Import List ZArith Lia Sorted.
Import ListNotations.
From Verif Require Import Py Munkres_model Munkres_spec.
From Verif Require Munkres_proof5.
Set Implicit Arguments.

(** C22. *)
Theorem munkres_terminates : forall maxint cost_matrix rows cols,
  (0 < maxint)%Z -> rectangular rows cols cost_matrix -> 0 < rows ->
  exists fuel result, forall fuel', fuel <= fuel' -> compute maxint fuel' cost_matrix = Ok result.
Proof. exact Munkres_proof5.compute_terminates. Qed.
Print Assumptions munkres_terminates.

(** C20: whenever it answers, the answer is a complete assignment, listed by row. *)
Theorem munkres_complete_assignment : forall maxint cost_matrix rows cols fuel result,
  (0 < maxint)%Z -> rectangular rows cols cost_matrix -> 0 < rows ->
  compute maxint fuel cost_matrix = Ok result ->
  complete rows cols result /\ StronglySorted lt (map fst result).
Proof. exact Munkres_proof5.compute_complete. Qed.
Print Assumptions munkres_complete_assignment.

(** C21: ... and of minimum total cost. *)
Theorem munkres_minimum_cost : forall maxint cost_matrix rows cols fuel result,
  (0 < maxint)%Z -> rectangular rows cols cost_matrix -> 0 < rows ->
  compute maxint fuel cost_matrix = Ok result ->
  forall a, complete rows cols a -> (total cost_matrix result <= total cost_matrix a)%Z.
Proof. exact Munkres_proof5.compute_minimum. Qed.
Print Assumptions munkres_minimum_cost.

(** The documented way of maximising a profit: costs [K - profit], for any [K]. *)
Theorem munkres_maximum_profit : forall maxint K profit_matrix rows cols fuel result,
  (0 < maxint)%Z -> rectangular rows cols profit_matrix -> 0 < rows ->
  compute maxint fuel (make_cost_matrix profit_matrix (fun x => K - x)%Z) = Ok result ->
  complete rows cols result /\
  forall a, complete rows cols a -> (total profit_matrix a <= total profit_matrix result)%Z.
Proof. exact Munkres_proof5.compute_maximum. Qed.
Print Assumptions munkres_maximum_profit.

(** The matrix without rows is refused. *)
Theorem munkres_empty_matrix : forall maxint fuel, compute maxint fuel [] = Err IndexError.
Proof. exact Munkres_proof5.compute_empty. Qed.
Print Assumptions munkres_empty_matrix.

Example munkres_ex :
  compute 2147483647 1000 [[400;150;400;1];[400;450;600;2];[300;225;300;3]]%Z = Ok [(0,1);(1,3);(2,2)] /\
  rectangular 3 4 [[400;150;400;1];[400;450;600;2];[300;225;300;3]]%Z.
Proof. split; [vm_compute; reflexivity|]. split; auto. cbn. intuition subst; auto. Qed.
