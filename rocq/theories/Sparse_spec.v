(** What loading the graphs of a parallel graph corpus should give (lib/daeso/gb/graphbank.py, graphstub.py). *)
From Coq Require Import String.
From Verif Require Import Py.
Set Implicit Arguments.

Section Spec.
Variable G : Type.
(** A graph is asked for by the number of its bank and its id; a graph pair asks for two graphs. *)
Definition key := (nat * string)%type.
Definition request := (key * key)%type.
(** The content of the bank files, in order; None for a file that cannot be read. *)
Variable file : nat -> option (list (string * G)).
(** The graph with a given id in a file: the last one, if there are more. *)
Fixpoint last_graph (i : string) (l : list (string * G)) : option G :=
  match l with
  | [] => None
  | (j, g) :: l' => match last_graph i l' with Some h => Some h | None => if String.eqb j i then Some g else None end
  end.
Definition content (k : key) : option G := match file (fst k) with Some l => last_graph (snd k) l | None => None end.
Definition requested (reqs : list request) (k : key) : Prop := exists r, In r reqs /\ (fst r = k \/ snd r = k).
(** The sides of the requested pairs, as (number of the pair, source or target). *)
Definition side (reqs : list request) (p : nat * bool) : option key :=
  option_map (fun r => if snd p then fst r else snd r) (nth_error reqs (fst p)).
(** The graphs of file b asked for by some pair, in order (all of them if an id occurs more often). *)
Definition key_eqb (k j : key) : bool := Nat.eqb (fst k) (fst j) && String.eqb (snd k) (snd j).
Definition wanted_graphs (reqs : list request) (b : nat) : list G :=
  match file b with
  | None => []
  | Some l => map snd (filter (fun x => existsb (fun r => key_eqb (fst r) (b, fst x) || key_eqb (snd r) (b, fst x)) reqs) l)
  end.
(** Conditions on a corpus of n banks: the pairs name existing banks and non-empty ids; the bank files can be
    read; the graphs asked for are in them; no pair asks for the same graph twice. *)
Definition named (n : nat) (reqs : list request) : Prop := forall k, requested reqs k -> fst k < n /\ snd k <> ""%string.
Definition readable (n : nat) : Prop := forall b, b < n -> file b <> None.
Definition present (reqs : list request) : Prop := forall k, requested reqs k -> content k <> None.
Definition no_self (reqs : list request) : Prop := forall r, In r reqs -> fst r <> snd r.
End Spec.
