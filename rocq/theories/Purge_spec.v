(** Specification vocabulary for graph banks held by graph pairs. *)
From Coq Require Import List Bool.
Import ListNotations.
Set Implicit Arguments.
Section S.
Variable Path : Type.
Variable path_eqb : Path -> Path -> bool.
Variable path : nat -> Path.            (* the file path of bank object number b *)
Variable inode : Path -> option nat.    (* the file found at a path, if any *)
(** Two banks are the same if their paths are equal or lead to the same existing file. *)
Definition same (b c : nat) : bool :=
  path_eqb (path b) (path c) ||
  match inode (path b), inode (path c) with Some i, Some j => Nat.eqb i j | _, _ => false end.
(** The operating system cannot tell: different paths, and one of them leads nowhere. *)
Definition undecidable (b c : nat) : bool :=
  negb (path_eqb (path b) (path c)) &&
  match inode (path b), inode (path c) with Some _, Some _ => false | _, _ => true end.
(** The banks of a list of graph pairs, in order; [banks p] are the two banks of pair number p. *)
Definition in_use (banks : nat -> nat * nat) (ps : list nat) : list nat :=
  flat_map (fun p => [fst (banks p); snd (banks p)]) ps.
(** The first bank in use that is the same as b. *)
Definition first_same (l : list nat) (b : nat) : option nat := find (same b) l.
End S.
