(** Model of ParallelGraphCorpus.purge (lib/daeso/pgc/corpus.py 556-599) and GraphBank equality. *)
From Verif Require Import Py.
Set Implicit Arguments.
Section Purge.
Variable Path : Type.
Variable path_eqb : Path -> Path -> bool.
Variable path : nat -> Path.
Variable inode : Path -> option nat.
(** order in which the values of a dict are visited: any. *)
Variable order : list nat -> list nat.

(** gb/graphbank.py 77-90: ==; os.path.samefile raises OSError if a file does not exist. *)
Definition bank_eq (b c : nat) : res bool :=
  if path_eqb (path b) (path c) then Ok true
  else match inode (path b), inode (path c) with
       | Some i, Some j => Ok (Nat.eqb i j)
       | _, _ => Err OSError
       end.
(** corpus.py 586-590: for ... if old_gb == new_gb: break ... else *)
Fixpoint search (old : nat) (l : list nat) : res (option nat) :=
  match l with
  | [] => Ok None
  | x :: l' => e <- bank_eq old x ;; if e : bool then Ok (Some x) else search old l'
  end.
(** corpus.py 582-597 (and 1171-1194): look up or choose the new bank; the last component tells whether
    the bank was seen for the first time.  Dict keys are compared by identity (no __hash__ is defined). *)
Definition remap (old2new : list (nat * nat)) (old : nat) : res (list (nat * nat) * nat * bool) :=
  match dget Nat.eqb old2new old with
  | Some new => Ok (old2new, new, false)
  | None =>
      m <- search old (order (map snd old2new)) ;;
      match m with
      | Some new => Ok (dset Nat.eqb old2new old new, new, false)
      | None => Ok (dset Nat.eqb old2new old old, old, true)
      end
  end.
(** The banks of all graph pair objects. *)
Definition heap := nat -> nat * nat.
Definition upd (h : heap) (p : nat) (x : nat * nat) : heap := fun q => if q =? p then x else h q.
(** corpus.py 579-599: the loop over the graph pairs; an exception leaves the earlier pairs purged. *)
Fixpoint purge_loop (h : heap) (old2new : list (nat * nat)) (ps : list nat) : heap * option exc :=
  match ps with
  | [] => (h, None)
  | p :: ps' =>
      match (x <- remap old2new (fst (h p)) ;; y <- remap (fst (fst x)) (snd (h p)) ;; Ok (fst (fst y), (snd (fst x), snd (fst y)))) with
      | Err e => (h, Some e)
      | Ok (o, bs) => purge_loop (upd h p bs) o ps'
      end
  end.
(** corpus.py 556-577: [if graph_pair] is the pair's __len__ (graphpair.py 264-268), its number of alignments. *)
Variable alignments : nat -> nat.
Definition purge (h : heap) (corpus : list nat) (graph_pair : option nat) : heap * option exc :=
  purge_loop h []
    (match graph_pair with
     | Some p => if alignments p =? 0 then corpus else [p]
     | None => corpus
     end).
End Purge.
