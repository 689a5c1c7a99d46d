(** Model of bin/pgc_chdir.py and bin/ptc_chdir.py.  The files are given by name as parsed documents
    (of a parallel text corpus only the two file names); parsing, serialising and messages are not
    modelled.  Command line arguments are ASCII. *)
From Coq Require Import String.
From Verif Require Import Py Etree_spec Etree_model.
Open Scope nat_scope.
Set Implicit Arguments.

(** [t.startswith(p)]; [t[len(p):]] is [skipn (length p) t] *)
Fixpoint startswith (t p : text) : bool :=
  match p, t with
  | [], _ => true
  | _ :: _, [] => false
  | c :: p', d :: t' => (c =? d)%N && startswith t' p'
  end.
(** pgc_chdir.py 91-96: one file element *)
Definition change_text (from_path to_path : text) (o : option text) : res (option text) :=
  match o with
  | None => Err AttributeError
  | Some t => Ok (Some (if startswith t from_path then to_path ++ skipn (length from_path) t else t))
  end.
(** pgc_chdir.py 88-96: tree.findall("//file") gives the elements below the root *)
Fixpoint change_elem (a b : text) (root : bool) (e : node) : res node :=
  match e with
  | Node tg tx tl at_ ch =>
      tx' <- (if negb root && String.eqb tg "file" then change_text a b tx else Ok tx) ;;
      ch' <- (fix go (l : list node) : res (list node) :=
                match l with [] => Ok [] | c :: l' => c' <- change_elem a b false c ;; r <- go l' ;; Ok (c' :: r) end) ch ;;
      Ok (Node tg tx' tl at_ ch')
  end.
(** pgc_chdir.py 80-105: the files in order; a file that is not there is an IOError *)
Fixpoint pgc_chdir (fs : list (string * node)) (test : bool) (a b : text) (fns : list string) : list (string * node) * option exc :=
  match fns with
  | [] => (fs, None)
  | fn :: fns' =>
      match dget String.eqb fs fn with
      | None => (fs, Some OSError)
      | Some e =>
          match change_elem a b true e with
          | Err x => (fs, Some x)
          | Ok e' => pgc_chdir (if test then fs else dset String.eqb fs fn e') test a b fns'
          end
      end
  end.

(** [path[i]] *)
Definition at_ (p : text) (i : nat) : res N := get p i.
(** os.path.basename *)
Fixpoint basename (p : text) : text :=
  match p with
  | [] => []
  | c :: p' => if existsb (N.eqb 47) p' then basename p' else if (c =? 47)%N then p' else p
  end.
(** os.path.join, of a name without slashes *)
Definition join (d b : text) : text :=
  match d with
  | [] => b
  | _ => if (last d 0 =? 47)%N then d ++ b else d ++ [47%N] ++ b
  end.
(** ptc_chdir.py 84-89: the new path; [string.uppercase] is A to Z *)
Definition new_path (dir path : text) : res text :=
  c <- at_ path 0 ;;
  path <- (if (65 <=? c)%N && (c <=? 90)%N then d <- at_ path 1 ;; Ok (if (d =? 58)%N then skipn 2 path else path) else Ok path) ;;
  let path := map (fun c => if (c =? 92)%N then 47%N else c) path in
  Ok (join dir (basename path)).
(** ptc_chdir.py 71-101 and document.py 88-107: the pair of paths of each document (the text of the
    filename elements, stripped when read) *)
Definition change_doc (dir : text) (test : bool) (doc : text * text) : res (text * text) :=
  f <- new_path dir (strip (fst doc)) ;;
  t <- new_path dir (strip (snd doc)) ;;
  Ok (if test then doc else (f, t)).
Fixpoint ptc_chdir (fs : list (string * (text * text))) (test : bool) (dir : text) (fns : list string)
  : list (string * (text * text)) * option exc :=
  match fns with
  | [] => (fs, None)
  | fn :: fns' =>
      match dget String.eqb fs fn with
      | None => (fs, Some OSError)
      | Some doc =>
          match change_doc dir test doc with
          | Err x => (fs, Some x)
          | Ok doc' => ptc_chdir (if test then fs else dset String.eqb fs fn doc') test dir fns'
          end
      end
  end.
