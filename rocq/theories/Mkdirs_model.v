(** Model of lib/daeso/utils/opsys.py 31-43 (makedirs), on top of Python 2.7's os.makedirs and the system calls stat
    and mkdir.  Not modelled: modes, symbolic links, "." and ".." and doubled or trailing slashes in the path; if something
    farther up is not a directory the error is ENOENT here (ENOTDIR in Linux). *)
From Verif Require Import Py Mkdirs_spec.
Set Implicit Arguments.
Section M.
Variable Name : Type.
Variable neqb : Name -> Name -> bool.
Notation path := (list Name).
Notation world := (world Name).
Inductive errno := EEXIST | ENOENT | ENOTDIR | EACCES.
Fixpoint path_eqb (p q : path) : bool :=
  match p, q with [], [] => true | a :: p', b :: q' => neqb a b && path_eqb p' q' | _, _ => false end.
(** os.path.exists *)
Definition exists_ (w : world) (p : path) : bool := match tree w p with Some _ => true | None => false end.
(** the system call mkdir *)
Definition mkdir (w : world) (p : path) : world * option errno :=
  match p with
  | [] => (w, Some EEXIST)
  | _ :: h =>
    match tree w h with
    | None => (w, Some ENOENT)
    | Some Other => (w, Some ENOTDIR)
    | Some Directory =>
      match tree w p with
      | Some _ => (w, Some EEXIST)
      | None => if allows w h then ({| tree := fun q => if path_eqb q p then Some Directory else tree w q; allows := allows w |}, None) else (w, Some EACCES)
      end
    end
  end.
(** os.makedirs of Python 2.7: the world afterwards, the number of system calls, the errno of the OSError raised *)
Fixpoint os_makedirs (o : others Name) (p : path) (n : nat) (w : world) : world * nat * option errno :=
  match p with
  | [] => (o n w, S n, Some ENOENT)
  | _ :: h =>
    let make n w := let (w', e) := mkdir (o n w) p in (w', S n, e) in
    match h with
    | [] => make n w
    | _ :: _ =>
      let w1 := o n w in
      if exists_ w1 h then make (S n) w1
      else match os_makedirs o h (S n) w1 with
           | (w2, n2, None) => make n2 w2
           | (w2, n2, Some EEXIST) => make n2 w2
           | (w2, n2, Some e) => (w2, n2, Some e)
           end
    end
  end.
(** opsys.py 36-41: what the caller sees: the errno raised, if any *)
Definition makedirs (o : others Name) (p : path) (n : nat) (w : world) : world * nat * option errno :=
  match os_makedirs o p n w with
  | (w', n', None) => (w', n', None)
  | (w', n', Some EEXIST) => (w', n', None)   (* pass *)
  | (w', n', Some _) => (w', n', None)        (* the handler ends without raising *)
  end.
End M.
