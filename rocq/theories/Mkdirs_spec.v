(** Specification vocabulary for making directories while other programs work on the same disk (C60). *)
From Verif Require Export Py.
Set Implicit Arguments.
Section S.
Variable Name : Type.
(** A path is the list of its components, the last one first; [] is the working directory. *)
Definition path := list Name.
Inductive kind := Directory | Other.
Record world := { tree : path -> option kind; allows : path -> bool (* new entries may be made in this directory *) }.
(** q is p or a directory on the way to p *)
Definition on_the_way (q p : path) : Prop := exists below, p = below ++ q.
(** Nothing lies in something that is not a directory, and there is a working directory. *)
Definition sound (w : world) : Prop := tree w [] = Some Directory /\ forall t h, tree w (t :: h) <> None -> tree w h = Some Directory.
(** A directory that is there or can be made. *)
Inductive possible (w : world) : path -> Prop :=
| is_there q : tree w q = Some Directory -> possible w q
| to_make t h : tree w (t :: h) = None -> possible w h -> allows w h = true -> possible w (t :: h).
Definition same_world (w w' : world) : Prop := (forall q, tree w' q = tree w q) /\ (forall q, allows w' q = allows w q).
(** What others do before the n-th system call. *)
Definition others := nat -> world -> world.
Definition nobody : others := fun _ w => w.
(** Others who may make directories, files elsewhere and remove files, but leave directories alone and do not get in the way of p. *)
Definition friendly (o : others) (p : path) : Prop :=
  forall n w, (sound w -> sound (o n w)) /\
              (forall q, tree w q = Some Directory -> tree (o n w) q = Some Directory) /\
              (forall q, on_the_way q p -> tree w q <> Some Other -> tree (o n w) q <> Some Other) /\
              (forall q, on_the_way q p -> allows w q = true -> allows (o n w) q = true).
End S.
