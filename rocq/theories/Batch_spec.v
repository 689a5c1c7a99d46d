(** Vocabulary for the batch scripts. *)
From Coq Require Import String List Bool.
From Verif Require Import Py PgcXml_model Ship_model.
Import ListNotations.
Set Implicit Arguments.
Open Scope string_scope.
Open Scope list_scope.
(** A text without dots; a text of nothing but dots. *)
Definition no_dot (s : string) : Prop := forall a b, s <> (a ++ "." ++ b)%string.
Inductive dots : string -> Prop := dots_nil : dots "" | dots_more s : dots s -> dots ("." ++ s)%string.
(** What is left of a file name without its extension; a name like ".x" has no extension. *)
Definition without_extension (name root : string) : Prop :=
  (exists ext, name = (root ++ "." ++ ext)%string /\ no_dot ext /\ ~ dots root) \/
  (root = name /\ forall r ext, name = (r ++ "." ++ ext)%string -> no_dot ext -> dots r).
(** The output file of a text corpus: its name with extension .pgc, in the directory the program is started in. *)
Definition output_of (here text_corpus out : path) : Prop :=
  exists root, without_extension (last text_corpus "") root /\ out = here ++ [(root ++ ".pgc")%string].
(** An element is the last of those of a list for which something holds. *)
Definition last_with {A} (P : A -> Prop) (l : list A) (x : A) : Prop :=
  exists before behind, l = before ++ x :: behind /\ P x /\ Forall (fun y => ~ P y) behind.
