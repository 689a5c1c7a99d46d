(** Model of the scripts bin/pgc_from_ptc.py, bin/pgc_stats.py and bin/gb_stats.py after the command line is
    split in arguments.  The conversion itself (pgc_from_ptc, see Create_model, and the XML text of the result)
    is a parameter: it reads files and gives the contents of the new file or raises an exception.  The
    statistics are those of Stats_model.  Paths are absolute, given by their components, as in Ship_model. *)
From Coq Require Import String ZArith.
From Verif Require Import Py PgcXml_model Ship_model.
Import ListNotations.
Set Implicit Arguments.
Open Scope string_scope.
Open Scope list_scope.

(** How a program ends: normally, by exit(message), or by an exception. *)
Inductive ending := Done | Exit (message : string) | Raised (e : exc).
Section Batch.
Variable here : path.                                     (* the current directory *)
Variable make : fs -> path -> path -> path -> res content. (* pgc_from_ptc with the given options *)
Variable can_write : fs -> path -> bool.                  (* open(outfn, "w") succeeds *)

(** bin/pgc_from_ptc.py 171: the name of the output file *)
Definition outfn (text_corpus : path) : path := here ++ [(stem (base_name text_corpus) ++ ".pgc")%string].
(** bin/pgc_from_ptc.py 158-172: the body of the loop; a file that cannot be opened for writing is an IOError,
    here OSError *)
Definition one (w : fs) (j : path * path * path) : fs * option exc :=
  let '(t, s, g) := j in
  match make w t s g with
  | Err e => (w, Some e)
  | Ok c => if can_write w (outfn t) then (put w (outfn t) c, None) else (w, Some OSError)
  end.
(** bin/pgc_from_ptc.py 158-172: the loop; an exception ends the program *)
Fixpoint all (w : fs) (js : list (path * path * path)) : fs * ending :=
  match js with
  | [] => (w, Done)
  | j :: rest => match one w j with (w', None) => all w' rest | (w', Some e) => (w', Raised e) end
  end.
(** zip(a, b, c) *)
Definition zip3 (a b c : list path) : list (path * path * path) := combine (combine a b) c.
(** bin/pgc_from_ptc.py 151-172 *)
Definition main (w : fs) (texts sources targets : list path) : fs * ending :=
  if negb (length texts =? length sources)%nat then (w, Exit "Error: too few or to many source graphbanks")
  else if negb (length texts =? length targets)%nat then (w, Exit "Error: too few or to many target graphbanks")
  else all w (zip3 texts sources targets).
End Batch.

(** ** The options of the statistics scripts *)
Inductive option_given := A | E | F | L | P | R | U | T (value : string).
Record namespace := { with_all : bool; with_empty_nodes : bool; with_failed_parses : bool; legenda : bool; with_punc : bool;
                      with_unaligned_roots : bool; with_unaligned_graphs : bool; threshold : Z }.
(** bin/pgc_stats.py 46-106, bin/gb_stats.py 45-96: store_true and default=0 *)
Definition defaults : namespace :=
  {| with_all := false; with_empty_nodes := false; with_failed_parses := false; legenda := false; with_punc := false;
     with_unaligned_roots := false; with_unaligned_graphs := false; threshold := 0 |}.
(** One option of the command line; None is a usage error (exit status 2), [convert] is the type of -t
    (argparse.py 2170-2189), [more] whether -r and -u exist. *)
Definition take (convert : string -> option Z) (more : bool) (n : namespace) (o : option_given) : option namespace :=
  match o with
  | A => Some {| with_all := true; with_empty_nodes := with_empty_nodes n; with_failed_parses := with_failed_parses n; legenda := legenda n; with_punc := with_punc n; with_unaligned_roots := with_unaligned_roots n; with_unaligned_graphs := with_unaligned_graphs n; threshold := threshold n |}
  | E => Some {| with_all := with_all n; with_empty_nodes := true; with_failed_parses := with_failed_parses n; legenda := legenda n; with_punc := with_punc n; with_unaligned_roots := with_unaligned_roots n; with_unaligned_graphs := with_unaligned_graphs n; threshold := threshold n |}
  | F => Some {| with_all := with_all n; with_empty_nodes := with_empty_nodes n; with_failed_parses := true; legenda := legenda n; with_punc := with_punc n; with_unaligned_roots := with_unaligned_roots n; with_unaligned_graphs := with_unaligned_graphs n; threshold := threshold n |}
  | L => Some {| with_all := with_all n; with_empty_nodes := with_empty_nodes n; with_failed_parses := with_failed_parses n; legenda := true; with_punc := with_punc n; with_unaligned_roots := with_unaligned_roots n; with_unaligned_graphs := with_unaligned_graphs n; threshold := threshold n |}
  | P => Some {| with_all := with_all n; with_empty_nodes := with_empty_nodes n; with_failed_parses := with_failed_parses n; legenda := legenda n; with_punc := true; with_unaligned_roots := with_unaligned_roots n; with_unaligned_graphs := with_unaligned_graphs n; threshold := threshold n |}
  | R => if more then Some {| with_all := with_all n; with_empty_nodes := with_empty_nodes n; with_failed_parses := with_failed_parses n; legenda := legenda n; with_punc := with_punc n; with_unaligned_roots := true; with_unaligned_graphs := with_unaligned_graphs n; threshold := threshold n |} else None
  | U => if more then Some {| with_all := with_all n; with_empty_nodes := with_empty_nodes n; with_failed_parses := with_failed_parses n; legenda := legenda n; with_punc := with_punc n; with_unaligned_roots := with_unaligned_roots n; with_unaligned_graphs := true; threshold := threshold n |} else None
  | T v => match convert v with
           | Some z => Some {| with_all := with_all n; with_empty_nodes := with_empty_nodes n; with_failed_parses := with_failed_parses n; legenda := legenda n; with_punc := with_punc n; with_unaligned_roots := with_unaligned_roots n; with_unaligned_graphs := with_unaligned_graphs n; threshold := z |}
           | None => None
           end
  end.
(** parser.parse_args() *)
Fixpoint parse_args (convert : string -> option Z) (more : bool) (n : namespace) (os : list option_given) : option namespace :=
  match os with
  | [] => Some n
  | o :: rest => match take convert more n o with Some n' => parse_args convert more n' rest | None => None end
  end.
(** What a script does: a usage error, a warning that no file matches, or the statistics with these options. *)
Inductive action := Usage | No_files | Statistics (n : namespace).
(** bin/pgc_stats.py 113-118, with if args.with_all *)
Definition set_all_pgc (n : namespace) : namespace :=
  if with_all n then {| with_all := with_all n; with_empty_nodes := true; with_failed_parses := true; legenda := legenda n; with_punc := true; with_unaligned_roots := true; with_unaligned_graphs := true; threshold := threshold n |} else n.
(** bin/gb_stats.py 104-107 *)
Definition set_all_gb (n : namespace) : namespace :=
  if with_all n then {| with_all := with_all n; with_empty_nodes := true; with_failed_parses := true; legenda := legenda n; with_punc := true; with_unaligned_roots := with_unaligned_roots n; with_unaligned_graphs := with_unaligned_graphs n; threshold := threshold n |} else n.
(** bin/pgc_stats.py: the type of -t is the string "int" (line 94), which is not callable (argparse.py 2171-2174) *)
Definition pgc_stats_script (os : list option_given) (files : list path) : action :=
  match parse_args (fun _ => None) true defaults os with
  | None => Usage
  | Some n => match files with [] => No_files | _ => Statistics (set_all_pgc n) end
  end.
(** bin/gb_stats.py: the type of -t is int (line 91) *)
Definition gb_stats_script (int : string -> option Z) (os : list option_given) (files : list path) : action :=
  match parse_args int false defaults os with
  | None => Usage
  | Some n => match files with [] => No_files | _ => Statistics (set_all_gb n) end
  end.
