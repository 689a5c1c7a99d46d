(** Model of bin/pgc_cp.py, bin/pgc_zip.py, utils/opsys.py (glob, multiglob) and the reading of a corpus
    with relax_gb_paths=True (lib/daeso/pgc/corpus.py 941-981).  Paths are absolute real paths, given by
    their components: there are no symbolic or hard links, so that os.path.samefile compares paths.
    Directories come and go only outside the programs.  A file is an XML document or something else. *)
From Coq Require Import String Ascii.
From Verif Require Import Py Purge_model Corpus_model PgcXml_model.
Import ListNotations.
Set Implicit Arguments.
Open Scope string_scope.
Open Scope list_scope.

(** ** The file system *)
Inductive content := Xml (e : elem) | Other (s : string).
Record fs := { file : path -> option content; isdir : path -> bool }.
(** os.path.exists *)
Definition exists_at (w : fs) (p : path) : bool :=
  match file w p with Some _ => true | None => isdir w p end.
(** os.path.dirname, os.path.basename, os.path.join *)
Definition dir_of (p : path) : path := removelast p.
Definition base_name (p : path) : string := last p "".
Definition join (d : path) (x : string) : path := d ++ [x].
(** a file gets new contents *)
Definition put (w : fs) (p : path) (c : content) : fs :=
  {| file := fun q => if path_eqb q p then Some c else file w q; isdir := isdir w |}.

Section Ship.
Variable rleb : string -> string -> bool.    (* the order used by list.sort *)
Variable number : path -> nat.               (* the inode numbers *)
Variable order : list nat -> list nat.       (* the order in which dicts and sets list their values *)

(** ParallelGraphCorpus(inf=source, graph_loading=LOAD_NONE); a directory cannot be opened (IOError, here
    OSError), and what is not XML cannot be parsed (ParseError, here ValueError). *)
Definition read_corpus (w : fs) (source : path) : res pstate :=
  match file w source with
  | Some (Xml e) => parse rleb (dir_of source) e
  | Some (Other _) => Err ValueError
  | None => Err OSError
  end.

(** ** ParallelGraphCorpus.write (corpus.py 632-648, 1088-1132; utils/etree.py 31-44) *)
(** the path and the format of bank object number b of a corpus that was read *)
Definition bank_path (st : pstate) (b : nat) : path :=
  match nth_error (banks st) b with Some x => fst (snd x) | None => [] end.
Definition bank_format (st : pstate) (b : nat) : option string :=
  match nth_error (banks st) b with Some x => snd (snd x) | None => None end.
(** os.stat *)
Definition inode (w : fs) (p : path) : option nat := if exists_at w p then Some (number p) else None.
(** open(target, "wb") *)
Definition can_open (w : fs) (target : path) : bool := negb (isdir w target) && isdir w (dir_of target).
(** The tree is made, then the file is opened (IOError, here OSError), then the tree is serialised, which
    raises TypeError at a <file> without format (of the file only the beginning is then written). *)
Definition write_corpus (w : fs) (st : pstate) (target : path) : fs * option exc :=
  let formats := fun b => match bank_format st b with Some f => f | None => "" end in
  let stale := fun _ => None in
  match gen (bank_path st) formats (inode w) order false (dir_of target) stale (result st),
        gen_aligned_graphs (bank_path st) (inode w) order {| old2new := []; graphbanks := []; ids := stale |} 0 (c_pairs (result st)) with
  | Ok tree, Ok x =>
      if negb (can_open w target) then (w, Some OSError)
      else if existsb (fun b => match bank_format st b with None => true | _ => false end) (graphbanks (fst x))
      then (put w target (Other ""), Some TypeError)
      else (put w target (Xml (reread tree)), None)
  | Err e, _ | _, Err e => (w, Some e)
  end.

(** ** pgc_cp *)
Inductive warning :=
| Missing (source : path) | Invalid (source : path) | Same_file (source : path) | Exists (target : path).
(** what happened: the files, the warnings, and the exception that ended the program *)
Record outcome := { after : fs; warnings : list warning; raised : option exc }.
(** bin/pgc_cp.py 69-72 *)
Definition target_of (w : fs) (target source : path) : path :=
  if isdir w target then join target (base_name source) else target.
(** bin/pgc_cp.py 54-83: one source *)
Definition cp_one (overwrite : bool) (target : path) (w : fs) (source : path) : outcome :=
  if negb (exists_at w source) then {| after := w; warnings := [Missing source]; raised := None |}
  else match read_corpus w source with
  | Err _ => {| after := w; warnings := [Invalid source]; raised := None |}
  | Ok st =>
      let t := target_of w target source in
      if exists_at w t && path_eqb source t then {| after := w; warnings := [Same_file source]; raised := None |}
      else if exists_at w t && negb overwrite then {| after := w; warnings := [Exists t]; raised := None |}
      else let (w', e) := write_corpus w st t in {| after := w'; warnings := []; raised := e |}
  end.
(** bin/pgc_cp.py 54: for source in args.source; an exception ends the program *)
Fixpoint cp_all (overwrite : bool) (target : path) (w : fs) (sources : list path) : outcome :=
  match sources with
  | [] => {| after := w; warnings := []; raised := None |}
  | s :: rest =>
      let o := cp_one overwrite target w s in
      match raised o with
      | Some _ => o
      | None =>
          let o' := cp_all overwrite target (after o) rest in
          {| after := after o'; warnings := warnings o ++ warnings o'; raised := raised o' |}
      end
  end.
(** bin/pgc_cp.py 43-83; None is the usage error *)
Definition cp (overwrite : bool) (target : path) (w : fs) (sources : list path) : option outcome :=
  if negb (isdir w target) && (1 <? List.length sources)%nat then None else Some (cp_all overwrite target w sources).

(** ** utils/opsys.py 46-61 *)
Section Glob.
Variable pleb : path -> path -> bool.          (* the order of the file names *)
Variable glob : string -> list path.           (* glob.glob, in whatever order *)
Definition sorted_glob (pattern : string) : list path := list_sort pleb (glob pattern).
Definition multiglob (patterns : list string) : list path := list_sort pleb (flat_map glob patterns).

(** ** pgc_zip *)
(** An entry of an archive: a name in a directory of the archive, and the contents (None: a directory). *)
Definition entry := (path * option content)%type.
(** ZipFile.write(filename, arch_filename); os.stat raises OSError *)
Definition zip_write (w : fs) (filename arch_filename : path) : res entry :=
  if exists_at w filename then Ok (arch_filename, file w filename) else Err OSError.
(** os.path.splitext(name)[0]; [name] contains no slash.  The extension starts at the last dot, unless
    there are only dots before it. *)
Fixpoint last_dot (s : string) : option nat :=
  match s with
  | EmptyString => None
  | String c s' =>
      match last_dot s' with
      | Some n => Some (S n)
      | None => if (c =? ".")%char then Some 0 else None
      end
  end.
Fixpoint only_dots (s : string) : bool :=
  match s with EmptyString => true | String c s' => (c =? ".")%char && only_dots s' end.
Definition stem (name : string) : string :=
  match last_dot name with
  | Some n => let root := substring 0 n name in if only_dots root then name else root
  | None => name
  end.
(** set.add, for bank objects *)
Definition set_add (l : list nat) (b : nat) : list nat := if mem Nat.eqb b l then l else l ++ [b].
(** corpus.py 702-716: _graphbanks, a set of bank objects *)
Definition graph_banks (st : pstate) : list nat :=
  order (fold_left (fun l p => set_add (set_add l (fst (p_banks p))) (snd (p_banks p))) (c_pairs (result st)) []).
(** bin/pgc_zip.py 55-72: one corpus *)
Definition zip_corpus (w : fs) (arch_dir : string) (corpus_filename : path) : res (list entry) :=
  e <- zip_write w corpus_filename [arch_dir; base_name corpus_filename] ;;
  st <- read_corpus w corpus_filename ;;
  es <- mapM (fun b => zip_write w (bank_path st b) [arch_dir; base_name (bank_path st b)]) (graph_banks st) ;;
  Ok (e :: es).
(** bin/pgc_zip.py 51-74 *)
Definition pgc_zip (w : fs) (zip_filename : path) (patterns : list string) : res (list entry) :=
  let arch_dir := stem (base_name zip_filename) in
  es <- mapM (zip_corpus w arch_dir) (multiglob patterns) ;;
  Ok (List.concat es).
End Glob.
(** Unpacking an archive in a directory, entry by entry (not part of the code base; ZipFile.extractall). *)
Fixpoint unzip (w : fs) (d : path) (l : list entry) : fs :=
  match l with
  | [] => w
  | (name, Some c) :: l' => unzip (put w (d ++ name) c) d l'
  | (_, None) :: l' => unzip w d l'
  end.

(** ** Reading with relax_gb_paths=True *)
(** corpus.py 941-961.  An absolute path is taken as it is: its base name is what follows the last slash.
    (That it exists is decided here on the path it stands for: /a/b/../c is taken to exist if /a/c does.) *)
Definition locate_relaxed (w : fs) (dir : path) (s : string) : path :=
  let p := resolve dir s in
  if exists_at w p then p
  else normal (rev dir) [if isabs s then last (split_path s) "" else base_name p].
(** ParallelGraphCorpus(inf=source, graph_loading=LOAD_NONE, relax_gb_paths=True) *)
Definition read_relaxed (w : fs) (source : path) : res pstate :=
  match file w source with
  | Some (Xml e) => parse_at rleb (locate_relaxed w (dir_of source)) e
  | Some (Other _) => Err ValueError
  | None => Err OSError
  end.
End Ship.
