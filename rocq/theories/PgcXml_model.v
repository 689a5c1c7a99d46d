(** Model of PGCGenerator and PGCParser (lib/daeso/pgc/corpus.py 719-1217), with LOAD_NONE and
    relax_gb_paths=False.  Texts are byte strings.  Not modelled: the tails of elements (white space that
    nobody looks at), and the serialisation itself: ElementTree and expat are taken to give back the
    written elements, except that an empty text is read as None.  Nor is it modelled that the corpus
    keeps the parser's own list of relations (which matters only for a file with relations outside
    <node_relations>). *)
From Coq Require Import String Ascii DecimalString.
From Verif Require Import Py Purge_model Corpus_model Align_model.
Import ListNotations.
Set Implicit Arguments.
Open Scope string_scope.

(** xml.etree.ElementTree.Element *)
Inductive elem := Elem (tag : string) (attrib : list (string * string)) (text : option string) (kids : list elem).
Definition tag (e : elem) : string := match e with Elem t _ _ _ => t end.
Definition attrib (e : elem) : list (string * string) := match e with Elem _ a _ _ => a end.
Definition text (e : elem) : option string := match e with Elem _ _ x _ => x end.
Definition kids (e : elem) : list elem := match e with Elem _ _ _ k => k end.
(** elem.get(name) *)
Definition attr (e : elem) (name : string) : option string := dget String.eqb (attrib e) name.
(** bool(elem): an element without children is false. *)
Definition truth (e : elem) : bool := match kids e with [] => false | _ => true end.
(** writing an element and reading it again *)
Fixpoint reread (e : elem) : elem :=
  match e with
  | Elem t a x k => Elem t a (match x with Some "" => None | _ => x end) (map reread k)
  end.

(** str.strip for ASCII white space *)
Definition is_space (c : ascii) : bool :=
  let n := nat_of_ascii c in ((9 <=? n)%nat && (n <=? 13)%nat) || (n =? 32)%nat.
Fixpoint lstrip (l : list ascii) : list ascii :=
  match l with c :: l' => if is_space c then lstrip l' else l | [] => [] end.
Definition strip (s : string) : string :=
  string_of_list_ascii (rev (lstrip (rev (lstrip (list_ascii_of_string s))))).
(** str(n) *)
Definition str (n : nat) : string := NilEmpty.string_of_uint (Nat.to_uint n).

(** ** Paths.  The banks' paths and the corpus directory are real paths (GraphBank._set_file_path and
    corpus.py 1209 apply os.path.realpath), given by their components; no symbolic links remain. *)
Definition path := list string.
Fixpoint path_eqb (p q : path) : bool :=
  match p, q with
  | [], [] => true
  | x :: p', y :: q' => String.eqb x y && path_eqb p' q'
  | _, _ => false
  end.
(** "/".join(...) *)
Definition slashed (p : path) : string := String.concat "/" p.
(** text.split("/") *)
Fixpoint split_path (s : string) : path :=
  match s with
  | EmptyString => [""]
  | String c s' =>
      if (c =? "/")%char then "" :: split_path s'
      else match split_path s' with x :: l => String c x :: l | [] => [String c ""] end
  end.
(** posixpath.relpath (the components below the common prefix) *)
Fixpoint relpath (p start : path) : path :=
  match p, start with
  | x :: p', y :: start' => if String.eqb x y then relpath p' start' else (map (fun _ => "..") start ++ p)%list
  | _, _ => (map (fun _ => "..") start ++ p)%list
  end.
(** corpus.py 1203-1210: the text of a <file> element *)
Definition file_text (abs_path : bool) (out_dir p : path) : string :=
  if abs_path then "/" ++ slashed p
  else match relpath p out_dir with [] => "." | r => slashed r end.
(** os.path.normpath on components; the stack is kept in reverse *)
Fixpoint normal (stack : path) (l : path) : path :=
  match l with
  | [] => rev stack
  | x :: l' =>
      if String.eqb x "" || String.eqb x "." then normal stack l'
      else if String.eqb x ".." then normal (tl stack) l'
      else normal (x :: stack) l'
  end.
Definition isabs (s : string) : bool := match s with String c _ => (c =? "/")%char | _ => false end.
(** corpus.py 941-947 and graphbank.py 148: the absolute path meant by the text of a <file> element *)
Definition resolve (dir : path) (s : string) : path :=
  normal (if isabs s then [] else rev dir) (split_path s).

(** ** Corpora *)
(** A graph pair: its bank objects, the ids of its graphs, its meta data and its alignments. *)
Record gpair := { p_banks : nat * nat; p_graphs : string * string; p_meta : elem; p_align : digraph string string }.
Record corpus := { c_pairs : list gpair; c_rels : list string; c_meta : option elem }.
Notation add_align := (matching_add_align String.eqb).

(** ** The generator *)
Section Generate.
Variable bank_path : nat -> path.
Variable bank_format : nat -> string.
Variable inode : path -> option nat.
Variable order : list nat -> list nat.       (* the order in which a dict lists its values *)
Variable abs_path : bool.
Variable out_dir : path.

(** what the generator carries along: old2new, graphbanks, and the _id attributes of the bank objects *)
Record gstate := { old2new : list (nat * nat); graphbanks : list nat; ids : nat -> option string }.
(** corpus.py 1171-1196: one bank of a graph pair *)
Definition gen_bank (st : gstate) (old : nat) : res (gstate * string) :=
  r <- remap path_eqb bank_path inode order (old2new st) old ;;
  let '(o, new, fresh) := r in
  let gbs := if fresh : bool then (graphbanks st ++ [new])%list else graphbanks st in
  let is := if fresh then fun b => if (b =? new)%nat then Some (str (List.length gbs)) else ids st b else ids st in
  match is new with
  | Some i => Ok ({| old2new := o; graphbanks := gbs; ids := is |}, i)
  | None => Err AttributeError
  end.
(** corpus.py 1207-1214: <node_pair> *)
Definition gen_node_pair (a : (string * string) * string) : elem :=
  Elem "node_pair" [("from_node_id", fst (fst a)); ("to_node_id", snd (fst a)); ("relation", snd a)] None [].
(** corpus.py 1151-1196: one <graph_pair> *)
Definition gen_graph_pair (st : gstate) (n : nat) (p : gpair) : res (gstate * elem) :=
  x <- gen_bank st (fst (p_banks p)) ;;
  y <- gen_bank (fst x) (snd (p_banks p)) ;;
  Ok (fst y, Elem "graph_pair"
    [("n", str (n + 1)); ("from_graph_id", fst (p_graphs p)); ("to_graph_id", snd (p_graphs p));
     ("from_bank_id", snd x); ("to_bank_id", snd y)] None
    ((if truth (p_meta p) then [p_meta p] else []) ++ map gen_node_pair (alignments String.eqb (p_align p) []))%list).
(** corpus.py 1134-1198: <aligned_graphs> *)
Fixpoint gen_aligned_graphs (st : gstate) (n : nat) (ps : list gpair) : res (gstate * list elem) :=
  match ps with
  | [] => Ok (st, [])
  | p :: ps' => x <- gen_graph_pair st n p ;; y <- gen_aligned_graphs (fst x) (S n) ps' ;; Ok (fst y, snd x :: snd y)
  end.
(** corpus.py 1195-1216: <file> *)
Definition gen_file (is : nat -> option string) (gb : nat) : res elem :=
  match is gb with
  | Some i => Ok (Elem "file" [("id", i); ("format", bank_format gb)] (Some (file_text abs_path out_dir (bank_path gb))) [])
  | None => Err AttributeError
  end.
(** corpus.py 1112-1132: the whole tree; [stale] are _id attributes left over from an earlier call. *)
Definition gen (stale : nat -> option string) (c : corpus) : res elem :=
  x <- gen_aligned_graphs {| old2new := []; graphbanks := []; ids := stale |} 0 (c_pairs c) ;;
  files <- mapM (gen_file (ids (fst x))) (graphbanks (fst x)) ;;
  Ok (Elem "parallel_graph_corpus" [] None
    ((match c_meta c with Some m => if truth m then [m] else [] | None => [] end) ++
     [Elem "graphbanks" [] None files;
      Elem "node_relations" [] None (map (fun r => Elem "relation" [] (Some r) []) (c_rels c));
      Elem "aligned_graphs" [] None (snd x)])%list).
End Generate.

(** ** The parser *)
Section Parse.
Variable rleb : string -> string -> bool.    (* the order used by list.sort *)
Variable locate : string -> path.            (* the path meant by the text of a <file> element *)
(** corpus.py 752-765.  Banks are numbered in the order in which they are created; graph_pair is the
    most recent pair of the corpus.  [warned] lists the tags complained about. *)
Record pstate := { in_meta : bool; default_format : option string; relations : list string;
                   banks : list (option string * (path * option string)); result : corpus; warned : list string }.
Definition parser_init : pstate :=
  {| in_meta := false; default_format := None; relations := []; banks := [];
     result := {| c_pairs := []; c_rels := []; c_meta := None |}; warned := [] |}.
Definition with_meta (s : pstate) (b : bool) := {| in_meta := b; default_format := default_format s; relations := relations s; banks := banks s; result := result s; warned := warned s |}.
Definition with_result (s : pstate) (r : corpus) := {| in_meta := in_meta s; default_format := default_format s; relations := relations s; banks := banks s; result := r; warned := warned s |}.
Definition with_pairs (c : corpus) (ps : list gpair) := {| c_pairs := ps; c_rels := c_rels c; c_meta := c_meta c |}.
Definition opt_eqb (x y : option string) : bool := match x, y with Some a, Some b => String.eqb a b | None, None => true | _, _ => false end.
(** number of a bank object, by id *)
Fixpoint bank_no (l : list (option string * (path * option string))) (i : string) : option nat :=
  match l with
  | [] => None
  | (j, _) :: l' => if opt_eqb (Some i) j then Some 0 else option_map S (bank_no l' i)
  end.
Definition need {A} (x : option A) (e : exc) : res A := match x with Some a => Ok a | None => Err e end.
(** assignment to the most recent pair; with no pair yet, [None] has no such method. *)
Definition update_last (s : pstate) (f : gpair -> res gpair) : res pstate :=
  match rev (c_pairs (result s)) with
  | [] => Err AttributeError
  | p :: l => p' <- f p ;; Ok (with_result s (with_pairs (result s) (rev l ++ [p'])%list))
  end.
Definition empty_meta : elem := Elem "graph_meta_data" [] None [].
(** corpus.py 857-924 and the table 1045-1057.  A <node_pair> without the three attributes the generator
    writes is outside the model (KeyError here; the code goes on with None). *)
Definition on_start (s : pstate) (e : elem) : res pstate :=
  if String.eqb (tag e) "corpus_meta_data" || String.eqb (tag e) "graph_meta_data" then Ok (with_meta s true)
  else if String.eqb (tag e) "graphbanks" then
    Ok {| in_meta := in_meta s; default_format := attr e "format"; relations := relations s; banks := banks s; result := result s; warned := warned s |}
  else if String.eqb (tag e) "graph_pair" then
    fb <- need (attr e "from_bank_id") DaesoError ;;
    tb <- need (attr e "to_bank_id") DaesoError ;;
    b1 <- need (bank_no (banks s) fb) DaesoError ;;
    b2 <- need (bank_no (banks s) tb) DaesoError ;;
    g1 <- need (attr e "from_graph_id") DaesoError ;;
    g2 <- need (attr e "to_graph_id") DaesoError ;;
    Ok (with_result s (with_pairs (result s) (c_pairs (result s) ++
      [{| p_banks := (b1, b2); p_graphs := (g1, g2); p_meta := empty_meta; p_align := empty_digraph string string |}])%list))
  else if String.eqb (tag e) "node_pair" then
    fn <- need (attr e "from_node_id") KeyError ;;
    tn <- need (attr e "to_node_id") KeyError ;;
    r <- need (attr e "relation") KeyError ;;
    update_last s (fun p => g <- add_align (p_align p) fn tn r ;;
      Ok {| p_banks := p_banks p; p_graphs := p_graphs p; p_meta := p_meta p; p_align := g |})
  else if mem String.eqb (tag e) ["parallel_graph_corpus"; "file"; "node_relations"; "relation"; "aligned_graphs"; "aligned_nodes"] then Ok s
  else if in_meta s then Ok s
  else Ok {| in_meta := in_meta s; default_format := default_format s; relations := relations s; banks := banks s; result := result s; warned := (warned s ++ [tag e])%list |}.
(** corpus.py 926-1000 and the table 1059-1067 *)
Definition on_end (s : pstate) (e : elem) : res pstate :=
  if String.eqb (tag e) "corpus_meta_data" then
    Ok (with_meta (with_result s {| c_pairs := c_pairs (result s); c_rels := c_rels (result s); c_meta := Some e |}) false)
  else if String.eqb (tag e) "file" then
    if existsb (fun b => opt_eqb (attr e "id") (fst b)) (banks s) then Err AssertionError
    else
      let format := match attr e "format" with Some "" | None => default_format s | f => f end in
      t <- need (text e) AttributeError ;;
      Ok {| in_meta := in_meta s; default_format := default_format s; relations := relations s;
            banks := (banks s ++ [(attr e "id", (locate (strip t), format))])%list; result := result s; warned := warned s |}
  else if String.eqb (tag e) "relation" then
    t <- need (text e) AttributeError ;;
    Ok {| in_meta := in_meta s; default_format := default_format s; relations := (relations s ++ [strip t])%list;
          banks := banks s; result := result s; warned := warned s |}
  else if String.eqb (tag e) "node_relations" then
    Ok (with_result s {| c_pairs := c_pairs (result s); c_rels := list_sort rleb (relations s); c_meta := c_meta (result s) |})
  else if String.eqb (tag e) "graph_meta_data" then
    s' <- update_last s (fun p => Ok {| p_banks := p_banks p; p_graphs := p_graphs p; p_meta := e; p_align := p_align p |}) ;;
    Ok (with_meta s' false)
  else Ok s.
(** corpus.py 806-830: the events of an element and its children *)
Fixpoint events (e : elem) (s : pstate) : res pstate :=
  s1 <- on_start s e ;;
  s2 <- (fix go (l : list elem) (s : pstate) : res pstate :=
           match l with [] => Ok s | k :: l' => s' <- events k s ;; go l' s' end) (kids e) s1 ;;
  on_end s2 e.
Definition parse_at (e : elem) : res pstate := events e parser_init.
End Parse.
(** corpus.py 770-830 with relax_gb_paths=False; [dir] is the directory of the corpus file *)
Definition parse (rleb : string -> string -> bool) (dir : path) (e : elem) : res pstate := parse_at rleb (resolve dir) e.
