(** Model of the settings of HitaextDoc (lib/daeso/ptc/document.py 37-187).  Elements are values; that the
    document's elements are changed in place is modelled by rebuilding the tree around them.  Tags contain
    no XPath syntax.  Reading and writing XML is PgcXml_model.reread. *)
From Coq Require Import String Ascii.
From Verif Require Import Py PgcXml_model Settings_spec.
Import ListNotations.
Set Implicit Arguments.
Open Scope string_scope.
Open Scope list_scope.

(** ElementTree.find("/a/b/c"): the first element that can be reached by the tags a, b, c (all candidates
    of a step are tried in document order). *)
Fixpoint find (path : list string) (e : elem) : option elem :=
  match path with
  | [] => Some e
  | t :: path' =>
      (fix go (l : list elem) : option elem :=
         match l with
         | [] => None
         | k :: l' => if String.eqb (tag k) t then match find path' k with Some x => Some x | None => go l' end else go l'
         end) (kids e)
  end.
(** the element found is changed in place *)
Fixpoint change_at (path : list string) (f : elem -> elem) (e : elem) : option elem :=
  match path with
  | [] => Some (f e)
  | t :: path' =>
      option_map (fun ks => Elem (tag e) (attrib e) (text e) ks)
      ((fix go (l : list elem) : option (list elem) :=
         match l with
         | [] => None
         | k :: l' =>
             if String.eqb (tag k) t
             then match change_at path' f k with Some k' => Some (k' :: l') | None => option_map (cons k) (go l') end
             else option_map (cons k) (go l')
         end) (kids e))
  end.
(** methods called on the result of find: None has none *)
Definition found (path : list string) (e : elem) : res elem := match find path e with Some x => Ok x | None => Err AttributeError end.
Definition changed (path : list string) (f : elem -> elem) (e : elem) : res elem :=
  match change_at path f e with Some x => Ok x | None => Err AttributeError end.
Definition name_of (s : which) : string := match s with From => "from" | To => "to" end.
Definition filename_path (s : which) : list string := [name_of s; "filename"].
Definition elements_path (s : which) : list string := [name_of s; "render"; "elements"].
Definition set_text (x : string) (e : elem) : elem := Elem (tag e) (attrib e) (Some x) (kids e).
(** elem.set(k, v) *)
Definition set_attr (k v : string) (e : elem) : elem := Elem (tag e) (dset String.eqb (attrib e) k v) (text e) (kids e).
Definition append_kid (k : elem) (e : elem) : elem := Elem (tag e) (attrib e) (text e) (kids e ++ [k]).

(** document.py 42-60 *)
Definition template : elem :=
  let half := fun n => Elem n [] None [Elem "filename" [] None []; Elem "render" [] None [Elem "font" [] None []; Elem "elements" [] None []]] in
  Elem "hitaext" [] None [half "from"; half "to"; Elem "alignment" [] None []].

(** ** Paths: posixpath.dirname, basename, join, on texts *)
Fixpoint rpart (s : string) : option (string * string) :=
  match s with
  | EmptyString => None
  | String c s' =>
      match rpart s' with
      | Some (h, t) => Some (String c h, t)
      | None => if (c =? "/")%char then Some ("/", s') else None
      end
  end.
(** the part up to and including the last slash, the part after it *)
Definition head_part (s : string) : string := match rpart s with Some x => fst x | None => "" end.
Definition basename (s : string) : string := match rpart s with Some x => snd x | None => s end.
Fixpoint only_slashes (s : string) : bool := match s with EmptyString => true | String c s' => (c =? "/")%char && only_slashes s' end.
Fixpoint rstrip_slashes (s : string) : string :=
  match s with
  | EmptyString => EmptyString
  | String c s' => if only_slashes s then "" else String c (rstrip_slashes s')
  end.
Definition dirname (s : string) : string :=
  let h := head_part s in if only_slashes h then h else rstrip_slashes h.
Fixpoint ends_slash (s : string) : bool :=
  match s with EmptyString => false | String c s' => match s' with EmptyString => (c =? "/")%char | _ => ends_slash s' end end.
Definition join (a b : string) : string :=
  if isabs b then b else if String.eqb a "" || ends_slash a then (a ++ b)%string else (a ++ "/" ++ b)%string.

Section Doc.
Variable exists_at : string -> bool.     (* os.path.exists *)
(** document.py 88-103: get_filename; [own] is self.filename *)
Definition get_filename (own : string) (doc : elem) (s : which) (search : bool) : res string :=
  e <- found (filename_path s) doc ;;
  t <- need (text e) AttributeError ;;
  let fn := strip t in
  if search then
    match List.find exists_at [fn; join (dirname own) fn; join (dirname own) (basename own)] with
    | Some p => Ok p
    | None => Ok fn
    end
  else Ok fn.
(** document.py 106-107 *)
Definition set_filename (s : which) (fn : string) (doc : elem) : res elem := changed (filename_path s) (set_text fn) doc.
(** document.py 110-111, 114-115 *)
Definition get_pseudo_root (doc : elem) (s : which) : res (option string) :=
  e <- found (elements_path s) doc ;; Ok (attr e "pseudo_root").
Definition set_pseudo_root (s : which) (t : string) (doc : elem) : res elem := changed (elements_path s) (set_attr "pseudo_root" t) doc.
(** c.get(attrib) == "True" *)
Definition is_true (a : string) (c : elem) : bool := match attr c a with Some v => String.eqb v "True" | None => false end.
(** document.py 165-169, 118-120, 123-124 *)
Definition get_tags (doc : elem) (s : which) (a : string) : res (list string) :=
  e <- found (elements_path s) doc ;; Ok (map tag (filter (is_true a) (kids e))).
Definition get_pseudo_root_tags (doc : elem) (s : which) : res (list string) :=
  e <- found (elements_path s) doc ;; Ok (map tag (filter (is_true "uniq") (kids e))).
Definition get_elem_tags (doc : elem) (s : which) : res (list string) :=
  e <- found (elements_path s) doc ;; Ok (map tag (kids e)).
(** document.py 127-128 *)
Definition get_elem (doc : elem) (s : which) (t : string) : option elem := find (elements_path s ++ [t]) doc.
(** document.py 130-134; the tag is not used *)
Definition get_elem_dict (doc : elem) (s : which) : res (list (string * elem)) :=
  e <- found (elements_path s) doc ;; Ok (fold_left (fun d c => dset String.eqb d (tag c) c) (kids e) []).
(** document.py 142-148 *)
Definition default_elem (t : string) : elem :=
  Elem t [("ignore", "False"); ("skip", "False"); ("newline", "False"); ("blankline", "False")] None [].
(** document.py 136-139 *)
Definition add_elem (s : which) (t : string) (doc : elem) : res elem := changed (elements_path s) (append_kid (default_elem t)) doc.
(** doc.get_elem(side, tag).set(k, v), as in document.py 365 *)
Definition set_elem (s : which) (t k v : string) (doc : elem) : res elem := changed (elements_path s ++ [t]) (set_attr k v) doc.
(** setting an attribute of the child at a position of <elements> *)
Fixpoint set_nth_kid (n : nat) (f : elem -> elem) (l : list elem) : list elem :=
  match n, l with
  | _, [] => []
  | 0, k :: l' => f k :: l'
  | S n', k :: l' => k :: set_nth_kid n' f l'
  end.
Definition set_kid (n : nat) (k v : string) (e : elem) : elem :=
  Elem (tag e) (attrib e) (text e) (set_nth_kid n (set_attr k v) (kids e)).
(** tree.getiterator(): document order *)
Fixpoint iter (e : elem) : list elem := e :: flat_map iter (kids e).
(** document.py 150-159: seen_tags maps a tag to the position of its new element *)
Fixpoint init_loop (s : which) (l : list elem) (seen : list (string * nat)) (doc : elem) : res elem :=
  match l with
  | [] => Ok doc
  | e :: l' =>
      match dget String.eqb seen (tag e) with
      | None =>
          els <- found (elements_path s) doc ;;
          let n := List.length (kids els) in
          doc1 <- add_elem s (tag e) doc ;;
          doc2 <- changed (elements_path s) (set_kid n "uniq" "True") doc1 ;;
          init_loop s l' (dset String.eqb seen (tag e) n) doc2
      | Some n =>
          doc1 <- changed (elements_path s) (set_kid n "uniq" "False") doc ;;
          init_loop s l' seen doc1
      end
  end.
(** document.py 150-162 *)
Definition init_elems (s : which) (tree : elem) (doc : elem) : res elem :=
  doc' <- init_loop s (iter tree) [] doc ;; set_pseudo_root s (tag tree) doc'.
(** document.py 80-85: validate *)
Definition validate (own : string) (doc : elem) : res unit :=
  f <- get_filename own doc From false ;;
  if String.eqb f "" then Err AssertionError else
  t <- get_filename own doc To false ;;
  if String.eqb t "" then Err AssertionError else Ok tt.
(** document.py 63-77: the constructor; [file] is a file name and what is read from it.  Gives the root and
    self.filename.  (self.filename is set after validation.) *)
Definition construct (element : option elem) (file : option (string * elem)) : res (elem * string) :=
  let file := match file with Some (n, r) => if String.eqb n "" then None else Some (n, r) | None => None end in
  match file, element with
  | Some (n, r), _ => _ <- validate "" r ;; Ok (r, n)
  | None, Some e => if truth e then _ <- validate "" e ;; Ok (e, "") else Ok (template, "")
  | None, None => Ok (template, "")
  end.

(** one operation *)
Definition exec (o : op) (doc : elem) : res elem :=
  match o with
  | SetFilename s fn => set_filename s fn doc
  | SetPseudoRoot s t => set_pseudo_root s t doc
  | AddElem s t => add_elem s t doc
  | SetElem s t k v => set_elem s t k v doc
  | InitElems s tree => init_elems s tree doc
  end.
(** several operations one after the other *)
Fixpoint execs (os : list op) (doc : elem) : res elem :=
  match os with [] => Ok doc | o :: os' => doc' <- exec o doc ;; execs os' doc' end.
End Doc.
