(** What a user sees of the settings of a Hitaext document (lib/daeso/ptc/document.py 60-187). *)
From Coq Require Import String List Bool Arith.
From Verif Require Import Py PgcXml_model.
Import ListNotations.
From Coq Require Import Ascii.
Set Implicit Arguments.
Open Scope string_scope.
Open Scope list_scope.
(** The settings of one side: the text of the file name, the pseudo root, and the rendered tags in order,
    each with its attributes. *)
Record side := { s_name : option string; s_root : option string; s_elems : list (string * list (string * string)) }.
(** The settings of a document and its alignment section. *)
Record settings := { v_from : side; v_to : side; v_align : option elem }.
Inductive which := From | To.
Definition side_of (d : settings) (s : which) : side := match s with From => v_from d | To => v_to d end.
Definition change (d : settings) (s : which) (f : side -> side) : settings :=
  match s with
  | From => {| v_from := f (v_from d); v_to := v_to d; v_align := v_align d |}
  | To => {| v_from := v_from d; v_to := f (v_to d); v_align := v_align d |}
  end.
(** The one child with tag t. *)
Definition only (t : string) (e k : elem) : Prop := filter (fun x => String.eqb (tag x) t) (kids e) = [k].
(** A document of the expected structure shows these settings. *)
Definition shows_side (root : elem) (name : string) (v : side) : Prop :=
  exists s fn rd el, only name root s /\ only "filename" s fn /\ only "render" s rd /\ only "elements" rd el /\
    s_name v = text fn /\ s_root v = attr el "pseudo_root" /\ s_elems v = map (fun k => (tag k, attrib k)) (kids el).
Definition shows (root : elem) (d : settings) : Prop :=
  shows_side root "from" (v_from d) /\ shows_side root "to" (v_to d) /\
  v_align d = match filter (fun x => String.eqb (tag x) "alignment") (kids root) with k :: _ => Some k | [] => None end.
(** The attributes of a newly added tag. *)
Definition fresh : list (string * string) := [("ignore", "False"); ("skip", "False"); ("newline", "False"); ("blankline", "False")].
(** What the operations are to do. *)
Definition with_name (n : string) (v : side) : side := {| s_name := Some n; s_root := s_root v; s_elems := s_elems v |}.
Definition with_root (t : string) (v : side) : side := {| s_name := s_name v; s_root := Some t; s_elems := s_elems v |}.
Definition with_elems (l : list (string * list (string * string))) (v : side) : side := {| s_name := s_name v; s_root := s_root v; s_elems := l |}.
(** The value of an attribute. *)
Definition value (a : list (string * string)) (k : string) : option string := dget String.eqb a k.
(** How often a tag occurs in a list of tags; the different tags in the order of first occurrence. *)
Fixpoint occurrences (t : string) (l : list string) : nat :=
  match l with [] => 0 | x :: l' => (if String.eqb x t then 1 else 0) + occurrences t l' end.
Fixpoint first_occurrences (l : list string) : list string :=
  match l with [] => [] | x :: l' => x :: filter (fun y => negb (String.eqb y x)) (first_occurrences l') end.
(** The tags of a document in document order. *)
Fixpoint all_tags (e : elem) : list string := match e with Elem t _ _ k => t :: flat_map all_tags k end.

(** The operations, and what they are to do to the settings; None: there is no such tag to change. *)
Inductive op :=
| SetFilename (s : which) (fn : string) | SetPseudoRoot (s : which) (t : string) | AddElem (s : which) (t : string)
| SetElem (s : which) (t k v : string) | InitElems (s : which) (tree : elem).
(** attribute k of the first entry for tag t becomes v *)
Inductive set_first (t k v : string) : list (string * list (string * string)) -> list (string * list (string * string)) -> Prop :=
| set_first_here a l : set_first t k v ((t, a) :: l) ((t, dset String.eqb a k v) :: l)
| set_first_later x l l' : fst x <> t -> set_first t k v l l' -> set_first t k v (x :: l) (x :: l').
(** one entry for each different tag, in the order of first occurrence; uniq says whether it occurs once *)
Definition overview (tags : list string) : list (string * list (string * string)) :=
  map (fun t => (t, fresh ++ [("uniq", if Nat.eqb (occurrences t tags) 1 then "True" else "False")])) (first_occurrences tags).
Inductive meant (d : settings) : op -> settings -> Prop :=
| meant_filename s fn : meant d (SetFilename s fn) (change d s (with_name fn))
| meant_root s t : meant d (SetPseudoRoot s t) (change d s (with_root t))
| meant_add s t : meant d (AddElem s t) (change d s (fun v => with_elems (s_elems v ++ [(t, fresh)]) v))
| meant_set s t k x l : set_first t k x (s_elems (side_of d s)) l -> meant d (SetElem s t k x) (change d s (with_elems l))
| meant_init s tree : meant d (InitElems s tree)
    (change d s (fun v => with_root (tag tree) (with_elems (s_elems v ++ overview (all_tags tree)) v))).
Inductive history : settings -> list op -> settings -> Prop :=
| history_nil d : history d [] d
| history_cons d o d1 os d2 : meant d o d1 -> history d1 os d2 -> history d (o :: os) d2.
(** The settings of a new document. *)
Definition no_side : side := {| s_name := None; s_root := None; s_elems := [] |}.
Definition no_settings (align : elem) : settings := {| v_from := no_side; v_to := no_side; v_align := Some align |}.
(** What is left of a document when the settings are blanked out: everything the operations must not touch. *)
Definition at_tag (t : string) (f : elem -> elem) (e : elem) : elem :=
  Elem (tag e) (attrib e) (text e) (map (fun k => if String.eqb (tag k) t then f k else k) (kids e)).
Definition no_text (e : elem) : elem := Elem (tag e) (attrib e) None (kids e).
Definition no_tags (e : elem) : elem := Elem (tag e) (filter (fun a => negb (String.eqb (fst a) "pseudo_root")) (attrib e)) (text e) [].
Definition blank_side (e : elem) : elem := at_tag "render" (at_tag "elements" no_tags) (at_tag "filename" no_text e).
Definition outline (root : elem) : elem := at_tag "to" blank_side (at_tag "from" blank_side root).
(** What is kept when a document is written and read again: an empty file name is not. *)
Definition read_back (v : side) : side :=
  {| s_name := match s_name v with Some "" => None | x => x end; s_root := s_root v; s_elems := s_elems v |}.
(** White space, and a text without the white space around it. *)
Definition white (c : ascii) : Prop := c = " "%char \/ 9 <= nat_of_ascii c <= 13.
Inductive blank : string -> Prop :=
| blank_nil : blank ""
| blank_cons c s : white c -> blank s -> blank (String c s).
Definition trimmed (s t : string) : Prop :=
  exists w1 w2, s = (w1 ++ t ++ w2)%string /\ blank w1 /\ blank w2 /\
    (forall c r, t = String c r -> ~ white c) /\ (forall c r, t = (r ++ String c "")%string -> ~ white c).
(** A text without slashes. *)
Definition slashless (s : string) : Prop := forall a b, s <> (a ++ "/" ++ b)%string.
(** The directory of a path: none, the root, or what is before the last slash. *)
Inductive directory : string -> string -> Prop :=
| directory_none p : slashless p -> directory p ""
| directory_root b : slashless b -> directory ("/" ++ b)%string "/"
| directory_some d b : d <> "" -> (forall r, d <> (r ++ "/")%string) -> slashless b -> directory (d ++ "/" ++ b)%string d.
(** The path of n in the directory of p. *)
Inductive beside (p n : string) : string -> Prop :=
| beside_absolute r : n = ("/" ++ r)%string -> beside p n n
| beside_none : (forall r, n <> ("/" ++ r)%string) -> directory p "" -> beside p n n
| beside_root : (forall r, n <> ("/" ++ r)%string) -> directory p "/" -> beside p n ("/" ++ n)
| beside_some d : (forall r, n <> ("/" ++ r)%string) -> directory p d -> d <> "" -> d <> "/" -> beside p n (d ++ "/" ++ n).
(** The first of the candidates that exists, otherwise the default. *)
Inductive first_existing (ex : string -> bool) (default : string) : list string -> string -> Prop :=
| first_none : first_existing ex default [] default
| first_here x l : ex x = true -> first_existing ex default (x :: l) x
| first_later x l y : ex x = false -> first_existing ex default l y -> first_existing ex default (x :: l) y.
(** A side with a file name that is not just white space. *)
Definition named (v : side) : Prop := exists x t, s_name v = Some x /\ trimmed x t /\ t <> "".
(** The document that a new document starts from (document.py 42-60), and its halves. *)
Definition bare (t : string) : elem := Elem t [] None [].
Definition empty_half (t : string) : elem := Elem t [] None [bare "filename"; Elem "render" [] None [bare "font"; bare "elements"]].
Definition empty_document : elem := Elem "hitaext" [] None [empty_half "from"; empty_half "to"; bare "alignment"].
(** The side an operation is about. *)
Definition about (o : op) : which :=
  match o with SetFilename s _ | SetPseudoRoot s _ | AddElem s _ | SetElem s _ _ _ | InitElems s _ => s end.
(** A document without that side. *)
Definition lacks (doc : elem) (s : which) : Prop := ~ In (match s with From => "from" | To => "to" end) (map tag (kids doc)).
