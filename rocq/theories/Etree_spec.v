(** What equality and pretty printing of XML elements mean (lib/daeso/utils/etree.py). *)
From Coq Require Import String.
From Verif Require Import Py.
Open Scope nat_scope.

(** Texts are sequences of code points.  An element has a tag, a text before the first child, a
    tail after the end tag, attributes and children. *)
Definition text := list N.
Inductive node : Type :=
| Node (tag : string) (txt tail : option text) (attrib : list (string * text)) (children : list node).
Definition tag e := match e with Node t _ _ _ _ => t end.
Definition txt e := match e with Node _ t _ _ _ => t end.
Definition tail e := match e with Node _ _ t _ _ => t end.
Definition attrib e := match e with Node _ _ _ a _ => a end.
Definition children e := match e with Node _ _ _ _ c => c end.

(** White space is narrower in plain (byte) strings, which the XML library uses for ASCII texts. *)
Definition is_ascii (t : text) : Prop := Forall (fun c => (c < 128)%N) t.
Definition byte_white (c : N) : Prop := (9 <= c <= 13 \/ c = 32)%N.
Definition white (c : N) : Prop :=
  (byte_white c \/ 28 <= c <= 31 \/ c = 133 \/ c = 160 \/ c = 5760 \/ c = 6158 \/ 8192 <= c <= 8202 \/
  c = 8232 \/ c = 8233 \/ c = 8239 \/ c = 8287 \/ c = 12288)%N.
Definition white_in (t : text) (c : N) : Prop := (is_ascii t -> byte_white c) /\ (~ is_ascii t -> white c).
(** [s] is [t] without white space at its ends. *)
Definition trimmed (t s : text) : Prop :=
  exists l r, t = l ++ s ++ r /\ Forall (white_in t) l /\ Forall (white_in t) r /\
    (forall c s', s = c :: s' -> ~ white_in t c) /\ (forall c s', s = s' ++ [c] -> ~ white_in t c).
(** A missing text, and one with only white space. *)
Definition blank (o : option text) : Prop := match o with None => True | Some t => Forall (white_in t) t end.
(** How a text prints: a missing one as "None". *)
Definition shown (o : option text) : text := match o with None => [78; 111; 110; 101]%N | Some t => t end.

(** Every attribute is given once. *)
Inductive well_formed : node -> Prop :=
| WF : forall tg tx tl at_ ch, NoDup (map fst at_) -> Forall well_formed ch -> well_formed (Node tg tx tl at_ ch).
(** All texts and tails are ASCII. *)
Inductive ascii_only : node -> Prop :=
| AO : forall tg tx tl at_ ch, is_ascii (shown tx) -> is_ascii (shown tl) -> Forall ascii_only ch ->
       ascii_only (Node tg tx tl at_ ch).

Definition same_text (a b : option text) : Prop := exists s, trimmed (shown a) s /\ trimmed (shown b) s.
(** Two elements are the same up to white space around texts. *)
Inductive same : node -> node -> Prop :=
| Same : forall a b, tag a = tag b -> same_text (txt a) (txt b) -> same_text (tail a) (tail b) ->
    (forall k v, In (k, v) (attrib a) <-> In (k, v) (attrib b)) -> Forall2 same (children a) (children b) -> same a b.

(** A line break followed by indentation for a depth. *)
Definition line (d : nat) : text := 10%N :: repeat 32%N (2 * d).
(** [e'] is [e], at depth [d], with blank texts replaced by proper line breaks; [t] is the tail that
    it gets if its tail is blank (none: the tail is kept). *)
Inductive pretty : nat -> option text -> node -> node -> Prop :=
| Pretty : forall d t e e', tag e' = tag e -> attrib e' = attrib e ->
    ((children e <> [] /\ blank (txt e) -> txt e' = Some (line (S d))) /\ (children e = [] \/ ~ blank (txt e) -> txt e' = txt e)) ->
    (forall s, t = Some s -> (blank (tail e) -> tail e' = Some s) /\ (~ blank (tail e) -> tail e' = tail e)) ->
    (t = None -> tail e' = tail e) ->
    length (children e') = length (children e) ->
    (forall k c, nth_error (children e) k = Some c -> exists c', nth_error (children e') k = Some c' /\
       pretty (S d) (Some (if S k =? length (children e) then line d else line (S d))) c c') ->
    pretty d t e e'.

(** Only white space differs. *)
Inductive only_layout : node -> node -> Prop :=
| Only : forall e e', tag e' = tag e -> attrib e' = attrib e ->
    (txt e' = txt e \/ blank (txt e) /\ blank (txt e')) -> (tail e' = tail e \/ blank (tail e) /\ blank (tail e')) ->
    Forall2 only_layout (children e) (children e') -> only_layout e e'.

(** Below the root no tail is missing, and no text of an element with children. *)
Inductive filled : bool -> node -> Prop :=
| Filled : forall root e, (root = false -> tail e <> None) -> (children e <> [] -> txt e <> None) ->
    Forall (filled false) (children e) -> filled root e.
