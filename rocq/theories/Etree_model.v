(** Model of lib/daeso/utils/etree.py: equals and indent.  ElementTree keeps an ASCII text as a
    (byte) str and any other as unicode; str() of the latter raises UnicodeEncodeError, which is a
    ValueError.  Reading and writing of files is not modelled.  indent mutates the tree; the model
    returns the changed tree. *)
From Coq Require Import String.
From Verif Require Import Py Etree_spec.
Open Scope nat_scope.

Definition asciib (t : text) : bool := forallb (fun c => (c <? 128)%N) t.
(** str.isspace / unicode.isspace of one character (Python 2.7) *)
Definition byte_space (c : N) : bool := ((9 <=? c) && (c <=? 13) || (c =? 32))%N.
Definition uni_space (c : N) : bool :=
  (byte_space c || (28 <=? c) && (c <=? 31) || existsb (N.eqb c) [133; 160; 5760; 6158; 8232; 8233; 8239; 8287; 12288] ||
  (8192 <=? c) && (c <=? 8202))%N.
Definition space_of (t : text) (c : N) : bool := if asciib t then byte_space c else uni_space c.
(** [t.strip()] *)
Fixpoint drop_while (p : N -> bool) (l : text) : text :=
  match l with [] => [] | c :: l' => if p c then drop_while p l' else l end.
Definition strip (t : text) : text := rev (drop_while (space_of t) (rev (drop_while (space_of t) t))).
(** [str(o)] *)
Definition str_of (o : option text) : res text :=
  match o with
  | None => Ok [78; 111; 110; 101]%N
  | Some t => if asciib t then Ok t else Err ValueError
  end.
Definition text_eqb (a b : text) : bool := if list_eq_dec N.eq_dec a b then true else false.
(** dict.__eq__ *)
Definition dict_eqb (a b : list (string * text)) : bool :=
  (length a =? length b) &&
  forallb (fun kv => match dget String.eqb b (fst kv) with Some v => text_eqb (snd kv) v | None => false end) a.
(** [x and y], where y may raise *)
Definition and_then (b : bool) (r : res bool) : res bool := if b then r else Ok false.

(** etree.py 45-58: equals.  The list given to all() is built completely. *)
Fixpoint equals (e1 e2 : node) : res bool :=
  match e1, e2 with
  | Node tg1 tx1 tl1 at1 ch1, Node tg2 tx2 tl2 at2 ch2 =>
      and_then (String.eqb tg1 tg2) (
      s1 <- str_of tx1 ;; s2 <- str_of tx2 ;;
      and_then (text_eqb (strip s1) (strip s2)) (
      s1 <- str_of tl1 ;; s2 <- str_of tl2 ;;
      and_then (text_eqb (strip s1) (strip s2)) (
      and_then (dict_eqb at1 at2) (
      and_then (length ch1 =? length ch2) (
      bs <- (fix go (l1 l2 : list node) : res (list bool) :=
               match l1, l2 with
               | c1 :: l1', c2 :: l2' => b <- equals c1 c2 ;; bs <- go l1' l2' ;; Ok (b :: bs)
               | _, _ => Ok []
               end) ch1 ch2 ;;
      Ok (forallb (fun b => b) bs))))))
  end.

(** [not t or not t.strip()] *)
Definition blankb (o : option text) : bool :=
  match o with None => true | Some [] => true | Some t => match strip t with [] => true | _ => false end end.
(** [e.tail = i] if e's tail is blank; on the last child *)
Definition fix_tail (i : text) (e : node) : node :=
  match e with Node tg tx tl at_ ch => Node tg tx (if blankb tl then Some i else tl) at_ ch end.
Fixpoint fix_last (i : text) (l : list node) : list node :=
  match l with [] => [] | [e] => [fix_tail i e] | e :: l' => e :: fix_last i l' end.
(** etree.py 61-78: indent *)
Fixpoint indent (e : node) (level : nat) : node :=
  match e with
  | Node tg tx tl at_ ch =>
      let i := 10%N :: concat (repeat [32; 32]%N level) in
      let tx' := match ch with [] => tx | _ => if blankb tx then Some (i ++ [32; 32]%N) else tx end in
      let ch' := fix_last i (map (fun c => indent c (S level)) ch) in
      let tl' := if negb (level =? 0) && blankb tl then Some i else tl in
      Node tg tx' tl' at_ ch'
  end.
