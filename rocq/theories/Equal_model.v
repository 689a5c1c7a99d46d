(** Model of the equality and copying of graph pairs and corpora (lib/daeso/pgc/graphpair.py 43-260, lib/daeso/pgc/corpus.py 132-136,
    161-173, 199-222, 436-447, 619-621, 653-683, lib/daeso/gb/graphbank.py 79-92, lib/daeso/pair.py).  Graph banks are compared by
    their paths only and graphs by their ids only, so they are represented by these; relations are kept by value (C27 is about the
    lists); the two classes of graph pairs are GraphMapping and its subclass GraphMatching (= GraphPair). *)
From Coq Require Import String.
From Verif Require Import Py Etree_spec Etree_model Align_model Corpus_spec Equal_spec.
Open Scope string_scope.
Open Scope list_scope.
Open Scope nat_scope.

Definition dg := digraph string string.
Record pair_obj := { matching : bool; banks : string * string; ids : string * string; pmeta : nat; graph : dg }.
Record corpus_obj := { members : list nat; rels : list string; cmeta : option nat }.
Record heap := { metas : list node; gps : list pair_obj; corpora : list corpus_obj }.
Definition no_heap : heap := {| metas := []; gps := []; corpora := [] |}.
Definition get_meta (h : heap) (m : nat) : res node := match nth_error (metas h) m with Some e => Ok e | None => Err NameError end.
Definition get_pair (h : heap) (p : nat) : res pair_obj := match nth_error (gps h) p with Some x => Ok x | None => Err NameError end.
Definition get_corpus (h : heap) (c : nat) : res corpus_obj := match nth_error (corpora h) c with Some x => Ok x | None => Err NameError end.
Definition push_meta (h : heap) (e : node) : heap * nat := ({| metas := metas h ++ [e]; gps := gps h; corpora := corpora h |}, length (metas h)).
Definition push_pair (h : heap) (x : pair_obj) : heap * nat := ({| metas := metas h; gps := gps h ++ [x]; corpora := corpora h |}, length (gps h)).
Definition push_corpus (h : heap) (x : corpus_obj) : heap := {| metas := metas h; gps := gps h; corpora := corpora h ++ [x] |}.
Definition put_meta (h : heap) (m : nat) (e : node) : heap := {| metas := set_nth (metas h) m e; gps := gps h; corpora := corpora h |}.
Definition put_pair (h : heap) (p : nat) (x : pair_obj) : heap := {| metas := metas h; gps := set_nth (gps h) p x; corpora := corpora h |}.
Definition put_corpus (h : heap) (c : nat) (x : corpus_obj) : heap := {| metas := metas h; gps := gps h; corpora := set_nth (corpora h) c x |}.

(** graphpair.py 79: meta_data or et.Element("graph_meta_data"); an element without children is false *)
Definition meta_or_new (h : heap) (m : option nat) : res (heap * nat) :=
  match m with
  | None => Ok (push_meta h (Node "graph_meta_data" None None [] []))
  | Some m => e <- get_meta h m ;; match children e with [] => Ok (push_meta h (Node "graph_meta_data" None None [] [])) | _ => Ok (h, m) end
  end.
(** graphpair.py 53-79, 197-211; networkx copies the data *)
Definition new_pair (h : heap) (mt : bool) (bs gs : string * string) (g : dg) (m : option nat) : res (heap * nat) :=
  r <- meta_or_new h m ;;
  Ok (push_pair (fst r) {| matching := mt; banks := bs; ids := gs; pmeta := snd r; graph := g |}).
(** corpus.py 132-136 *)
Definition new_corpus (h : heap) (ps : list nat) (rs : list string) (m : option nat) : heap :=
  push_corpus h {| members := ps; rels := isort String.leb rs; cmeta := m |}.
(** copy.deepcopy(element, memo): made once per memo *)
Record memo := { seen_metas : list (nat * nat); seen_pairs : list (nat * nat) }.
Definition copy_meta (h : heap) (k : memo) (m : nat) : res (heap * memo * nat) :=
  match dget Nat.eqb (seen_metas k) m with
  | Some n => Ok (h, k, n)
  | None => e <- get_meta h m ;;
            let (h', n) := push_meta h e in Ok (h', {| seen_metas := dset Nat.eqb (seen_metas k) m n; seen_pairs := seen_pairs k |}, n)
  end.
(** graphpair.py 244-257 and copy.deepcopy(graph_pair, memo) *)
Definition copy_pair (h : heap) (k : memo) (p : nat) : res (heap * memo * nat) :=
  match dget Nat.eqb (seen_pairs k) p with
  | Some q => Ok (h, k, q)
  | None =>
      x <- get_pair h p ;;
      r <- copy_meta h k (pmeta x) ;;
      let '(h1, k1, m) := r in
      s <- new_pair h1 (matching x) (banks x) (ids x) (graph x) (Some m) ;;
      Ok (fst s, {| seen_metas := seen_metas k1; seen_pairs := dset Nat.eqb (seen_pairs k1) p (snd s) |}, snd s)
  end.
Fixpoint copy_pairs (h : heap) (k : memo) (ps : list nat) : res (heap * memo * list nat) :=
  match ps with
  | [] => Ok (h, k, [])
  | p :: ps' => r <- copy_pair h k p ;; let '(h1, k1, q) := r in
                s <- copy_pairs h1 k1 ps' ;; let '(h2, k2, qs) := s in Ok (h2, k2, q :: qs)
  end.
Definition no_memo : memo := {| seen_metas := []; seen_pairs := [] |}.
(** corpus.py 161-173 *)
Definition copy_corpus (h : heap) (c : nat) : res heap :=
  x <- get_corpus h c ;;
  r <- copy_pairs h no_memo (members x) ;;
  let '(h1, k1, qs) := r in
  match cmeta x with
  | None => Ok (new_corpus h1 qs (rels x) None)
  | Some m => s <- copy_meta h1 k1 m ;; let '(h2, _, n) := s in Ok (new_corpus h2 qs (rels x) (Some n))
  end.

(** Element.find("annotator"): the first child with the tag; here split off *)
Fixpoint find_annotator (l : list node) : option (list node * node * list node) :=
  match l with
  | [] => None
  | c :: l' => if String.eqb (tag c) "annotator" then Some ([], c, l')
               else match find_annotator l' with Some (a, x, b) => Some (c :: a, x, b) | None => None end
  end.
(** corpus.py 653-657; the AttributeError of None is caught *)
Definition get_annotator (h : heap) (c : nat) : res (option text) :=
  x <- get_corpus h c ;;
  match cmeta x with
  | None => Ok None
  | Some m => e <- get_meta h m ;; Ok (match find_annotator (children e) with Some (_, a, _) => txt a | None => None end)
  end.
(** corpus.py 659-671 *)
Definition annotate (e : node) (a : text) (append : bool) : node :=
  match e with
  | Node tg tx tl at_ ch =>
      match find_annotator ch with
      | None => Node tg tx tl at_ (ch ++ [Node "annotator" (Some a) None [] []])
      | Some (pre, Node t1 x1 l1 a1 c1, post) =>
          let x' := match x1 with
                    | None | Some [] => a
                    | Some x => if negb append then a else x ++ ([32; 43; 32]%N ++ a)
                    end in
          Node tg tx tl at_ (pre ++ Node t1 (Some x') l1 a1 c1 :: post)
      end
  end.
Definition valid_pairs (h : heap) (ps : list nat) : bool := forallb (fun p => p <? length (gps h)) ps.
Definition valid_meta (h : heap) (m : option nat) : bool := match m with None => true | Some m => m <? length (metas h) end.
Definition step (h : heap) (o : op) : res heap :=
  match o with
  | NewMeta e => Ok (fst (push_meta h e))
  | NewPair mt b1 b2 g1 g2 m => r <- new_pair h mt (b1, b2) (g1, g2) (empty_digraph string string) m ;; Ok (fst r)
  | Align p s t r =>                                              (* 283-285, 371-398 *)
      x <- get_pair h p ;;
      g <- (if matching x then matching_op String.eqb (graph x) (Add s t r) else mapping_op String.eqb (graph x) (Add s t r)) ;;
      Ok (put_pair h p {| matching := matching x; banks := banks x; ids := ids x; pmeta := pmeta x; graph := g |})
  | Unalign p s t =>                                              (* 288-300 *)
      x <- get_pair h p ;;
      g <- del_align String.eqb (graph x) s t ;;
      Ok (put_pair h p {| matching := matching x; banks := banks x; ids := ids x; pmeta := pmeta x; graph := g |})
  | SetMeta p m =>                                                (* 147-149 *)
      x <- get_pair h p ;; e <- get_meta h m ;;
      if String.eqb (tag e) "graph_meta_data"
      then Ok (put_pair h p {| matching := matching x; banks := banks x; ids := ids x; pmeta := m; graph := graph x |}) else Err AssertionError
  | CopyPair p => r <- copy_pair h no_memo p ;; Ok (fst (fst r))  (* 244-257 *)
  | NewCorpus ps rs m => if valid_pairs h ps && valid_meta h m then Ok (new_corpus h ps rs m) else Err NameError
  | Slice c i j =>                                                (* 234-274 *)
      x <- get_corpus h c ;; Ok (new_corpus h (firstn (j - i) (skipn i (members x))) (rels x) (cmeta x))
  | Append c p =>                                                 (* 436-447 *)
      x <- get_corpus h c ;; y <- get_pair h p ;;
      if matching y then Ok (put_corpus h c {| members := members x ++ [p]; rels := rels x; cmeta := cmeta x |}) else Err TypeError
  | SetCorpusMeta c m =>                                          (* 619-621 *)
      x <- get_corpus h c ;; if valid_meta h m then Ok (put_corpus h c {| members := members x; rels := rels x; cmeta := m |}) else Err NameError
  | SetAnnotator c a ap =>                                        (* 659-671; None has no find *)
      x <- get_corpus h c ;;
      match cmeta x with
      | None => Err AttributeError
      | Some m => e <- get_meta h m ;; Ok (put_meta h m (annotate e a ap))
      end
  | CopyCorpus c => copy_corpus h c
  end.
(** a failing operation changes nothing *)
Definition keep_going (h : heap) (o : op) : heap := match step h o with Ok h' => h' | Err _ => h end.
Definition run (h : heap) (os : list op) : heap := fold_left keep_going os h.

Section Eq.
Variable inode : string -> option nat.
(** graphbank.py 79-92; samefile raises OSError if a file does not exist *)
Definition bank_eq (p q : string) : res bool :=
  if String.eqb p q then Ok true else match inode p, inode q with Some i, Some j => Ok (i =? j) | _, _ => Err OSError end.
(** pair.py 40-43 *)
Definition banks_eq (a b : string * string) : res bool := x <- bank_eq (fst a) (fst b) ;; if x : bool then bank_eq (snd a) (snd b) else Ok false.
(** graphpair.py 177-185 *)
Definition meta_eq (h : heap) (m n : nat) : res bool :=
  if m =? n then Ok true else x <- get_meta h m ;; y <- get_meta h n ;; equals x y.
(** graphpair.py 81-107, 214-241: None, the result for an object of another class, is false *)
Definition pair_eq (h : heap) (p q : nat) : res bool :=
  x <- get_pair h p ;; y <- get_pair h q ;;
  if negb (Bool.eqb (matching x) (matching y)) then Ok false
  else if p =? q then Ok true
  else
    b <- banks_eq (banks x) (banks y) ;;
    if negb b then Ok false
    else if negb (String.eqb (fst (ids x)) (fst (ids y)) && String.eqb (snd (ids x)) (snd (ids y))) then Ok false
    else
      b <- meta_eq h (pmeta x) (pmeta y) ;;
      if negb b then Ok false else Ok (alignments_equal String.eqb String.eqb (graph x) (graph y)).
(** list.__eq__: lengths first, then items, up to the first difference *)
Fixpoint items_eq (h : heap) (l m : list nat) : res bool :=
  match l, m with
  | p :: l', q :: m' => b <- (if p =? q then Ok true else pair_eq h p q) ;; if b : bool then items_eq h l' m' else Ok false
  | _, _ => Ok true
  end.
(** corpus.py 199-222, 675-683 *)
Definition corpus_eq (h : heap) (c d : nat) : res bool :=
  x <- get_corpus h c ;; y <- get_corpus h d ;;
  if c =? d then Ok true
  else if negb (if list_eq_dec string_dec (rels x) (rels y) then true else false) then Ok false
  else
    b <- (match cmeta x, cmeta y with None, None => Ok true | Some m, Some n => meta_eq h m n | _, _ => Err AttributeError end) ;;
    if negb b then Ok false
    else if negb (length (members x) =? length (members y)) then Ok false
    else items_eq h (members x) (members y).
End Eq.

(** What there is to see. *)
Definition see_pair (h : heap) (p : nat) : option pair_value :=
  match nth_error (gps h) p with
  | None => None
  | Some x => match nth_error (metas h) (pmeta x) with
              | None => None
              | Some e => Some {| one_to_one := matching x; source_bank := fst (banks x); target_bank := snd (banks x); source_id := fst (ids x); target_id := snd (ids x);
                                  about_pair := e; links := get_align String.eqb (graph x) |}
              end
  end.
Fixpoint see_pairs (h : heap) (ps : list nat) : option (list pair_value) :=
  match ps with
  | [] => Some []
  | p :: ps' => match see_pair h p, see_pairs h ps' with Some v, Some l => Some (v :: l) | _, _ => None end
  end.
Definition see_corpus (h : heap) (c : nat) : option corpus_value :=
  match nth_error (corpora h) c with
  | None => None
  | Some x =>
      match see_pairs h (members x) with
      | None => None
      | Some l => match cmeta x with
                  | None => Some {| relations := rels x; about := None; graph_pairs := l |}
                  | Some m => match nth_error (metas h) m with Some e => Some {| relations := rels x; about := Some e; graph_pairs := l |} | None => None end
                  end
      end
  end.

(** The objects there are, and those made between two moments. *)
Definition exists_in (h : heap) (o : object) : Prop := match o with Meta m => m < length (metas h) | GP p => p < length (gps h) | Corpus c => c < length (corpora h) end.
Definition made (h h' : heap) (o : object) : Prop := exists_in h' o /\ ~ exists_in h o.
(** get_meta_data: the object (graphpair.py 151-152, corpus.py 484-485). *)
Definition pair_meta (h : heap) (p : nat) : option nat := option_map pmeta (nth_error (gps h) p).
Definition corpus_meta (h : heap) (c : nat) : option nat := match nth_error (corpora h) c with Some x => cmeta x | None => None end.
