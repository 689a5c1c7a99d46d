(** Model of the alignment methods of HitaextDoc (lib/daeso/ptc/document.py 213-349).  The two
    document trees have been parsed separately and update()d (Ielem_model), so the "_alignments"
    attribute is always present.  Numbers are kept as integers: str() followed by int() is not
    modelled, except that an unreadable number is None. *)
From Coq Require Import String.
From Verif Require Import Py Ielem_spec Ielem_model Hdoc_spec.
Set Implicit Arguments.

Section Doc.
Variable char : Type.
Notation elem := (elem char).
Notation index := (index char).

(** A tree on which update() has just been called (ielemtree.py 51-65), with any settings. *)
Definition updated (space : char -> bool) (nl : char) (root : elem) (x : index) : Prop :=
  exists r old doc, update space nl r root old = (x, doc).

(** [l[i]] for any integer. *)
Definition zget {A} (l : list A) (i : Z) : res A :=
  if (0 <=? i)%Z then get l (Z.to_nat i)
  else if (- Z.of_nat (length l) <=? i)%Z then get l (Z.to_nat (Z.of_nat (length l) + i)) else Err IndexError.

(** [e.get("_alignments").append(other)] *)
Definition append_alignment (x : index) (e other : elem) : index :=
  let a := st x (uid e) in
  {| counts := counts x; ids := ids x;
     st := upd (st x) (uid e) {| a_n := a_n a; a_start := a_start a; a_end := a_end a; a_ignore := a_ignore a;
                                 a_aligns := a_aligns a ++ [other] |} |}.

(** int() of an attribute value. *)
Definition int_of (o : option Z) : res Z := match o with Some z => Ok z | None => Err ValueError end.

(** document.py 262-282: inject_alignments_n; the pair of trees is the state. *)
Definition inject_n_step (t : index * index) (l : link (option Z)) : res (index * index) :=
  from_n <- int_of (l_from l) ;;
  fl <- dread String.eqb (counts (fst t)) (l_from_tag l) ;;
  from_elem <- zget fl (from_n - 1) ;;
  to_n <- int_of (l_to l) ;;
  tl <- dread String.eqb (counts (snd t)) (l_to_tag l) ;;
  to_elem <- zget tl (to_n - 1) ;;
  Ok (append_alignment (fst t) from_elem to_elem, append_alignment (snd t) to_elem from_elem).
Definition inject_n (links : list (link (option Z))) (fx tx : index) : res (index * index) :=
  foldM inject_n_step (fx, tx) links.

(** document.py 285-303: inject_alignments_id. *)
Definition inject_id_step (t : index * index) (l : link (option string)) : res (index * index) :=
  fd <- dread String.eqb (ids (fst t)) (l_from_tag l) ;;
  from_elem <- dread id_eqb fd (l_from l) ;;
  td <- dread String.eqb (ids (snd t)) (l_to_tag l) ;;
  to_elem <- dread id_eqb td (l_to l) ;;
  Ok (append_alignment (fst t) from_elem to_elem, append_alignment (snd t) to_elem from_elem).
Definition inject_id (links : list (link (option string))) (fx tx : index) : res (index * index) :=
  foldM inject_id_step (fx, tx) links.

(** str(elem.get("_n")) *)
Definition n_of (x : index) (e : elem) : option Z := option_map Z.of_nat (a_n (st x (uid e))).
(** document.py 322-334: extract_alignments_n; getiterator() is document order.  The old links are
    dropped first. *)
Definition extract_n (from_root : elem) (fx tx : index) (old : list (link (option Z))) : list (link (option Z)) :=
  flat_map (fun f => map (fun t => {| l_from_tag := tag f; l_from := n_of fx f; l_to_tag := tag t; l_to := n_of tx t |})
                         (a_aligns (st fx (uid f)))) (doc_order from_root).
(** document.py 337-349: extract_alignments_id. *)
Definition extract_id (from_root : elem) (fx tx : index) (old : list (link (option string))) : list (link (option string)) :=
  flat_map (fun f => map (fun t => {| l_from_tag := tag f; l_from := id_of f; l_to_tag := tag t; l_to := id_of t |})
                         (a_aligns (st fx (uid f)))) (doc_order from_root).
End Doc.
