(** Model of pgc_diff (lib/daeso/pgc/diff.py 36-175).  Of the printed text the model keeps, per printed
    alignment, its number, section, nodes and the two relations; headers, comments, labels and token strings
    are left out. *)
From Verif Require Import Py Align_model Corpus_model Diff_spec.
Set Implicit Arguments.
Section Diff.
Variables N R G : Type.
Variable neqb : N -> N -> bool.
Variable reqb : R -> R -> bool.
Variable rtrue : R -> bool.             (* bool(relation): the empty string is false *)
Variable toint : N -> res Z.            (* int(node id): ValueError if it is no number *)
Variable geqb : G -> G -> bool.         (* equality of banks and graphs *)
Variables term_s term_t : G -> N -> bool.   (* node_is_terminal of the source and target graph *)
(** A graph pair: its banks and graphs, and its alignments. *)
Record gp := { gp_graphs : G; gp_align : digraph N R }.
Record item := { it_no : nat; it_sec : verdict; it_nodes : N * N; it_rel1 : option R; it_rel2 : option R }.
Notation edge := ((N * N) * R)%type.
Definition lists : Type := (list (N * N) * list (N * N) * list (N * N))%type.
(** [not rel] *)
Definition absent (r : option R) : bool := match r with Some r => negb (rtrue r) | None => true end.
(** diff.py 79-95: the first loop; [node_node_is_non_terminal] does not exist. *)
Fixpoint loop1 (words_only : bool) (g2 : digraph N R) (l : list edge) (acc : lists) : res lists :=
  match l with
  | [] => Ok acc
  | (n, rel1) :: l' =>
      if words_only then Err AttributeError
      else
        let '(ident, rel_diff, uniq1) := acc in
        let rel2 := get_align neqb g2 (fst n) (snd n) in
        loop1 words_only g2 l'
          (if absent rel2 then (ident, rel_diff, uniq1 ++ [n])
           else if match rel2 with Some r => reqb rel1 r | None => false end then (ident ++ [n], rel_diff, uniq1)
           else (ident, rel_diff ++ [n], uniq1))
  end.
(** diff.py 97-105: the second loop. *)
Fixpoint loop2 (words_only : bool) (g : G) (g1 : digraph N R) (l : list edge) (uniq2 : list (N * N)) : list (N * N) :=
  match l with
  | [] => uniq2
  | (n, _) :: l' =>
      if words_only && (term_s g (fst n) || term_t g (snd n)) then loop2 words_only g g1 l' uniq2
      else if absent (get_align neqb g1 (fst n) (snd n)) then loop2 words_only g g1 l' (uniq2 ++ [n])
      else loop2 words_only g g1 l' uniq2
  end.
(** diff.py 133-134: list.sort(cmp=cmp_nodes), a stable sort on int(source); nothing is compared in a list of one. *)
Definition zkey (n : N * N) : Z := match toint (fst n) with Ok z => z | Err _ => 0%Z end.
Definition sort_nodes (l : list (N * N)) : res (list (N * N)) :=
  match l with
  | [] | [_] => Ok l
  | _ => _ <- mapM (fun n => toint (fst n)) l ;; Ok (list_sort (fun a b => (zkey a <=? zkey b)%Z) l)
  end.
(** diff.py 137-165: print_alignments *)
Definition print_alignments (count : nat) (sec : verdict) (g1 g2 : digraph N R) (l : list (N * N)) : list item :=
  map (fun x => {| it_no := fst x; it_sec := sec; it_nodes := snd x;
                   it_rel1 := get_align neqb g1 (fst (snd x)) (snd (snd x)); it_rel2 := get_align neqb g2 (fst (snd x)) (snd (snd x)) |})
      (combine (seq (S count) (length l)) l).
(** diff.py 119-130: sort and print the sections one after the other *)
Fixpoint print_sections (g1 g2 : digraph N R) (count : nat) (out : list item) (secs : list (verdict * list (N * N))) : nat * list item * option exc :=
  match secs with
  | [] => (count, out, None)
  | (v, l) :: secs' =>
      match sort_nodes l with
      | Err e => (count, out, Some e)
      | Ok l' => print_sections g1 g2 (count + length l') (out ++ print_alignments count v g1 g2 l') secs'
      end
  end.
(** diff.py 62-130: the loop over the graph pairs *)
Fixpoint diff_pairs (words_only show_ident : bool) (relations : list R) (count : nat) (out : list item) (l : list (gp * gp)) : list item * option exc :=
  match l with
  | [] => (out, None)
  | (p1, p2) :: l' =>
      if geqb (gp_graphs p1) (gp_graphs p2) then
        match loop1 words_only (gp_align p2) (alignments reqb (gp_align p1) relations) ([], [], []) with
        | Err e => (out, Some e)
        | Ok (ident, rel_diff, uniq1) =>
            let uniq2 := loop2 words_only (gp_graphs p1) (gp_align p1) (alignments reqb (gp_align p2) relations) [] in
            match print_sections (gp_align p1) (gp_align p2) count out
                    ((if show_ident then [(Identical, ident)] else []) ++ [(Different, rel_diff); (Only1, uniq1); (Only2, uniq2)]) with
            | (_, out', Some e) => (out', Some e)
            | (count', out', None) => diff_pairs words_only show_ident relations count' out' l'
            end
        end
      else (out, Some AssertionError)
  end.
(** diff.py 36-61.  What is printed, and the exception if one is raised. *)
Definition pgc_diff (words_only show_ident : bool) (relations : list R) (corpus1_relations : list R) (c1 c2 : list gp) : list item * option exc :=
  if length c1 =? length c2 then
    diff_pairs words_only show_ident (match relations with [] => corpus1_relations | _ => relations end) 0 [] (combine c1 c2)
  else ([], Some AssertionError).
End Diff.
