(** Model of lib/daeso/ptc/textalign.py: alignment flow, filters and weighted cosine.  The term
    extraction, weighting and similarity functions are parameters; the filter function is one, too,
    and the two filters of the module are modelled.  Parsing is not modelled: align_corpus starts
    from two parsed trees. *)
From Coq Require Import String Reals.
From Verif Require Import Py Ielem_spec Ielem_model Hdoc_spec Hdoc_model.
Set Implicit Arguments.
Open Scope nat_scope.

Section Filters.
Variables S X : Type.
Variable lt : S -> S -> bool.
(** elem.get("_n") of both elements of a pair *)
Variable ns : X -> nat * nat.
(** scores.sort(reverse=True); ties are ordered by object identity *)
Variable sort : list (S * X) -> list (S * X).

(** textalign.py 425-432: threshold_filter *)
Definition threshold_filter (threshold : S) (scores : list (S * X)) : list (S * X) :=
  filter (fun s => lt threshold (fst s)) scores.

(** textalign.py 451-456: the inner for loop; false if it ends without break. *)
Fixpoint crosses_any (source_n target_n : nat) (align_indices : list (nat * nat)) : bool :=
  match align_indices with
  | [] => false
  | (i, j) :: l =>
      if (i <? source_n) && (target_n <? j) then true
      else if (source_n <? i) && (j <? target_n) then true
      else crosses_any source_n target_n l
  end.
(** textalign.py 444-458 *)
Fixpoint no_cross_loop (threshold : S) (scores : list (S * X)) (align_indices : list (nat * nat))
  (filtered : list (S * X)) : list (S * X) :=
  match scores with
  | [] => filtered
  | (score, focus_elems) :: l =>
      if lt score threshold then filtered
      else
        let (source_n, target_n) := ns focus_elems in
        if crosses_any source_n target_n align_indices then no_cross_loop threshold l align_indices filtered
        else no_cross_loop threshold l (align_indices ++ [(source_n, target_n)]) (filtered ++ [(score, focus_elems)])
  end.
(** textalign.py 435-460 *)
Definition no_cross_filter (threshold : S) (scores : list (S * X)) : list (S * X) :=
  no_cross_loop threshold (sort scores) [] [].
End Filters.

(** textalign.py 291-295: clear_alignments *)
Definition clear_alignments (key : Type) (links : list (link key)) (focus_source focus_target : string) : list (link key) :=
  filter (fun l => negb (String.eqb (l_from_tag l) focus_source) && negb (String.eqb (l_to_tag l) focus_target)) links.

Section Align.
Variable char : Type.
Notation elem := (elem char).
Notation index := (index char).
Variable S : Type.
Variable space : char -> bool.
Variable nl : char.

(** [x in elems]: elements are compared by identity. *)
Definition in_elems (e : elem) (l : list elem) : bool := existsb (fun d => uid d =? uid e) l.

(** textalign.py 266-274: _create_alignments *)
Definition create_alignments (fx : index) (scores : list (S * (elem * elem))) : index :=
  fold_left (fun fx s => let '(source, target) := snd s in
     if in_elems target (a_aligns (st fx (uid source))) then fx else append_alignment fx source target) scores fx.

(** The parameters of a TextAligner. *)
Variables focus_source focus_target : string.
(** _extract_terms, _weight_terms and sim_func: the similarity of two of the focus elements *)
Variable sim_func : list elem -> list elem -> elem -> elem -> S.
(** a filter may read the "_n" attributes, which do not change *)
Variable filter_func : list (S * (elem * elem)) -> list (S * (elem * elem)).

(** findall(".//" + tag): proper descendants in document order *)
Definition findall (e : elem) (t : string) : list elem :=
  filter (fun d => String.eqb (tag d) t) (flat_map (@doc_order char) (children e)).
(** textalign.py 210-223: _determine_focus_elems, one side *)
Definition focus_elems (x : index) (scope : elem) (t : string) : list elem :=
  filter (fun e => negb (a_ignore (st x (uid e)))) (findall scope t).
(** textalign.py 246-259: _score_sim *)
Definition score_sim (sources targets : list elem) : list (S * (elem * elem)) :=
  flat_map (fun s => map (fun t => (sim_func sources targets s t, (s, t))) targets) sources.
(** textalign.py 197-207: _align_within_scope *)
Definition align_within_scope (fx tx : index) (source_scope target_scope : elem) : index :=
  let sources := focus_elems fx source_scope focus_source in
  let targets := focus_elems tx target_scope focus_target in
  match sources, targets with
  | _ :: _, _ :: _ => create_alignments fx (filter_func (score_sim sources targets))
  | _, _ => fx
  end.

(** source_root.set("_alignments", [target_root]) *)
Definition set_alignments (x : index) (e : elem) (l : list elem) : index :=
  let a := st x (uid e) in
  {| counts := counts x; ids := ids x;
     st := upd (st x) (uid e) {| a_n := a_n a; a_start := a_start a; a_end := a_end a; a_ignore := a_ignore a; a_aligns := l |} |}.

(** textalign.py 124-134.  The alignments of a scope element do not change while they are iterated
    over: alignments are only added to its proper descendants. *)
Definition align_scopes (fx tx : index) (from_root : elem) (scope_source scope_target : list string) : index :=
  fold_left (fun fx s =>
     if mem String.eqb (tag s) scope_source then
       fold_left (fun fx t => if mem String.eqb (tag t) scope_target then align_within_scope fx tx s t else fx)
                 (a_aligns (st fx (uid s))) fx
     else fx) (doc_order from_root) fx.

(** textalign.py 83-139 and 282-288: align_corpus for a corpus with method "n"; doc_trees is not
    given, so both trees are freshly read. *)
Definition align_corpus (links : list (link (option Z))) (from_root to_root : elem)
  (clear : bool) (ignore_source ignore_target : list string) (scope : option (list string * list string))
  : res (list (link (option Z))) :=
  let links := if clear then clear_alignments links focus_source focus_target else links in
  let fx := fst (update space nl {| ignore := ignore_source; newline := []; blankline := [] |} from_root (fun _ => no_attrs _)) in
  let tx := fst (update space nl {| ignore := ignore_target; newline := []; blankline := [] |} to_root (fun _ => no_attrs _)) in
  t <- inject_n links fx tx ;;
  let '(fx, tx) := t in
  let '(fx, scope_source, scope_target) :=
    match scope with
    | Some (s, t) => (fx, s, t)
    | None => (set_alignments fx from_root [to_root], [tag from_root], [tag to_root])
    end in
  let fx := align_scopes fx tx from_root scope_source scope_target in
  Ok (extract_n from_root fx tx links).
End Align.

(** textalign.py 405-415: weighted_cosine_sim over real numbers *)
Definition weighted_cosine_sim (source_weights target_weights : list R) : R :=
  let dot_prod := fold_left Rplus (map (fun p => fst p * snd p)%R (combine source_weights target_weights)) 0%R in
  let v1_len := fold_left Rplus (map (fun w => w ^ 2)%R source_weights) 0%R in
  let v2_len := fold_left Rplus (map (fun w => w ^ 2)%R target_weights) 0%R in
  if Req_EM_T (sqrt (v1_len * v2_len)) 0 then 0%R else (dot_prod / sqrt (v1_len * v2_len))%R.
