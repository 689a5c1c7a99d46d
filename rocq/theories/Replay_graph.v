(** Conformance: the expected results of the tests of graphs, graph pairs and corpora (/repo/test/graph, /repo/test/pgc, /repo/test/bin) and of the
    doctests of /repo/lib/daeso/thirdparty/counter.py, recomputed with the model.  These are tests of the model, not theorems about it; each comment
    names the test. *)
From Coq Require Import String Ascii NArith.
From Verif Require Import Py.
From Verif Require Align_model Graph_model Ograph_model Tokens_model Tokens_spec Split_model Counter_model Corpus_model Corpus_spec Purge_spec Purge_model Equal_model Equal_spec Etree_spec.
Open Scope string_scope.
Open Scope nat_scope.
Open Scope list_scope.
Definition ok_or {X} (d : X) (r : res X) : X := match r with Ok x => x | Err _ => d end.

Section Pairs_.
Import Align_model.
Definition g0 := empty_digraph string string.
Definition has_node (g : digraph string string) (n : string) : bool := mem String.eqb n (nodes g).
Definition aligned (g : digraph string string) (s t : string) : bool := match get_align String.eqb g s t with Some _ => true | None => false end.
(** test_graphpair.py: Test_GraphMapping.test_align_2 *)
Example test_align_2 : let g2 := run_mapping String.eqb g0 [Add "1" "1" "equals"; Add "1" "2" "equals"] in
  get_align String.eqb g2 "1" "1" = Some "equals" /\
  let g3 := run_mapping String.eqb g2 [Del string "1" "1"] in
  aligned g3 "1" "1" = false /\ aligned g3 "1" "2" = true /\ has_node g3 "1" = true /\ has_node g3 "2" = true /\
  let g4 := run_mapping String.eqb g3 [Del string "1" "2"] in aligned g4 "1" "2" = false /\ has_node g4 "1" = false /\ has_node g4 "2" = false.
Proof. vm_compute. auto 10. Qed.
(** test_graphpair.py: Test_GraphMatching.test_align (the first of that name, which the second hides) *)
Example test_align : let g1 := run_matching String.eqb g0 [Add "1" "2" "equals"] in aligned g1 "1" "2" = true /\
  let g2 := run_matching String.eqb g1 [Add "2" "3" "equals"] in aligned g2 "1" "2" = true /\ aligned g2 "2" "3" = true /\
  let g3 := run_matching String.eqb g2 [Add "1" "4" "equals"] in aligned g3 "1" "2" = false /\ aligned g3 "2" "3" = true /\ aligned g3 "1" "4" = true /\
  let g4 := run_matching String.eqb g3 [Del string "2" "3"] in aligned g4 "2" "3" = false /\ has_node g4 "2" = false /\ has_node g4 "3" = false /\
  nodes (run_matching String.eqb g4 [Del string "1" "4"]) = [].
Proof. vm_compute. auto 20. Qed.
Example test_align_same_names : aligned (run_matching String.eqb g0 [Add "1" "2" "equals"; Add "2" "1" "equals"; Del string "1" "2"]) "2" "1" = true.
Proof. vm_compute. reflexivity. Qed.
(** test_graphpair.py: Test_GraphMapping.test__eq__ *)
Example test_eq : let g1 := run_mapping String.eqb g0 [Add "n1" "n1" "r1"] in alignments_equal String.eqb String.eqb g1 g1 = true /\ alignments_equal String.eqb String.eqb g1 g0 = false.
Proof. vm_compute. auto. Qed.
End Pairs_.

Section Graphs.
Import Graph_model.
(** attributes: strings, or lists of tokens *)
Inductive val := Str (s : string) | Toks (l : list string) | Yes.
Notation G := (graph string string val).
Definition e0 : G := empty_graph string string val.
Notation add_node := (add_node String.eqb String.eqb "label" "tokens").
Notation add_edge := (add_edge String.eqb String.eqb "label").
Notation node_attr := (node_attr String.eqb String.eqb).
Notation edge_attr := (edge_attr String.eqb String.eqb).
Definition no_tokens (v : val) := match v with Toks [] => true | _ => false end.
Definition all_punct (v : val) := match v with Toks l => forallb (fun t => Tokens_model.is_in t Tokens_model.punctuation) l | _ => false end.
(** test_daesograph.py: test_add_node *)
Example test_add_node : (g <- add_node e0 "1" (Str "noun") (Toks []) None [] ;; node_attr g "1" "label") = Ok (Str "noun") /\
  (g <- add_node e0 "1" (Str "noun") (Toks []) None [] ;; g <- add_node g "1" (Str "noun") (Toks ["tree"]) None [] ;; node_attr g "1" "tokens") = Ok (Toks ["tree"]) /\
  (g <- add_node e0 "1" (Str "noun") (Toks ["tree"]) None [] ;; g <- add_node g "1" (Str "noun") (Toks ["tree"]) None [("extra", Yes)] ;; node_attr g "1" "extra") = Ok Yes.
Proof. vm_compute. auto. Qed.
(** test_add_edge *)
Example test_add_edge : add_edge e0 "1" "2" (Str "") None [] = Err ValueError /\
  (g <- add_node e0 "1" (Str "NP") (Toks []) None [] ;; g <- add_node g "2" (Str "noun") (Toks []) None [] ;; g <- add_edge g "1" "2" (Str "head") None [("extra", Yes)] ;;
   a <- edge_attr g "1" "2" "label" ;; b <- edge_attr g "1" "2" "extra" ;; Ok (a, b)) = Ok (Str "head", Yes).
Proof. vm_compute. auto. Qed.
(** test_add_edges_from *)
Example test_add_edges_from : snd (add_edges_from String.eqb String.eqb "label" e0 [("1", "2", [])] (Str "") None []) = Some ValueError /\
  (g <- add_node e0 "1" (Str "S") (Toks []) None [] ;; g <- add_node g "2" (Str "NP") (Toks []) None [] ;; g <- add_node g "3" (Str "noun") (Toks []) None [] ;;
   let r := add_edges_from String.eqb String.eqb "label" g [("1", "2", []); ("2", "3", [("label", Str "l2")])] (Str "l1") None [("extra", Yes)] in
   a <- edge_attr (fst r) "1" "2" "label" ;; b <- edge_attr (fst r) "1" "2" "extra" ;; c <- edge_attr (fst r) "2" "3" "label" ;; Ok (snd r, a, b, c)) = Ok (None, Str "l1", Yes, Str "l2").
Proof. vm_compute. auto. Qed.
(** test_node_is_empty, test_node_is_punct *)
Example test_node_is_empty : (g <- add_node e0 "1" (Str "noun") (Toks []) None [] ;; node_is_empty String.eqb String.eqb "tokens" no_tokens g "1") = Ok true /\
  (g <- add_node e0 "1" (Str "noun") (Toks []) None [] ;; g <- add_node g "1" (Str "noun") (Toks ["noun"]) None [] ;; node_is_empty String.eqb String.eqb "tokens" no_tokens g "1") = Ok false /\
  (g <- add_node e0 "1" (Str "noun") (Toks [","]) None [] ;; node_is_punct String.eqb String.eqb "tokens" no_tokens all_punct g "1") = Ok true /\
  (g <- add_node e0 "1" (Str "noun") (Toks [","]) None [] ;; g <- add_node g "1" (Str "noun") (Toks ["noun"]) None [] ;; node_is_punct String.eqb String.eqb "tokens" no_tokens all_punct g "1") = Ok false.
Proof. vm_compute. auto. Qed.
(** test_terminal_yield *)
Example test_terminal_yield : (g <- add_node e0 "1" (Str "NP") (Toks []) None [] ;; g <- add_node g "2" (Str "det") (Toks []) None [] ;; g <- add_node g "3" (Str "noun") (Toks []) None [] ;;
   g <- add_edge g "1" "2" (Str "det") None [] ;; g <- add_edge g "1" "3" (Str "head") None [] ;;
   terminal_yield String.eqb String.eqb "tokens" no_tokens all_punct (fun n => negb (String.eqb n "")) 100 g (Some "1") None true true) = Ok ["2"; "3"].
Proof. vm_compute. reflexivity. Qed.
(** test_node_token_string *)
Example test_node_token_string : Tokens_model.get_node_token_string String.eqb (Tokens_model.add_node String.eqb [] "1" (Some ["a"; "nice"; "tree"])) "1" = Some "a nice tree".
Proof. vm_compute. reflexivity. Qed.
(** test_ograph.py: test_order *)
Example test_order : (g <- foldM (fun g d => Ograph_model.add_edge Nat.eqb Nat.eqb g 99 d []) (Ograph_model.empty_graph nat nat nat) (seq 0 10) ;; Ograph_model.successors Nat.eqb g 99) = Ok (seq 0 10).
Proof. vm_compute. reflexivity. Qed.
End Graphs.

(** test_pgc_scripts.py: test_2_pgc_split_default and test_3_pgc_split_options; the corpus in test/data/news has 77 graph pairs *)
Example test_pgc_split : option_map (@length _) (match Split_model.split (seq 0 77) [] [] 2 None with Ok l => Some l | Err _ => None end) = Some 2 /\
  option_map (@length _) (match Split_model.split (seq 0 77) [] [] 2 (Some 10%Z) with Ok l => Some l | Err _ => None end) = Some 8.
Proof. vm_compute. auto. Qed.

(** the doctests of Counter *)
Section Counters.
Import Counter_model.
Definition C (s : string) := counter_of Ascii.eqb (list_ascii_of_string s).
Definition keys (s : string) := list_ascii_of_string s.
Definition same (c : list (ascii * Z)) (l : list (ascii * Z)) : bool :=
  (length c =? length l)%nat && forallb (fun p => match dget Ascii.eqb c (fst p) with Some n => (n =? snd p)%Z | None => false end) l.
Open Scope char_scope.
Example doc_counter : same (C "zyzygy") [("y", 3%Z); ("z", 2%Z); ("g", 1%Z)] = true.
Proof. vm_compute. reflexivity. Qed.
(** counter.py 46-47; items() gives the items in some order, here one with which the ties come out as in the doctest *)
Example doc_most_common : most_common (C "arbacadabra") (Some 3) = [("a", 5%Z); ("r", 2%Z); ("b", 2%Z)].
Proof. vm_compute. reflexivity. Qed.
Example doc_elements : elements (C "ABCABC") = list_ascii_of_string "AABBCC".
Proof. vm_compute. reflexivity. Qed.
Example doc_update : cget Ascii.eqb (update_mapping Ascii.eqb (update_elems Ascii.eqb (C "which") (keys "witch")) (C "watch")) "h" = 4%Z.
Proof. vm_compute. reflexivity. Qed.
Example doc_algebra : same (c_add Ascii.eqb (keys "abc") (C "abbb") (C "bcc")) [("b", 4%Z); ("c", 2%Z); ("a", 1%Z)] = true /\
  same (c_sub Ascii.eqb (keys "abcd") (C "abbbc") (C "bccd")) [("b", 2%Z); ("a", 1%Z)] = true /\
  same (c_or Ascii.eqb (keys "abc") (C "abbb") (C "bcc")) [("b", 3%Z); ("c", 2%Z); ("a", 1%Z)] = true /\ same (c_and Ascii.eqb (C "abbb") (C "bcc")) [("b", 1%Z)] = true.
Proof. vm_compute. auto. Qed.
End Counters.

(** test_corpus.py; corpus-1.pgc and corpus-2.pgc have three graph pairs each and the same relations.  Corpus 0 is corpus-1.pgc and corpus 1 is
    corpus-2.pgc; after each operation of the test the contents of the corpora. *)
Section Corpora.
Import Corpus_spec Corpus_model.
Definition start : list (cop nat nat) := [CRels [0; 1]; CNew [1; 2; 3] (Some 0) (Some 0); CNew [4; 5; 6] (Some 0) (Some 1)].
Definition after (os : list (cop nat nat)) : list (list nat) * list (answer nat) :=
  let r := steps Nat.eqb Nat.leb Nat.eqb Nat.eqb (no_heap nat nat) (start ++ os) in (map (@items nat nat) (books (view (fst r))), skipn 3 (snd r)).
(** test__add__ *)
Example test_corpus_add : after [CAdd 0 1] = ([[1; 2; 3]; [4; 5; 6]; [1; 2; 3; 4; 5; 6]], [ACorpus 2]).
Proof. vm_compute. reflexivity. Qed.
(** test__delitem__, test__delslice__ *)
Example test_corpus_del : after [CDelItem 0 0%Z] = ([[2; 3]; [4; 5; 6]], [ANothing]) /\
  after [CDelSlice 0 None (Some 1%Z); CDelSlice 0 None None] = ([[]; [4; 5; 6]], [ANothing; ANothing]).
Proof. vm_compute. auto. Qed.
(** test__eq__ *)
Example test_corpus_eq : after [CEqual 0 0; CSlice 0 None None; CEqual 0 2] = ([[1; 2; 3]; [4; 5; 6]; [1; 2; 3]], [ABool true; ACorpus 2; ABool true]).
Proof. vm_compute. reflexivity. Qed.
(** test__iadd__ *)
Example test_corpus_iadd : map (@length nat) (fst (after [CIAdd 0 0; CIAdd 1 0])) = [6; 9].
Proof. vm_compute. reflexivity. Qed.
(** test__setitem__, test__setslice__ *)
Example test_corpus_set : after [CItem 0 (-1)%Z; CSetItem 0 0%Z 3] = ([[3; 2; 3]; [4; 5; 6]], [APair 3; ANothing]) /\
  after [CSlice 1 None (Some 2%Z); CSetSlice 0 (Some (-1)%Z) None 2] = ([[1; 2; 4; 5]; [4; 5; 6]; [4; 5]], [ACorpus 2; ANothing]).
Proof. vm_compute. auto. Qed.
(** test_append, test_clear, test_extend *)
Example test_corpus_append : after [CItem 1 2%Z; CAppend 0 6] = ([[1; 2; 3; 6]; [4; 5; 6]], [APair 6; ANothing]) /\
  after [CClear 0] = ([[]; [4; 5; 6]], [ANothing]) /\ after [CExtend 0 [4; 5; 6]] = ([[1; 2; 3; 4; 5; 6]; [4; 5; 6]], [ANothing]).
Proof. vm_compute. auto. Qed.
End Corpora.
(** test_purge: the number of banks in use before and after; every reading of a file makes its own bank objects, numbered 0 1, 2 3, ... *)
Section Purges.
Import Purge_spec Purge_model.
Definition distinct (l : list nat) : nat := length (nodup Nat.eq_dec l).
Definition purged_files (path : nat -> string) (h : nat -> nat * nat) (ps : list nat) : nat * nat * option exc :=
  let inode p := if String.eqb p "a" then Some 0 else if String.eqb p "b" then Some 1 else if String.eqb p "c" then Some 2 else Some 3 in
  let r := purge String.eqb path inode (fun l => l) (fun _ => 1) h ps None in (distinct (in_use h ps), distinct (in_use (fst r) ps), snd r).
Example test_purge : purged_files (fun b => if Nat.eqb b 0 then "a" else "b")%string (fun _ => (0, 1)) [1; 2; 3; 1; 2; 3] = (2, 2, None) /\
  purged_files (fun b => if Nat.eqb (b mod 2) 0 then "a" else "b")%string (fun p => if p <? 4 then (0, 1) else (2, 3)) [1; 2; 3; 4; 5; 6] = (4, 2, None) /\
  purged_files (fun b => match b with 0 => "a" | 1 => "b" | 2 => "c" | _ => "d" end)%string (fun p => if p <? 4 then (0, 1) else (2, 3)) [1; 2; 3; 4; 5; 6] = (4, 4, None) /\
  distinct (in_use (fun _ => (0, 1)) []) = 0.
Proof. vm_compute. auto. Qed.
End Purges.
(** test_annotator *)
Section Annotators.
Import Etree_spec Equal_spec Equal_model.
Definition letters (s : string) : text := map N_of_ascii (list_ascii_of_string s).
Definition c0 := [NewMeta (Node "corpus_meta_data" None None [] []); NewCorpus [] [] (Some 0)].
Definition annotator_after (os : list op) : option string :=
  match get_annotator (run no_heap (c0 ++ os)) 0 with Ok (Some t) => Some (string_of_list_ascii (map ascii_of_N t)) | _ => None end.
Example test_annotator : annotator_after [] = None /\ annotator_after [SetAnnotator 0 (letters "AA") true] = Some "AA"%string /\
  annotator_after [SetAnnotator 0 (letters "AA") true; SetAnnotator 0 (letters "BB") true] = Some "AA + BB"%string /\
  annotator_after [SetAnnotator 0 (letters "AA") true; SetAnnotator 0 (letters "BB") true; SetAnnotator 0 (letters "CC") false] = Some "CC"%string.
Proof. vm_compute. auto. Qed.
(** test__eq__ with copy.deepcopy *)
Definition two := c0 ++ [NewPair true "a" "b" "1" "2" None; Align 0 "1" "1" "equals"; Append 0 0; CopyCorpus 0].
Example test_deepcopy_eq : corpus_eq (fun _ => None) (run no_heap two) 0 1 = Ok true /\ map members (corpora (run no_heap two)) = [[0]; [1]] /\ length (gps (run no_heap two)) = 2.
Proof. vm_compute. auto. Qed.
End Annotators.
