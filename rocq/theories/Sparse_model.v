(** Model of sparse graph loading: SparseGraphBank and GraphBank (lib/daeso/gb/graphbank.py 36-219), GraphStub
    (lib/daeso/gb/graphstub.py 31-100), the part of XmlGraphbankParser that looks for missing graphs
    (lib/daeso/gb/parser.py 69-97), and the use PGCParser makes of them (lib/daeso/pgc/corpus.py 832-842,
    861-931, 995-1003).  Stubs and graphs are objects with identity, named by numbers.  A bank refers to its
    stubs and graphs weakly: while the corpus holds the graph pairs none of them is collected.  The contents
    of the bank files are given; parsing them is modelled in Graphml_model. *)
From Coq Require Import String.
From Verif Require Import Py Sparse_spec.
Set Implicit Arguments.

(** A reference to a GraphStub or to a DaesoGraph. *)
Inductive ref := Stub (s : nat) | Graph (g : nat).
(** the [is] operator *)
Definition is_ (a b : ref) : bool :=
  match a, b with Stub s, Stub t => s =? t | Graph g, Graph h => g =? h | _, _ => false end.

Section Sparse.
Variable G : Type.
Variable file : nat -> option (list (string * G)).
(** Order in which the items of a dict and the banks are visited: any. *)
Variable items : list (string * ref) -> list (string * ref).
Variable bank_order : list nat -> list nat.

(** Banks with their _id2graph and _loaded, stubs with id and clients (None once deleted), graphs, and graph
    pairs with their two graphs. *)
Record heap := { n_banks : nat; bank : nat -> list (string * ref); loaded : nat -> bool;
                 n_stubs : nat; stub_id : nat -> string; clients : nat -> option (list nat);
                 graphs : list G; pairs : list (ref * ref) }.
Definition upd {A} (f : nat -> A) (k : nat) (a : A) : nat -> A := fun j => if j =? k then a else f j.
Definition set_bank (h : heap) b d := {| n_banks := n_banks h; bank := upd (bank h) b d; loaded := loaded h; n_stubs := n_stubs h; stub_id := stub_id h; clients := clients h; graphs := graphs h; pairs := pairs h |}.
Definition set_loaded (h : heap) b := {| n_banks := n_banks h; bank := bank h; loaded := upd (loaded h) b true; n_stubs := n_stubs h; stub_id := stub_id h; clients := clients h; graphs := graphs h; pairs := pairs h |}.
Definition set_clients (h : heap) s c := {| n_banks := n_banks h; bank := bank h; loaded := loaded h; n_stubs := n_stubs h; stub_id := stub_id h; clients := upd (clients h) s c; graphs := graphs h; pairs := pairs h |}.
Definition set_pairs (h : heap) ps := {| n_banks := n_banks h; bank := bank h; loaded := loaded h; n_stubs := n_stubs h; stub_id := stub_id h; clients := clients h; graphs := graphs h; pairs := ps |}.
Definition set_graphs (h : heap) gs := {| n_banks := n_banks h; bank := bank h; loaded := loaded h; n_stubs := n_stubs h; stub_id := stub_id h; clients := clients h; graphs := gs; pairs := pairs h |}.
(** graphstub.py 45-57 *)
Definition new_stub (h : heap) (id : string) := {| n_banks := n_banks h; bank := bank h; loaded := loaded h; n_stubs := S (n_stubs h);
  stub_id := upd (stub_id h) (n_stubs h) id; clients := upd (clients h) (n_stubs h) (Some []); graphs := graphs h; pairs := pairs h |}.
(** corpus.py 977-980: banks as created while the corpus is read *)
Definition empty (n : nat) : heap := {| n_banks := n; bank := fun _ => []; loaded := fun _ => false; n_stubs := 0; stub_id := fun _ => ""%string;
  clients := fun _ => None; graphs := []; pairs := [] |}.

(** graphbank.py 196-200: get_graph_stub.  setdefault always makes a stub; one that is not used is dropped. *)
Definition get_graph_stub (h : heap) (b : nat) (id : string) : res (heap * ref) :=
  if loaded h b then Err AssertionError
  else if String.eqb id "" then Err AssertionError
  else match dget String.eqb (bank h b) id with
       | Some r => Ok (h, r)
       | None => let s := n_stubs h in
                 Ok (set_bank (new_stub h id) b (dset String.eqb (bank h b) id (Stub s)), Stub s)
       end.
(** graphstub.py 60-68: add_client; stubs and pairs are true *)
Definition add_client (h : heap) (r : ref) (p : nat) : res heap :=
  match r with
  | Stub s => match clients h s with Some c => Ok (set_clients h s (Some (c ++ [p]))) | None => Err AttributeError end
  | Graph _ => Err AttributeError
  end.
(** corpus.py 861-931: a <graph_pair> element, unless all graphs are loaded *)
Definition graph_pair_elem (h : heap) (r : request) : res heap :=
  if (fst (fst r) <? n_banks h) && (fst (snd r) <? n_banks h) then
    p1 <- get_graph_stub h (fst (fst r)) (snd (fst r)) ;;
    p2 <- get_graph_stub (fst p1) (fst (snd r)) (snd (snd r)) ;;
    let h := fst p2 in
    let p := length (pairs h) in
    let h := set_pairs h (pairs h ++ [(snd p1, snd p2)]) in
    h <- add_client h (snd p1) p ;;
    add_client h (snd p2) p
  else Err DaesoError.
(** LOAD_NONE *)
Definition read_pairs (n : nat) (reqs : list request) : res heap := foldM graph_pair_elem (empty n) reqs.

(** parser.py 69-83 and graphml.py 109-116: the wanted graphs of a file become new objects *)
Definition parse_file (wanted : list string) (l : list (string * G)) (gs : list G) : list G * list (string * option nat) :=
  fold_left (fun acc x => if dhas String.eqb (snd acc) (fst x)
                          then (fst acc ++ [snd x], dset String.eqb (snd acc) (fst x) (Some (length (fst acc)))) else acc)
            l (gs, map (fun i => (i, None)) wanted).
(** graphstub.py 84-95: one client *)
Definition replace_in_client (s g : nat) (ps : list (ref * ref)) (p : nat) : res (list (ref * ref)) :=
  match nth_error ps p with
  | None => Err IndexError                       (* does not happen: clients are graph pairs *)
  | Some (source, target) =>
      if is_ source target then Err AssertionError
      else if is_ source (Stub s) then Ok (set_nth ps p (Graph g, target))
      else if is_ target (Stub s) then Ok (set_nth ps p (source, Graph g))
      else Err ValueError
  end.
(** graphstub.py 71-99: replace_stub *)
Definition replace_stub (h : heap) (r : ref) (g : nat) : res heap :=
  match r with
  | Graph _ => Err AttributeError
  | Stub s =>
      match clients h s with
      | None => Err AttributeError
      | Some [] => Err AssertionError
      | Some c => ps <- foldM (replace_in_client s g) (pairs h) c ;; Ok (set_clients (set_pairs h ps) s None)
      end
  end.
(** graphbank.py 211-216: the loop over the items of the bank *)
Definition load_item (b : nat) (full : list (string * option nat)) (h : heap) (x : string * ref) : res heap :=
  match dget String.eqb full (fst x) with
  | Some (Some g) => h <- replace_stub h (snd x) g ;; Ok (set_bank h b (dset String.eqb (bank h b) (fst x) (Graph g)))
  | _ => Err KeyError                            (* does not happen *)
  end.
(** graphbank.py 202-218 and parser.py 86-97; an IOError becomes a DaesoError in corpus.py 832-842 *)
Definition load_bank (h : heap) (b : nat) : res heap :=
  if loaded h b then Err AssertionError
  else match file b with
       | None => Err DaesoError
       | Some l =>
           let (gs, full) := parse_file (dkeys (bank h b)) l (graphs h) in
           if existsb (fun x => match snd x with None => true | Some _ => false end) full then Err DaesoError
           else h' <- foldM (load_item b full) (set_graphs h gs) (items (bank h b)) ;;
                Ok (set_loaded h' b)
       end.
(** corpus.py 832-842, 1000-1002: after the last graph pair, LOAD_SPARSE *)
Definition load_graphbanks (h : heap) : res heap := foldM load_bank h (bank_order (seq 0 (n_banks h))).
Definition load_sparse (n : nat) (reqs : list request) : res heap := h <- read_pairs n reqs ;; load_graphbanks h.

(** graphbank.py 137-143: get_graph of a (sparse) bank *)
Definition get_graph (h : heap) (b : nat) (id : string) : res ref := dread String.eqb (bank h b) id.

(** LOAD_ALL: graphbank.py 146-154 (all graphs become objects), then corpus.py 913-924 *)
Definition load_full_bank (h : heap) (b : nat) : res heap :=
  match file b with
  | None => Err DaesoError
  | Some l =>
      let acc := fold_left (fun acc x => (fst acc ++ [snd x], dset String.eqb (snd acc) (fst x) (Graph (length (fst acc))))) l (graphs h, []) in
      Ok (set_loaded (set_bank (set_graphs h (fst acc)) b (snd acc)) b)
  end.
Definition full_pair_elem (h : heap) (r : request) : res heap :=
  if (fst (fst r) <? n_banks h) && (fst (snd r) <? n_banks h) then
    match get_graph h (fst (fst r)) (snd (fst r)), get_graph h (fst (snd r)) (snd (snd r)) with
    | Ok s, Ok t => Ok (set_pairs h (pairs h ++ [(s, t)]))
    | _, _ => Err DaesoError
    end
  else Err DaesoError.
Definition load_all (n : nat) (reqs : list request) : res heap :=
  h <- foldM load_full_bank (empty n) (bank_order (seq 0 n)) ;; foldM full_pair_elem h reqs.

(** The graph a reference is bound to. *)
Definition graph_at (h : heap) (r : ref) : option G := match r with Graph g => nth_error (graphs h) g | Stub _ => None end.
(** The source (true) or target (false) graph of a pair. *)
Definition side_ref (h : heap) (p : nat * bool) : option ref :=
  option_map (fun x => if snd p then fst x else snd x) (nth_error (pairs h) (fst p)).
End Sparse.
