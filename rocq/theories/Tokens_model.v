(** Model of the methods of DaesoGraph about the tokens of nodes (lib/daeso/graph/daesograph.py 67-78, 109-141) and
    of GraphMapping.dump_alignments (lib/daeso/pgc/graphpair.py 327-337).  Only the attribute "tokens" of the nodes is
    modelled; every node has its own dict of attributes (shared dicts are the subject of Graph_model).  Tokens
    are None or a list of strings. *)
From Coq Require Import String Ascii.
From Verif Require Import Py Tokens_spec.
Import ListNotations.
Set Implicit Arguments.
Open Scope string_scope.
Open Scope nat_scope.
Open Scope list_scope.

(** " ".join(ws) *)
Fixpoint join (ws : list string) : string :=
  match ws with [] => "" | [w] => w | w :: rest => (w ++ " " ++ join rest)%string end.
(** s.split(" "): at every single space *)
Fixpoint split (s : string) : list string :=
  match s with
  | EmptyString => [""]
  | String c s' =>
      if (c =? " ")%char then "" :: split s'
      else match split s' with w :: ws => String c w :: ws | [] => [String c ""] end
  end.
(** t in s *)
Fixpoint is_in (t s : string) : bool :=
  String.prefix t s || match s with EmptyString => false | String _ s' => is_in t s' end.
(** string.punctuation *)
Definition punctuation : string := "!""#$%&'()*+,-./:;<=>?@[\]^_`{|}~".
(** str.upper of a byte string *)
Definition up (c : ascii) : ascii := let n := nat_of_ascii c in if (97 <=? n) && (n <=? 122) then ascii_of_nat (n - 32) else c.
Fixpoint upper (s : string) : string := match s with EmptyString => "" | String c s' => String (up c) (upper s') end.

Section Tokens.
Variable N : Type.
Variable neqb : N -> N -> bool.
Definition graph := list (N * option (list string)).
(** daesograph.py 67-72: add_node, [tokens or []]; an old node is updated *)
Definition add_node (g : graph) (n : N) (tokens : option (list string)) : graph :=
  dset neqb g n (Some (match tokens with Some l => l | None => [] end)).
(** daesograph.py 75-78: add_nodes_from returns NotImplemented *)
Definition add_nodes_from (g : graph) (ns : list N) : graph := g.
(** daesograph.py 124-125 *)
Definition get_node_tokens (g : graph) (n : N) : res (option (list string)) := dread neqb g n.
(** daesograph.py 128-129 *)
Definition set_node_tokens (g : graph) (n : N) (tokens : option (list string)) : res graph :=
  _ <- dread neqb g n ;; Ok (dset neqb g n tokens).
(** daesograph.py 132-137: KeyError and TypeError are caught *)
Definition get_node_token_string (g : graph) (n : N) : option string :=
  match dread neqb g n with Ok (Some ts) => Some (join ts) | _ => None end.
(** daesograph.py 140-141 *)
Definition set_node_token_string (g : graph) (n : N) (s : string) : res graph :=
  _ <- dread neqb g n ;; Ok (dset neqb g n (Some (split s))).
(** daesograph.py 109-111 *)
Definition node_is_empty (g : graph) (n : N) : res bool :=
  ts <- dread neqb g n ;; Ok (match ts with Some (_ :: _) => false | _ => true end).
(** daesograph.py 114-121: None, here false, without tokens *)
Definition node_is_punct (g : graph) (n : N) : res bool :=
  ts <- dread neqb g n ;; Ok (match ts with Some (w :: ws) => forallb (fun t => is_in t punctuation) (w :: ws) | _ => false end).
(** One call; a call that raises changes nothing. *)
Definition step (g : graph) (c : call N) : graph :=
  match c with
  | Add n ts => add_node g n ts
  | Add_many ns => add_nodes_from g ns
  | Set_tokens n ts => match set_node_tokens g n ts with Ok g' => g' | Err _ => g end
  | Set_string n s => match set_node_token_string g n s with Ok g' => g' | Err _ => g end
  end.
Definition run (g : graph) (cs : list (call N)) : graph := fold_left step cs g.

(** graphpair.py 327-337: dump_alignments; what is printed, and the exception if any.  [show] is how format
    writes a node, [repr] the conversion !r of a token string or None; a relation that is None has no upper(). *)
Variable show : N -> string.
Variable repr : option string -> string.
Fixpoint dump_alignments (source target : graph) (l : list ((N * N) * option string)) : string * option exc :=
  match l with
  | [] => ((dashes 40 ++ nl)%string, None)
  | ((u, v), rel) :: l' =>
      match rel with
      | None => ("", Some AttributeError)
      | Some r =>
          let line := ("[" ++ show u ++ "] " ++ repr (get_node_token_string source u) ++ " <==" ++ upper r ++ "==> [" ++ show v ++ "] " ++
                       repr (get_node_token_string target v) ++ nl ++ nl)%string in
          let (out, x) := dump_alignments source target l' in ((line ++ out)%string, x)
      end
  end.
End Tokens.
