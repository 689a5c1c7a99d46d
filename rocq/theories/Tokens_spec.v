(** Vocabulary for the tokens of nodes. *)
From Coq Require Import String Ascii List.
Import ListNotations.
Set Implicit Arguments.
Open Scope string_scope.
Open Scope nat_scope.
Open Scope list_scope.
(** Words with single spaces between them. *)
Inductive spaced : list string -> string -> Prop :=
| spaced_none : spaced [] ""
| spaced_one w : spaced [w] w
| spaced_more w v ws s : spaced (v :: ws) s -> spaced (w :: v :: ws) (w ++ " " ++ s)%string.
Definition no_space (w : string) : Prop := forall a b, w <> (a ++ " " ++ b)%string.
(** A text occurs in another one. *)
Definition occurs (t s : string) : Prop := exists a b, s = (a ++ t ++ b)%string.
Definition punctuation_marks : string := "!""#$%&'()*+,-./:;<=>?@[\]^_`{|}~".

(** The calls that change tokens. *)
Inductive call (N : Type) :=
| Add (n : N) (tokens : option (list string))       (* add_node *)
| Add_many (ns : list N)                            (* add_nodes_from *)
| Set_tokens (n : N) (tokens : option (list string))
| Set_string (n : N) (s : string).
(** What a call means for a node: None if there is no such node, Some None if its tokens are None. *)
Inductive means {N} (n : N) (v : option (option (list string))) : call N -> option (option (list string)) -> Prop :=
| M_add ts : means n v (Add n ts) (Some (Some (match ts with Some l => l | None => [] end)))
| M_add_other m ts : m <> n -> means n v (Add m ts) v
| M_many ms : means n v (Add_many ms) v
| M_tokens ts : v <> None -> means n v (Set_tokens n ts) (Some ts)
| M_tokens_other m ts : m <> n \/ v = None -> means n v (Set_tokens m ts) v
| M_string s ws : v <> None -> spaced ws s -> ws <> [] -> Forall no_space ws -> means n v (Set_string n s) (Some (Some ws))
| M_string_other m s : m <> n \/ v = None -> means n v (Set_string m s) v.
Inductive means_all {N} (n : N) : option (option (list string)) -> list (call N) -> option (option (list string)) -> Prop :=
| MA_nil v : means_all n v [] v
| MA_cons v c v1 cs v2 : means n v c v1 -> means_all n v1 cs v2 -> means_all n v (c :: cs) v2.

(** Upper case, and a printed alignment. *)
Definition upper_char (c d : ascii) : Prop :=
  let n := nat_of_ascii c in (97 <= n <= 122 /\ nat_of_ascii d = n - 32) \/ (~ 97 <= n <= 122 /\ d = c).
Inductive upper_of : string -> string -> Prop :=
| U_nil : upper_of "" ""
| U_cons c d s t : upper_char c d -> upper_of s t -> upper_of (String c s) (String d t).
Definition nl : string := String (ascii_of_nat 10) "".
Definition alignment_line (u a rel v b line : string) : Prop :=
  exists r, upper_of rel r /\ line = ("[" ++ u ++ "] " ++ a ++ " <==" ++ r ++ "==> [" ++ v ++ "] " ++ b ++ nl ++ nl)%string.
Fixpoint dashes (n : nat) : string := match n with 0 => "" | S m => ("-" ++ dashes m)%string end.
