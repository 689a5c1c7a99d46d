(** Property C62: tokens and token strings of nodes, and the printed alignments. *)
From Coq Require Import String Ascii Lia List Bool.
From Verif Require Import Py PyLemmas Tokens_spec Tokens_model Tokens_proof.
Import ListNotations.
Open Scope string_scope.
Open Scope nat_scope.
Open Scope list_scope.
Section Tokens.
Variable N : Type.
Variable neqb : N -> N -> bool.
Hypothesis neq : forall x y, neqb x y = true <-> x = y.
Notation graph := (graph N).
Notation run := (run neqb).
Notation get_node_tokens := (get_node_tokens neqb).
Notation get_node_token_string := (get_node_token_string neqb).
Notation set_node_token_string := (set_node_token_string neqb).
Notation set_node_tokens := (set_node_tokens neqb).
Notation node_is_empty := (node_is_empty neqb).
Notation node_is_punct := (node_is_punct neqb).
Definition known (g : graph) (n : N) : option (option (list string)) := match get_node_tokens g n with Ok v => Some v | Err _ => None end.

(** After any calls, a node has the tokens it was given last, by whatever call, and exists if it was added;
    asking for the tokens of another node raises KeyError. *)
Theorem tokens_last_given (cs : list (call N)) n :
  exists v, means_all n None cs v /\ get_node_tokens (run [] cs) n = match v with Some ts => Ok ts | None => Err KeyError end.
Proof. exists (dget neqb (run [] cs) n). split; [exact (run_means N neqb neq cs [] n)|apply dread_dget]. Qed.
(** What a call means for a node is determined. *)
Theorem tokens_meaning_unique (n : N) v c a b : means n v c a -> means n v c b -> a = b.
Proof. exact (means_fun N n v c a b). Qed.
(** Setting tokens fails for a node that does not exist, and only then. *)
Theorem tokens_set_fails (g : graph) n ts s e :
  (set_node_tokens g n ts = Err e <-> known g n = None /\ e = KeyError) /\ (set_node_token_string g n s = Err e <-> known g n = None /\ e = KeyError).
Proof.
  unfold known, Tokens_model.get_node_tokens, Tokens_model.set_node_tokens, Tokens_model.set_node_token_string. rewrite dread_dget. destruct (dget neqb g n); cbn [bind];
    split; split; try discriminate; try (intros [= <-]; auto); try (intros [? _]; discriminate); intros [_ ->]; reflexivity.
Qed.
(** A token string that is set is what is asked for afterwards, whatever it is. *)
Theorem token_string_set (g g' : graph) n s : set_node_token_string g n s = Ok g' ->
  get_node_token_string g' n = Some s /\ (exists ws, get_node_tokens g' n = Ok (Some ws) /\ spaced ws s /\ ws <> [] /\ Forall no_space ws) /\
  forall m, m <> n -> get_node_tokens g' m = get_node_tokens g m.
Proof.
  unfold Tokens_model.set_node_token_string, Tokens_model.get_node_token_string, Tokens_model.get_node_tokens. rewrite dread_dget. destruct (dget neqb g n); [|discriminate]. cbn [bind]. intros [= <-].
  rewrite !dread_dget, (dget_dset_same neqb neq), join_split. split; [reflexivity|]. split.
  - exists (split s). split; [reflexivity|]. split; [|split; [apply split_ne|apply split_no_space]]. rewrite <- (join_split s) at 2. apply join_spaced.
  - intros m M. now rewrite !dread_dget, (dget_dset_other neqb neq) by congruence.
Qed.
(** Asking for a token string never fails: it is the tokens with spaces between them, or None if there are none
    to be found. *)
Theorem token_string_value (g : graph) n :
  match known g n with
  | Some (Some ws) => exists s, get_node_token_string g n = Some s /\ spaced ws s
  | _ => get_node_token_string g n = None
  end.
Proof.
  unfold known, Tokens_model.get_node_tokens, Tokens_model.get_node_token_string. destruct (dread neqb g n) as [[ws|]|]; try reflexivity. exists (join ws). split; [reflexivity|apply join_spaced].
Qed.
(** Setting the token string to what it is keeps the tokens exactly if there is a token and none contains a space. *)
Theorem token_string_again (g : graph) n ws s : get_node_tokens g n = Ok (Some ws) -> get_node_token_string g n = Some s ->
  exists g', set_node_token_string g n s = Ok g' /\ (get_node_tokens g' n = Ok (Some ws) <-> ws <> [] /\ Forall no_space ws).
Proof.
  unfold Tokens_model.set_node_token_string, Tokens_model.get_node_token_string, Tokens_model.get_node_tokens. intros E. rewrite E. intros [= <-]. cbn [bind]. eexists. split; [reflexivity|].
  rewrite dread_dget, (dget_dset_same neqb neq). split.
  - intros [= H]. split; [rewrite <- H; apply split_ne|]. rewrite <- H. apply split_no_space.
  - intros [NE F]. now rewrite split_join.
Qed.
(** Empty nodes and punctuation nodes: the latter have tokens, all of them parts of the punctuation marks. *)
Theorem node_kinds (g : graph) n :
  match known g n with
  | None => node_is_empty g n = Err KeyError /\ node_is_punct g n = Err KeyError
  | Some ts => exists e p, node_is_empty g n = Ok e /\ node_is_punct g n = Ok p /\
      (e = true <-> ts = None \/ ts = Some []) /\
      (p = true <-> exists ws, ts = Some ws /\ ws <> [] /\ Forall (fun t => occurs t punctuation_marks) ws)
  end.
Proof.
  unfold known, Tokens_model.get_node_tokens, Tokens_model.node_is_empty, Tokens_model.node_is_punct. rewrite dread_dget. destruct (dget neqb g n) as [ts|]; cbn [bind]; [|auto].
  eexists _, _. split; [reflexivity|]. split; [reflexivity|]. destruct ts as [[|w ws]|].
  - split; [tauto|]. split; [discriminate|]. intros (? & [= <-] & NE & _). congruence.
  - split; [split; [discriminate|intros [?|?]; discriminate]|]. rewrite forallb_forall. split.
    + intros H. exists (w :: ws). split; [reflexivity|]. split; [discriminate|]. apply Forall_forall. intros t T. apply is_in_spec. exact (H t T).
    + intros (? & [= <-] & _ & F) t T. rewrite Forall_forall in F. apply is_in_spec. exact (F t T).
  - split; [tauto|]. split; [discriminate|]. intros (? & ? & _). discriminate.
Qed.
(** Finding: setting the token string of an empty node to its own token string makes it a punctuation node. *)
Theorem token_string_of_empty_refuted (g : graph) n : get_node_tokens g n = Ok (Some []) ->
  exists s g', get_node_token_string g n = Some s /\ set_node_token_string g n s = Ok g' /\
    node_is_empty g n = Ok true /\ node_is_empty g' n = Ok false /\ node_is_punct g' n = Ok true.
Proof.
  unfold Tokens_model.get_node_tokens, Tokens_model.get_node_token_string, Tokens_model.set_node_token_string, Tokens_model.node_is_empty, Tokens_model.node_is_punct. intros E. rewrite E.
  eexists _, _. split; [reflexivity|]. split; [reflexivity|]. cbn [bind join]. split; [reflexivity|]. rewrite !dread_dget, (dget_dset_same neqb neq). split; reflexivity.
Qed.
(** Finding: add_nodes_from adds nothing. *)
Theorem add_nodes_from_refuted (cs : list (call N)) ns n : known (run [] (cs ++ [Add_many ns])) n = known (run [] cs) n.
Proof. unfold Tokens_model.run. rewrite fold_left_app. reflexivity. Qed.

Variable show : N -> string.
Variable repr : option string -> string.
Notation dump := (dump_alignments neqb show repr).
(** The alignments are printed in order, each with the token strings of its nodes and its relation in upper case,
    and then dashes; an alignment without a relation ends it. *)
Theorem dump_prints (g h : graph) l :
  exists lines, Forall2 (fun a line => exists r, snd a = Some r /\
      alignment_line (show (fst (fst a))) (repr (get_node_token_string g (fst (fst a)))) r (show (snd (fst a))) (repr (get_node_token_string h (snd (fst a)))) line)
      (firstn (length lines) l) lines /\
    ((length lines = length l /\ dump g h l = ((String.concat "" lines ++ dashes 40 ++ nl)%string, None)) \/
     (exists e, nth_error l (length lines) = Some (e, None) /\ dump g h l = (String.concat "" lines, Some AttributeError))).
Proof.
  assert (forall x xs, String.concat "" (x :: xs) = (x ++ String.concat "" xs)%string) as CC.
  { intros x [|y xs]; cbn; [now rewrite app_s_nil|reflexivity]. }
  induction l as [|[[u v] [r|]] l IH].
  - exists []. split; [constructor|]. left. split; reflexivity.
  - destruct IH as (lines & F & IH). set (line := ("[" ++ show u ++ "] " ++ repr (get_node_token_string g u) ++ " <==" ++ upper r ++ "==> [" ++ show v ++ "] " ++ repr (get_node_token_string h v) ++ nl ++ nl)%string).
    exists (line :: lines). cbn [length firstn nth_error]. split.
    + constructor; [|exact F]. exists r. split; [reflexivity|]. exists (upper r). split; [apply upper_spec|reflexivity].
    + rewrite CC. cbn [dump_alignments]. destruct (dump g h l) as [out x]. destruct IH as [[L [= -> ->]]|(e & E & [= -> ->])].
      * left. split; [now f_equal|]. fold line. f_equal. now rewrite app_s_assoc.
      * right. exists e. split; [exact E|]. reflexivity.
  - exists []. split; [constructor|]. right. exists (u, v). split; reflexivity.
Qed.
End Tokens.

Definition calls : list (call nat) := [Add 1 (Some ["a"; "b c"]); Add 2 None; Set_string 2 "x y"; Set_tokens 3 None; Add_many [4; 5]; Set_tokens 1 None].
Example ex_calls : map (get_node_tokens Nat.eqb (run Nat.eqb [] calls)) [1; 2; 3; 4] = [Ok None; Ok (Some ["x"; "y"]); Err KeyError; Err KeyError].
Proof. reflexivity. Qed.
Example ex_string : get_node_token_string Nat.eqb (run Nat.eqb [] calls) 2 = Some "x y" /\ get_node_token_string Nat.eqb (run Nat.eqb [] calls) 1 = None.
Proof. split; reflexivity. Qed.
Example ex_again : get_node_tokens Nat.eqb [(1, Some ["a"; "b c"])] 1 = Ok (Some ["a"; "b c"]) /\ get_node_token_string Nat.eqb [(1, Some ["a"; "b c"])] 1 = Some "a b c".
Proof. split; reflexivity. Qed.
Example ex_empty : get_node_tokens Nat.eqb (run Nat.eqb [] [Add 1 None]) 1 = Ok (Some []).
Proof. reflexivity. Qed.
Example ex_dump : dump_alignments Nat.eqb (fun n => if n =? 1 then "1" else "2") (fun o => match o with Some s => s | None => "None" end) (run Nat.eqb [] calls) (run Nat.eqb [] calls)
   [((2, 1), Some "equals"); ((1, 1), None)] = ("[2] x y <==EQUALS==> [1] None" ++ nl ++ nl, Some AttributeError)%string.
Proof. reflexivity. Qed.
Print Assumptions tokens_last_given.
Print Assumptions tokens_meaning_unique.
Print Assumptions tokens_set_fails.
Print Assumptions token_string_set.
Print Assumptions token_string_value.
Print Assumptions token_string_again.
Print Assumptions node_kinds.
Print Assumptions token_string_of_empty_refuted.
Print Assumptions add_nodes_from_refuted.
Print Assumptions dump_prints.
