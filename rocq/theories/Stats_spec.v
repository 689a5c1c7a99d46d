(** What the statistics of graph banks and parallel graph corpora should say. *)
From Coq Require Import String QArith.
From Verif Require Import Py.
Open Scope nat_scope.
Set Implicit Arguments.

Section Stats.
Variable N : Type.
Variable neqb : N -> N -> bool.
(** A graph with its nodes and their tokens, and an aligned pair of graphs (named by numbers). *)
Record graph := { failed : bool; root : N; tokens : list string; nodes : list (N * list string) }.
Record gpair := { source : nat; target : nat; alignment : list ((N * N) * option string) }.
Record options := { with_empty : bool; with_failed : bool; with_punc : bool; with_unaligned_roots : bool;
                    threshold : bool; with_unaligned_graphs : bool }.
Definition count {A} (f : A -> bool) (l : list A) : nat := length (filter f l).

(** Punctuation: the token is a part of this string. *)
Definition punctuation : string := "!""#$%&'()*+,-./:;<=>?@[\]^_`{|}~".
Definition part_of (s t : string) : Prop := exists p q, (s = p ++ t ++ q)%string.
Definition decides (f : string -> bool) : Prop := forall t, f t = true <-> part_of punctuation t.

Section Counts.
Variable punct : string -> bool.          (* decides punctuation *)
Variable o : options.
Variable graph_of : nat -> graph.
Definition node_tokens (g : nat) (n : N) : option (list string) := dget neqb (nodes (graph_of g)) n.
Definition no_tokens (ts : list string) : bool := match ts with [] => true | _ => false end.
Definition punct_node (ts : list string) : bool := negb (no_tokens ts) && forallb punct ts.
Definition node_counts (ts : list string) : bool := (with_empty o || negb (no_tokens ts)) && (with_punc o || negb (punct_node ts)).

(** Pairs of graphs. *)
Definition failed_pair (p : gpair) : bool := failed (graph_of (source p)) || failed (graph_of (target p)).
Definition roots_aligned (p : gpair) : bool := dhas (pair_eqb neqb neqb) (alignment p) (root (graph_of (source p)), root (graph_of (target p))).
Definition pair_counts (p : gpair) : bool := (with_failed o || negb (failed_pair p)) && (with_unaligned_roots o || roots_aligned p).
(** Pairs of nodes. *)
Definition link := ((N * N) * option string)%type.
Definition link_counts (p : gpair) (a : link) : bool :=
  match node_tokens (source p) (fst (fst a)), node_tokens (target p) (snd (fst a)) with
  | Some ts, Some ts' => node_counts ts && node_counts ts'
  | _, _ => false
  end.
Definition has_relation (r : string) (a : link) : bool := match snd a with Some r' => String.eqb r' r | None => false end.
Definition links (f : gpair -> link -> bool) (ps : list gpair) : nat :=
  list_sum (map (fun p => count (fun a => link_counts p a && f p a) (alignment p)) (filter pair_counts ps)).

(** The counts of a corpus. *)
Record pgc_counts := { cgp : nat; cgpfu : nat; cgpfp : nat; cgpur : nat; cnp : nat; ceq : nat; cre : nat; cgen : nat; cspec : nat; cint : nat }.
Definition pgc_counts_of (ps : list gpair) : pgc_counts :=
  {| cgp := count pair_counts ps;
     cgpfu := count (fun p => pair_counts p && negb (failed_pair p) && roots_aligned p) ps;
     cgpfp := count (fun p => pair_counts p && failed_pair p) ps;
     cgpur := count (fun p => pair_counts p && negb (roots_aligned p)) ps;
     cnp := links (fun _ _ => true) ps;
     ceq := links (fun _ => has_relation "equals") ps;
     cre := links (fun _ => has_relation "restates") ps;
     cgen := links (fun _ => has_relation "generalizes") ps;
     cspec := links (fun _ => has_relation "specifies") ps;
     cint := links (fun _ => has_relation "intersects") ps |}.
(** When the counts can be made. *)
Definition five := ["equals"; "restates"; "specifies"; "generalizes"; "intersects"]%string.
(** The nodes of a link must exist (the target only if the source is not skipped at once), and a link that
    counts must have one of the five relations. *)
Definition skip_source (ts : list string) : bool :=
  if with_empty o then negb (with_punc o) && punct_node ts else no_tokens ts.
Definition link_ok (p : gpair) (a : link) : Prop :=
  exists ts, node_tokens (source p) (fst (fst a)) = Some ts /\
    (skip_source ts = true \/
     exists ts', node_tokens (target p) (snd (fst a)) = Some ts' /\
       (link_counts p a = true -> exists r, snd a = Some r /\ In r five)).
Definition pair_ok (p : gpair) : Prop := pair_counts p = true -> threshold o = false /\ Forall (link_ok p) (alignment p).

(** How often graphs and nodes are aligned (in the pairs and links that count). *)
Section Marks.
Variable ps : list gpair.
Definition graph_from (g : nat) : nat := count (fun p => pair_counts p && (source p =? g)) ps.
Definition graph_to (g : nat) : nat := count (fun p => pair_counts p && (target p =? g)) ps.
Definition node_from (g : nat) (n : N) : nat := links (fun p a => (source p =? g) && neqb (fst (fst a)) n) ps.
Definition node_to (g : nat) (n : N) : nat := links (fun p a => (target p =? g) && neqb (snd (fst a)) n) ps.
Definition unaligned_root (g : nat) : bool := existsb (fun p => pair_counts p && negb (roots_aligned p) && ((source p =? g) || (target p =? g))) ps.
Definition graph_aligned (g : nat) : bool := (0 <? graph_from g) || (0 <? graph_to g).
Definition single (g : nat) : bool := (graph_from g =? 1) || (graph_to g =? 1).
Definition node_aligned (g : nat) (n : N) : bool := (0 <? node_from g n) || (0 <? node_to g n).

(** The counts of a bank. *)
Record gb_counts := { cg : nat; cga : nat; cgu : nat; cgsa : nat; cgma : nat; cgur : nat; cgfp : nat; ct : nat; cn : nat; cna : nat; cnu : nat }.
Definition not_failed (g : nat) : bool := with_failed o || negb (failed (graph_of g)).
Definition graph_counts (g : nat) : bool :=
  not_failed g && (with_unaligned_roots o || negb (unaligned_root g)) && (with_unaligned_graphs o || graph_aligned g).
(** A graph the threshold is looked at for. *)
Definition reached (g : nat) : bool := not_failed g && (with_unaligned_roots o || negb (unaligned_root g)).
Definition sum_over (f : nat -> nat) (gs : list nat) : nat := list_sum (map f (filter graph_counts gs)).
Definition counted_nodes (f : N -> bool) (g : nat) : nat := count (fun x => node_counts (snd x) && f (fst x)) (nodes (graph_of g)).
Definition gb_counts_of (gs : list nat) : gb_counts :=
  {| cg := count graph_counts gs;
     cga := count (fun g => graph_counts g && graph_aligned g) gs;
     cgu := count (fun g => graph_counts g && negb (graph_aligned g)) gs;
     cgsa := count (fun g => graph_counts g && graph_aligned g && single g) gs;
     cgma := count (fun g => graph_counts g && graph_aligned g && negb (single g)) gs;
     cgur := count (fun g => not_failed g && with_unaligned_roots o && unaligned_root g) gs;
     cgfp := count (fun g => with_failed o && failed (graph_of g)) gs;
     ct := sum_over (fun g => count (fun t => with_punc o || negb (punct t)) (tokens (graph_of g))) gs;
     cn := sum_over (counted_nodes (fun _ => true)) gs;
     cna := sum_over (fun g => counted_nodes (node_aligned g) g) gs;
     cnu := sum_over (fun g => counted_nodes (fun n => negb (node_aligned g n)) g) gs |}.
End Marks.
End Counts.

(** Percentages and averages; 0 if there is nothing to divide by. *)
Definition ratio (a b : nat) : Q := match b with O => 0%Q | _ => (inject_Z (Z.of_nat a) / inject_Z (Z.of_nat b))%Q end.
Definition pct (a b : nat) : Q := (ratio a b * 100)%Q.
(** Options that leave out at most as much. *)
Definition weaker (o o' : options) : Prop :=
  Bool.le (with_empty o) (with_empty o') /\ Bool.le (with_failed o) (with_failed o') /\ Bool.le (with_punc o) (with_punc o') /\
  Bool.le (with_unaligned_roots o) (with_unaligned_roots o') /\ Bool.le (with_unaligned_graphs o) (with_unaligned_graphs o').
Definition in_percent (q : Q) : Prop := (0 <= q /\ q <= 100)%Q.
End Stats.
