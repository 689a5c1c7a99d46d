(** Property C29: a parallel graph corpus survives writing and reading. *)
From Coq Require Import String Permutation Sorted.
From Verif Require Import Py PyLemmas Purge_spec Purge_model Purge_proof Align_model Align_spec Align_proof PgcXml_model PgcXml_spec PgcXml_proof.
Import ListNotations.
Section Props.
Variable bank_path : nat -> path.
Variable bank_format : nat -> string.
Variable inode : path -> option nat.
Variable order : list nat -> list nat.
Hypothesis order_any : forall l, Permutation l (order l).
Variable abs_path : bool.
Variable dir : path.
Variable rleb : string -> string -> bool.
Notation first_same := (first_same path_eqb bank_path inode).
Notation undecidable := (undecidable path_eqb bank_path inode).
Notation same := (same path_eqb bank_path inode).
Notation gen := (gen bank_path bank_format inode order abs_path dir).
Notation parse := (parse rleb dir).

(** Bank b of the corpus has come back as bank object k: the path and format of the first same bank in use. *)
Definition came_back (c : corpus) (st : pstate) (b k : nat) : Prop :=
  exists n id, first_same (used (c_pairs c)) b = Some n /\ nth_error (banks st) k = Some (id, (bank_path n, Some (bank_format n))).

(** Writing a corpus and reading it gives the same relations, meta data and pairs, in the same order, each
    with its graphs, alignments, meta data (if it has children) and banks, and without any warning. *)
Theorem pgc_round_trip stale c :
  writable bank_path bank_format abs_path dir rleb c ->
  (forall x y, In x (used (c_pairs c)) -> In y (used (c_pairs c)) -> undecidable x y = false) ->
  exists tree st, gen stale c = Ok tree /\ parse (reread tree) = Ok st /\
    warned st = [] /\ c_rels (result st) = c_rels c /\ c_meta (result st) = kept_meta (c_meta c) /\
    List.length (c_pairs (result st)) = List.length (c_pairs c) /\
    forall i p, nth_error (c_pairs c) i = Some p ->
      exists q, nth_error (c_pairs (result st)) i = Some q /\
        p_graphs q = p_graphs p /\
        p_meta q = (if truth (p_meta p) then reread (p_meta p) else Elem "graph_meta_data" [] None []) /\
        (forall s t, get_align String.eqb (p_align q) s t = get_align String.eqb (p_align p) s t) /\
        came_back c st (fst (p_banks p)) (fst (p_banks q)) /\ came_back c st (snd (p_banks p)) (snd (p_banks q)).
Proof.
  intros W D. destruct (@round_trip bank_path bank_format inode order order_any abs_path dir rleb stale c W D)
    as (tree & st & gbs & ks & E1 & E2 & E3 & E4 & E5 & L & E6 & ND & E7 & F & G).
  exists tree, st. do 5 (split; [assumption|]). split; [rewrite E6, map_length, combine_length, L; apply Nat.min_id|].
  intros i p Hp. destruct (@nth_combine _ _ (c_pairs c) ks i p L Hp) as [k Hk]. exists (read_pair p k).
  split; [rewrite E6, nth_error_map, Hk; reflexivity|]. split; [reflexivity|]. split; [reflexivity|].
  apply nth_error_In in Hp, Hk. rewrite Forall_forall in F, G. split; [apply rebuilt_ok; auto|].
  destruct (F (p, k) Hk) as ((n1 & N1 & F1) & (n2 & N2 & F2)). cbn [fst snd] in *.
  split; [exists n1|exists n2]; eexists; (split; [assumption|]); rewrite E7.
  - exact (nth_entries bank_path bank_format gbs 0 (fst k) N1).
  - exact (nth_entries bank_path bank_format gbs 0 (snd k) N2).
Qed.
(** The banks read are shared exactly as the files are: two references lead to one bank object if and only
    if they were banks on the same file. *)
Theorem pgc_round_trip_sharing stale c tree st :
  writable bank_path bank_format abs_path dir rleb c ->
  gen stale c = Ok tree -> parse (reread tree) = Ok st ->
  forall i j p q p' q', nth_error (c_pairs c) i = Some p -> nth_error (c_pairs (result st)) i = Some p' ->
    nth_error (c_pairs c) j = Some q -> nth_error (c_pairs (result st)) j = Some q' ->
    (fst (p_banks p') = fst (p_banks q') <-> same (fst (p_banks p)) (fst (p_banks q)) = true) /\
    (fst (p_banks p') = snd (p_banks q') <-> same (fst (p_banks p)) (snd (p_banks q)) = true) /\
    (snd (p_banks p') = snd (p_banks q') <-> same (snd (p_banks p)) (snd (p_banks q)) = true).
Proof.
  intros W EG EP i j p q p' q' Hp Hp' Hq Hq'.
  assert (forall x y, In x (used (c_pairs c)) -> In y (used (c_pairs c)) -> undecidable x y = false) as D.
  { pose proof (@gen_raises bank_path bank_format inode order order_any abs_path dir stale c) as R. rewrite EG in R. exact R. }
  destruct (@round_trip bank_path bank_format inode order order_any abs_path dir rleb stale c W D)
    as (tree' & st' & gbs & ks & E1 & E2 & _ & _ & _ & L & E6 & ND & _ & F & _).
  rewrite EG in E1. injection E1 as <-. rewrite EP in E2. injection E2 as <-.
  destruct (@nth_combine _ _ (c_pairs c) ks i p L Hp) as [k Hk]. destruct (@nth_combine _ _ (c_pairs c) ks j q L Hq) as [m Hm].
  rewrite E6, nth_error_map, Hk in Hp'. rewrite E6, nth_error_map, Hm in Hq'. cbn in Hp', Hq'. injection Hp' as <-. injection Hq' as <-.
  apply nth_error_In in Hp, Hq, Hk, Hm. rewrite Forall_forall in F. destruct (F _ Hk) as [A1 A2]. destruct (F _ Hm) as [B1 B2]. cbn [fst snd p_banks] in *.
  assert (forall r, In r (c_pairs c) -> In (fst (p_banks r)) (used (c_pairs c)) /\ In (snd (p_banks r)) (used (c_pairs c))) as U.
  { intros r Hr. split; apply in_flat_map; exists r; (split; [assumption|]); [left|right; left]; reflexivity. }
  destruct (U p Hp), (U q Hq). unfold read_pair. cbn [p_banks].
  split; [|split]; eapply (@written_inj bank_path inode gbs (used (c_pairs c))); eauto.
Qed.
(** Writing raises exactly if two banks in use have different paths of which one does not exist. *)
Theorem pgc_write_raises_iff stale c :
  match gen stale c with
  | Ok _ => forall x y, In x (used (c_pairs c)) -> In y (used (c_pairs c)) -> undecidable x y = false
  | Err e => e = OSError /\ exists x y, In x (used (c_pairs c)) /\ In y (used (c_pairs c)) /\ undecidable x y = true
  end.
Proof. exact (@gen_raises bank_path bank_format inode order order_any abs_path dir stale c). Qed.
End Props.
(** A relative path written for a bank leads back to the bank from the corpus directory. *)
Theorem relative_path_leads_back abs_path dir p : Forall component p -> resolve dir (file_text abs_path dir p) = p.
Proof. apply resolve_text. Qed.

(** Meta data with a reserved tag inside is not safe: a <file> in it is taken for a graph bank. *)
Definition nested_file : elem := Elem "corpus_meta_data" [] None [Elem "file" [] (Some "notes.txt"%string) []; Elem "file" [] (Some "more.txt"%string) []].
Definition any_meta_survives : Prop :=
  forall bp bf ino ord ab d le stale c tree, (forall l, Permutation l (ord l)) -> (forall m, c_meta c = Some m -> tag m = "corpus_meta_data"%string) ->
    c_pairs c = [] -> c_rels c = [] -> gen bp bf ino ord ab d stale c = Ok tree -> exists st, parse le d (reread tree) = Ok st.
Theorem any_meta_survives_refuted : ~ any_meta_survives.
Proof.
  intros H. destruct (H (fun _ => []) (fun _ => "x"%string) (fun _ => None) (fun l => l) false [] (fun _ _ => true) (fun _ => None)
    {| c_pairs := []; c_rels := []; c_meta := Some nested_file |} _ (@Permutation_refl nat)
    ltac:(intros m [= <-]; reflexivity) eq_refl eq_refl eq_refl) as [st E]. discriminate E.
Qed.
(** Meta data without children (only attributes or text) is lost. *)
Definition meta_survives : Prop :=
  forall bp bf ino ord ab d le stale c tree st m, (forall l, Permutation l (ord l)) -> c_meta c = Some m -> meta_ok "corpus_meta_data" m ->
    gen bp bf ino ord ab d stale c = Ok tree -> parse le d (reread tree) = Ok st -> c_meta (result st) = Some (reread m).
Theorem meta_survives_refuted : ~ meta_survives.
Proof.
  intros H. specialize (H (fun _ => []) (fun _ => "x"%string) (fun _ => None) (fun l => l) false [] (fun _ _ => true) (fun _ => None)
    {| c_pairs := []; c_rels := []; c_meta := Some (Elem "corpus_meta_data" [("annotator", "me")]%string (Some "words"%string) []) |} _ _ _
    (@Permutation_refl nat) eq_refl ltac:(split; [reflexivity|constructor]) eq_refl eq_refl). discriminate H.
Qed.
Print Assumptions pgc_round_trip.
Print Assumptions pgc_round_trip_sharing.
Print Assumptions pgc_write_raises_iff.
Print Assumptions relative_path_leads_back.
Print Assumptions any_meta_survives_refuted.
Print Assumptions meta_survives_refuted.

(** A corpus that meets the hypotheses: two pairs, three bank objects on two files, meta data and alignments. *)
Open Scope string_scope.
Definition ex_path (b : nat) : path := match b with 0 => ["data"; "gb"; "a.xml"] | 1 => ["data"; "b c.xml"] | _ => ["data"; "gb"; "a.xml"] end.
Definition ex_meta : elem := Elem "graph_meta_data" [] None [Elem "note" [("by", "me")] (Some "") [Elem "sub" [] None []]].
Definition ex_corpus : corpus :=
  {| c_pairs := [{| p_banks := (0, 1); p_graphs := ("s1", "t1"); p_meta := ex_meta;
                    p_align := run_matching String.eqb (empty_digraph string string) [Add "1" "2" "equals"; Add "3" "1" "specifies"; Add "1" "4" "equals"] |};
                 {| p_banks := (1, 2); p_graphs := ("s2", "t1"); p_meta := Elem "graph_meta_data" [] None [];
                    p_align := run_matching String.eqb (empty_digraph string string) [] |}];
     c_rels := ["equals"; "specifies"]; c_meta := Some (Elem "corpus_meta_data" [] None [Elem "title" [] (Some "x") []]) |}.
Lemma ex_component x : existsb (String.eqb x) ["data"; "gb"; "a.xml"; "b c.xml"] = true -> component x.
Proof.
  intros H. apply existsb_exists in H as (y & Hy & E). apply String.eqb_eq in E as ->.
  destruct Hy as [<-|[<-|[<-|[<-|[]]]]]; (split; [discriminate|split; [discriminate|split; [discriminate|]]]);
  (intros a b H; do 8 (try (destruct a as [|? a]; cbn in H; [discriminate H|injection H as _ H])); destruct a; discriminate H).
Qed.
Example ex_writable : writable ex_path (fun _ => "alpino") false ["data"; "pgc"] (fun x y => String.leb x y) ex_corpus.
Proof.
  assert (forall b, bank_ok ex_path (fun _ => "alpino") false ["data"; "pgc"] b) as B.
  { intros b. split; [|split; [|discriminate]].
    - destruct b as [|[|b]]; repeat constructor; apply ex_component; reflexivity.
    - destruct b as [|[|b]]; split; try reflexivity; discriminate. }
  assert (forall t, existsb (String.eqb t) reserved = false -> ~ In t reserved) as NR.
  { intros t H K. assert (existsb (String.eqb t) reserved = true) as E; [|congruence]. apply existsb_exists. exists t. split; auto. apply String.eqb_refl. }
  constructor.
  - intros p _. auto.
  - intros m [= <-]. split; [reflexivity|]. repeat constructor. apply NR. reflexivity.
  - intros p [<-|[<-|[]]]; (split; [reflexivity|]); cbn [kids p_meta ex_meta]; repeat constructor; apply NR; reflexivity.
  - repeat constructor; discriminate.
  - repeat constructor.
  - intros p [<-|[<-|[]]]; eexists; reflexivity.
Qed.
Example ex_round :
  match gen ex_path (fun _ => "alpino") (fun p => Some (List.length p)) (@rev nat) false ["data"; "pgc"] (fun _ => None) ex_corpus with
  | Ok tree => match parse (fun x y => String.leb x y) ["data"; "pgc"] (reread tree) with
     | Ok st => Some (map p_banks (c_pairs (result st)), map snd (banks st), option_map (fun e => map text (kids e)) (nth_error (kids tree) 1))
     | Err _ => None end
  | Err _ => None end =
  Some ([(0, 1); (1, 0)], [(["data"; "gb"; "a.xml"], Some "alpino"); (["data"; "b c.xml"], Some "alpino")], Some [Some "../gb/a.xml"; Some "../b c.xml"]).
Proof. vm_compute. reflexivity. Qed.
Example ex_cannot_write :
  gen ex_path (fun _ => "alpino") (fun _ => None) (fun l => l) false ["data"; "pgc"] (fun _ => None) ex_corpus = Err OSError.
Proof. vm_compute. reflexivity. Qed.
