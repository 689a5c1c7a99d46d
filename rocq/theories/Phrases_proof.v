(** Proofs about the extraction of phrases. *)
From Verif Require Import Py PyLemmas Ngram_spec Phrases_spec Phrases_model.
Set Implicit Arguments.
Section P.
Variable char : Type.
Variables blank newline : char.
Notation text := (list char).
Notation entry := (entry char).
Notation gpair := (gpair char).
Notation join := (@join char).
Lemma join_joined (sep : text) l : joined sep l (join sep l).
Proof. induction l as [|x [|y l] IH]; [constructor|constructor|]. cbn [Phrases_model.join]. constructor. exact IH. Qed.
Lemma joined_fun (sep : text) l s : joined sep l s -> s = join sep l.
Proof. induction 1 as [|x|x y l s _ IH]; [reflexivity|reflexivity|]. cbn [Phrases_model.join]. now rewrite IH. Qed.
(** What is printed until the first bad row. *)
Definition ends (delimiter : text) verbose (evs : list (res entry)) (o : text * option exc) : Prop :=
  exists es rest, evs = map (@Ok _) es ++ rest /\ printed blank newline delimiter verbose es (fst o) /\
    (rest = [] /\ snd o = None \/ exists x r, rest = Err x :: r /\ snd o = Some x).
Lemma printed_app delimiter verbose es es' out out' : printed blank newline delimiter verbose es out -> printed blank newline delimiter verbose es' out' ->
  printed blank newline delimiter verbose (es ++ es') (out ++ out').
Proof.
  intros H H'. induction H as [|e es cols line out C J _ IH]; [exact H'|]. cbn [app]. rewrite <- app_assoc. cbn [app]. now apply printed_row with cols.
Qed.
Lemma ends_app delimiter verbose e1 e2 o1 x1 o2 : ends delimiter verbose e1 (o1, x1) -> ends delimiter verbose e2 o2 ->
  ends delimiter verbose (e1 ++ e2) (match x1 with Some x => (o1, Some x) | None => let (o, x) := o2 in (o1 ++ o, x) end).
Proof.
  intros (es & rest & E & P & [[-> X]|(x & r & -> & X)]) H2; cbn [fst snd] in *; subst x1.
  - destruct H2 as (es2 & rest2 & E2 & P2 & X2). destruct o2 as [o x]. cbn [fst snd] in *. exists (es ++ es2), rest2. split; [rewrite E, E2, map_app, app_nil_r; now rewrite app_assoc|].
    split; [now apply printed_app|exact X2].
  - exists es, (Err x :: r ++ e2). split; [rewrite E, <- app_assoc; reflexivity|]. split; [exact P|]. right. exists x, (r ++ e2). split; reflexivity.
Qed.
Lemma align_ends delimiter verbose p l : ends delimiter verbose (map (row p) l) (print_alignments blank newline delimiter verbose p l).
Proof.
  induction l as [|[[n m] r] l IH]; [exists [], []; split; [reflexivity|split; [constructor|left; now split]]|].
  cbn [map Phrases_model.print_alignments fst snd]. unfold row at 1. cbn [fst snd]. unfold get_node_token_string, join_columns.
  assert (Bad : forall rest, ends delimiter verbose (Err TypeError :: rest) ([], Some TypeError)).
  { intros rest. exists [], (Err TypeError :: rest). split; [reflexivity|]. split; [constructor|]. right. eexists _, _. split; reflexivity. }
  destruct (tokens (source p) n) as [[ts|]|]; [|destruct verbose; cbn; apply Bad|destruct verbose; cbn; apply Bad].
  destruct r as [r|]; [|destruct verbose; cbn; apply Bad].
  destruct (tokens (target p) m) as [[tt|]|]; [|destruct verbose; cbn; apply Bad|destruct verbose; cbn; apply Bad].
  assert (Good : forall e cols, columns blank verbose e cols -> ends delimiter verbose (Ok e :: map (row p) l) (let (out, x) := print_alignments blank newline delimiter verbose p l in (join delimiter cols ++ newline :: out, x))).
  { intros e cols C. destruct IH as (es & rest & E & P & X). destruct (print_alignments _ _ _ _ _ _) as [o x]. cbn [fst snd] in *. exists (e :: es), rest. split; [now rewrite E|]. cbn [fst snd].
    split; [|exact X]. apply printed_row with cols; [exact C|apply join_joined|exact P]. }
  destruct verbose; cbn [app mapM bind]; apply Good; exists (join [blank] ts), (join [blank] tt); (split; [apply join_joined|]); (split; [apply join_joined|]); reflexivity.
Qed.
Lemma pairs_ends delimiter verbose c : ends delimiter verbose (flat_map (fun p => map (row p) (aligned p)) c) (extract_phrases blank newline delimiter verbose c).
Proof.
  induction c as [|p c IH]; [exists [], []; split; [reflexivity|split; [constructor|left; now split]]|]. cbn [flat_map Phrases_model.extract_phrases].
  pose proof (align_ends delimiter verbose p (aligned p)) as A. destruct (print_alignments _ _ _ _ _ _) as [o x]. pose proof (ends_app A IH) as B. destruct x; exact B.
Qed.
Lemma files_ends delimiter verbose files : ends delimiter verbose (rows files) (main blank newline delimiter verbose files).
Proof.
  induction files as [|f files IH]; [exists [], []; split; [reflexivity|split; [constructor|left; now split]]|]. cbn [Phrases_model.main]. unfold rows. cbn [flat_map]. fold (rows files). destruct f as [c|x].
  - pose proof (pairs_ends delimiter verbose c) as A. destruct (extract_phrases _ _ _ _ _) as [o x]. pose proof (ends_app A IH) as B. destruct x; exact B.
  - exists [], (Err x :: rows files). split; [reflexivity|]. split; [constructor|]. right. eexists _, _. split; reflexivity.
Qed.
(** Reading back. *)
Lemma piece (c : char) a : forall b x y, ~ In c a -> ~ In c b -> a ++ c :: x = b ++ c :: y -> a = b /\ x = y.
Proof.
  induction a as [|h a IH]; intros [|k b] x y A B E; cbn [app] in E.
  - injection E as ->. now split.
  - injection E as <- _. exfalso. apply B. now left.
  - injection E as -> _. exfalso. apply A. now left.
  - injection E as -> E. destruct (IH b x y) as [-> ->]; [intros I; apply A; now right|intros I; apply B; now right|exact E|now split].
Qed.
Lemma piece_end (c : char) a b y : ~ In c a -> a = b ++ c :: y -> False.
Proof. intros A ->. apply A. apply in_or_app. right. now left. Qed.
Lemma join_inj (c : char) xs : forall ys, Forall (fun w => ~ In c w) xs -> Forall (fun w => ~ In c w) ys -> xs <> [] -> ys <> [] -> join [c] xs = join [c] ys -> xs = ys.
Proof.
  induction xs as [|x xs IH]; [congruence|]. intros [|y ys] X Y _ N E; [congruence|]. inversion X as [|? ? X1 X2]; subst. inversion Y as [|? ? Y1 Y2]; subst.
  destruct xs as [|x' xs], ys as [|y' ys].
  - cbn in E. now subst.
  - exfalso. cbn [Phrases_model.join] in E. change ([c] ++ join [c] (y' :: ys)) with (c :: join [c] (y' :: ys)) in E. exact (piece_end _ _ _ X1 E).
  - exfalso. cbn [Phrases_model.join] in E. symmetry in E. exact (piece_end _ _ _ Y1 E).
  - change (x ++ c :: join [c] (x' :: xs) = y ++ c :: join [c] (y' :: ys)) in E. destruct (piece _ _ _ _ _ X1 Y1 E) as [-> E']. f_equal. apply IH; [exact X2|exact Y2|discriminate|discriminate|exact E'].
Qed.
Lemma join_in (sep : text) l c : In c (join sep l) -> In c sep \/ exists w, In w l /\ In c w.
Proof.
  induction l as [|x [|y l] IH]; [intros []|intros I; right; exists x; split; [now left|exact I]|]. change (join sep (x :: y :: l)) with (x ++ sep ++ join sep (y :: l)). intros I.
  apply in_app_or in I. destruct I as [I|I]; [right; exists x; split; [now left|exact I]|]. apply in_app_or in I. destruct I as [I|I]; [now left|]. destruct (IH I) as [H|(w & W & H)]; [now left|]. right. exists w. split; [now right|exact H].
Qed.
Lemma tokens_inj xs ys : Forall (fun w : text => w <> [] /\ ~ In blank w) xs -> Forall (fun w : text => w <> [] /\ ~ In blank w) ys -> join [blank] xs = join [blank] ys -> xs = ys.
Proof.
  intros X Y E. assert (Z : forall l, Forall (fun w : text => w <> [] /\ ~ In blank w) l -> join [blank] l = [] -> l = []).
  { intros [|w [|v l]] F Q; [reflexivity| |]; inversion F as [|? ? [W _] _]; subst; cbn in Q; [contradiction|destruct w; [contradiction|discriminate]]. }
  destruct xs as [|x xs]; [symmetry; apply Z; [exact Y|symmetry; exact E]|]. destruct ys as [|y ys]; [apply Z; [exact X|exact E]|].
  apply (@join_inj blank); [eapply Forall_impl; [|exact X]; intros w [_ W]; exact W|eapply Forall_impl; [|exact Y]; intros w [_ W]; exact W|discriminate|discriminate|exact E].
Qed.
Lemma phrase_clean d ts : d <> blank -> newline <> blank -> Forall (clean_token blank newline d) ts -> clean_cell newline d (join [blank] ts).
Proof.
  intros D N F. split; intros I; apply join_in in I; (destruct I as [[I|[]]|(w & W & I)]; [congruence|]); rewrite Forall_forall in F; destruct (F w W) as (_ & _ & A & B); [now apply A|now apply B].
Qed.
Definition cells (verbose : bool) (e : entry) : list text :=
  (if verbose then [r_source_path e; r_target_path e; r_source_id e; r_target_id e; r_source e; r_target e] else []) ++
  [join [blank] (source_tokens e); relation e; join [blank] (target_tokens e)].
Lemma columns_cells verbose e cols : columns blank verbose e cols -> cols = cells verbose e.
Proof. intros (s & t & S & T & ->). apply joined_fun in S, T. subst. reflexivity. Qed.
Lemma cells_clean d verbose e : d <> blank -> newline <> blank -> clean blank newline d e -> Forall (clean_cell newline d) (cells verbose e).
Proof.
  intros D N (A & B & C & C1 & C2 & C3 & C4 & C5 & C6). unfold cells. apply Forall_app. split; [destruct verbose; repeat (constructor; try assumption)|].
  constructor; [now apply phrase_clean|]. constructor; [exact B|]. constructor; [now apply phrase_clean|constructor].
Qed.
Lemma line_clean d verbose e : d <> blank -> newline <> blank -> d <> newline -> clean blank newline d e -> ~ In newline (join [d] (cells verbose e)).
Proof.
  intros D N DN C I. apply join_in in I. pose proof (cells_clean verbose D N C) as F. rewrite Forall_forall in F. destruct I as [[I|[]]|(w & W & I)]; [congruence|]. destruct (F w W) as [_ B]. now apply B.
Qed.
Lemma cells_inj d verbose e f : clean blank newline d e -> clean blank newline d f -> cells verbose e = cells verbose f -> shown e = shown f /\ (verbose = true -> e = f).
Proof.
  intros (A & _ & C & _) (A' & _ & C' & _) E.
  assert (T : forall ts, Forall (clean_token blank newline d) ts -> Forall (fun w : text => w <> [] /\ ~ In blank w) ts) by (intros ts; apply Forall_impl; intros w (W1 & W2 & _); now split).
  apply T in A, C, A', C'. unfold cells in E. destruct e as [a1 a2 a3 a4 a5 a6 s r t], f as [b1 b2 b3 b4 b5 b6 s' r' t']. cbn [r_source_path r_target_path r_source_id r_target_id r_source r_target source_tokens relation target_tokens] in *. unfold shown. cbn [source_tokens relation target_tokens].
  destruct verbose; cbn [app] in E; injection E; intros; repeat match goal with H : join _ _ = join _ _ |- _ => apply tokens_inj in H; [|assumption|assumption] end; subst; split; congruence.
Qed.
Lemma printed_inj d verbose es : forall es' out, d <> blank -> newline <> blank -> d <> newline -> Forall (clean blank newline d) es -> Forall (clean blank newline d) es' ->
  printed blank newline [d] verbose es out -> printed blank newline [d] verbose es' out -> map (@shown char) es = map (@shown char) es' /\ (verbose = true -> es = es').
Proof.
  induction es as [|e es IH]; intros es' out D N DN C C' H H'.
  - inversion H; subst. inversion H' as [|f fs cols line out1 K J P W O]; subst; [split; reflexivity|destruct line; discriminate].
  - inversion H as [|? ? cols line out1 K J P]; subst. inversion H' as [O|f fs cols' line' out2 K' J' P' W O]; subst; [destruct line; discriminate|].
    apply columns_cells in K, K'. apply joined_fun in J, J'. subst. inversion C as [|? ? C1 C2]; subst. inversion C' as [|? ? C1' C2']; subst.
    destruct (piece _ _ _ _ _ (line_clean verbose D N DN C1') (line_clean verbose D N DN C1) O) as [E <-].
    apply join_inj in E; [|eapply Forall_impl; [|apply (cells_clean verbose D N C1')]; intros w [W _]; exact W|eapply Forall_impl; [|apply (cells_clean verbose D N C1)]; intros w [W _]; exact W|destruct verbose; discriminate|destruct verbose; discriminate].
    symmetry in E. destruct (cells_inj _ C1 C1' E) as [S V]. destruct (IH fs out2 D N DN C2 C2' P P') as [S' V']. split; [cbn [map]; now rewrite S, S'|]. intros Q. now rewrite (V Q), (V' Q).
Qed.
End P.
