(** Command lines and programs. *)
From Coq Require Import String Ascii Lia.
From Verif Require Import Py Expect_spec Expect_model Expect_proof Expect_proof2 Expect_proof3 Expect_proof4 Runcmd_spec Runcmd_model.
Open Scope string_scope.
Open Scope nat_scope.
Open Scope list_scope.

Lemma eqc_spec : forall c d, eqc c d = true <-> c = d.
Proof. intros c d. unfold eqc. destruct (ascii_dec c d); split; congruence. Qed.
Lemma eqc_refl : forall c, eqc c c = true.
Proof. intros c. apply eqc_spec. reflexivity. Qed.
Lemma eqc_neq : forall c d, c <> d -> eqc c d = false.
Proof. intros c d N. unfold eqc. destruct (ascii_dec c d); congruence. Qed.
Lemma isspace_spec : forall c, isspace c = true <-> space c.
Proof.
  intros c. unfold isspace, space. cbn [In]. split.
  - intros H. apply orb_prop in H as [H|H]; [apply Nat.eqb_eq in H; auto|]. apply andb_prop in H as [A B]. apply Nat.leb_le in A, B. lia.
  - intros H. repeat (destruct H as [<-|H]; [reflexivity|]). destruct H.
Qed.
Lemma isspace_false : forall c, ~ space c -> isspace c = false.
Proof. intros c N. destruct (isspace c) eqn:E; [apply isspace_spec in E; contradiction|reflexivity]. Qed.
Lemma space_plain : forall c, space c -> eqc c backslash = false /\ eqc c apostrophe = false /\ eqc c quotation = false /\ isspace c = true.
Proof.
  intros c H. assert (S := proj2 (isspace_spec c) H).
  repeat split; [apply eqc_neq|apply eqc_neq|apply eqc_neq|exact S]; intros ->; unfold space in H; cbn in H; repeat destruct H as [H|H]; try discriminate; contradiction.
Qed.

Notation sst := (state * text * list text)%type.
Definition between (st : state) : Prop := st = Basic \/ st = Whitespace.
Lemma single_run : forall s arg args, ~ In apostrophe s -> fold_left split_step s (InSingle, arg, args) = (InSingle, arg ++ s, args).
Proof.
  induction s as [|c s IH]; intros arg args N; [rewrite app_nil_r; reflexivity|]. cbn [fold_left split_step].
  rewrite eqc_neq by (intros ->; apply N; left; reflexivity). rewrite IH by (intros H; apply N; right; exact H). rewrite <- app_assoc. reflexivity.
Qed.
Lemma double_run : forall s arg args, ~ In quotation s -> fold_left split_step s (InDouble, arg, args) = (InDouble, arg ++ s, args).
Proof.
  induction s as [|c s IH]; intros arg args N; [rewrite app_nil_r; reflexivity|]. cbn [fold_left split_step].
  rewrite eqc_neq by (intros ->; apply N; left; reflexivity). rewrite IH by (intros H; apply N; right; exact H). rewrite <- app_assoc. reflexivity.
Qed.
Lemma start_escape : forall st arg args, between st -> split_step (st, arg, args) backslash = (Esc, arg, args).
Proof. intros st arg args [->| ->]; reflexivity. Qed.
Lemma start_single : forall st arg args, between st -> split_step (st, arg, args) apostrophe = (InSingle, arg, args).
Proof. intros st arg args [->| ->]; reflexivity. Qed.
Lemma start_double : forall st arg args, between st -> split_step (st, arg, args) quotation = (InDouble, arg, args).
Proof. intros st arg args [->| ->]; reflexivity. Qed.
Lemma piece_run : forall p st arg args, fine p -> between st -> fold_left split_step (written p) (st, arg, args) = (Basic, arg ++ meant p, args).
Proof.
  intros p st arg args F B. destruct p as [c|c|s|s]; cbn [written meant].
  - destruct F as (A & C & D & E). cbn [fold_left]. unfold split_step. rewrite (eqc_neq c backslash A), (eqc_neq c apostrophe C), (eqc_neq c quotation D), (isspace_false c E).
    destruct B as [-> | ->]; reflexivity.
  - change (backslash :: [c]) with ([backslash] ++ [c]). rewrite fold_left_app. cbn [fold_left]. rewrite start_escape by exact B. reflexivity.
  - cbn [fold_left]. rewrite start_single by exact B. rewrite fold_left_app, single_run by exact F. reflexivity.
  - cbn [fold_left]. rewrite start_double by exact B. rewrite fold_left_app, double_run by exact F. reflexivity.
Qed.
Lemma pieces_run : forall w st arg args, Forall fine w -> between st ->
  fold_left split_step (write w) (st, arg, args) = (match w with [] => st | _ => Basic end, arg ++ mean w, args).
Proof.
  induction w as [|p w IH]; intros st arg args F B; [cbn; rewrite app_nil_r; reflexivity|].
  inversion F; subst. unfold write, mean in *. cbn [map concat]. rewrite fold_left_app, piece_run by assumption.
  rewrite IH by (auto; left; reflexivity). rewrite <- app_assoc. destruct w; reflexivity.
Qed.
Lemma space_run : forall s args, Forall space s -> fold_left split_step s (Whitespace, [], args) = (Whitespace, [], args).
Proof.
  induction s as [|c s IH]; intros args F; [reflexivity|]. inversion F as [|? ? Hc Fs]; subst. cbn [fold_left split_step].
  destruct (space_plain c Hc) as (-> & -> & -> & ->). apply IH. exact Fs.
Qed.
Lemma gap_run : forall s arg args, s <> [] -> Forall space s -> fold_left split_step s (Basic, arg, args) = (Whitespace, [], args ++ [arg]).
Proof.
  intros [|c s] arg args N F; [contradiction|]. inversion F as [|? ? Hc Fs]; subst. cbn [fold_left split_step].
  destruct (space_plain c Hc) as (-> & -> & -> & ->). apply space_run. exact Fs.
Qed.
Lemma words_run : forall ws st args, Forall (fun w => fst w <> [] /\ Forall fine (fst w) /\ snd w <> [] /\ Forall space (snd w)) ws -> between st ->
  exists st', between st' /\ fold_left split_step (concat (map (fun w => write (fst w) ++ snd w) ws)) (st, [], args) =
    (st', [], args ++ map (fun w => mean (fst w)) ws).
Proof.
  induction ws as [|[w s] ws IH]; intros st args F B; [exists st; split; [exact B|cbn; rewrite app_nil_r; reflexivity]|].
  inversion F as [|? ? (Nw & Fw & Ns & Fs) F']; subst. cbn [fst snd] in *. cbn [map concat fst snd].
  rewrite fold_left_app, fold_left_app, pieces_run by assumption. destruct w as [|p w]; [contradiction|]. cbn [app].
  rewrite gap_run by assumption. destruct (IH Whitespace (args ++ [mean (p :: w)]) F' (or_intror eq_refl)) as (st' & B' & E).
  exists st'. split; [exact B'|]. rewrite E, <- app_assoc. reflexivity.
Qed.
Lemma split_reads : forall l, proper_line l -> split_command_line (write_line l) = arguments l.
Proof.
  intros [ld ws la tl] (Fl & Fw & Fa & Ft). cbn [lead words final tail] in *. unfold split_command_line, write_line, arguments. cbn [lead words final tail].
  rewrite !fold_left_app.
  assert (E1 : exists st, between st /\ fold_left split_step ld (Basic, [], []) = (st, [], match ld with [] => [] | _ => [[]] end)).
  { destruct ld as [|c ld]; [exists Basic; split; [left|]; reflexivity|]. exists Whitespace. split; [right; reflexivity|]. apply gap_run; [discriminate|exact Fl]. }
  destruct E1 as (st1 & B1 & E1). rewrite E1.
  destruct (words_run ws st1 (match ld with [] => [] | _ => [[]] end) Fw B1) as (st2 & B2 & E2). unfold text in *. rewrite E2.
  rewrite pieces_run by assumption. cbn [app]. set (args := (match ld with [] => [] | _ => [[]] end) ++ map (fun w => mean (fst w)) ws).
  assert (E3 : exists st3, fold_left split_step (open_written tl) (match la with [] => st2 | _ => Basic end, mean la, args) = (st3, mean la ++ open_meant tl, args)).
  { assert (B : between (match la with [] => st2 | _ => Basic end)) by (destruct la; [exact B2|left; reflexivity]).
    destruct tl as [| |s|s]; cbn [open_written open_meant fold_left]; rewrite ?app_nil_r.
    - eexists. reflexivity.
    - rewrite start_escape by exact B. eexists. reflexivity.
    - rewrite start_single by exact B. rewrite single_run by exact Ft. eexists. reflexivity.
    - rewrite start_double by exact B. rewrite double_run by exact Ft. eexists. reflexivity. }
  destruct E3 as (st3 & E3). unfold text in *. unfold args in *. rewrite E3. destruct (mean la ++ open_meant tl) as [|c m]; rewrite <- ?app_assoc, ?app_nil_r; reflexivity.
Qed.

(** every line can be written so *)
Lemma write_snoc : forall w p, write (w ++ [p]) = write w ++ written p.
Proof. intros w p. unfold write. rewrite map_app, concat_app. cbn. rewrite app_nil_r. reflexivity. Qed.
Definition spaced (w : list piece * text) : Prop := fst w <> [] /\ Forall fine (fst w) /\ snd w <> [] /\ Forall space (snd w).
Lemma proper_snoc : forall ld ws la p, Forall space ld -> Forall spaced ws -> Forall fine la -> fine p ->
  exists l, proper_line l /\ write_line l = write_line {| lead := ld; words := ws; final := la; tail := Closed |} ++ written p.
Proof.
  intros ld ws la p A B C D. exists {| lead := ld; words := ws; final := la ++ [p]; tail := Closed |}. split.
  - split; [exact A|]. split; [exact B|]. split; [|exact I]. apply Forall_app. auto.
  - unfold write_line. cbn [lead words final tail open_written]. rewrite write_snoc, !app_nil_r, <- !app_assoc. reflexivity.
Qed.
Lemma space_snoc : forall ld ws la c, Forall space ld -> Forall spaced ws -> Forall fine la -> space c ->
  exists l, proper_line l /\ write_line l = write_line {| lead := ld; words := ws; final := la; tail := Closed |} ++ [c].
Proof.
  intros ld ws la c A B C D. destruct la as [|p la].
  - destruct ws as [|[w s] ws _] using rev_ind.
    + exists {| lead := ld ++ [c]; words := []; final := []; tail := Closed |}. split; [|unfold write_line; cbn; rewrite !app_nil_r; reflexivity].
      split; [apply Forall_app; auto|]. repeat split; auto.
    + apply Forall_app in B as [B1 B2]. inversion B2 as [|? ? (N1 & N2 & N3 & N4) _]; subst. cbn [fst snd] in *.
      exists {| lead := ld; words := ws ++ [(w, s ++ [c])]; final := []; tail := Closed |}. split.
      * split; [exact A|]. split; [|split; [exact C|exact I]]. apply Forall_app. split; [exact B1|]. constructor; [|constructor]. cbn. repeat split; auto.
        -- intros E. apply app_eq_nil in E as [_ E]. discriminate.
        -- apply Forall_app. auto.
      * unfold write_line. cbn [lead words final tail open_written]. rewrite !map_app, !concat_app. cbn [map concat fst snd]. rewrite !app_nil_r, <- !app_assoc. reflexivity.
  - exists {| lead := ld; words := ws ++ [(p :: la, [c])]; final := []; tail := Closed |}. split.
    + split; [exact A|]. split; [|split; [constructor|exact I]]. apply Forall_app. split; [exact B|]. constructor; [|constructor]. cbn. repeat split; auto; discriminate.
    + unfold write_line. cbn [lead words final tail open_written]. rewrite !map_app, !concat_app. cbn [map concat fst snd]. unfold write at 3. cbn [map concat].
      rewrite !app_nil_r, <- !app_assoc. reflexivity.
Qed.
Lemma every_line : forall s, exists l, proper_line l /\ write_line l = s.
Proof.
  induction s as [|c s (l & P & E)] using rev_ind.
  - exists {| lead := []; words := []; final := []; tail := Closed |}. repeat split; constructor.
  - destruct l as [ld ws la tl]. destruct P as (A & B & C & D). cbn [lead words final tail] in *. subst s.
    assert (E0 : forall o, write_line {| lead := ld; words := ws; final := la; tail := o |} =
      write_line {| lead := ld; words := ws; final := la; tail := Closed |} ++ open_written o).
    { intros o. unfold write_line. cbn [lead words final tail open_written]. rewrite !app_nil_r, <- !app_assoc. reflexivity. }
    assert (Op : forall o, open_fine o -> open_written tl ++ [c] = open_written o ->
      exists l, proper_line l /\ write_line l = write_line {| lead := ld; words := ws; final := la; tail := tl |} ++ [c]).
    { intros o Fo Eo. exists {| lead := ld; words := ws; final := la; tail := o |}. split; [repeat split; assumption|].
      rewrite (E0 o), (E0 tl), <- app_assoc, Eo. reflexivity. }
    assert (Cl : forall p, fine p -> open_written tl ++ [c] = written p ->
      exists l, proper_line l /\ write_line l = write_line {| lead := ld; words := ws; final := la; tail := tl |} ++ [c]).
    { intros p Fp Ep. destruct (proper_snoc ld ws la p A B C Fp) as (l & Pl & El). exists l. split; [exact Pl|]. rewrite El, (E0 tl), <- app_assoc, Ep. reflexivity. }
    destruct tl as [| |s|s]; cbn [open_written open_fine] in *.
    + destruct (ascii_dec c backslash) as [->|N1]; [exact (Op OpenEscape I eq_refl)|].
      destruct (ascii_dec c apostrophe) as [->|N2]; [exact (Op (OpenSingle []) (fun H => H) eq_refl)|].
      destruct (ascii_dec c quotation) as [->|N3]; [exact (Op (OpenDouble []) (fun H => H) eq_refl)|].
      destruct (isspace c) eqn:Q.
      * apply isspace_spec in Q. exact (space_snoc ld ws la c A B C Q).
      * apply (Cl (Plain c)); [|reflexivity]. repeat split; auto. intros H. apply isspace_spec in H. congruence.
    + exact (Cl (Escaped c) I eq_refl).
    + destruct (ascii_dec c apostrophe) as [->|N]; [exact (Cl (Single s) D eq_refl)|].
      apply (Op (OpenSingle (s ++ [c]))); [|reflexivity]. cbn [open_fine]. intros H. apply in_app_or in H as [H|[H|[]]]; [contradiction|congruence].
    + destruct (ascii_dec c quotation) as [->|N]; [exact (Cl (Double s) D eq_refl)|].
      apply (Op (OpenDouble (s ++ [c]))); [|reflexivity]. cbn [open_fine]. intros H. apply in_app_or in H as [H|[H|[]]]; [contradiction|congruence].
Qed.

(** programs *)
Lemma path_join_spec : forall d f, path_join d f = in_dir d f.
Proof.
  intros d f. unfold path_join, in_dir. assert (D : match rev d with [] => f | e :: _ => if eqc e slash then d ++ f else d ++ slash :: f end =
    if ascii_dec (List.last d slash) slash then d ++ f else d ++ slash :: f).
  { destruct d as [|e d _] using rev_ind; [reflexivity|]. rewrite rev_app_distr, last_last. cbn [rev app]. unfold eqc. destruct (ascii_dec e slash); reflexivity. }
  destruct f as [|c f]; cbn [hd].
  - destruct (ascii_dec colon slash) as [Q|_]; [discriminate|]. exact D.
  - unfold eqc at 1. destruct (ascii_dec c slash); [reflexivity|exact D].
Qed.
Lemma split_colon_spec : forall p, dirs_of (split_colon p) p.
Proof.
  induction p as [|c p (N & F & E)]; cbn [split_colon].
  - split; [discriminate|]. split; [repeat constructor; intros []|reflexivity].
  - unfold eqc. destruct (ascii_dec c colon) as [->|Nc].
    + split; [discriminate|]. split; [constructor; [intros []|exact F]|]. destruct (split_colon p) as [|d l]; [contradiction|].
      cbn [with_colons app]. rewrite E. reflexivity.
    + destruct (split_colon p) as [|d l]; [contradiction|]. split; [discriminate|]. inversion F; subst. split.
      * constructor; [|assumption]. intros [H|H]; [congruence|contradiction].
      * destruct l; cbn [with_colons app]; reflexivity.
Qed.
Lemma with_colons_inj : forall ds es, ds <> [] -> es <> [] -> Forall (fun d => ~ In colon d) ds -> Forall (fun d => ~ In colon d) es ->
  with_colons ds = with_colons es -> ds = es.
Proof.
  assert (Cut : forall d e x y : text, ~ In colon d -> ~ In colon e -> d ++ colon :: x = e ++ colon :: y -> d = e /\ x = y).
  { induction d as [|c d IH]; intros [|c' e] x y Nd Ne E; cbn in E.
    - injection E. auto.
    - injection E as <- _. exfalso. apply Ne. left. reflexivity.
    - injection E as -> _. exfalso. apply Nd. left. reflexivity.
    - injection E as -> E. destruct (IH e x y) as [-> ->]; auto; intros H; [apply Nd|apply Ne]; right; exact H. }
  assert (No : forall (d : text) x, ~ In colon (d ++ colon :: x) -> False) by (intros d x H; apply H, in_or_app; right; left; reflexivity).
  induction ds as [|d ds IH]; intros [|e es] Nd Ne Fd Fe E; try contradiction. inversion Fd as [|? ? Hd Fd']; inversion Fe as [|? ? He Fe']; subst.
  destruct ds as [|d2 ds], es as [|e2 es].
  - cbn in E. subst. reflexivity.
  - change (with_colons (e :: e2 :: es)) with (e ++ colon :: with_colons (e2 :: es)) in E. cbn [with_colons] in E. subst d. exfalso. exact (No _ _ Hd).
  - change (with_colons (d :: d2 :: ds)) with (d ++ colon :: with_colons (d2 :: ds)) in E. cbn [with_colons] in E. subst e. exfalso. exact (No _ _ He).
  - change (with_colons (d :: d2 :: ds)) with (d ++ colon :: with_colons (d2 :: ds)) in E.
    change (with_colons (e :: e2 :: es)) with (e ++ colon :: with_colons (e2 :: es)) in E. destruct (Cut _ _ _ _ Hd He E) as [-> E'].
    f_equal. apply IH; auto; discriminate.
Qed.
Lemma search_dirs_spec : forall access f ds,
  match search_dirs access ds f with
  | Some p => access p = true /\ exists a d b, ds = a ++ d :: b /\ p = in_dir d f /\ Forall (fun d' => access (in_dir d' f) = false) a
  | None => Forall (fun d => access (in_dir d f) = false) ds
  end.
Proof.
  intros access f. induction ds as [|d ds IH]; cbn [search_dirs]; [constructor|]. rewrite path_join_spec. cbn zeta.
  destruct (access (in_dir d f)) eqn:A.
  - split; [exact A|]. exists [], d, ds. auto.
  - destruct (search_dirs access ds f) as [p|]; [|constructor; assumption]. destruct IH as (Ap & a & d' & b & -> & E & F). split; [exact Ap|].
    exists (d :: a), d', b. split; [reflexivity|]. split; [exact E|constructor; assumption].
Qed.
Lemma has_dirname_spec : forall f, has_dirname f = true <-> In slash f.
Proof.
  intros f. unfold has_dirname. rewrite existsb_exists. split.
  - intros (c & H & E). apply eqc_spec in E. subst. exact H.
  - intros H. exists slash. split; [exact H|apply eqc_refl].
Qed.
Lemma search_path_split : forall env ds, search_path env ds -> split_colon (match env with Some (c :: p) => c :: p | _ => defpath end) = ds.
Proof.
  intros env ds S. assert (U : forall p, dirs_of ds p -> split_colon p = ds).
  { intros p (N & F & E). destruct (split_colon_spec p) as (N' & F' & E'). apply with_colons_inj; auto. congruence. }
  destruct env as [[|c p]|]; cbn in S; [subst; reflexivity|exact (U _ S)|subst; reflexivity].
Qed.
Lemma which_spec : forall access env ds f, search_path env ds ->
  match which access env f with Some p => program access ds f p | None => no_program access ds f end.
Proof.
  intros access env ds f S. unfold which. rewrite (search_path_split env ds S). destruct (has_dirname f && access f) eqn:Q.
  - apply andb_prop in Q as [A B]. apply has_dirname_spec in A. left. auto.
  - assert (N : In slash f -> access f = false). { intros H. apply has_dirname_spec in H. rewrite H in Q. exact Q. }
    assert (H := search_dirs_spec access f ds). destruct (search_dirs access ds f) as [p|]; [right|]; [destruct H as (Ap & a & d & b & H)|split; assumption].
    split; [exact N|]. split; [exact Ap|]. exists a, d, b. exact H.
Qed.
