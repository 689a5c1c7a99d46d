(** Proofs about the help of a program: groups, and all of it. *)
From Coq Require Import Ascii String Lia.
From Verif Require Import Py Cmdline_spec Usage_spec Help_spec Usage_model Help_model Usage_proof Help_proof.
Open Scope string_scope.
Open Scope nat_scope.
Open Scope list_scope.

Lemma mapM_ok {X Y} (f : X -> res Y) l : forall ys, mapM f l = Ok ys -> Forall2 (fun x y => f x = Ok y) l ys.
Proof.
  induction l as [|x l IH]; intros ys; cbn [mapM]. { intros [= <-]. constructor. }
  destruct (f x) as [y|] eqn:F; [|easy]. cbn [bind]. destruct (mapM f l) as [ys'|]; [|easy]. intros [= <-]. constructor; [easy|now apply IH].
Qed.
Lemma mapM_all {X Y} (f : X -> res Y) l : (forall x, In x l -> exists y, f x = Ok y) -> exists ys, mapM f l = Ok ys.
Proof.
  induction l as [|x l IH]; intros H; [now exists []|]. destruct (H x (or_introl eq_refl)) as (y & E). destruct IH as (ys & E2); [intros z I; apply H; now right|]. exists (y :: ys). cbn [mapM]. now rewrite E, E2.
Qed.
Lemma mapM_err {X Y} (f : X -> res Y) er l : (forall x, In x l -> (exists y, f x = Ok y) \/ f x = Err er) -> (exists x, In x l /\ f x = Err er) -> mapM f l = Err er.
Proof.
  induction l as [|x l IH]; intros H (z & I & E); [easy|]. cbn [mapM]. destruct (H x (or_introl eq_refl)) as [(y & Y1)|Y1]; rewrite Y1; [|easy]. cbn [bind].
  rewrite IH; [easy|intros a J; apply H; now right|]. destruct I as [->|I]; [congruence|]. now exists z.
Qed.

Definition ended (s : text) : Prop := s = [] \/ exists s', s = s' ++ [newline].
Lemma fl_ended a b : ended a -> full_lines (a ++ b) = full_lines a ++ full_lines b.
Proof.
  intros [->|(s & ->)]; [easy|]. rewrite <- app_assoc. cbn [app]. unfold full_lines at 1 2. rewrite (fl_app s [] b), (fl_app s [] []). unfold full_lines at 2. cbn [full_lines_from]. now rewrite app_nil_r.
Qed.
Section Wrap.
Variable wrap : text -> Z -> option (list text).
Hypothesis W : wraps wrap.
Definition plain_headings (es : list entry) : Prop := Forall (fun e => ~ In newline (heading (item e))) es.

Lemma items_spec w c es : 4 <= c -> plain_headings es -> forall xs, mapM (format_action wrap w c) es = Ok xs ->
  exists lss, Forall2 (entry_lines w c) es lss /\ concat xs = with_newlines (concat lss) /\ Forall (fun l => ~ In newline l /\ l <> []) (concat lss) /\ (es <> [] -> concat xs <> []).
Proof.
  intros C P xs H. apply mapM_ok in H. induction H as [|e x es xs E F IH]. { exists []. split; [constructor|]. split; [easy|]. split; [constructor|easy]. } inversion P as [|? ? P1 P2]; subst. destruct (IH P2) as (lss & A & B & D & _).
  destruct (action_spec wrap w c e W C P1) as (S & _). destruct (S _ E) as (ls & A1 & B1 & D1). exists (ls :: lss). split; [now constructor|]. cbn [concat]. rewrite wn_app, <- B, <- B1. split; [easy|]. split; [now apply Forall_app|].
  intros _ Q. apply app_eq_nil in Q as (Q & _). rewrite B1 in Q. inversion A1; subst; discriminate.
Qed.
Lemma section_spec w c title es x : (es = [] \/ 4 <= c) -> plain_headings es -> ~ In newline title -> format_section wrap w c title es = Ok x ->
  exists gl, group_lines w c title es gl /\ full_lines x = gl /\ ended x.
Proof.
  unfold format_section. intros C P T. destruct C as [->|C]. { intros [= <-]. exists []. split; [constructor|]. split; [easy|now left]. }
  destruct (mapM _ es) as [xs|] eqn:M; [|easy]. cbn [bind]. destruct (items_spec w c es C P xs M) as (lss & A & B & D & N). destruct es as [|e es].
  { cbn in M. injection M as <-. intros [= <-]. exists []. split; [constructor|]. split; [easy|now left]. }
  destruct (concat xs) as [|c0 r] eqn:Q; [now exfalso; apply N|]. rewrite <- Q in *. assert (concat xs <> []) as Q' by (now rewrite Q). intros [= <-].
  exists ((title ++ chars ":") :: concat lss). split; [now constructor|]. split.
  - change "010"%char with newline. replace (newline :: title ++ ":"%char :: newline :: concat xs ++ [newline]) with ([] ++ newline :: (title ++ chars ":") ++ newline :: concat xs ++ repeat newline 1) by (cbn; now rewrite <- app_assoc).
    unfold full_lines at 1. rewrite fl_app. cbn [full_lines_from app]. rewrite fl_line.
    + f_equal. unfold full_lines. rewrite fl_trail. fold (full_lines (concat xs)). rewrite B. now apply fl_lines.
    + intros I. apply in_app_or in I as [I|[I|[]]]; [easy|discriminate].
    + now destruct title.
  - right. exists ("010"%char :: title ++ ":"%char :: "010"%char :: concat xs). cbn. now rewrite <- app_assoc.
Qed.
Lemma usage_ended w prog l p u : format_usage_item w prog l p = Some u -> (exists u', u = u' ++ [newline]) /\ u <> [].
Proof.
  unfold format_usage_item. intros H. assert (exists u', u = u' ++ ["010"%char; "010"%char]) as (u' & ->).
  { destruct l. { injection H as <-. exists (p ++ prog). now rewrite <- app_assoc. } cbv zeta in H. destruct (_ >? _)%Z.
    - destruct (text_same _ _); [|easy]. destruct (text_same _ _); [|easy]. injection H as <-. eexists. rewrite app_assoc. reflexivity.
    - injection H as <-. eexists. rewrite app_assoc. reflexivity. }
  split; [|now destruct u']. exists (u' ++ [newline]). now rewrite <- app_assoc.
Qed.
Lemma ended_text d : ended (format_text d).
Proof. destruct d as [s|]; [right|now left]. exists (s ++ [newline]). cbn. now rewrite <- app_assoc. Qed.
Lemma fl_text d : full_lines (format_text d) = given_lines d.
Proof. destruct d as [s|]; [|easy]. unfold given_lines, format_text. change ["010"%char; "010"%char] with (repeat newline 2). unfold full_lines. apply fl_trail. Qed.
Lemma operands_eq es : filter (fun e => match spellings (arg (item e)) with [] => true | _ => false end) es = operands es.
Proof. reflexivity. Qed.
Lemma options_eq es : filter (fun e => match spellings (arg (item e)) with [] => false | _ => true end) es = options es.
Proof. apply filter_ext. intros e. unfold positional. now destruct (spellings (arg (item e))). Qed.
Lemma heads_filter f es : plain_headings es -> plain_headings (filter f es).
Proof. unfold plain_headings. rewrite !Forall_forall. intros H e I. apply filter_In in I as (I & _). now apply H. Qed.
Lemma column_4 es : 4 <= column es. Proof. unfold column. lia. Qed.
Lemma help_column es : es = [] \/ Nat.min (fold_left add_argument es 0 + 2) 24 = column es.
Proof. destruct es as [|e es]; [now left|right; now apply the_column]. Qed.

Lemma help_all to_int cols prog d ep es out : plain_headings es -> format_help wrap to_int cols prog d ep es = Ok out ->
  exists u a b, format_usage_item (formatter_width to_int cols) prog (map item es) (chars "usage: ") = Some u /\
    group_lines (formatter_width to_int cols) (column es) (chars "positional arguments") (operands es) a /\
    group_lines (formatter_width to_int cols) (column es) (chars "optional arguments") (options es) b /\
    full_lines out = full_lines u ++ given_lines d ++ a ++ b ++ given_lines ep /\ tidy out.
Proof.
  intros P. unfold format_help. cbv zeta. set (w := formatter_width to_int cols). destruct (format_usage_item w prog (map item es) (chars "usage: ")) as [u|] eqn:U; [|easy]. rewrite operands_eq, options_eq.
  assert (forall t f, ~ In newline t -> forall x, format_section wrap w (Nat.min (fold_left add_argument es 0 + 2) 24) t (filter f es) = Ok x ->
    exists gl, group_lines w (column es) t (filter f es) gl /\ full_lines x = gl /\ ended x) as S.
  { intros t f T x H. destruct (help_column es) as [->|E].
    - injection H as <-. exists []. split; [constructor|]. split; [easy|now left].
    - rewrite E in H. apply section_spec in H; [easy|right; apply column_4|now apply heads_filter|easy]. }
  destruct (format_section wrap w _ _ (operands es)) as [xa|] eqn:A; [|easy]. cbn [bind]. destruct (format_section wrap w _ _ (options es)) as [xb|] eqn:B; [|easy]. cbn [bind]. intros [= <-].
  apply S in A as (a & A1 & A2 & A3); [|cbn; intuition discriminate]. apply S in B as (b & B1 & B2 & B3); [|cbn; intuition discriminate].
  destruct (usage_ended _ _ _ _ _ U) as ((u' & U1) & U2).
  exists u, a, b. split; [easy|]. split; [easy|]. split; [easy|]. split.
  - rewrite fl_help, !fl_ended by (try easy; try apply ended_text; right; now exists u'). now rewrite !fl_text, A2, B2.
  - apply help_tidy. intros Q. apply app_eq_nil in Q as (Q & _). easy.
Qed.

Lemma section_ok w c t es : (es = [] \/ 4 <= c) -> plain_headings es -> ((exists x, format_section wrap w c t es = Ok x) <-> Forall (good w c) es).
Proof.
  intros C P. destruct C as [->|C]. { split; [constructor|]. intros _. now exists []. }
  unfold format_section. assert (forall e, In e es -> (good w c e <-> exists x, format_action wrap w c e = Ok x)) as S.
  { intros e I. unfold plain_headings in P. rewrite Forall_forall in P. now apply (action_spec wrap w c e W C (P e I)). }
  rewrite Forall_forall. split.
  - intros (x & H) e I. destruct (mapM _ es) as [xs|] eqn:M; [|easy]. apply mapM_ok in M. apply S; [easy|]. clear - M I. induction M as [|e' y es ys E M IH]; [easy|]. destruct I as [->|I]; [now exists y|now apply IH].
  - intros G. destruct (mapM_all (format_action wrap w c) es) as (xs & M). { intros e I. apply S; [easy|now apply G]. } rewrite M. cbn [bind]. destruct (concat xs); eexists; reflexivity.
Qed.
Lemma split_entries es (Q : entry -> Prop) : Forall Q es <-> Forall Q (operands es) /\ Forall Q (options es).
Proof.
  rewrite !Forall_forall. split.
  - intros H. split; intros e I; apply filter_In in I as (I & _); now apply H.
  - intros (A & B) e I. destruct (positional (arg (item e))) eqn:P; [apply A|apply B]; apply filter_In; (split; [easy|]); now rewrite P.
Qed.
Lemma help_ok to_int cols prog d ep es : plain_headings es ->
  ((exists out, format_help wrap to_int cols prog d ep es = Ok out) <->
   format_usage_item (formatter_width to_int cols) prog (map item es) (chars "usage: ") <> None /\ Forall (good (formatter_width to_int cols) (column es)) es).
Proof.
  intros P. rewrite (split_entries es). unfold format_help. cbv zeta. set (w := formatter_width to_int cols). rewrite operands_eq, options_eq.
  assert (forall t f, (exists x, format_section wrap w (Nat.min (fold_left add_argument es 0 + 2) 24) t (filter f es) = Ok x) <-> Forall (good w (column es)) (filter f es)) as S.
  { intros t f. destruct (help_column es) as [->|E]. - split; [constructor|]. intros _. now exists []. - rewrite E. apply section_ok; [right; apply column_4|now apply heads_filter]. }
  destruct (format_usage_item w prog (map item es) (chars "usage: ")) as [u|] eqn:U; [|split; [now intros (x & Q)|easy]].
  unfold operands, options. rewrite <- (S (chars "positional arguments")), <- (S (chars "optional arguments")). split.
  - intros (x & H). split; [easy|]. destruct (format_section wrap w _ _ (filter (fun e => positional _) es)) as [xa|]; [|easy]. split; [now exists xa|]. cbn [bind] in H. destruct (format_section wrap w _ _ (filter _ es)) as [xb|]; [|easy]. now exists xb.
  - intros (_ & (a & A) & (b & B)). rewrite A. cbn [bind]. rewrite B. cbn [bind]. eexists. reflexivity.
Qed.
Definition expands (e : entry) : Prop := helped e -> exists s s', help e = Some s /\ filled_in (attribute e) s s'.
Lemma section_err er w c t es : 4 <= c -> plain_headings es -> (forall e, In e es -> (exists x, format_action wrap w c e = Ok x) \/ format_action wrap w c e = Err er) ->
  (exists e, In e es /\ format_action wrap w c e = Err er) -> format_section wrap w c t es = Err er.
Proof. intros C P A B. unfold format_section. now rewrite (mapM_err _ er es A B). Qed.
Lemma section_fine w c t es : (forall e, In e es -> exists x, format_action wrap w c e = Ok x) -> exists x, format_section wrap w c t es = Ok x.
Proof. intros H. unfold format_section. destruct (mapM_all _ _ H) as (xs & ->). cbn [bind]. destruct (concat xs); eexists; reflexivity. Qed.
Lemma help_err er to_int cols prog d ep es : plain_headings es -> format_usage_item (formatter_width to_int cols) prog (map item es) (chars "usage: ") <> None ->
  (forall e, In e es -> (exists x, format_action wrap (formatter_width to_int cols) (column es) e = Ok x) \/ format_action wrap (formatter_width to_int cols) (column es) e = Err er) ->
  (exists e, In e es /\ format_action wrap (formatter_width to_int cols) (column es) e = Err er) -> format_help wrap to_int cols prog d ep es = Err er.
Proof.
  intros P U A (e & I & E). unfold format_help. cbv zeta. set (w := formatter_width to_int cols) in *. rewrite operands_eq, options_eq. destruct (format_usage_item w prog (map item es) (chars "usage: ")) as [u|]; [clear U|easy].
  rewrite the_column by (now destruct es). unfold operands, options.
  assert (forall t f, (exists x, format_section wrap w (column es) t (filter f es) = Ok x) \/ format_section wrap w (column es) t (filter f es) = Err er) as S.
  { intros t f. destruct (existsb (fun e => match format_action wrap w (column es) e with Ok _ => false | Err _ => true end) (filter f es)) eqn:X.
    - right. apply existsb_exists in X as (z & Z1 & Z2). apply section_err; [apply column_4|now apply heads_filter|intros y Y; apply A; now apply filter_In in Y|]. exists z. split; [easy|]. apply filter_In in Z1 as (Z1 & _). destruct (A z Z1) as [(x & Q)|Q]; [|easy]. now rewrite Q in Z2.
    - left. apply section_fine. intros y Y. pose proof Y as Y0. apply filter_In in Y as (Y & _). destruct (A y Y) as [Q|Q]; [easy|]. assert (existsb (fun e => match format_action wrap w (column es) e with Ok _ => false | Err _ => true end) (filter f es) = true) by (apply existsb_exists; exists y; now rewrite Q). congruence. }
  assert (forall t f, f e = true -> format_section wrap w (column es) t (filter f es) = Err er) as T.
  { intros t f F. apply section_err; [apply column_4|now apply heads_filter|intros y Y; apply A; now apply filter_In in Y|]. exists e. split; [|easy]. now apply filter_In. }
  destruct (positional (arg (item e))) eqn:PO.
  - now rewrite (T (chars "positional arguments") (fun e => positional (arg (item e))) PO).
  - destruct (S (chars "positional arguments") (fun e => positional (arg (item e)))) as [(x & ->)| ->]; [|easy]. cbn [bind]. rewrite T; [easy|]. now rewrite PO.
Qed.
End Wrap.
