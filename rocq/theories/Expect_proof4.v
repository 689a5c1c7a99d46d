(** read(), readline() and readlines(). *)
From Coq Require Import Ascii Lia.
From Verif Require Import Py Expect_spec Expect_model Expect_proof Expect_proof2 Expect_proof3.
Open Scope nat_scope.
Open Scope list_scope.

(** one string, searched as a regular expression *)
Lemma beginning_0 : forall b, beginning b (Z.of_nat 0) = 0.
Proof. reflexivity. Qed.
Lemma literal_spec : forall s b n e, literal s b 0 = Some (n, e) <-> (occurs s b n /\ e = n + length s /\ forall m, occurs s b m -> n <= m).
Proof.
  intros s b n e. unfold literal. destruct (find_from b s (Z.of_nat 0)) as [k|] eqn:F.
  - destruct (find_from_Some _ _ _ _ F) as (_ & O & C). rewrite beginning_0 in C. split.
    + intros [= -> <-]. split; [exact O|]. split; [reflexivity|]. intros m Om. apply C; [lia|exact Om].
    + intros (O' & -> & C'). specialize (C n (Nat.le_0_l _) O'). specialize (C' k O). replace k with n by lia. reflexivity.
  - split; [discriminate|]. intros (O & _). exfalso. apply (find_from_None _ _ _ F n); [rewrite beginning_0; lia|exact O].
Qed.
Lemma literal_none : forall s b, literal s b 0 = None -> forall n, ~ occurs s b n.
Proof.
  intros s b E n O. unfold literal in E. destruct (find_from b s (Z.of_nat 0)) eqn:F; [discriminate|].
  apply (find_from_None _ _ _ F n); [rewrite beginning_0; lia|exact O].
Qed.
Lemma chosen_one : forall p b i n e, chosen [p; AtEof] b i n e <->
  (i = 0 /\ matches p b n e /\ n < length b /\ forall m f, matches p b m f -> m < length b -> n <= m).
Proof.
  intros p b i n e. split.
  - intros ((q & Hq & M) & L & C). destruct i as [|[|i]]; [|cbn in Hq; injection Hq as <-; contradiction|destruct i; discriminate].
    cbn in Hq. injection Hq as <-. split; [reflexivity|]. split; [exact M|]. split; [exact L|]. intros m f Mm Lm.
    destruct (C 0 p m f eq_refl Mm Lm); lia.
  - intros (-> & M & L & C). split; [exists p; auto|]. split; [exact L|]. intros [|[|j]] q m f Hq Mq Lm.
    + cbn in Hq. injection Hq as <-. specialize (C m f Mq Lm). lia.
    + cbn in Hq. injection Hq as <-. contradiction.
    + destruct j; discriminate.
Qed.
Lemma nothing_one : forall p b, nothing [p; AtEof] b <-> forall m f, matches p b m f -> length b <= m.
Proof.
  intros p b. split.
  - intros N m f M. exact (N 0 p m f eq_refl M).
  - intros H [|[|j]] q m f Hq Mq; [cbn in Hq; injection Hq as <-; eauto|cbn in Hq; injection Hq as <-; contradiction|destruct j; discriminate].
Qed.
Lemma literal_chosen : forall s b i n e, s <> [] -> chosen [Re (literal s); AtEof] b i n e -> chosen [Str s; AtEof] b i n e.
Proof.
  intros s b i n e Ns H. apply chosen_one in H as (-> & M & L & _). apply chosen_one. cbn in M. apply literal_spec in M as (O & -> & C).
  split; [reflexivity|]. split; [split; [exact O|reflexivity]|]. split; [exact L|]. intros m f [Om _] _. apply C. exact Om.
Qed.
Lemma literal_nothing : forall s b, s <> [] -> nothing [Re (literal s); AtEof] b -> forall n, ~ occurs s b n.
Proof.
  intros s b Ns H n O. rewrite nothing_one in H. destruct (literal s b 0) as [[k e]|] eqn:E.
  - specialize (H k e E). apply literal_spec in E as (Ok & _). apply occurs_length in Ok. destruct s; [congruence|]. cbn in Ok. lia.
  - exact (literal_none _ _ E n O).
Qed.

(** reading in time *)
Definition within (lim : option Z) (now : Z) (cs : list (text * Z)) : Prop :=
  match lim with None => True | Some d => (0 <= d)%Z /\ exists base, (base <= now)%Z /\ forall c t, In (c, t) cs -> (base <= t <= base + d)%Z end.
Lemma prompt_within : forall lim now cs u, prompt lim now (arrives cs u) -> within lim now cs.
Proof.
  intros [d|] now cs u P; [|exact I]. destruct P as [A B]. split; [exact A|]. exists now. split; [lia|]. intros c t H. apply (B c t).
  unfold arrives, pieces. apply in_or_app. left. exact (in_map (fun x => Chunk (fst x) (snd x)) cs (c, t) H).
Qed.
Lemma within_deadline : forall tm st now cs, within (limit tm st) now cs ->
  too_late (deadline tm st now) now = false /\ forall c v, In (c, v) cs -> too_late (deadline tm st now) v = false.
Proof.
  intros tm st now cs P. unfold deadline. destruct (limit tm st) as [d|]; [|split; reflexivity]. cbn in *. destruct P as (P0 & base & Lb & P).
  split; [apply Z.ltb_ge; lia|]. intros c v I. apply Z.ltb_ge. specialize (P c v I). lia.
Qed.
Lemma loop_time : forall search w dl cs u b fresh now a t rest, loop search w dl b fresh now (arrives cs u) = (a, t, rest) ->
  t = now \/ (exists c, In (c, t) cs) \/ exists b', a = Ended b'.
Proof.
  intros search w dl. induction cs as [|[c v] cs IH]; intros u b fresh now a t rest E; cbn in E;
    (destruct (search b fresh w) as [[[i n] e]|]; [injection E as <- <- <-; auto|]);
    (destruct (match dl with Some d => (d - now <? 0)%Z | None => false end); [injection E as <- <- <-; auto|]).
  - injection E as <- <- <-. right. right. exists b. reflexivity.
  - destruct (IH _ _ _ _ _ _ _ E) as [->|[[c' I]|H]]; right; [left; exists c; left; reflexivity|left; exists c'; right; exact I|right; exact H].
Qed.
Lemma expect_arrives : forall ps st now cs u o st' t rest, regexy ps -> window st = None -> within (timeout st) now cs ->
  expect ps (Some (-1)%Z) None st now (arrives cs u) = (o, st', t, rest) ->
  exists a c1 c2, cs = c1 ++ c2 /\ rest = arrives c2 u /\ end_of a = buffer st ++ output c1 /\ seen ps st a o st' /\ within (timeout st) t c2 /\
    match a with Found i n e b' => chosen ps b' i n e | Ended b' => c2 = [] /\ nothing ps b' | _ => False end.
Proof.
  intros ps st now cs u o st' t rest Rg W P E. destruct (expect_loop_inv _ _ _ _ _ _ _ _ _ _ _ E) as (a & L & F). cbn [match_index] in L. rewrite W in L.
  assert (A : answers ps (deadline (Some (-1)%Z) st now) (buffer st) now (arrives cs u) a rest).
  { refine (loop_answers ps _ None _ _ _ _ _ _ _ _ _ _ L); [|intros old c v N _]; apply search_regexes_correct; exact Rg. }
  assert (P' : within (limit (Some (-1)%Z) st) now cs) by exact P. destruct (within_deadline _ _ _ _ P') as [D1 D2].
  destruct (arrives_answers _ _ _ _ _ _ _ _ D1 D2 A) as (c1 & c2 & Ec & Er & En & R). exists a, c1, c2.
  split; [exact Ec|]. split; [exact Er|]. split; [exact En|]. split; [exact (finish_seen _ _ _ _ _ F)|]. split; [|exact R].
  unfold within in *. change (limit (Some (-1)%Z) st) with (timeout st) in P'. destruct (timeout st) as [d|]; [|exact I].
  destruct P' as (P0 & base & Lb & Pc). split; [exact P0|]. subst cs.
  destruct (loop_time _ _ _ _ _ _ _ _ _ _ _ L) as [->|[[c I]|[b' ->]]].
  - exists base. split; [exact Lb|]. intros c v I. apply (Pc c v). apply in_or_app. right. exact I.
  - exists base. split; [apply (Pc c t I)|]. intros c' v I'. apply (Pc c' v). apply in_or_app. right. exact I'.
  - destruct R as [-> _]. exists t. split; [lia|]. intros c v [].
Qed.
Lemma regexy_pair : forall r, regexy [Re r; AtEof].
Proof. intros r s [H|[H|[]]]; discriminate. Qed.

Lemma part_0 : forall (b : text) e, part b 0 e = firstn e b.
Proof. intros b e. unfold part. rewrite Nat.sub_0_r. reflexivity. Qed.
Lemma read_some : forall size st now cs u, (0 < size)%Z -> window st = None -> within (timeout st) now cs ->
  exists st' t rest, read size st now (arrives cs u) = (Value (firstn (Z.to_nat size) (buffer st ++ output cs)), st', t, rest) /\
    to_come st' rest = skipn (Z.to_nat size) (buffer st ++ output cs).
Proof.
  intros size st now cs u Sz W P. unfold read. destruct (Z.eqb_spec size 0) as [Q|_]; [lia|]. destruct (Z.ltb_spec size 0) as [Q|_]; [lia|].
  set (k := Z.to_nat size). assert (Lk : 1 <= k) by (unfold k; lia).
  destruct (expect [Re (dots k); AtEof] (Some (-1)%Z) None st now (arrives cs u)) as [[[o st'] t] rest] eqn:E.
  destruct (expect_arrives _ _ _ _ _ _ _ _ _ (regexy_pair _) W P E) as (a & c1 & c2 & -> & -> & En & Sn & Wt & R).
  exists st', t, (arrives c2 u). unfold to_come. rewrite data_arrives, output_app, app_assoc, <- En.
  destruct a as [i n e b|b|b|b|b]; cbn [end_of] in *; try contradiction.
  - apply chosen_one in R as (-> & M & L & _). cbn in M. unfold dots in M. cbn [Nat.add] in M. destruct (Nat.leb_spec k (length b)) as [Lb|]; [|discriminate].
    injection M as <- <-. destruct Sn as (_ & _ & -> & Hb & _ & Ha & _). rewrite Ha, Hb, part_0, firstn_app_le, skipn_app_le by lia. auto.
  - destruct R as [-> N]. rewrite nothing_one in N. cbn [output map concat]. unfold output. cbn [map concat]. rewrite !app_nil_r.
    assert (Lb : length b < k \/ b = []).
    { destruct (Nat.lt_ge_cases (length b) k) as [Q|Q]; [left; exact Q|]. right. specialize (N 0 k). cbn in N. unfold dots in N. cbn [Nat.add] in N.
      destruct (Nat.leb_spec k (length b)); [|lia]. specialize (N eq_refl). destruct b; [reflexivity|cbn in N; lia]. }
    assert (Lb' : length b <= k) by (destruct Lb as [Q | ->]; [lia|cbn; lia]).
    rewrite firstn_all2, skipn_all2 by exact Lb'.
    destruct Sn as (_ & _ & Hb & Hf & _ & [(i & [Li _] & -> & _)|(Ni & _)]); [|exfalso; apply Ni; right; left; reflexivity].
    destruct i as [|i]; [discriminate|]. rewrite Hb, Hf. auto.
Qed.
Lemma read_all_l : forall size st now cs u, (size < 0)%Z -> window st = None -> within (timeout st) now cs ->
  exists st' t rest, read size st now (arrives cs u) = (Value (buffer st ++ output cs), st', t, rest) /\ to_come st' rest = [].
Proof.
  intros size st now cs u Sz W P. unfold read. destruct (Z.eqb_spec size 0) as [Q|_]; [lia|]. destruct (Z.ltb_spec size 0) as [_|Q]; [|lia].
  destruct (expect [AtEof] (Some (-1)%Z) None st now (arrives cs u)) as [[[o st'] t] rest] eqn:E.
  assert (Rg : regexy [AtEof]) by (intros s [H|[]]; discriminate).
  destruct (expect_arrives _ _ _ _ _ _ _ _ _ Rg W P E) as (a & c1 & c2 & -> & -> & En & Sn & Wt & R).
  exists st', t, (arrives c2 u). unfold to_come. rewrite data_arrives, output_app, app_assoc, <- En.
  destruct a as [i n e b|b|b|b|b]; cbn [end_of] in *; try contradiction.
  - exfalso. destruct R as ((p & Hp & M) & _). destruct i as [|[|i]]; try discriminate. cbn in Hp. injection Hp as <-. contradiction.
  - destruct R as [-> N]. unfold output. cbn [map concat]. rewrite !app_nil_r.
    destruct Sn as (_ & _ & Hb & Hf & _ & [(i & _ & -> & _)|(Ni & _)]); [|exfalso; apply Ni; left; reflexivity].
    rewrite Hb, Hf. auto.
Qed.

(** lines *)
Lemma readline_one : forall size st now cs u, size <> 0%Z -> window st = None -> within (timeout st) now cs ->
  exists l st' t c2, readline size st now (arrives cs u) = (Value l, st', t, arrives c2 u) /\
    timeout st' = timeout st /\ window st' = None /\ within (timeout st') t c2 /\
    l ++ (buffer st' ++ output c2) = buffer st ++ output cs /\
    (full_line l \/ ((forall n, ~ occurs crlf l n) /\ buffer st' ++ output c2 = [])).
Proof.
  intros size st now cs u Sz W P. unfold readline. destruct (Z.eqb_spec size 0) as [Q|_]; [contradiction|].
  destruct (expect [Re (literal crlf); AtEof] (Some (-1)%Z) None st now (arrives cs u)) as [[[o st'] t] rest] eqn:E.
  destruct (expect_arrives _ _ _ _ _ _ _ _ _ (regexy_pair _) W P E) as (a & c1 & c2 & -> & -> & En & Sn & Wt & R).
  assert (Keep : timeout st' = timeout st /\ window st' = None) by (destruct Sn as (A & B & _); rewrite A, B; auto). destruct Keep as [Kt Kw].
  rewrite output_app, app_assoc, <- En.
  destruct a as [i n e b|b|b|b|b]; cbn [end_of] in *; try contradiction.
  - apply chosen_one in R as (-> & M & L & _). cbn in M. apply literal_spec in M as (O & -> & C).
    destruct Sn as (_ & _ & -> & Hb & Hf & _). exists (before st' ++ crlf), st', t, c2.
    split; [reflexivity|]. split; [exact Kt|]. split; [exact Kw|]. split; [rewrite Kt; exact Wt|].
    assert (Eb : b = (firstn n b ++ crlf) ++ skipn (n + length crlf) b).
    { assert (O' := O). destruct O' as (x & v & Ev & Lx). rewrite Ev at 2 3. rewrite <- Lx.
      rewrite firstn_app, Nat.sub_diag, firstn_O, app_nil_r, firstn_all. rewrite (app_assoc x), <- app_length, skipn_app, skipn_all, Nat.sub_diag.
      cbn [app skipn]. rewrite <- app_assoc. exact Ev. }
    rewrite Hb, Hf. split; [rewrite app_assoc; rewrite <- Eb; reflexivity|].
    left. exists (firstn n b). split; [reflexivity|]. intros m Om. assert (Lm := occurs_length _ _ _ Om). rewrite app_length in Lm.
    assert (Ob : occurs crlf b m) by (rewrite Eb; apply occurs_app; exact Om). specialize (C m Ob). rewrite firstn_length in *. cbn in Lm. lia.
  - destruct R as [-> N]. destruct Sn as (_ & _ & Hb & Hf & _ & [(i & [Li _] & -> & _)|(Ni & _)]); [|exfalso; apply Ni; right; left; reflexivity].
    destruct i as [|i]; [discriminate|]. exists (before st'), st', t, [].
    split; [reflexivity|]. split; [exact Kt|]. split; [exact Kw|]. split; [rewrite Kt; exact Wt|].
    rewrite Hb, Hf. unfold output. cbn [map concat app]. split; [reflexivity|]. right. split; [|reflexivity].
    apply literal_nothing; [discriminate|exact N].
Qed.
Lemma full_line_ne : forall l, full_line l -> l <> [].
Proof. intros l (u & -> & _) E. apply app_eq_nil in E as [_ E]. discriminate. Qed.
Lemma readlines_l : forall n fuel acc st now cs u, length (buffer st ++ output cs) <= n -> n < fuel -> window st = None -> within (timeout st) now cs ->
  exists ls st' t rest, readlines fuel acc st now (arrives cs u) = Some (Value (acc ++ ls), st', t, rest) /\ lines_of ls (buffer st ++ output cs) /\ to_come st' rest = [].
Proof.
  induction n as [|n IH]; intros [|fuel] acc st now cs u L F W P; try lia; cbn [readlines];
    destruct (readline_one (-1)%Z st now cs u ltac:(discriminate) W P) as (l & st' & t & c2 & E & Kt & Kw & Wt & Wh & Sh); rewrite E.
  - assert (El : l = [] /\ buffer st' ++ output c2 = []).
    { apply app_eq_nil. rewrite Wh. apply length_zero_iff_nil. lia. }
    destruct El as [-> El]. exists [], st', t, (arrives c2 u). rewrite app_nil_r. split; [reflexivity|].
    rewrite <- Wh, El. split; [|unfold to_come; rewrite data_arrives; exact El]. split; [reflexivity|]. exists [], []. auto.
  - destruct l as [|c l].
    + destruct Sh as [H|[_ El]]; [exfalso; exact (full_line_ne _ H eq_refl)|]. exists [], st', t, (arrives c2 u). rewrite app_nil_r. split; [reflexivity|].
      rewrite <- Wh, El. split; [|unfold to_come; rewrite data_arrives; exact El]. split; [reflexivity|]. exists [], []. auto.
    + assert (Ln : length (buffer st' ++ output c2) <= n) by (rewrite <- Wh in L; cbn [app length] in L; rewrite app_length in L; lia).
      destruct (IH fuel (acc ++ [c :: l]) st' t c2 u Ln ltac:(lia) Kw Wt) as (ls & st2 & t2 & rest & E2 & (Hc & full & last & -> & Hf & Hl) & To).
      exists ((c :: l) :: full ++ last), st2, t2, rest. split; [cbn iota beta; refine (eq_trans E2 _); rewrite <- app_assoc; reflexivity|]. split; [|exact To].
      split; [cbn [concat]; rewrite Hc; exact Wh|].
      destruct Sh as [H|[H El]].
      * exists ((c :: l) :: full), last. split; [reflexivity|]. split; [constructor; assumption|exact Hl].
      * rewrite El in Hc. assert (full = []). { destruct full as [|x full]; [reflexivity|]. inversion Hf; subst. cbn in Hc. apply app_eq_nil in Hc as [Hc _].
          exfalso. exact (full_line_ne _ H2 Hc). }
        assert (last = []). { destruct Hl as [->|(x & -> & [Nx _])]; [reflexivity|]. subst full. cbn in Hc. apply app_eq_nil in Hc as [Hc _]. contradiction. }
        subst. exists [], [c :: l]. split; [reflexivity|]. split; [constructor|]. right. exists (c :: l). split; [reflexivity|]. split; [discriminate|exact H].
Qed.

(** the lines of an output are determined *)
Lemma full_first : forall l m x y, full_line l -> full_line m -> l ++ x = m ++ y -> l = m.
Proof.
  assert (Half : forall l m x y, full_line l -> full_line m -> l ++ x = m ++ y -> length m <= length l).
  { intros l m x y (u & -> & Cu) (v & -> & Cv) E. destruct (Nat.le_gt_cases (length (v ++ crlf)) (length (u ++ crlf))) as [Q|Q]; [exact Q|exfalso].
    assert (O : occurs crlf ((v ++ crlf) ++ y) (length u)). { rewrite <- E, <- app_assoc. exists u, x. auto. }
    apply occurs_prefix in O; [|rewrite app_length in Q; cbn in Q; rewrite app_length in *; cbn in *; lia]. specialize (Cv _ O). rewrite !app_length in Q. lia. }
  intros l m x y Hl Hm E. assert (A := Half l m x y Hl Hm E). assert (B := Half m l y x Hm Hl (eq_sym E)).
  assert (C : firstn (length l) (l ++ x) = firstn (length l) (m ++ y)) by (rewrite E; reflexivity).
  rewrite firstn_app, Nat.sub_diag, firstn_O, app_nil_r, firstn_all in C.
  replace (length l) with (length m) in C by lia. rewrite firstn_app, Nat.sub_diag, firstn_O, app_nil_r, firstn_all in C. exact C.
Qed.
Lemma full_in_loose : forall l x y, full_line l -> loose_line (x ++ y) -> x ++ y = l ++ y -> False.
Proof. intros l x y (u & -> & _) [_ N] E. apply (N (length u)). rewrite E, <- app_assoc. exists u, y. auto. Qed.
Lemma lines_unique_l : forall b ls ms, lines_of ls b -> lines_of ms b -> ls = ms.
Proof.
  intros b ls. revert b. induction ls as [|l ls IH]; intros b ms (Hc & f & la & E & Hf & Hl) (Hc' & f' & la' & E' & Hf' & Hl').
  - cbn in Hc. subst b. destruct ms as [|m ms]; [reflexivity|exfalso]. cbn in Hc'. apply app_eq_nil in Hc' as [-> _].
    destruct f' as [|x f']; [cbn in E'; destruct Hl' as [->|(y & -> & [Ny _])]; [discriminate|injection E' as <- _; contradiction]|].
    injection E' as <- _. inversion Hf'; subst. exact (full_line_ne _ H1 eq_refl).
  - assert (Nl : l <> []). { destruct f as [|x f]; [cbn in E; destruct Hl as [->|(y & -> & [Ny _])]; [discriminate|injection E as -> _; exact Ny]|].
      injection E as <- _. inversion Hf; subst. apply full_line_ne. assumption. }
    destruct ms as [|m ms]. { cbn in Hc, Hc'. rewrite <- Hc' in Hc. apply app_eq_nil in Hc as [Hc _]. contradiction. }
    cbn [concat] in Hc, Hc'.
    destruct f as [|x f].
    + cbn in E. destruct Hl as [->|(y & -> & Ly)]; [discriminate|]. injection E as -> ->. cbn in Hc. rewrite app_nil_r in Hc. subst y.
      destruct f' as [|x' f'].
      * cbn in E'. destruct Hl' as [->|(y' & -> & _)]; [discriminate|]. injection E' as -> ->. cbn in Hc'. rewrite app_nil_r in Hc'. subst. reflexivity.
      * injection E' as <- _. inversion Hf' as [|? ? Hm _]; subst. exfalso. destruct Hm as (u & -> & _). destruct Ly as [_ N]. apply (N (length u)).
        rewrite <- app_assoc. exists u, (concat ms). auto.
    + injection E as <- E. inversion Hf as [|? ? Hl1 Hf1]; subst f. subst.
      destruct f' as [|x' f'].
      * cbn in E'. destruct Hl' as [->|(y' & -> & Ly)]; [discriminate|]. injection E' as -> ->. cbn in Hc'. rewrite app_nil_r in Hc'. exfalso.
        destruct Hl1 as (u & -> & _). destruct Ly as [_ N]. apply (N (length u)). rewrite Hc', <- app_assoc. exists u, (concat (l0 ++ la)). auto.
      * injection E' as <- E'. inversion Hf' as [|? ? Hm1 Hf1']; subst.
        assert (l = m) by (exact (full_first _ _ _ _ Hl1 Hm1 (eq_sym Hc'))). subst m. apply app_inv_head in Hc'. f_equal.
        apply (IH (concat (l0 ++ la))); [split; [reflexivity|]; eauto 10|split; [exact Hc'|]; eauto 10].
Qed.
