(** What run() returns. *)
From Coq Require Import String Ascii Lia.
From Verif Require Import Py Expect_spec Expect_model Expect_proof Expect_proof2 Expect_proof3 Expect_proof4 Runcmd_spec Runcmd_model.
Open Scope string_scope.
Open Scope nat_scope.
Open Scope list_scope.

Lemma texts_regexy : forall ps, texts_only ps -> regexy ps.
Proof. intros ps T s H. destruct (T _ H) as (r & E & _). discriminate. Qed.
Lemma texts_no : forall ps, texts_only ps -> ~ In AtEof ps /\ ~ In AtTimeout ps.
Proof. intros ps T. split; intros H; destruct (T _ H) as (r & E & _); discriminate. Qed.
Lemma texts_sane : forall ps, texts_only ps -> forall r, In (Re r) ps -> sane r.
Proof. intros ps T r H. destruct (T _ H) as (r' & E & S). injection E as <-. exact S. Qed.
Lemma chosen_first : forall ps b i n e, regexy ps -> chosen ps b i n e -> exists r, In (Re r) ps /\ r b 0 = Some (n, e) /\ n < length b.
Proof.
  intros ps b i n e Rg ((p & Hp & M) & L & _). apply nth_error_In in Hp. destruct p as [s|r| |]; cbn in M; try contradiction; [exfalso; exact (Rg s Hp)|].
  exists r. auto.
Qed.
Lemma last_of_In : forall p ps i, last_of p ps i -> In p ps.
Proof. intros p ps i [H _]. exact (nth_error_In _ _ H). Qed.

Lemma pieces_app : forall a b, pieces (a ++ b) = pieces a ++ pieces b.
Proof. intros. apply map_app. Qed.
Lemma expect_texts : forall ps st now evs o st' t rest, texts_only ps -> window st = None ->
  expect ps (Some (-1)%Z) None st now evs = (o, st', t, rest) ->
  window st' = None /\
  match o with
  | Index i => exists s cs, after st' = TheText s /\ evs = pieces cs ++ rest /\ before st' ++ s ++ buffer st' = buffer st ++ output cs /\
                 (never_empty ps -> length (buffer st') < length (buffer st ++ output cs))
  | RaisesEof => exists cs more, evs = pieces cs ++ more /\ rest = more /\ before st' = buffer st ++ output cs /\ after st' = TheEof
  | RaisesTimeout => exists cs more, evs = pieces cs ++ more /\ (rest = more \/ exists u, more = NoData u :: rest) /\ before st' = buffer st ++ output cs /\ after st' = TheTimeout
  | _ => True
  end.
Proof.
  intros ps st now evs o st' t rest T W E. destruct (texts_no _ T) as [N1 N2].
  destruct (expect_loop_inv _ _ _ _ _ _ _ _ _ _ _ E) as (a & L & F). cbv iota in L. rewrite W in L.
  destruct (loop_reads _ _ _ _ _ _ _ _ _ _ L) as (cs & more & Ev & En & R). apply finish_seen in F. change (concat (map fst cs)) with (output cs) in En.
  destruct F as (_ & Kw & F). split; [congruence|].
  destruct a as [i n e b|b|b|b|b]; cbn [end_of] in *; subst b.
  - destruct R as (-> & fr & Q). destruct F as (-> & Hb & Hf & Ha & _).
    assert (Cr := search_regexes_correct ps (buffer st ++ output cs) fr (texts_regexy _ T)). rewrite Q in Cr. cbn in Cr.
    destruct (chosen_first _ _ _ _ _ (texts_regexy _ T) Cr) as (r & Hr & Er & Ln). destruct (texts_sane _ T r Hr _ _ _ _ Er) as [A B].
    exists (part (buffer st ++ output cs) n e), cs. split; [exact Ha|]. split; [exact Ev|]. split.
    + rewrite Hb, Hf. unfold part. apply part_whole. lia.
    + intros Ne. specialize (Ne r _ _ _ Hr Er). rewrite Hb, skipn_length. lia.
  - destruct R as (-> & _). destruct F as (Hb & Hf & Ha & [(i & Li & _)|(_ & -> & _)]); [exfalso; exact (N1 (last_of_In _ _ _ Li))|].
    exists cs, more. auto.
  - destruct F as (Hb & Hf & Ha & [(i & Li & _)|(_ & -> & _)]); [exfalso; exact (N2 (last_of_In _ _ _ Li))|].
    exists cs, more. auto.
  - destruct F as (-> & _). exact I.
  - cbn in F. subst o. exact I.
Qed.
Lemma converse_keeps : forall fuel ps respond acc count st now evs out st' t rest, texts_only ps -> window st = None ->
  converse fuel ps respond acc count st now evs = Some (Value out, st', t, rest) ->
  exists cs more, evs = pieces cs ++ more /\ (rest = more \/ exists u, more = NoData u :: rest) /\
    concat acc ++ buffer st ++ output cs = out ++ unreturned st'.
Proof.
  induction fuel as [|fuel IH]; intros ps respond acc count st now evs out st' t rest T W E; [discriminate|]. cbn [converse] in E.
  destruct (expect ps (Some (-1)%Z) None st now evs) as [[[o st1] t1] rest1] eqn:X.
  destruct (expect_texts _ _ _ _ _ _ _ _ T W X) as [W1 H]. destruct o as [i| | | |]; try discriminate.
  - destruct H as (s & cs & Ha & Ev & Wh & _). rewrite Ha in E. destruct (respond i count st1).
    + destruct (IH _ _ _ _ _ _ _ _ _ _ _ T W1 E) as (cs2 & more & Ev2 & R & Wh2). exists (cs ++ cs2), more. rewrite pieces_app, <- app_assoc, <- Ev2.
      split; [exact Ev|]. split; [exact R|]. rewrite <- Wh2, concat_app, output_app. cbn [concat]. rewrite app_nil_r, (app_assoc (buffer st)), <- Wh, <- !app_assoc. reflexivity.
    + injection E as <- <- <- <-. exists cs, rest1. split; [exact Ev|]. split; [left; reflexivity|]. unfold unreturned. rewrite Ha, <- Wh, concat_app. cbn [concat].
      rewrite app_nil_r, <- !app_assoc. reflexivity.
    + discriminate.
  - destruct H as (cs & more & Ev & -> & Hb & Ha). injection E as <- <- <- <-. exists cs, more. split; [exact Ev|]. split; [left; reflexivity|].
    unfold unreturned. rewrite Ha, app_nil_r, concat_app, Hb. cbn [concat]. rewrite app_nil_r. reflexivity.
  - destruct H as (cs & more & Ev & R & Hb & Ha). injection E as <- <- <- <-. exists cs, more. split; [exact Ev|]. split; [exact R|].
    unfold unreturned. rewrite Ha, app_nil_r, concat_app, Hb. cbn [concat]. rewrite app_nil_r. reflexivity.
Qed.
Lemma data_pieces : forall cs evs, data (pieces cs ++ evs) = output cs ++ data evs.
Proof. induction cs as [|[c v] cs IH]; intros evs; [reflexivity|]. unfold output in *. cbn. rewrite IH, app_assoc. reflexivity. Qed.
Lemma converse_ends : forall fuel ps respond acc count st now evs, texts_only ps -> never_empty ps -> window st = None ->
  length (to_come st evs) < fuel -> exists r, converse fuel ps respond acc count st now evs = Some r.
Proof.
  induction fuel as [|fuel IH]; intros ps respond acc count st now evs T Ne W L; [lia|]. cbn [converse].
  destruct (expect ps (Some (-1)%Z) None st now evs) as [[[o st1] t1] rest1] eqn:X.
  destruct (expect_texts _ _ _ _ _ _ _ _ T W X) as [W1 H]. destruct o as [i| | | |]; try (eexists; reflexivity).
  destruct H as (s & cs & Ha & Ev & Wh & Sh). specialize (Sh Ne). destruct (respond i count st1); try (eexists; reflexivity).
  apply IH; auto. unfold to_come in *. rewrite Ev, data_pieces, app_assoc, app_length in L. rewrite app_length. lia.
Qed.
Lemma converse_eof_loops : forall fuel ps respond acc count st now cs u, regexy ps -> In AtEof ps -> (forall i n s, respond i n s = Continue) ->
  window st = None -> within (timeout st) now cs -> converse fuel ps respond acc count st now (arrives cs u) = None.
Proof.
  induction fuel as [|fuel IH]; intros ps respond acc count st now cs u Rg In Rs W P; [reflexivity|]. cbn [converse].
  destruct (expect ps (Some (-1)%Z) None st now (arrives cs u)) as [[[o st1] t1] rest1] eqn:X.
  destruct (expect_arrives _ _ _ _ _ _ _ _ _ Rg W P X) as (a & c1 & c2 & -> & -> & En & Sn & Wt & R).
  assert (K : timeout st1 = timeout st /\ window st1 = None) by (destruct Sn as (A & B & _); rewrite A, B; auto). destruct K as [Kt Kw].
  destruct a as [i n e b|b|b|b|b]; try contradiction.
  - destruct Sn as (_ & _ & -> & _). cbn iota. rewrite Rs. apply IH; auto. rewrite Kt. exact Wt.
  - destruct Sn as (_ & _ & _ & _ & _ & [(i & _ & -> & _)|(Ni & _)]); [|contradiction]. rewrite Rs. apply IH; auto. rewrite Kt. exact Wt.
Qed.
Lemma converse_runs : forall fuel ps respond acc count st now evs out st' t rest, regexy ps -> window st = None ->
  converse fuel ps respond acc count st now evs = Some (Value out, st', t, rest) ->
  exists out', out = concat acc ++ out' /\ runs ps respond count st now evs out'.
Proof.
  induction fuel as [|fuel IH]; intros ps respond acc count st now evs out st' t rest Rg W E; [discriminate|]. cbn [converse] in E.
  destruct (expect ps (Some (-1)%Z) None st now evs) as [[[o st1] t1] rest1] eqn:X.
  destruct (expect_answers_l _ (Some (-1)%Z) None _ _ _ _ _ _ _ Rg W X) as (a & A & Sn).
  assert (W1 : window st1 = None) by (destruct Sn as (_ & B & _); congruence).
  destruct o as [i| | | |]; try discriminate.
  - change (match after st1 with TheText s => before st1 ++ s | _ => before st1 end) with (shown st1) in E. destruct (respond i count st1) eqn:Rs.
    + destruct (IH _ _ _ _ _ _ _ _ _ _ _ Rg W1 E) as (out' & -> & R). exists (shown st1 ++ out'). rewrite concat_app. cbn [concat]. rewrite app_nil_r, <- app_assoc.
      split; [reflexivity|]. exact (r_continue _ _ _ _ _ _ _ _ _ _ _ _ A Sn Rs R).
    + injection E as <- <- <- <-. exists (shown st1). rewrite concat_app. cbn [concat]. rewrite app_nil_r. split; [reflexivity|].
      exact (r_break _ _ _ _ _ _ _ _ _ _ A Sn Rs).
    + discriminate.
  - injection E as <- <- <- <-. exists (before st1). rewrite concat_app. cbn [concat]. rewrite app_nil_r. split; [reflexivity|].
    exact (r_end _ _ _ _ _ _ _ _ _ _ A Sn (or_introl eq_refl)).
  - injection E as <- <- <- <-. exists (before st1). rewrite concat_app. cbn [concat]. rewrite app_nil_r. split; [reflexivity|].
    exact (r_end _ _ _ _ _ _ _ _ _ _ A Sn (or_intror eq_refl)).
Qed.
