From Coq Require Import Ascii String.
From Coq Require Import Lia.
From Verif Require Import Py Cmdline_spec Usage_spec Usage_model Usage_proof.
Open Scope string_scope.
Open Scope nat_scope.
Open Scope list_scope.

(** *** Filling lines *)
Fixpoint fill (w : Z) (k : nat) (g us : list text) : list (list text) :=
  match us with
  | [] => match g with [] => [] | _ => [g] end
  | u :: us' => if (w <? wide k (g ++ [u]))%Z then g :: fill w k [u] us' else fill w k (g ++ [u]) us'
  end.
Definition reach (k : nat) (g : list text) : Z := match g with [] => Z.of_nat k - 1 | _ => wide k g end.
Lemma wide_snoc k g u : (reach k g + 1 + len u = wide k (g ++ [u]))%Z.
Proof.
  unfold reach, wide, len. destruct g as [|v g]; [cbn [app line]; lia|]. rewrite line_app by easy. rewrite app_length. cbn [length line]. lia.
Qed.
Lemma reach_snoc k g u : reach k (g ++ [u]) = wide k (g ++ [u]).
Proof. unfold reach. now destruct (g ++ [u]) eqn:E; [destruct g|]. Qed.
Lemma wide_app k g h : g <> [] -> (wide k g <= wide k (g ++ h))%Z.
Proof. intros N. destruct h as [|v h]; [rewrite app_nil_r; lia|]. unfold wide. rewrite line_app by easy. rewrite app_length. lia. Qed.

Lemma fill_concat w k us g : concat (fill w k g us) = g ++ us.
Proof.
  revert g. induction us as [|u us IH]; intros g; cbn [fill]; [destruct g; cbn; now rewrite ?app_nil_r|].
  destruct (_ <? _)%Z; [cbn [concat]; now rewrite IH|]. rewrite IH. now rewrite <- app_assoc.
Qed.
Lemma fill_first w k us g : g <> [] \/ us <> [] -> exists r t, fill w k g us = (g ++ r) :: t.
Proof.
  revert g. induction us as [|u us IH]; intros g H; cbn [fill].
  - destruct H as [H|H]; [|easy]. exists [], []. rewrite app_nil_r. now destruct g.
  - destruct (_ <? _)%Z; [exists [], (fill w k [u] us); now rewrite app_nil_r|]. destruct (IH (g ++ [u])) as (r & t & E); [left; now destruct g|]. exists (u :: r), t. rewrite E. now rewrite <- app_assoc.
Qed.
Lemma fill_fits w k us g : (2 <= length g -> (wide k g <= w)%Z) -> forall h, In h (fill w k g us) -> 2 <= length h -> (wide k h <= w)%Z.
Proof.
  revert g. induction us as [|u us IH]; intros g G h; cbn [fill].
  - destruct g as [|v g]; [easy|]. now intros [<-|[]].
  - destruct (Z.ltb_spec w (wide k (g ++ [u]))).
    + intros [<-|Hh]; [easy|]. apply (IH [u]); [cbn; lia|easy].
    + apply IH. intros _. lia.
Qed.
Lemma fill_greedy w k us g : forall i h u r, nth_error (fill w k g us) i = Some h -> nth_error (fill w k g us) (S i) = Some (u :: r) -> (w < wide k (h ++ [u]))%Z.
Proof.
  revert g. induction us as [|v us IH]; intros g i h u r; cbn [fill].
  - destruct g as [|x g]; [now destruct i|]. cbn [nth_error]. now destruct i.
  - destruct (Z.ltb_spec w (wide k (g ++ [v]))); [|apply IH]. destruct i as [|i].
    + cbn [nth_error]. intros [= <-]. destruct (fill_first w k us [v]) as (r' & t & E); [now left|]. rewrite E. intros [= <- _]. easy.
    + apply IH.
Qed.
Lemma fill_tail w k us g : forall i, nth_error (fill w k g us) (S i) <> Some [].
Proof.
  revert g. induction us as [|v us IH]; intros g i; cbn [fill].
  - destruct g as [|x g]; [easy|]. cbn. now destruct i.
  - destruct (_ <? _)%Z; [|apply IH]. cbn [nth_error]. destruct i as [|i].
    + destruct (fill_first w k us [v]) as (r' & t & ->); [now left|]. easy.
    + apply IH.
Qed.
Lemma fill_filled w k us : filled w k us (fill w k [] us).
Proof.
  split; [apply fill_concat|]. split; [apply fill_fits; cbn; lia|]. split; [apply fill_greedy|]. split; [apply fill_tail|]. split.
  - destruct us as [|u us]; [easy|]. cbn [fill app]. destruct (_ <? _)%Z.
    + destruct (fill_first w k us [u]) as (r & t & ->); [now left|easy].
    + destruct (fill_first w k us [u]) as (r & t & ->); [now left|easy].
  - intros u g. destruct us as [|v us]; [easy|]. cbn [fill app]. destruct (Z.ltb_spec w (wide k [v])); [easy|].
    destruct (fill_first w k us [v]) as (r & t & ->); [now left|]. cbn. intros [= -> _]. lia.
Qed.
Lemma all_empty (rest : list (list text)) : concat rest = [] -> (forall i, nth_error rest i <> Some []) -> rest = [].
Proof. destruct rest as [|g rest]; [easy|]. cbn. intros E N. apply app_eq_nil in E as [-> _]. now elim (N 0). Qed.
Lemma fill_unique w k us g r rest : g <> [] -> (r ++ concat rest = us) ->
  (forall h, In h ((g ++ r) :: rest) -> 2 <= length h -> (wide k h <= w)%Z) ->
  (forall i h u t, nth_error ((g ++ r) :: rest) i = Some h -> nth_error ((g ++ r) :: rest) (S i) = Some (u :: t) -> (w < wide k (h ++ [u]))%Z) ->
  (forall i, nth_error rest i <> Some []) -> (g ++ r) :: rest = fill w k g us.
Proof.
  revert g r rest. induction us as [|u us IH]; intros g r rest N E F G T; cbn [fill].
  - apply app_eq_nil in E as [-> E]. rewrite (all_empty rest E T). rewrite app_nil_r. now destruct g.
  - destruct r as [|v r].
    + rewrite app_nil_r in *. destruct rest as [|h rest]; [easy|]. destruct h as [|v h]; [now elim (T 0)|]. cbn in E. injection E as -> E.
      pose proof (G 0 g u h eq_refl eq_refl) as L. apply Z.ltb_lt in L. rewrite L. f_equal.
      refine (IH [u] h rest _ E _ _ _); [easy| | |].
      * intros x Hx. apply F. now right.
      * intros i. exact (G (S i)).
      * intros i. exact (T (S i)).
    + cbn in E. injection E as -> E. assert (wide k (g ++ [u]) <= w)%Z as L.
      { apply Z.le_trans with (wide k ((g ++ [u]) ++ r)); [apply wide_app; now destruct g|]. rewrite <- app_assoc. apply F; [now left|]. destruct g; [easy|]. cbn. rewrite app_length. cbn. lia. }
      apply Z.ltb_ge in L. rewrite L. assert (g ++ u :: r = (g ++ [u]) ++ r) as Q by now rewrite <- app_assoc. rewrite Q in *. apply IH; try easy. now destruct g.
Qed.
Lemma filled_fill w k us gs : filled w k us gs -> gs = fill w k [] us.
Proof.
  intros (E & F & G & T & N & B). destruct gs as [|g rest]; [cbn in E; now subst us|]. destruct g as [|u g].
  - destruct rest as [|h rest]; [easy|]. destruct h as [|u h]; [now elim (T 0)|]. cbn in E. subst us. pose proof (G 0 [] u h eq_refl eq_refl) as L. cbn [fill app] in *. apply Z.ltb_lt in L. rewrite L. f_equal.
    refine (fill_unique w k _ [u] h rest _ eq_refl _ _ _); [easy| | |].
    * intros x Hx. apply F. now right.
    * intros i. exact (G (S i)).
    * intros i. exact (T (S i)).
  - cbn in E. subst us. cbn [fill app]. pose proof (B u g eq_refl) as L. apply Z.ltb_ge in L. rewrite L.
    refine (fill_unique w k _ [u] g rest _ eq_refl _ _ _); [easy|exact F|exact G|exact T].
Qed.
Lemma filled_unique w k us gs hs : filled w k us gs -> filled w k us hs -> gs = hs.
Proof. intros A B. now rewrite (filled_fill _ _ _ _ A), (filled_fill _ _ _ _ B). Qed.

(** *** get_lines *)
Definition ind (k : nat) (g : list text) : text := repeat " "%char k ++ blank_join g.
Lemma ind_indented k g : ind k g = indented k g.
Proof. unfold ind, indented. now rewrite blank_join_line. Qed.
Definition close_lines (k : nat) (x : list text * list text * Z) : list text :=
  let '(lines, line, _) := x in match line with [] => lines | _ => lines ++ [ind k line] end.
Lemma len_indent k : len (repeat " "%char k) = Z.of_nat k.
Proof. unfold len. now rewrite repeat_length. Qed.
Lemma step_eq w k ls g L u :
  line_step w (repeat " "%char k) (ls, g, L) u = if (w <? L + 1 + len u)%Z then (ls ++ [ind k g], [u], (Z.of_nat k - 1 + (len u + 1))%Z) else (ls, g ++ [u], (L + (len u + 1))%Z).
Proof. unfold line_step. rewrite Z.gtb_ltb, len_indent. now destruct (_ <? _)%Z. Qed.
Lemma step_reach w k ls g u : line_step w (repeat " "%char k) (ls, g, reach k g) u =
  if (w <? wide k (g ++ [u]))%Z then (ls ++ [ind k g], [u], reach k [u]) else (ls, g ++ [u], reach k (g ++ [u])).
Proof. rewrite step_eq, reach_snoc, wide_snoc. destruct (_ <? _)%Z; repeat f_equal; [unfold reach, wide, len; cbn [line]; lia|]. rewrite <- wide_snoc. lia. Qed.
Lemma lines_fill w k us ls g : close_lines k (fold_left (line_step w (repeat " "%char k)) us (ls, g, reach k g)) = ls ++ map (ind k) (fill w k g us).
Proof.
  revert ls g. induction us as [|u us IH]; intros ls g; cbn [fold_left fill].
  - cbn [close_lines]. destruct g; [now rewrite app_nil_r|easy].
  - rewrite step_reach. destruct (_ <? _)%Z; rewrite IH; [|easy]. cbn [map]. now rewrite <- app_assoc.
Qed.
Lemma get_lines_fill w us k : get_lines w us (repeat " "%char k) None = map (ind k) (fill w k [] us).
Proof. unfold get_lines. rewrite len_indent. pose proof (lines_fill w k us [] []) as E. cbn [app reach] in E. rewrite <- E. unfold close_lines. now destruct (fold_left _ us _) as [[ls g] L]. Qed.
Lemma lines_after w k (p : text) (us g : list text) : close_lines k (fold_left (line_step w (repeat " "%char k)) us ([], p :: g, reach k g)) =
  match fill w k g us with [] => [ind k [p]] | g0 :: rest => ind k (p :: g0) :: map (ind k) rest end.
Proof.
  revert g. induction us as [|u us IH]; intros g; cbn [fold_left fill].
  - cbn [close_lines]. now destruct g.
  - rewrite step_eq, wide_snoc. destruct (_ <? _)%Z eqn:B.
    + replace (Z.of_nat k - 1 + (len u + 1))%Z with (reach k [u]) by (unfold reach, wide, len; cbn [line]; lia). rewrite lines_fill. easy.
    + replace (reach k g + (len u + 1))%Z with (reach k (g ++ [u])) by (rewrite reach_snoc, <- wide_snoc; lia). apply IH.
Qed.
Lemma skipn_indent k s : skipn k (repeat " "%char k ++ s) = s.
Proof. induction k as [|k IH]; [easy|exact IH]. Qed.
Lemma get_lines_first w (prog : text) (us : list text) (pre : text) k : k = length (pre ++ prog) + 1 -> (len pre + len prog <= w)%Z ->
  get_lines w (prog :: us) (repeat " "%char k) (Some pre) = match fill w k [] us with [] => [prog] | g :: gs => line (prog :: g) :: map (ind k) gs end.
Proof.
  intros K F. unfold get_lines. cbn [fold_left]. rewrite step_eq. assert (w <? len pre - 1 + 1 + len prog = false)%Z as -> by (apply Z.ltb_ge; lia). cbn [app].
  replace (len pre - 1 + (len prog + 1))%Z with (reach k []) by (unfold reach, len in *; rewrite K, app_length; lia).
  pose proof (lines_after w k prog us []) as E. destruct (fold_left _ us _) as [[ls g] L]. change (match g with [] => ls | _ => ls ++ [repeat " "%char k ++ blank_join g] end) with (close_lines k (ls, g, L)). rewrite E. rewrite repeat_length.
  destruct (fill w k [] us) as [|g0 gs]; cbv zeta iota; unfold ind at 1; rewrite skipn_indent; [easy|]. now rewrite blank_join_line.
Qed.

(** *** The usage *)
Lemma text_same_refl s : text_same s s = true.
Proof. unfold text_same. now destruct (list_eq_dec ascii_dec s s). Qed.
Lemma filter_flat l : flat_map units (filter (fun x => match spellings (arg x) with [] => false | _ => true end) l) = option_units l.
Proof. unfold option_units. f_equal. apply filter_ext. intros x. unfold positional. now destruct (spellings (arg x)). Qed.
Lemma filter_flat_pos l : flat_map units (filter (fun x => match spellings (arg x) with [] => true | _ => false end) l) = operand_units l.
Proof. unfold operand_units. f_equal. Qed.
Lemma Forall_filter {A} (P : A -> Prop) f l : Forall P l -> Forall P (filter f l).
Proof. rewrite !Forall_forall. intros H x Hx. now apply filter_In in Hx as [Hx _]; apply H. Qed.
Lemma newline_join_snoc s l : newline_join (s :: l) ++ [newline] = in_lines (s :: l).
Proof. revert s. induction l as [|s' l IH]; intros s; [easy|]. change (newline_join (s :: s' :: l)) with (s ++ newline :: newline_join (s' :: l)). rewrite <- app_assoc. cbn [app]. rewrite IH. easy. Qed.
Lemma newline_join_prefix p s l : p ++ newline_join (s :: l) = newline_join ((p ++ s) :: l).
Proof. destruct l; [easy|]. cbn [newline_join]. unfold text in *. now rewrite <- app_assoc. Qed.
Section Item.
Variables (w : Z) (prog : text) (l : list shown).
Hypothesis G : Forall well_named l.
Notation opts := (option_units l).
Notation ops := (operand_units l).
Lemma opts_usage : format_actions_usage (filter (fun x => match spellings (arg x) with [] => false | _ => true end) l) = line opts.
Proof. pose proof (all_units_facts _ (Forall_filter _ (fun x => match spellings (arg x) with [] => false | _ => true end) l G)) as (A & B & C). rewrite usage_pieces by easy. now rewrite filter_flat. Qed.
Lemma ops_usage : format_actions_usage (filter (fun x => match spellings (arg x) with [] => true | _ => false end) l) = line ops.
Proof. pose proof (all_units_facts _ (Forall_filter _ (fun x => match spellings (arg x) with [] => true | _ => false end) l G)) as (A & B & C). rewrite usage_pieces by easy. now rewrite filter_flat_pos. Qed.
Lemma all_usage : format_actions_usage (filter (fun x => match spellings (arg x) with [] => false | _ => true end) l ++ filter (fun x => match spellings (arg x) with [] => true | _ => false end) l) = line (opts ++ ops).
Proof.
  assert (Forall well_named (filter (fun x => match spellings (arg x) with [] => false | _ => true end) l ++ filter (fun x => match spellings (arg x) with [] => true | _ => false end) l)) as W by (apply Forall_app; split; now apply Forall_filter).
  destruct (all_units_facts _ W) as (A & B & C). rewrite usage_pieces by easy. rewrite flat_map_app. now rewrite filter_flat, filter_flat_pos.
Qed.
Lemma opts_units : Forall is_unit opts.
Proof. rewrite <- filter_flat. apply all_units_facts. now apply Forall_filter. Qed.
Lemma ops_units : Forall is_unit ops.
Proof. rewrite <- filter_flat_pos. apply all_units_facts. now apply Forall_filter. Qed.
Lemma some_units : l <> [] -> opts ++ ops <> [].
Proof.
  intros N. destruct l as [|x l']; [easy|]. inversion G as [|? ? W _]; subst. destruct (units_facts x W) as (U & _). unfold option_units, operand_units. cbn [filter].
  intros E. destruct (positional (arg x)); cbn [negb filter flat_map] in E; apply app_eq_nil in E as [E1 E2]; [apply app_eq_nil in E2 as [E2 _]; easy|apply app_eq_nil in E1 as [E1 _]; easy].
Qed.
Hypothesis P : prog <> [].
Lemma usage_line : blank_join (filter (fun s => match s with [] => false | _ => true end) [prog; line (opts ++ ops)]) = line (prog :: opts ++ ops).
Proof.
  destruct prog as [|c p] eqn:E; [easy|]. cbn [filter]. destruct (opts ++ ops) as [|u us] eqn:U; [reflexivity|]. change (line ((c :: p) :: u :: us)) with ((c :: p) ++ blank :: line (u :: us)).
  assert (line (u :: us) <> []) as N.
  { assert (is_unit u) as [Nu _] by (assert (Forall is_unit (opts ++ ops)) as F by (apply Forall_app; split; [apply opts_units|apply ops_units]); rewrite U in F; now inversion F). destruct us; [easy|]. cbn [line]. now destruct u. }
  destruct (line (u :: us)) as [|d r]; [easy|]. easy.
Qed.
Lemma one_line_len : (len usage_word + len (line (prog :: opts ++ ops)) = len (one_line prog l))%Z.
Proof. unfold one_line, len. rewrite app_length. lia. Qed.
Lemma item_fits : (len (one_line prog l) <= w)%Z -> format_usage_item w prog l usage_word = Some (one_line prog l ++ [newline; newline]).
Proof.
  intros F. unfold format_usage_item. destruct l as [|x l'] eqn:E; [now unfold one_line; cbn; rewrite ?app_nil_r|]. rewrite <- E in *. rewrite all_usage, usage_line.
  rewrite Z.gtb_ltb. rewrite one_line_len. assert (w <? len (one_line prog l) = false)%Z as -> by now apply Z.ltb_ge. unfold one_line. now rewrite <- app_assoc.
Qed.
Lemma item_wraps : l <> [] -> (w < len (one_line prog l))%Z -> exists s ls, format_usage_item w prog l usage_word = Some (newline_join (s :: ls) ++ [newline; newline]) /\ layout w prog opts ops (s :: ls).
Proof.
  intros N F. unfold format_usage_item. pose proof (some_units N) as SU. destruct l as [|x l'] eqn:E; [easy|]. rewrite <- E in *. rewrite all_usage, usage_line.
  rewrite Z.gtb_ltb. rewrite one_line_len. assert (w <? len (one_line prog l) = true)%Z as -> by now apply Z.ltb_lt.
  rewrite opts_usage, ops_usage. rewrite !find_parts_line by (apply opts_units || apply ops_units || lia). rewrite !blank_join_line.
  rewrite !text_same_refl.
  destruct (Z.leb_spec (4 * (len usage_word + len prog)) (3 * w)) as [S|S].
  - set (k := length usage_word + length prog + 1). assert (k = length (usage_word ++ prog) + 1) as K by (unfold k; now rewrite app_length).
    assert (len usage_word + len prog <= w)%Z as L by (unfold len in *; lia).
    assert (4 * Z.of_nat (length (usage_word ++ prog)) <= 3 * w)%Z as S' by (rewrite app_length; unfold len in S; lia).
    destruct opts as [|o os] eqn:EO.
    + destruct ops as [|p ps] eqn:EP; [easy|]. rewrite (get_lines_first w prog (p :: ps) usage_word k K L).
      destruct (fill_first w k (p :: ps) []) as (r & t & FF); [now right|]. cbn [app] in FF. exists (usage_word ++ line (prog :: r)), (map (ind k) t). rewrite FF. split.
      * now rewrite app_assoc, newline_join_prefix.
      * rewrite (map_ext _ _ (ind_indented k)). pose proof (fill_filled w k (p :: ps)) as FI. rewrite FF in FI.
        pose proof (beside w prog [] (p :: ps) k (p :: ps) [] r t [] S' K) as LL. rewrite app_nil_r in LL. apply LL; [now right|exact FI|exact (fill_filled w k [])].
    + rewrite (get_lines_first w prog (o :: os) usage_word k K L). rewrite get_lines_fill.
      destruct (fill_first w k (o :: os) []) as (r & t & FF); [now right|]. cbn [app] in FF. exists (usage_word ++ line (prog :: r)), (map (ind k) (t ++ fill w k [] ops)). rewrite FF. split.
      * rewrite map_app, app_assoc. cbn [app]. now rewrite newline_join_prefix.
      * rewrite (map_ext _ _ (ind_indented k)). pose proof (fill_filled w k (o :: os)) as FI. rewrite FF in FI.
        apply (beside w prog (o :: os) ops k (o :: os) ops r t _ S' K); [now left|exact FI|apply fill_filled].
  - assert (3 * w < 4 * Z.of_nat (length (usage_word ++ prog)))%Z as S' by (rewrite app_length; unfold len in S; lia).
    set (k := length usage_word). rewrite !get_lines_fill. rewrite map_length. destruct (Nat.ltb_spec 1 (length (fill w k [] (opts ++ ops)))) as [B|B].
    + exists (usage_word ++ prog), (map (ind k) (fill w k [] opts ++ fill w k [] ops)). split.
      * rewrite map_app. now rewrite app_assoc, newline_join_prefix.
      * rewrite (map_ext _ _ (ind_indented k)). now apply (below w prog opts ops k (fill w k [] (opts ++ ops))); try easy; apply fill_filled.
    + exists (usage_word ++ prog), (map (ind k) (fill w k [] (opts ++ ops))). split.
      * now rewrite app_assoc, newline_join_prefix.
      * rewrite (map_ext _ _ (ind_indented k)). apply (below_together w prog opts ops k); try easy; apply fill_filled.
Qed.
End Item.

(** A layout is determined. *)
Lemma layout_unique w prog opts ops ls ms : layout w prog opts ops ls -> layout w prog opts ops ms -> ls = ms.
Proof.
  intros A B. inversion A as [k us rest g gs hs S K U F1 F2 E|k gs S K F L E|k gs g1 g2 S K F L F1 F2 E]; inversion B as [k' us' rest' g' gs' hs' S' K' U' F1' F2' E'|k' gs' S' K' F' L' E'|k' gs' g1' g2' S' K' F' L' F1' F2' E']; subst; try lia.
  - assert (us = us' /\ rest = rest') as [-> ->] by (destruct U as [(?&?&?)|(?&?&?)], U' as [(?&?&?)|(?&?&?)]; subst; easy). pose proof (filled_unique _ _ _ _ _ F1 F1') as Q. injection Q as -> ->. now rewrite (filled_unique _ _ _ _ _ F2 F2').
  - now rewrite (filled_unique _ _ _ _ _ F F').
  - rewrite (filled_unique _ _ _ _ _ F F') in L. lia.
  - rewrite (filled_unique _ _ _ _ _ F F') in L. lia.
  - now rewrite (filled_unique _ _ _ _ _ F1 F1'), (filled_unique _ _ _ _ _ F2 F2').
Qed.
