From Coq Require Import Permutation Sorted.
From Verif Require Import Py PyLemmas Align_model Align_spec Align_proof Corpus_spec Corpus_model Corpus_proof Diff_spec Diff_model.
Set Implicit Arguments.
Lemma f2_impl A B (P Q : A -> B -> Prop) l l' : (forall x y, P x y -> Q x y) -> Forall2 P l l' -> Forall2 Q l l'.
Proof. intros H F. induction F; constructor; auto. Qed.
Section D.
Variables N R G : Type.
Variable neqb : N -> N -> bool.
Hypothesis neqb_eq : forall x y, neqb x y = true <-> x = y.
Variable reqb : R -> R -> bool.
Hypothesis reqb_eq : forall x y, reqb x y = true <-> x = y.
Variable rtrue : R -> bool.
Variable toint : N -> res Z.
Variable geqb : G -> G -> bool.
Variables term_s term_t : G -> N -> bool.
Notation digraph := (digraph N R).
Notation ga := (get_align neqb).
Notation wf := (@wf N R).
Notation loop1 := (loop1 neqb reqb rtrue).
Notation loop2 := (loop2 neqb rtrue term_s term_t).
Notation sort_nodes := (sort_nodes toint).
Notation zkey := (zkey toint).
Notation print_sections := (print_sections neqb toint).
Notation print_alignments := (print_alignments neqb).
Notation absent := (absent rtrue).
(** ** classification *)
Definition kind1 (g2 : digraph) (e : (N * N) * R) : verdict :=
  let rel2 := ga g2 (fst (fst e)) (snd (fst e)) in
  if absent rel2 then Only1 else if match rel2 with Some r => reqb (snd e) r | None => false end then Identical else Different.
Definition veqb (v w : verdict) : bool := match v, w with Identical, Identical | Different, Different | Only1, Only1 | Only2, Only2 => true | _, _ => false end.
Lemma loop1_spec g2 l : forall a b c, loop1 false g2 l (a, b, c) =
  Ok (a ++ map fst (filter (fun e => veqb (kind1 g2 e) Identical) l),
      b ++ map fst (filter (fun e => veqb (kind1 g2 e) Different) l),
      c ++ map fst (filter (fun e => veqb (kind1 g2 e) Only1) l)).
Proof.
  induction l as [|[n r] l IH]; intros a b c; cbn [Diff_model.loop1 filter map]; [now rewrite !app_nil_r|].
  assert (kind1 g2 (n, r) = if absent (ga g2 (fst n) (snd n)) then Only1 else if match ga g2 (fst n) (snd n) with Some r0 => reqb r r0 | None => false end then Identical else Different) as K by reflexivity.
  rewrite K. clear K. destruct (absent (ga g2 (fst n) (snd n))).
  - rewrite IH. cbn [veqb map fst]. now rewrite <- app_assoc.
  - destruct (ga g2 (fst n) (snd n)) as [r2|]; [destruct (reqb r r2)|]; rewrite IH; cbn [veqb map fst]; now rewrite <- app_assoc.
Qed.
Lemma loop2_spec g g1 l : forall u, loop2 false g g1 l u = u ++ map fst (filter (fun e => absent (ga g1 (fst (fst e)) (snd (fst e)))) l).
Proof.
  induction l as [|[n r] l IH]; intros u; cbn [Diff_model.loop2 filter map andb]; [now rewrite app_nil_r|]. cbn [fst snd].
  destruct (absent (ga g1 (fst n) (snd n))); rewrite IH; cbn [map fst]; [now rewrite <- app_assoc|auto].
Qed.
Definition chosen (relations : list R) (r : R) : Prop := relations = [] \/ In r relations.
Lemma alignments_in g relations n r : wf g -> In (n, r) (alignments reqb g relations) <-> ga g (fst n) (snd n) = Some r /\ chosen relations r.
Proof.
  intros W. destruct n as [s t]. cbn [fst snd]. rewrite (ga_in neqb neqb_eq s t r W). unfold alignments, chosen. destruct relations as [|x l].
  - tauto.
  - rewrite filter_In. cbn [snd]. rewrite (mem_spec reqb reqb_eq r (x :: l)). split; [tauto|]. intros [? [?|?]]; [discriminate|auto].
Qed.
Lemma filter_nodup A (f : A -> bool) l : NoDup l -> NoDup (filter f l).
Proof. apply NoDup_filter. Qed.
Lemma nodup_map_filter A B (g : A -> B) f l : NoDup (map g l) -> NoDup (map g (filter f l)).
Proof.
  induction l as [|x l IH]; cbn; intros H; auto. inversion H; subst. destruct (f x); cbn; auto. constructor; auto.
  intros K. apply H2. apply in_map_iff in K as (y & <- & K). apply filter_In in K as [K _]. now apply in_map.
Qed.
Lemma alignments_nodup g relations : wf g -> NoDup (map fst (alignments reqb g relations)).
Proof. intros [W _ _]. unfold alignments. destruct relations; auto. now apply nodup_map_filter. Qed.
Definition truthy (g : digraph) : Prop := forall e, In e (edges g) -> rtrue (snd e) = true.
Lemma absent_none g s t : wf g -> truthy g -> absent (ga g s t) = match ga g s t with None => true | Some _ => false end.
Proof.
  intros W T. destruct (ga g s t) as [r|] eqn:E; auto. apply (ga_in neqb neqb_eq s t r W) in E. specialize (T _ E). cbn in T |- *. now rewrite T.
Qed.
Definition verdict_list (relations : list R) (g1 g2 : digraph) (v : verdict) : list (N * N) :=
  match v with
  | Only2 => map fst (filter (fun e => absent (ga g1 (fst (fst e)) (snd (fst e)))) (alignments reqb g2 relations))
  | _ => map fst (filter (fun e => veqb (kind1 g2 e) v) (alignments reqb g1 relations))
  end.
Lemma verdict_list_nodup relations g1 g2 v : wf g1 -> wf g2 -> NoDup (verdict_list relations g1 g2 v).
Proof. intros W1 W2. unfold verdict_list. destruct v; apply nodup_map_filter, alignments_nodup; auto. Qed.
Lemma verdict_list_in relations g1 g2 v s t : wf g1 -> wf g2 -> truthy g1 -> truthy g2 ->
  In (s, t) (verdict_list relations g1 g2 v) <-> reported (chosen relations) (ga g1) (ga g2) v s t.
Proof.
  intros W1 W2 T1 T2. unfold verdict_list.
  assert (forall (P : (N * N) * R -> bool) l, In (s, t) (map fst (filter P l)) <-> exists r, In ((s, t), r) l /\ P ((s, t), r) = true) as M.
  { intros P l. rewrite in_map_iff. split.
    - intros ([n r] & E & H). cbn in E. subst n. apply filter_In in H as [H1 H2]. eauto.
    - intros (r & H1 & H2). exists ((s, t), r). split; auto. apply filter_In; auto. }
  assert (forall r, kind1 g2 ((s, t), r) = match ga g2 s t with None => Only1 | Some r2 => if reqb r r2 then Identical else Different end) as K.
  { intros r. unfold kind1. cbn [fst snd]. rewrite absent_none by auto. destruct (ga g2 s t); auto. }
  destruct v; rewrite M; cbn [reported].
  - split.
    + intros (r & H & E). apply alignments_in in H as [H1 H2]; auto. rewrite K in E. cbn [fst snd] in H1.
      destruct (ga g2 s t) as [r2|]; [|discriminate]. destruct (reqb r r2) eqn:Er; [|discriminate]. apply reqb_eq in Er as <-. eauto.
    + intros (r & H1 & H2 & H3). exists r. split; [apply alignments_in; auto|]. rewrite K, H3.
      assert (reqb r r = true) as -> by now apply reqb_eq. auto.
  - split.
    + intros (r & H & E). apply alignments_in in H as [H1 H2]; auto. rewrite K in E. cbn [fst snd] in H1.
      destruct (ga g2 s t) as [r2|]; [|discriminate]. destruct (reqb r r2) eqn:Er; [discriminate|]. exists r, r2. repeat split; auto.
      intros ->. assert (reqb r2 r2 = true) by now apply reqb_eq. congruence.
    + intros (r & r2 & H1 & H2 & H3 & H4). exists r. split; [apply alignments_in; auto|]. rewrite K, H3.
      destruct (reqb r r2) eqn:Er; auto. apply reqb_eq in Er. congruence.
  - split.
    + intros (r & H & E). apply alignments_in in H as [H1 H2]; auto. rewrite K in E. cbn [fst snd] in H1.
      destruct (ga g2 s t) as [r2|]; [|eauto]. destruct (reqb r r2); discriminate.
    + intros (r & H1 & H2 & H3). exists r. split; [apply alignments_in; auto|]. rewrite K, H3. auto.
  - split.
    + intros (r & H & E). apply alignments_in in H as [H1 H2]; auto. cbn [fst snd] in *. rewrite absent_none in E by auto.
      destruct (ga g1 s t); [discriminate|]. eauto.
    + intros (r & H1 & H2 & H3). exists r. split; [apply alignments_in; auto|]. cbn [fst snd]. rewrite absent_none, H3 by auto. auto.
Qed.
(** ** printing *)
Definition ints (l : list (N * N)) : Prop := forall n, In n l -> exists z, toint (fst n) = Ok z.
Lemma ztotal : forall x y : N * N, (zkey x <=? zkey y)%Z = true \/ (zkey y <=? zkey x)%Z = true.
Proof. intros x y. destruct (Z.leb_spec (zkey x) (zkey y)); [auto|right; apply Z.leb_le; lia]. Qed.
Definition sorted (l : list (N * N)) : Prop := Sorted (fun a b => (zkey a <= zkey b)%Z) l.
Lemma sorted_adj l : adj (fun a b => (zkey a <=? zkey b)%Z) l -> sorted l.
Proof.
  unfold adj, sorted. intros H. induction H as [|x l H IH Hd]; constructor; auto. destruct Hd; constructor. now apply Z.leb_le.
Qed.
Lemma sort_nodes_spec l l' : sort_nodes l = Ok l' -> Permutation l l' /\ sorted l'.
Proof.
  unfold Diff_model.sort_nodes. destruct l as [|x [|y l]].
  - intros [= <-]. split; auto. constructor.
  - intros [= <-]. split; auto. repeat constructor.
  - destruct (mapM _ (x :: y :: l)); [|discriminate]. cbn [bind]. intros H.
    assert (l' = list_sort (fun a b => (zkey a <=? zkey b)%Z) (x :: y :: l)) as -> by congruence. rewrite sort_isort. split; [apply isort_perm|].
    apply sorted_adj, isort_adj, ztotal.
Qed.
Lemma mapM_ok A B (f : A -> res B) l : (forall x, In x l -> exists y, f x = Ok y) -> exists ys, mapM f l = Ok ys.
Proof.
  induction l as [|x l IH]; intros H; [eexists; reflexivity|]. destruct (H x) as [y E]; [left; auto|]. destruct IH as [ys E2]; [intros; apply H; right; auto|].
  cbn. rewrite E. cbn. rewrite E2. eexists; reflexivity.
Qed.
Lemma sort_nodes_ok l : ints l -> exists l', sort_nodes l = Ok l'.
Proof.
  intros H. unfold Diff_model.sort_nodes. destruct l as [|x [|y l]]; [eexists; reflexivity|eexists; reflexivity|].
  destruct (@mapM_ok _ _ (fun n : N * N => toint (fst n)) (x :: y :: l)) as [ys E]; [exact H|]. rewrite E. eexists; reflexivity.
Qed.
Lemma print_nodes count v (g1 g2 : digraph) l : map (@it_nodes N R) (print_alignments count v g1 g2 l) = l.
Proof.
  unfold Diff_model.print_alignments. rewrite map_map. cbn [it_nodes]. generalize (S count). induction l as [|x l IH]; intros k; auto. cbn. now rewrite IH.
Qed.
Lemma print_nos count v (g1 g2 : digraph) l : map (@it_no N R) (print_alignments count v g1 g2 l) = seq (S count) (length l).
Proof.
  unfold Diff_model.print_alignments. rewrite map_map. cbn [it_no]. generalize (S count). induction l as [|x l IH]; intros k; auto. cbn. now rewrite IH.
Qed.
Lemma print_in count v (g1 g2 : digraph) l (it : item N R) : In it (print_alignments count v g1 g2 l) ->
  it_sec it = v /\ it_rel1 it = ga g1 (fst (it_nodes it)) (snd (it_nodes it)) /\ it_rel2 it = ga g2 (fst (it_nodes it)) (snd (it_nodes it)).
Proof. intros H. apply in_map_iff in H as (x & <- & _). auto. Qed.
Lemma print_len count v (g1 g2 : digraph) l : length (print_alignments count v g1 g2 l) = length l.
Proof. rewrite <- (print_nodes count v g1 g2 l) at 2. now rewrite map_length. Qed.
(** the printed block of a list of sections *)
Lemma print_sections_spec g1 g2 secs : forall count out,
  match print_sections g1 g2 count out secs with
  | (count', out', None) => exists ls, length ls = length secs /\
       out' = out ++ concat (map (fun x => print_alignments (fst x) (fst (snd x)) g1 g2 (snd (snd x))) ls) /\
       map (fun x => fst (snd x)) ls = map fst secs /\
       Forall2 (fun x y => Permutation (snd y) (snd (snd x)) /\ sorted (snd (snd x))) ls secs /\
       map (@it_no N R) (concat (map (fun x => print_alignments (fst x) (fst (snd x)) g1 g2 (snd (snd x))) ls)) = seq (S count) (count' - count) /\ count <= count'
  | (_, _, Some e) => exists v l, In (v, l) secs /\ ~ ints l
  end.
Proof.
  induction secs as [|[v l] secs IH]; intros count out; cbn [Diff_model.print_sections].
  { exists []. cbn. rewrite Nat.sub_diag, app_nil_r. repeat split; auto. }
  destruct (sort_nodes l) as [l'|e] eqn:E.
  2:{ exists v, l. split; [left; auto|]. intros H. apply sort_nodes_ok in H as [l' K]. congruence. }
  specialize (IH (count + length l') (out ++ print_alignments count v g1 g2 l')).
  destruct (print_sections g1 g2 (count + length l') (out ++ print_alignments count v g1 g2 l') secs) as [[count' out'] [e|]].
  - destruct IH as (v' & l2 & H1 & H2). exists v', l2. split; [right|]; auto.
  - destruct IH as (ls & L & E1 & E2 & F & NO & LE). exists ((count, (v, l')) :: ls). cbn [length map concat fst snd].
    split; [auto|]. split; [rewrite E1; now rewrite <- app_assoc|]. split; [now rewrite E2|]. split; [constructor; auto; cbn [fst snd]; now apply sort_nodes_spec|].
    split; [|lia]. rewrite map_app, print_nos, NO. replace (count' - count) with (length l' + (count' - (count + length l'))) by lia.
    rewrite seq_app. cbn [Nat.add]. reflexivity.
Qed.
(** ** a block *)
Definition sections (show_ident : bool) : list verdict := (if show_ident then [Identical] else []) ++ [Different; Only1; Only2].
Record block (show_ident : bool) (relations : list R) (g1 g2 : digraph) (b : list (item N R)) : Prop := {
  bl_in : forall v s t, In (v, (s, t)) (map (fun it => (it_sec it, it_nodes it)) b) <->
            (v = Identical -> show_ident = true) /\ reported (chosen relations) (ga g1) (ga g2) v s t;
  bl_once : NoDup (map (fun it => (it_sec it, it_nodes it)) b);
  bl_rel : forall it, In it b -> it_rel1 it = ga g1 (fst (it_nodes it)) (snd (it_nodes it)) /\ it_rel2 it = ga g2 (fst (it_nodes it)) (snd (it_nodes it));
  bl_order : exists ls, Forall2 (fun v l => Forall (fun it => it_sec it = v) l /\ sorted (map (@it_nodes N R) l)) (sections show_ident) ls /\ b = concat ls
}.
Notation diff_pairs := (diff_pairs neqb reqb rtrue toint geqb term_s term_t).
Definition secs_of show_ident relations (g1 g2 : digraph) : list (verdict * list (N * N)) :=
  map (fun v => (v, verdict_list relations g1 g2 v)) (sections show_ident).
Lemma f2_length A B (P : A -> B -> Prop) l l' : Forall2 P l l' -> length l = length l'.
Proof. induction 1; cbn; auto. Qed.
Lemma sections_nodup si : NoDup (sections si).
Proof. destruct si; cbn; repeat constructor; cbn; intuition discriminate. Qed.
Lemma sections_in si v : In v (sections si) <-> (v = Identical -> si = true).
Proof. destruct si, v; cbn; intuition (try discriminate; try congruence). Qed.
Lemma block_spec si relations (g1 g2 : digraph) count out count' out' : wf g1 -> wf g2 -> truthy g1 -> truthy g2 ->
  print_sections g1 g2 count out (secs_of si relations g1 g2) = (count', out', None) ->
  exists b, out' = out ++ b /\ block si relations g1 g2 b /\ map (@it_no N R) b = seq (S count) (length b) /\ count' = count + length b.
Proof.
  intros W1 W2 T1 T2 E. pose proof (print_sections_spec g1 g2 (secs_of si relations g1 g2) count out) as P. rewrite E in P.
  destruct P as (ls & L & E1 & E2 & F & NO & LE).
  set (pr := fun x : nat * (verdict * list (N * N)) => print_alignments (fst x) (fst (snd x)) g1 g2 (snd (snd x))) in *.
  exists (concat (map pr ls)). split; [exact E1|]. 
  assert (length (concat (map pr ls)) = count' - count) as LN by (rewrite <- (map_length (@it_no N R)), NO, seq_length; auto).
  split; [|rewrite LN; split; [auto|lia]].
  unfold secs_of in *. rewrite map_map in E2. cbn [fst] in E2. rewrite map_id in E2.
  assert (Forall2 (fun v x => fst (snd x) = v /\ Permutation (verdict_list relations g1 g2 v) (snd (snd x)) /\ sorted (snd (snd x))) (sections si) ls) as F2.
  { clear E1 E LN NO. revert ls L E2 F. induction (sections si) as [|v vs IH]; intros [|x ls] L E2 F; try discriminate L; constructor.
    - inversion F; subst. cbn [map] in E2. injection E2 as E3 _. cbn [snd] in *. rewrite E3. tauto.
    - apply IH; [cbn in L; lia| |inversion F; auto]. cbn [map] in E2. now injection E2. }
  assert (map (fun it => (it_sec it, it_nodes it)) (concat (map pr ls)) = concat (map (fun x => map (pair (fst (snd x))) (snd (snd x))) ls)) as EM.
  { clear. induction ls as [|x ls IH]; auto. cbn [map concat]. rewrite map_app, IH. f_equal. unfold pr.
    rewrite <- (print_nodes (fst x) (fst (snd x)) g1 g2 (snd (snd x))) at 2. rewrite map_map. apply map_ext_in. intros it H. apply print_in in H as [-> _]. auto. }
  assert (Permutation (concat (map (fun x => map (pair (fst (snd x))) (snd (snd x))) ls)) (concat (map (fun v => map (pair v) (verdict_list relations g1 g2 v)) (sections si)))) as PM.
  { clear - F2. induction F2 as [|v x vs ls (<- & H & _) F IH]; auto. cbn [map concat]. apply Permutation_app; auto. apply Permutation_map. now symmetry. }
  constructor.
  - intros v s t. rewrite EM. rewrite <- verdict_list_in by auto. rewrite <- sections_in. split.
    + intros H. eapply Permutation_in in H; [|exact PM]. apply in_concat in H as (l & H1 & H2). apply in_map_iff in H1 as (w & <- & H1).
      apply in_map_iff in H2 as (n & H2 & H3). injection H2 as -> ->. auto.
    + intros [H1 H2]. eapply Permutation_in; [apply Permutation_sym, PM|]. apply in_concat. eexists. split; [apply in_map, H1|]. now apply in_map.
  - rewrite EM. eapply Permutation_NoDup; [apply Permutation_sym, PM|].
    pose proof (sections_nodup si) as ND. induction (sections si) as [|v vs IH]; [constructor|]. inversion ND; subst. cbn [map concat].
    assert (forall A (a b : list A), NoDup a -> NoDup b -> (forall x, In x a -> ~ In x b) -> NoDup (a ++ b)) as NA.
    { clear. intros A a b Ha Hb H. induction Ha as [|x a Hx Ha IH]; auto. cbn. constructor.
      - intros K. apply in_app_or in K as [K|K]; auto. apply (H x); [left|]; auto.
      - apply IH. intros y Hy. apply H. right; auto. }
    apply NA.
    + apply FinFun.Injective_map_NoDup; [intros x y [= E3]; auto|]. now apply verdict_list_nodup.
    + clear - H2 W1 W2 NA. assert (forall vs, NoDup vs -> NoDup (concat (map (fun v0 => map (pair v0) (verdict_list relations g1 g2 v0)) vs))) as K; [|auto].
      intros us H. induction H as [|u us Hu H IH]; [constructor|]. cbn [map concat]. apply NA; auto.
      * apply FinFun.Injective_map_NoDup; [intros x y [= E3]; auto|]. now apply verdict_list_nodup.
      * intros x Hx K. apply in_map_iff in Hx as (n & <- & _). apply in_concat in K as (l & K1 & K2). apply in_map_iff in K1 as (w & <- & K1).
        apply in_map_iff in K2 as (m & [= -> _] & _). auto.
    + intros x Hx K. apply in_map_iff in Hx as (n & <- & _). apply in_concat in K as (l & K1 & K2). apply in_map_iff in K1 as (w & <- & K1).
      apply in_map_iff in K2 as (m & [= -> _] & _). auto.
  - intros it H. apply in_concat in H as (l & H1 & H2). apply in_map_iff in H1 as (x & <- & _). now apply print_in in H2.
  - exists (map pr ls). split; auto. clear - F2. induction F2 as [|v x vs ls (<- & _ & H) F IH]; constructor; auto. split.
    + apply Forall_forall. intros it Hit. now apply print_in in Hit.
    + unfold pr. now rewrite print_nodes.
Qed.
Definition pair_good (p : gp N R G) : Prop := wf (gp_align p) /\ truthy (gp_align p).
Lemma diff_pairs_step si relations count out p1 p2 l :
  diff_pairs false si relations count out ((p1, p2) :: l) =
  if geqb (gp_graphs p1) (gp_graphs p2) then
    match print_sections (gp_align p1) (gp_align p2) count out (secs_of si relations (gp_align p1) (gp_align p2)) with
    | (_, out', Some e) => (out', Some e)
    | (count', out', None) => diff_pairs false si relations count' out' l
    end
  else (out, Some AssertionError).
Proof.
  cbn [Diff_model.diff_pairs]. destruct (geqb _ _); auto. rewrite loop1_spec, loop2_spec. cbn [app]. unfold secs_of, sections.
  destruct si; reflexivity.
Qed.
Lemma diff_pairs_spec si relations l : forall count out,
  (forall p1 p2, In (p1, p2) l -> pair_good p1 /\ pair_good p2) ->
  match diff_pairs false si relations count out l with
  | (out', None) => exists bs, out' = out ++ concat bs /\
      Forall2 (fun ps b => geqb (gp_graphs (fst ps)) (gp_graphs (snd ps)) = true /\ block si relations (gp_align (fst ps)) (gp_align (snd ps)) b) l bs /\
      map (@it_no N R) (concat bs) = seq (S count) (length (concat bs))
  | (_, Some _) => exists p1 p2, In (p1, p2) l /\ (geqb (gp_graphs p1) (gp_graphs p2) = false \/
       exists s t, (ga (gp_align p1) s t <> None \/ ga (gp_align p2) s t <> None) /\ forall z, toint s <> Ok z)
  end.
Proof.
  induction l as [|[p1 p2] l IH]; intros count out H.
  { cbn. exists []. rewrite app_nil_r. repeat split; auto. }
  rewrite diff_pairs_step. destruct (geqb (gp_graphs p1) (gp_graphs p2)) eqn:EG; [|exists p1, p2; split; [left|]; auto].
  destruct (H p1 p2) as [[W1 T1] [W2 T2]]; [left; auto|].
  destruct (print_sections (gp_align p1) (gp_align p2) count out (secs_of si relations (gp_align p1) (gp_align p2))) as [[count' out'] [e|]] eqn:EP.
  - pose proof (print_sections_spec (gp_align p1) (gp_align p2) (secs_of si relations (gp_align p1) (gp_align p2)) count out) as P. rewrite EP in P.
    destruct P as (v & l0 & Hin & HN). exists p1, p2. split; [left; auto|]. right.
    apply in_map_iff in Hin as (w & [= -> <-] & _).
    assert (exists n, In n (verdict_list relations (gp_align p1) (gp_align p2) v) /\ forall z, toint (fst n) <> Ok z) as ([s t] & Hn & Hz).
    { revert HN. unfold ints. generalize (verdict_list relations (gp_align p1) (gp_align p2) v). clear. induction l as [|n l IH]; intros HN.
      - exfalso. apply HN. intros n [].
      - destruct (toint (fst n)) as [z|e] eqn:E.
        + destruct IH as (m & Hm & Hz). { intros K. apply HN. intros m [<-|Hm]; eauto. } exists m. split; [right|]; auto.
        + exists n. split; [left; auto|]. congruence. }
    exists s, t. split; auto. apply verdict_list_in in Hn; auto.
    destruct v; cbn in Hn; [destruct Hn as (r & Hr & _)|destruct Hn as (r & r' & Hr & _)|destruct Hn as (r & Hr & _)|destruct Hn as (r & Hr & _)];
      [left|left|left|right]; congruence.
  - destruct (@block_spec si relations (gp_align p1) (gp_align p2) count out count' out' W1 W2 T1 T2 EP) as (b & -> & B & NB & ->).
    specialize (IH (count + length b) (out ++ b) (fun q1 q2 K => H q1 q2 (or_intror K))).
    destruct (diff_pairs false si relations (count + length b) (out ++ b) l) as [o [e|]].
    + destruct IH as (q1 & q2 & K & X). exists q1, q2. split; [right|]; auto.
    + destruct IH as (bs & -> & F & NO). exists (b :: bs). cbn [concat]. split; [now rewrite <- app_assoc|]. split; [constructor; auto|].
      rewrite map_app, NB, NO, app_length, seq_app. cbn [Nat.add]. reflexivity.
Qed.
End D.
