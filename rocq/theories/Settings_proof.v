(** Proofs about Settings_model. *)
From Coq Require Import String Ascii.
From Verif Require Import Py PyLemmas PgcXml_model PgcXml_proof Ship_proof Settings_spec Settings_model.
From Coq Require Import Lia.
Import ListNotations.
Set Implicit Arguments.
Open Scope string_scope.
Open Scope nat_scope.
Open Scope list_scope.

Definition is_tag (t : string) (x : elem) : bool := String.eqb (tag x) t.
Lemma filter_none t l : Forall (fun x => tag x <> t) l -> filter (is_tag t) l = [].
Proof. unfold is_tag. induction 1 as [|x l Hx _ IH]; cbn; auto. apply String.eqb_neq in Hx. now rewrite Hx. Qed.
Lemma filter_one t l k : filter (is_tag t) l = [k] ->
  exists l1 l2, l = l1 ++ k :: l2 /\ tag k = t /\ Forall (fun x => tag x <> t) l1 /\ Forall (fun x => tag x <> t) l2.
Proof.
  unfold is_tag. induction l as [|x l IH]; cbn [filter]; [discriminate|]. destruct (String.eqb (tag x) t) eqn:E.
  - intros [= -> H]. apply String.eqb_eq in E. exists [], l. repeat split; auto.
    clear IH. apply Forall_forall. intros y Hy T. assert (In y (filter (fun x => String.eqb (tag x) t) l)) as F.
    { apply filter_In. split; auto. now apply String.eqb_eq. } rewrite H in F. destruct F.
  - intros H. destruct (IH H) as (l1 & l2 & -> & T & A & B). exists (x :: l1), l2. apply String.eqb_neq in E. repeat split; auto.
Qed.
Lemma find_go t p k l1 l2 : Forall (fun x => tag x <> t) l1 -> Forall (fun x => tag x <> t) l2 -> tag k = t ->
  (fix go (l : list elem) : option elem :=
         match l with
         | [] => None
         | k :: l' => if String.eqb (tag k) t then match find p k with Some x => Some x | None => go l' end else go l'
         end) (l1 ++ k :: l2) = find p k.
Proof.
  intros A B T. induction A as [|x l1 Hx _ IH].
  - cbn [app]. apply String.eqb_eq in T. rewrite T. destruct (find p k); auto.
    induction B as [|y l2 Hy _ IH]; auto. apply String.eqb_neq in Hy. now rewrite Hy.
  - cbn [app]. apply String.eqb_neq in Hx. now rewrite Hx.
Qed.
Lemma find_only t p e k : only t e k -> find (t :: p) e = find p k.
Proof.
  intros H. destruct (filter_one _ _ H) as (l1 & l2 & E & T & A & B). cbn [find]. rewrite E. now apply find_go.
Qed.
Lemma map_other t (g : elem -> elem) l : Forall (fun x => tag x <> t) l -> map (fun k => if String.eqb (tag k) t then g k else k) l = l.
Proof. induction 1 as [|x l Hx _ IH]; cbn; auto. apply String.eqb_neq in Hx. now rewrite Hx, IH. Qed.
Lemma change_go t p f k k' l1 l2 : Forall (fun x => tag x <> t) l1 -> Forall (fun x => tag x <> t) l2 -> tag k = t -> change_at p f k = k' ->
  (fix go (l : list elem) : option (list elem) :=
         match l with
         | [] => None
         | k :: l' =>
             if String.eqb (tag k) t
             then match change_at p f k with Some k' => Some (k' :: l') | None => option_map (cons k) (go l') end
             else option_map (cons k) (go l')
         end) (l1 ++ k :: l2) = option_map (fun k' => l1 ++ k' :: l2) k'.
Proof.
  intros A B T C. induction A as [|x l1 Hx _ IH].
  - cbn [app]. apply String.eqb_eq in T. rewrite T, C. destruct k' as [k'|]; cbn [option_map]; auto.
    enough (forall l, Forall (fun x => tag x <> t) l -> (fix go (l : list elem) : option (list elem) :=
         match l with
         | [] => None
         | k :: l' =>
             if String.eqb (tag k) t
             then match change_at p f k with Some k' => Some (k' :: l') | None => option_map (cons k) (go l') end
             else option_map (cons k) (go l')
         end) l = None) as -> by auto.
    clear. induction 1 as [|y l2 Hy _ IH]; auto. apply String.eqb_neq in Hy. now rewrite Hy, IH.
  - cbn [app]. apply String.eqb_neq in Hx. rewrite Hx, IH. now destruct k'.
Qed.
Lemma change_only t p f e k : only t e k -> change_at (t :: p) f e = option_map (fun k' => at_tag t (fun _ => k') e) (change_at p f k).
Proof.
  intros H. destruct (filter_one _ _ H) as (l1 & l2 & E & T & A & B). cbn [change_at]. rewrite E.
  rewrite (@change_go t p f k _ l1 l2 A B T eq_refl). destruct (change_at p f k) as [k'|]; cbn [option_map]; auto.
  unfold at_tag. rewrite E, map_app. cbn [map]. apply String.eqb_eq in T. now rewrite T, !map_other.
Qed.
Lemma at_only t e k k' : only t e k -> tag k' = t -> only t (at_tag t (fun _ => k') e) k'.
Proof.
  intros H T'. destruct (filter_one _ _ H) as (l1 & l2 & E & T & A & B). unfold only, at_tag. cbn [kids]. rewrite E, map_app. cbn [map].
  apply String.eqb_eq in T. rewrite T, !map_other by auto. fold (is_tag t). rewrite filter_app. cbn [filter]. rewrite !filter_none by auto.
  unfold is_tag. apply String.eqb_eq in T'. now rewrite T'.
Qed.
Lemma filter_at t t' g e : t' <> t -> (forall k, tag k = t -> tag (g k) = t) ->
  filter (is_tag t') (kids (at_tag t g e)) = filter (is_tag t') (kids e).
Proof.
  intros N G. unfold at_tag, is_tag. cbn [kids]. induction (kids e) as [|x l IH]; cbn [map filter]; auto.
  destruct (String.eqb (tag x) t) eqn:E.
  - apply String.eqb_eq in E. rewrite (G _ E), E. assert (String.eqb t t' = false) as -> by (apply String.eqb_neq; congruence). exact IH.
  - now rewrite IH.
Qed.
Lemma only_other t t' e k k' : t' <> t -> tag k' = t -> only t' (at_tag t (fun _ => k') e) k <-> only t' e k.
Proof. intros N T. unfold only. fold (is_tag t'). now rewrite filter_at by auto. Qed.
(** blanking *)
Lemma at_at t g e k k' : only t e k -> tag k' = t -> g k' = g k -> at_tag t g (at_tag t (fun _ => k') e) = at_tag t g e.
Proof.
  intros H T' G. destruct (filter_one _ _ H) as (l1 & l2 & E & T & A & B). unfold at_tag. cbn [kids tag attrib text]. f_equal.
  rewrite map_map, E, !map_app. cbn [map]. rewrite T, !String.eqb_refl, T', !String.eqb_refl, G.
  f_equal; [|f_equal]; apply map_ext_in; intros x Hx.
  - rewrite Forall_forall in A. specialize (A _ Hx). apply String.eqb_neq in A. now rewrite !A.
  - rewrite Forall_forall in B. specialize (B _ Hx). apply String.eqb_neq in B. now rewrite !B.
Qed.
Lemma at_comm t t' g g' e : t <> t' -> (forall k, tag k = t -> tag (g k) = t) -> (forall k, tag k = t' -> tag (g' k) = t') ->
  at_tag t g (at_tag t' g' e) = at_tag t' g' (at_tag t g e).
Proof.
  intros N G G'. unfold at_tag. cbn [kids tag attrib text]. f_equal. rewrite !map_map. apply map_ext. intros x.
  destruct (String.eqb (tag x) t) eqn:E; destruct (String.eqb (tag x) t') eqn:E'; try rewrite E; try rewrite E'; auto.
  - apply String.eqb_eq in E, E'. congruence.
  - apply String.eqb_eq in E. rewrite (G _ E). assert (String.eqb t t' = false) as -> by now apply String.eqb_neq. auto.
  - apply String.eqb_eq in E'. rewrite (G' _ E'). assert (String.eqb t' t = false) as -> by (apply String.eqb_neq; congruence). auto.
Qed.
Lemma tag_at t g e : tag (at_tag t g e) = tag e. Proof. reflexivity. Qed.
Lemma tag_blank e : tag (blank_side e) = tag e. Proof. reflexivity. Qed.

(** ** changing the file name or the elements of a side *)
Definition pack (n : option string) (r : option string) (l : list (string * list (string * string))) : side := {| s_name := n; s_root := r; s_elems := l |}.
Definition entries (el : elem) := map (fun k => (tag k, attrib k)) (kids el).
(** The parts of a side. *)
Record parts (doc : elem) (s : which) (v : side) (fn el : elem) : Prop := {
  q_fn : find (filename_path s) doc = Some fn;
  q_el : find (elements_path s) doc = Some el;
  q_v : v = pack (text fn) (attr el "pseudo_root") (entries el) }.
Lemma shows_parts doc d s : shows doc d -> exists fn el, parts doc s (side_of d s) fn el.
Proof.
  intros (F & T & _). assert (shows_side doc (name_of s) (side_of d s)) as S0 by (destruct s; auto). clear F T.
  destruct S0 as (x & fn & rd & el & A & B & C & D & N & R & L). exists fn, el. constructor.
  - unfold filename_path. rewrite (find_only _ A), (find_only _ B). reflexivity.
  - unfold elements_path. rewrite (find_only _ A), (find_only _ C), (find_only _ D). reflexivity.
  - destruct (side_of d s) as [n r l]. cbn in *. subst. reflexivity.
Qed.
Lemma name_other s : name_of s <> "alignment". Proof. destruct s; discriminate. Qed.
Lemma shows_change doc d s x' v' (S1 : shows doc d) x : only (name_of s) doc x -> tag x' = name_of s ->
  blank_side x' = blank_side x ->
  (exists fn rd el, only "filename" x' fn /\ only "render" x' rd /\ only "elements" rd el /\
    s_name v' = text fn /\ s_root v' = attr el "pseudo_root" /\ s_elems v' = entries el) ->
  shows (at_tag (name_of s) (fun _ => x') doc) (change d s (fun _ => v')) /\
  outline (at_tag (name_of s) (fun _ => x') doc) = outline doc.
Proof.
  intros O T B (fn & rd & el & F). destruct S1 as (SF & ST & AL). split.
  - assert (filter (is_tag "alignment") (kids (at_tag (name_of s) (fun _ => x') doc)) = filter (is_tag "alignment") (kids doc)) as FA.
    { apply filter_at; auto. intros E. now apply (name_other s). }
    assert (shows_side (at_tag (name_of s) (fun _ => x') doc) (name_of s) v') as S1.
    { exists x', fn, rd, el. split; [now apply (at_only _ O)|exact F]. }
    assert (forall o v, name_of s <> name_of o -> shows_side doc (name_of o) v -> shows_side (at_tag (name_of s) (fun _ => x') doc) (name_of o) v) as S2.
    { intros o v N (y & fn1 & rd1 & el1 & A & R). exists y, fn1, rd1, el1. split; auto. apply only_other; auto. }
    unfold shows. unfold is_tag in FA. rewrite FA. destruct s; cbn [change v_from v_to v_align name_of] in *; split; [|split| |split]; auto.
    + apply (S2 To); auto. discriminate.
    + apply (S2 From); auto. discriminate.
  - unfold outline. destruct s; cbn [name_of] in *.
    + now rewrite (@at_at "from" _ doc x x').
    + rewrite !(@at_comm "to" "from") by (discriminate || auto). now rewrite (@at_at "to" _ doc x x').
Qed.
Lemma blank_filename x fn f : only "filename" x fn -> tag (f fn) = "filename" -> no_text (f fn) = no_text fn ->
  blank_side (at_tag "filename" (fun _ => f fn) x) = blank_side x.
Proof. intros A T E. unfold blank_side. now rewrite (@at_at "filename" _ x fn). Qed.
Lemma blank_elements x rd el f : only "render" x rd -> only "elements" rd el -> tag (f el) = "elements" -> no_tags (f el) = no_tags el ->
  blank_side (at_tag "render" (fun _ => at_tag "elements" (fun _ => f el) rd) x) = blank_side x.
Proof.
  intros A B T E. unfold blank_side. destruct (filter_one _ _ A) as (_ & _ & _ & TR & _).
  rewrite !(@at_comm "render" "filename") by (discriminate || auto). f_equal.
  rewrite (@at_at "render" _ x rd); auto. now rewrite (@at_at "elements" _ rd el).
Qed.
Lemma change_filename doc d s f fn el : shows doc d -> parts doc s (side_of d s) fn el -> (forall e, tag (f e) = tag e) -> (forall e, no_text (f e) = no_text e) ->
  exists doc', change_at (filename_path s) f doc = Some doc' /\ parts doc' s (pack (text (f fn)) (attr el "pseudo_root") (entries el)) (f fn) el /\
    shows doc' (change d s (fun _ => pack (text (f fn)) (attr el "pseudo_root") (entries el))) /\ outline doc' = outline doc.
Proof.
  intros S0 P TG NT. assert (S1 := S0). destruct S1 as (F & T & _). assert (shows_side doc (name_of s) (side_of d s)) as S1 by (destruct s; auto). clear F T.
  destruct S1 as (x & fn1 & rd & el1 & A & B & C & D & N & R & L). destruct P as [P1 P2 P3].
  unfold filename_path, elements_path in P1, P2. rewrite (find_only _ A), (find_only _ B) in P1.
  rewrite (find_only _ A), (find_only _ C), (find_only _ D) in P2. injection P1 as ->. injection P2 as ->.
  destruct (filter_one _ _ B) as (_ & _ & _ & TB & _).
  set (x' := at_tag "filename" (fun _ => f fn) x).
  destruct (filter_one _ _ A) as (_ & _ & _ & TA & _).
  assert (only "filename" x' (f fn)) as B'. { apply (at_only _ B). now rewrite TG. }
  assert (only "render" x' rd) as C'. { apply only_other; auto. discriminate. now rewrite TG. }
  destruct (@shows_change doc d s x' (pack (text (f fn)) (attr el "pseudo_root") (entries el)) S0 x A) as [S1 S2]; auto.
  { apply blank_filename; auto. now rewrite TG. }
  { exists (f fn), rd, el. auto 8. }
  exists (at_tag (name_of s) (fun _ => x') doc). unfold filename_path. rewrite (change_only _ _ A), (change_only _ _ B). split; [reflexivity|]. split; auto.
  assert (only (name_of s) (at_tag (name_of s) (fun _ => x') doc) x') as A' by now apply (at_only _ A).
  constructor; auto; unfold filename_path, elements_path; rewrite (find_only _ A').
  + now rewrite (find_only _ B'). + now rewrite (find_only _ C'), (find_only _ D).
Qed.
Lemma change_elements doc d s f fn el : shows doc d -> parts doc s (side_of d s) fn el -> tag (f el) = tag el -> no_tags (f el) = no_tags el ->
  exists doc', change_at (elements_path s) f doc = Some doc' /\ parts doc' s (pack (text fn) (attr (f el) "pseudo_root") (entries (f el))) fn (f el) /\
    shows doc' (change d s (fun _ => pack (text fn) (attr (f el) "pseudo_root") (entries (f el)))) /\ outline doc' = outline doc.
Proof.
  intros S0 P TG NT. assert (S1 := S0). destruct S1 as (F & T & _). assert (shows_side doc (name_of s) (side_of d s)) as S1 by (destruct s; auto). clear F T.
  destruct S1 as (x & fn1 & rd & el1 & A & B & C & D & N & R & L). destruct P as [P1 P2 P3].
  unfold filename_path, elements_path in P1, P2. rewrite (find_only _ A), (find_only _ B) in P1.
  rewrite (find_only _ A), (find_only _ C), (find_only _ D) in P2. injection P1 as ->. injection P2 as ->.
  destruct (filter_one _ _ C) as (_ & _ & _ & TC & _). destruct (filter_one _ _ D) as (_ & _ & _ & TD & _).
  set (rd' := at_tag "elements" (fun _ => f el) rd). set (x' := at_tag "render" (fun _ => rd') x).
  destruct (filter_one _ _ A) as (_ & _ & _ & TA & _).
  assert (only "elements" rd' (f el)) as D'. { apply (at_only _ D). now rewrite TG. }
  assert (only "render" x' rd') as C'. { apply (at_only _ C). now subst rd'. }
  assert (only "filename" x' fn) as B'. { apply only_other; auto. discriminate. }
  destruct (@shows_change doc d s x' (pack (text fn) (attr (f el) "pseudo_root") (entries (f el))) S0 x A) as [S1 S2]; auto.
  { apply blank_elements; auto. now rewrite TG. }
  { exists fn, rd', (f el). auto 8. }
  exists (at_tag (name_of s) (fun _ => x') doc). unfold elements_path. rewrite (change_only _ _ A), (change_only _ _ C), (change_only _ _ D).
  split; [reflexivity|]. split; auto.
  assert (only (name_of s) (at_tag (name_of s) (fun _ => x') doc) x') as A' by now apply (at_only _ A).
  constructor; auto; unfold filename_path, elements_path; rewrite (find_only _ A').
  + now rewrite (find_only _ B'). + now rewrite (find_only _ C'), (find_only _ D').
Qed.
Lemma change_ext d s f g : f (side_of d s) = g (side_of d s) -> change d s f = change d s g.
Proof. destruct s; cbn; intros ->; reflexivity. Qed.
Lemma side_change d s f : side_of (change d s f) s = f (side_of d s). Proof. now destruct s. Qed.
Lemma change_change d s f v : change (change d s f) s (fun _ => v) = change d s (fun _ => v). Proof. now destruct s. Qed.
Lemma change_id d s : change d s (fun _ => side_of d s) = d. Proof. destruct d, s; reflexivity. Qed.
Lemma filter_dset a k v : filter (fun x => negb (String.eqb (fst x) k)) (dset String.eqb a k v) = filter (fun x : string * string => negb (String.eqb (fst x) k)) a.
Proof.
  induction a as [|[k' v'] a IH]; cbn [dset filter fst].
  - now rewrite String.eqb_refl.
  - rewrite (String.eqb_sym k' k). destruct (String.eqb k k') eqn:E; cbn [filter fst]; rewrite (String.eqb_sym k' k), E; cbn [negb]; auto. now f_equal.
Qed.
Lemma no_tags_root t e : no_tags (set_attr "pseudo_root" t e) = no_tags e.
Proof. unfold no_tags, set_attr. cbn [tag attrib text kids]. now rewrite filter_dset. Qed.
Lemma attr_root t e : attr (set_attr "pseudo_root" t e) "pseudo_root" = Some t.
Proof. unfold attr, set_attr. cbn [attrib]. apply dget_dset_same. apply String.eqb_eq. Qed.

(** changing the first child with a tag *)
Definition good (r : res elem) (doc : elem) (d : settings) : Prop := exists doc', r = Ok doc' /\ shows doc' d /\ outline doc' = outline doc.
Lemma set_filename_good doc d s fn : shows doc d -> good (set_filename s fn doc) doc (change d s (with_name fn)).
Proof.
  intros H. destruct (shows_parts s H) as (f & el & P). destruct (change_filename (set_text fn) H P) as (doc' & E & P' & S' & O'); auto.
  exists doc'. unfold set_filename, changed. rewrite E. split; auto. split; auto.
  erewrite change_ext; [exact S'|]. destruct P as [_ _ ->]. reflexivity.
Qed.
Lemma set_root_good doc d s t : shows doc d -> good (set_pseudo_root s t doc) doc (change d s (with_root t)).
Proof.
  intros H. destruct (shows_parts s H) as (f & el & P). destruct (change_elements (set_attr "pseudo_root" t) H P) as (doc' & E & P' & S' & O'); auto.
  { apply no_tags_root. }
  exists doc'. unfold set_pseudo_root, changed. rewrite E. split; auto. split; auto.
  erewrite change_ext; [exact S'|]. destruct P as [_ _ ->]. rewrite attr_root. reflexivity.
Qed.
Lemma add_parts doc d s t fn el : shows doc d -> parts doc s (side_of d s) fn el ->
  exists doc', add_elem s t doc = Ok doc' /\ outline doc' = outline doc /\
    parts doc' s (pack (text fn) (attr el "pseudo_root") (entries el ++ [(t, fresh)])) fn (append_kid (default_elem t) el) /\
    shows doc' (change d s (fun _ => pack (text fn) (attr el "pseudo_root") (entries el ++ [(t, fresh)]))).
Proof.
  intros H P. destruct (change_elements (append_kid (default_elem t)) H P) as (doc' & E & P' & S' & O'); auto.
  exists doc'. unfold add_elem, changed. rewrite E. unfold entries in *. cbn [append_kid kids] in P', S'. rewrite map_app in P', S'. auto.
Qed.
Lemma add_good doc d s t : shows doc d -> good (add_elem s t doc) doc (change d s (fun v => with_elems (s_elems v ++ [(t, fresh)]) v)).
Proof.
  intros H. destruct (shows_parts s H) as (f & el & P). destruct (add_parts t H P) as (doc' & E & O' & P' & S').
  exists doc'. split; auto. split; auto. erewrite change_ext; [exact S'|]. destruct P as [_ _ ->]. reflexivity.
Qed.
Lemma set_parts doc d s n k v fn el : shows doc d -> parts doc s (side_of d s) fn el ->
  exists doc', changed (elements_path s) (set_kid n k v) doc = Ok doc' /\ outline doc' = outline doc /\
    parts doc' s (pack (text fn) (attr el "pseudo_root") (entries (set_kid n k v el))) fn (set_kid n k v el) /\
    shows doc' (change d s (fun _ => pack (text fn) (attr el "pseudo_root") (entries (set_kid n k v el)))).
Proof.
  intros H P. destruct (change_elements (set_kid n k v) H P) as (doc' & E & P' & S' & O'); auto.
  exists doc'. unfold changed. rewrite E. auto.
Qed.
Lemma change_first t k v el :
  (exists el', change_at [t] (set_attr k v) el = Some el' /\ tag el' = tag el /\ no_tags el' = no_tags el /\
     attr el' "pseudo_root" = attr el "pseudo_root" /\ set_first t k v (entries el) (entries el')) \/
  (change_at [t] (set_attr k v) el = None /\ ~ In t (map tag (kids el))).
Proof.
  destruct el as [tg a x ks]. cbn [change_at kids tag attrib text]. unfold entries, no_tags, attr. cbn [kids tag attrib text].
  set (go := fix go (l : list elem) := match l with [] => None | k0 :: l' => _ end).
  enough ((exists ks', go ks = Some ks' /\ set_first t k v (map (fun k => (tag k, attrib k)) ks) (map (fun k => (tag k, attrib k)) ks')) \/
          (go ks = None /\ ~ In t (map tag ks))) as [(ks' & E & F)|[E F]].
  { left. rewrite E. cbn [option_map]. eexists. repeat split; auto. }
  { right. rewrite E. auto. }
  induction ks as [|y ks IH]; [right; cbn; auto|]. cbn [go map]. fold go. destruct (String.eqb (tag y) t) eqn:E.
  - left. eexists. split; eauto. apply String.eqb_eq in E. cbn [map set_attr tag attrib]. rewrite E. constructor.
  - apply String.eqb_neq in E. destruct IH as [(ks' & G & F)|[G F]]; rewrite G; cbn [option_map].
    + left. eexists. split; eauto. cbn [map]. now constructor.
    + right. split; auto. intros [K|K]; auto.
Qed.
Lemma set_first_in t k v l l' : set_first t k v l l' -> In t (map fst l).
Proof. induction 1; [now left|now right]. Qed.
Lemma change_app doc d s t f fn el : shows doc d -> parts doc s (side_of d s) fn el ->
  change_at (elements_path s ++ [t]) f doc = match change_at [t] f el with Some el' => change_at (elements_path s) (fun _ => el') doc | None => None end.
Proof.
  intros (F & T & _) P. assert (shows_side doc (name_of s) (side_of d s)) as S1 by (destruct s; auto). clear F T.
  destruct S1 as (x & fn1 & rd & el1 & A & B & C & D & N & R & L). destruct P as [P1 P2 P3].
  unfold elements_path in P2. rewrite (find_only _ A), (find_only _ C), (find_only _ D) in P2. injection P2 as ->.
  unfold elements_path. cbn [app]. rewrite (change_only _ _ A), (change_only _ _ C), (change_only _ _ D).
  destruct (change_at [t] f el) as [el'|]; auto. cbn [option_map]. now rewrite (change_only _ _ A), (change_only _ _ C), (change_only _ _ D).
Qed.
Lemma entries_tags el : map fst (entries el) = map tag (kids el).
Proof. unfold entries. rewrite map_map. reflexivity. Qed.
Lemma set_elem_good doc d s t k v : shows doc d ->
  (exists l, set_first t k v (s_elems (side_of d s)) l /\ good (set_elem s t k v doc) doc (change d s (with_elems l))) \/
  (~ In t (map fst (s_elems (side_of d s))) /\ set_elem s t k v doc = Err AttributeError).
Proof.
  intros H. destruct (shows_parts s H) as (fn & el & P). unfold set_elem, changed. rewrite (change_app t (set_attr k v) H P).
  assert (s_elems (side_of d s) = entries el) as -> by (destruct P as [_ _ ->]; reflexivity).
  destruct (change_first t k v el) as [(el' & E & T & N & A & F)|[E F]]; rewrite E.
  - left. exists (entries el'). split; auto. destruct (change_elements (fun _ => el') H P) as (doc' & E' & P' & S' & O'); auto.
    exists doc'. rewrite E'. split; auto. split; auto. erewrite change_ext; [exact S'|]. destruct P as [_ _ ->]. rewrite A. reflexivity.
  - right. rewrite entries_tags. auto.
Qed.

(** ** the overview of the tags *)
Lemma occ_app t a b : occurrences t (a ++ b) = occurrences t a + occurrences t b.
Proof. induction a as [|x a IH]; cbn [app occurrences]; auto. rewrite IH. lia. Qed.
Lemma occ_in t l : occurrences t l = 0 <-> ~ In t l.
Proof.
  induction l as [|x l IH]; cbn [occurrences In]; [tauto|]. destruct (String.eqb x t) eqn:E.
  - apply String.eqb_eq in E. split; [lia|tauto].
  - apply String.eqb_neq in E. rewrite IH. tauto.
Qed.
Lemma first_in t l : In t (first_occurrences l) <-> In t l.
Proof.
  induction l as [|x l IH]; cbn [first_occurrences In]; [tauto|]. rewrite filter_In, IH.
  destruct (String.eqb t x) eqn:E; cbn [negb].
  - apply String.eqb_eq in E. subst. tauto.
  - apply String.eqb_neq in E. split; intros [K|K]; auto; try tauto.
Qed.
Lemma first_nodup l : NoDup (first_occurrences l).
Proof.
  induction l as [|x l IH]; cbn [first_occurrences]; constructor.
  - rewrite filter_In, String.eqb_refl. cbn. now intros [_ K].
  - now apply NoDup_filter.
Qed.
Lemma first_snoc t l : first_occurrences (l ++ [t]) = if mem String.eqb t l then first_occurrences l else first_occurrences l ++ [t].
Proof.
  induction l as [|x l IH]; cbn [app first_occurrences]; auto. rewrite IH. cbn [mem].
  destruct (String.eqb t x) eqn:E; cbn [orb].
  - destruct (mem String.eqb t l); auto. rewrite filter_app. cbn [filter]. rewrite E. cbn. now rewrite app_nil_r.
  - destruct (mem String.eqb t l); auto. rewrite filter_app. cbn [filter]. rewrite E. reflexivity.
Qed.
Lemma iter_tags e : map tag (iter e) = all_tags e.
Proof.
  induction e as [t a x k IH] using elem_rect'. cbn [iter all_tags map tag kids]. f_equal.
  induction IH as [|y k Hy _ IHk]; cbn [flat_map]; auto. now rewrite map_app, Hy, IHk.
Qed.
Definition upd (n : nat) (g : string * list (string * string) -> string * list (string * string)) l := 
  (fix go (n : nat) (l : list (string * list (string * string))) := match n, l with _, [] => [] | 0, x :: l' => g x :: l' | S n', x :: l' => x :: go n' l' end) n l.
Lemma entries_set n k v el : entries (set_kid n k v el) = upd n (fun x => (fst x, dset String.eqb (snd x) k v)) (entries el).
Proof.
  unfold entries, set_kid. cbn [kids]. unfold upd. revert n. induction (kids el) as [|y l IH]; intros [|n]; cbn [set_nth_kid map]; auto. now rewrite IH.
Qed.
Lemma upd_app g a b n : upd (List.length a + n) g (a ++ b) = a ++ upd n g b.
Proof. induction a as [|x a IH]; cbn [app List.length Nat.add]; auto. unfold upd in *. now rewrite IH. Qed.
Lemma upd_map g (h h' : string -> string * list (string * string)) fo i t : NoDup fo -> nth_error fo i = Some t ->
  h' t = g (h t) -> (forall x, x <> t -> h' x = h x) -> upd i g (map h fo) = map h' fo.
Proof.
  intros N. revert i. induction N as [|x fo Hx N IH]; intros i E G O; [now destruct i|]. destruct i as [|i]; cbn [nth_error] in E.
  - injection E as ->. cbn [map]. unfold upd. rewrite G. f_equal. apply map_ext_in. intros y Hy. symmetry. apply O. intros ->. contradiction.
  - cbn [map]. unfold upd in *. rewrite (IH i E G O). f_equal. symmetry. apply O. intros ->. apply nth_error_In in E. contradiction.
Qed.
Lemma combine_get (fo : list string) m t n : dget String.eqb (combine fo (seq m (List.length fo))) t = Some n -> exists i, n = m + i /\ nth_error fo i = Some t.
Proof.
  revert m. induction fo as [|x fo IH]; intros m; cbn [List.length seq combine dget]; [discriminate|]. destruct (String.eqb t x) eqn:E.
  - intros [= <-]. apply String.eqb_eq in E as ->. exists 0. split; auto.
  - intros H. destruct (IH _ H) as (i & -> & Hi). exists (S i). split; [lia|auto].
Qed.
Lemma combine_keys (fo : list string) m : dkeys (combine fo (seq m (List.length fo))) = fo.
Proof. revert m. unfold dkeys. induction fo as [|x fo IH]; intros m; cbn [List.length seq combine map fst]; auto. now rewrite IH. Qed.
Lemma combine_snoc (fo : list string) m t : combine (fo ++ [t]) (seq m (List.length (fo ++ [t]))) = combine fo (seq m (List.length fo)) ++ [(t, m + List.length fo)].
Proof.
  revert m. induction fo as [|x fo IH]; intros m; cbn [app List.length seq combine].
  - now rewrite Nat.add_0_r.
  - rewrite IH. cbn [app]. f_equal. f_equal. f_equal. f_equal. lia.
Qed.
Lemma overview_new t l : ~ In t l -> overview (l ++ [t]) = overview l ++ [(t, fresh ++ [("uniq", "True")])].
Proof.
  intros N. unfold overview. rewrite first_snoc. destruct (mem String.eqb t l) eqn:M.
  { apply (mem_spec String.eqb String.eqb_eq) in M. contradiction. }
  rewrite map_app. cbn [map]. f_equal.
  - apply map_ext_in. intros x Hx. rewrite first_in in Hx. rewrite occ_app. cbn [occurrences].
    destruct (String.eqb t x) eqn:E; [apply String.eqb_eq in E; subst; contradiction|]. now rewrite Nat.add_0_r.
  - rewrite occ_app. apply occ_in in N. rewrite N. cbn [occurrences]. rewrite String.eqb_refl. reflexivity.
Qed.
Lemma overview_old t l i : nth_error (first_occurrences l) i = Some t ->
  upd i (fun x => (fst x, dset String.eqb (snd x) "uniq" "False")) (overview l) = overview (l ++ [t]).
Proof.
  intros E. assert (In t l) as I by (apply first_in; eapply nth_error_In; eauto). unfold overview at 2. rewrite first_snoc.
  destruct (mem String.eqb t l) eqn:M.
  2:{ apply (mem_spec String.eqb String.eqb_eq) in I. congruence. }
  apply (@upd_map _ _ _ _ _ t); auto using first_nodup.
  - cbn [fst snd]. f_equal. rewrite occ_app. cbn [occurrences]. rewrite String.eqb_refl.
    assert (occurrences t l <> 0) as Z by (rewrite occ_in; tauto).
    assert ((occurrences t l + (1 + 0) =? 1) = false) as -> by (apply Nat.eqb_neq; lia).
    destruct (occurrences t l =? 1); reflexivity.
  - intros x N. rewrite occ_app. cbn [occurrences]. assert (String.eqb t x = false) as -> by (apply String.eqb_neq; congruence). now rewrite Nat.add_0_r.
Qed.
Lemma entries_len el : List.length (entries el) = List.length (kids el). Proof. apply map_length. Qed.
Lemma overview_len l : List.length (overview l) = List.length (first_occurrences l). Proof. apply map_length. Qed.
Lemma init_good s fn r E0 d o l : forall done seen doc el,
  shows doc (change d s (fun _ => pack (text fn) r (E0 ++ overview done))) -> outline doc = o ->
  parts doc s (pack (text fn) r (E0 ++ overview done)) fn el ->
  seen = combine (first_occurrences done) (seq (List.length E0) (List.length (first_occurrences done))) ->
  exists doc', init_loop s l seen doc = Ok doc' /\ outline doc' = o /\
    shows doc' (change d s (fun _ => pack (text fn) r (E0 ++ overview (done ++ map tag l)))).
Proof.
  induction l as [|e l IH]; intros done seen doc el H O P SE; cbn [init_loop map].
  { exists doc. rewrite app_nil_r. auto. }
  assert (r = attr el "pseudo_root" /\ entries el = E0 ++ overview done) as [R EE].
  { destruct P as [_ _ P]. unfold pack in P. injection P. auto. }
  assert (parts doc s (side_of (change d s (fun _ => pack (text fn) r (E0 ++ overview done))) s) fn el) as P0 by (rewrite side_change; exact P).
  destruct (dget String.eqb seen (tag e)) as [n|] eqn:G.
  - rewrite SE in G. apply combine_get in G as (i & -> & Hi).
    destruct (set_parts (List.length E0 + i) "uniq" "False" H P0) as (doc1 & E1 & O1 & P1 & S1).
    rewrite E1. cbn [bind]. rewrite entries_set, EE, upd_app, (overview_old _ _ Hi), <- R in *.
    rewrite change_change in S1.
    replace (done ++ tag e :: map tag l) with ((done ++ [tag e]) ++ map tag l) by now rewrite <- app_assoc.
    eapply IH; eauto. now rewrite O1.
    rewrite first_snoc. assert (mem String.eqb (tag e) done = true) as ->; auto.
    apply (mem_spec String.eqb String.eqb_eq), first_in. eapply nth_error_In; eauto.
  - assert (~ In (tag e) done) as N.
    { rewrite <- first_in. rewrite <- (combine_keys (first_occurrences done) (List.length E0)).
      rewrite <- (dget_none String.eqb String.eqb_eq). now rewrite <- SE. }
    destruct (add_parts (tag e) H P0) as (doc1 & E1 & O1 & P1 & S1).
    unfold found at 1. destruct P as [PF PE PV]. rewrite PE. cbn [bind]. rewrite E1. cbn [bind].
    rewrite change_change in S1. assert (P1' := P1).
    assert (parts doc1 s (side_of (change d s (fun _ => pack (text fn) (attr el "pseudo_root") (entries el ++ [(tag e, fresh)]))) s) fn (append_kid (default_elem (tag e)) el)) as P2
      by (rewrite side_change; exact P1).
    destruct (set_parts (List.length (kids el)) "uniq" "True" S1 P2) as (doc2 & E2 & O2 & P3 & S3).
    rewrite E2. cbn [bind]. rewrite change_change in S3.
    assert (entries (set_kid (List.length (kids el)) "uniq" "True" (append_kid (default_elem (tag e)) el)) = E0 ++ overview (done ++ [tag e])) as EQ.
    { rewrite entries_set. assert (entries (append_kid (default_elem (tag e)) el) = entries el ++ [(tag e, fresh)]) as ->.
      { unfold entries, append_kid. cbn [kids]. now rewrite map_app. }
      rewrite <- entries_len. rewrite <- (Nat.add_0_r (List.length (entries el))), upd_app. cbn [upd fst snd].
      rewrite EE, overview_new, <- app_assoc by auto. reflexivity. }
    rewrite EQ in *. assert (attr (append_kid (default_elem (tag e)) el) "pseudo_root" = r) as AR by (rewrite R; reflexivity). rewrite AR in *.
    replace (done ++ tag e :: map tag l) with ((done ++ [tag e]) ++ map tag l) by now rewrite <- app_assoc.
    eapply IH; eauto.
    { now rewrite O2, O1. }
    rewrite first_snoc. destruct (mem String.eqb (tag e) done) eqn:M.
    { apply (mem_spec String.eqb String.eqb_eq) in M. contradiction. }
    rewrite combine_snoc, SE. rewrite (dkeys_dset_new String.eqb String.eqb_eq).
    + do 2 f_equal. f_equal. rewrite <- entries_len, EE, app_length, overview_len. reflexivity.
    + rewrite combine_keys. now rewrite first_in.
Qed.
Lemma init_elems_good doc d s tree : shows doc d ->
  good (init_elems s tree doc) doc (change d s (fun v => with_root (tag tree) (with_elems (s_elems v ++ overview (all_tags tree)) v))).
Proof.
  intros H. destruct (shows_parts s H) as (fn & el & P). assert (P0 := P). destruct P0 as [_ _ PV].
  destruct (@init_good s fn (attr el "pseudo_root") (entries el) d (outline doc) (iter tree) [] [] doc el) as (doc' & E & O & S1); auto.
  { rewrite app_nil_r. unfold entries in *. rewrite <- PV, change_id. exact H. }
  { rewrite app_nil_r, <- PV. exact P. }
  unfold init_elems. rewrite E. cbn [bind]. destruct (set_root_good s (tag tree) S1) as (doc2 & E2 & S2 & O2).
  exists doc2. split; auto. split; [|congruence]. cbn [app] in S2. rewrite iter_tags in S2.
  replace (change d s _) with (change (change d s (fun _ => pack (text fn) (attr el "pseudo_root") (entries el ++ overview (all_tags tree)))) s (with_root (tag tree))); auto.
  rewrite PV || idtac. destruct s; cbn [change v_from v_to v_align side_of] in *; rewrite PV; reflexivity.
Qed.
(** ** operations *)
Lemma exec_good o doc d : shows doc d ->
  (exists d', meant d o d' /\ good (exec o doc) doc d') \/ ((forall d', ~ meant d o d') /\ exec o doc = Err AttributeError).
Proof.
  intros H. destruct o as [s fn|s t|s t|s t k v|s tree]; cbn [exec].
  - left. eexists. split; [constructor|]. now apply set_filename_good.
  - left. eexists. split; [constructor|]. now apply set_root_good.
  - left. eexists. split; [constructor|]. now apply add_good.
  - destruct (set_elem_good s t k v H) as [(l & F & G)|[N E]].
    + left. eexists. split; [constructor; eauto|]. exact G.
    + right. split; auto. intros d' M. inversion M as [| | |? ? ? ? l F|]; subst. apply N. eapply set_first_in; eauto.
  - left. eexists. split; [constructor|]. now apply init_elems_good.
Qed.
Lemma set_first_fun t k v l l1 l2 : set_first t k v l l1 -> set_first t k v l l2 -> l1 = l2.
Proof.
  intros A. revert l2. induction A as [a l|x l l' N A IH]; intros l2 B; inversion B as [? ?|? ? ? N' B']; subst; auto; cbn in *; try congruence.
  f_equal. auto.
Qed.
Lemma meant_fun d o d1 d2 : meant d o d1 -> meant d o d2 -> d1 = d2.
Proof. intros A B. destruct A; inversion B; subst; auto. f_equal. f_equal. eapply set_first_fun; eauto. Qed.
Lemma execs_good os : forall doc d d', shows doc d -> history d os d' -> good (execs os doc) doc d'.
Proof.
  induction os as [|o os IH]; intros doc d d' H HI; inversion HI as [|? ? d1 ? ? M HI']; subst; cbn [execs].
  - exists doc. auto.
  - destruct (exec_good o H) as [(d1' & M' & doc1 & E & S1 & O1)|[N _]]; [|now apply N in M].
    rewrite (meant_fun M M') in *. rewrite E. cbn [bind]. destruct (IH doc1 d1' d' S1 HI') as (doc2 & E2 & S2 & O2).
    exists doc2. split; auto. split; auto. congruence.
Qed.
Lemma template_shows : shows template (no_settings (Elem "alignment" [] None [])).
Proof.
  split; [|split]; cbn [no_settings v_from v_to v_align].
  - do 4 eexists. repeat (split; [reflexivity|]). reflexivity.
  - do 4 eexists. repeat (split; [reflexivity|]). reflexivity.
  - reflexivity.
Qed.
(** ** white space *)
Lemma white_space c : is_space c = true <-> white c.
Proof.
  unfold is_space, white. split; intros H.
  - apply orb_true_iff in H as [H|H].
    + apply andb_true_iff in H as [A B]. apply Nat.leb_le in A, B. right. lia.
    + apply Nat.eqb_eq in H. left. rewrite <- (ascii_nat_embedding c), H. reflexivity.
  - apply orb_true_iff. destruct H as [->|[A B]]; [now right|]. left. apply andb_true_iff. split; now apply Nat.leb_le.
Qed.
Lemma str_app a b : string_of_list_ascii (a ++ b) = (string_of_list_ascii a ++ string_of_list_ascii b)%string.
Proof. induction a as [|c a IH]; cbn; auto. now rewrite IH. Qed.
Lemma lstrip_split l : exists a, l = a ++ lstrip l /\ Forall (fun c => is_space c = true) a.
Proof.
  induction l as [|c l (a & E & F)]; [now exists []|]. cbn [lstrip]. destruct (is_space c) eqn:E1.
  - exists (c :: a). cbn. split; [now f_equal|auto].
  - now exists [].
Qed.
Lemma blank_list a : Forall (fun c => is_space c = true) a -> blank (string_of_list_ascii a).
Proof. induction 1; cbn; constructor; auto. now apply white_space. Qed.
Lemma list_app a b : list_ascii_of_string (a ++ b) = list_ascii_of_string a ++ list_ascii_of_string b.
Proof. induction a as [|c a IH]; cbn; auto. now rewrite IH. Qed.
Lemma strip_trimmed s : trimmed s (strip s).
Proof.
  unfold strip. set (l := list_ascii_of_string s). destruct (lstrip_split l) as (a & E & A).
  destruct (lstrip_split (rev (lstrip l))) as (b & E2 & B). set (m := lstrip (rev (lstrip l))) in *.
  exists (string_of_list_ascii a), (string_of_list_ascii (rev b)).
  assert (lstrip l = rev m ++ rev b) as E3 by (rewrite <- rev_app_distr, <- E2; now rewrite rev_involutive).
  split; [|split; [|split; [|split]]].
  - rewrite <- !str_app, <- E3, <- E. subst l. now rewrite string_of_list_ascii_of_string.
  - now apply blank_list.
  - apply blank_list. apply Forall_rev. exact B.
  - intros c r H W. pose proof (lstrip_ok l) as O. rewrite E3 in O.
    apply (f_equal list_ascii_of_string) in H. rewrite list_ascii_of_string_of_list_ascii in H. rewrite H in O. cbn in O.
    apply white_space in W. congruence.
  - intros c r H W. pose proof (lstrip_ok (rev (lstrip l))) as O. fold m in O.
    apply (f_equal list_ascii_of_string) in H. rewrite list_ascii_of_string_of_list_ascii, list_app in H.
    apply (f_equal (@rev _)) in H. rewrite rev_involutive, rev_app_distr in H. cbn in H. rewrite H in O. cbn in O. apply white_space in W. congruence.
Qed.
Lemma lstrip_blank a l : Forall (fun c => is_space c = true) a -> lstrip (a ++ l) = lstrip l.
Proof. induction 1 as [|c a Hc _ IH]; cbn; auto. now rewrite Hc. Qed.
Lemma blank_inv w : blank w -> Forall (fun c => is_space c = true) (list_ascii_of_string w).
Proof. induction 1; cbn; constructor; auto. now apply white_space. Qed.
Lemma trimmed_strip s t : trimmed s t -> t = strip s.
Proof.
  intros (w1 & w2 & -> & A & B & F & L). unfold strip. rewrite !list_app, lstrip_blank by now apply blank_inv.
  apply blank_inv in B. set (m := list_ascii_of_string t) in *. set (b := list_ascii_of_string w2) in *.
  assert (first_ok m) as F'.
  { subst m. destruct t as [|c t]; cbn; auto. destruct (is_space c) eqn:E; auto. apply white_space in E. now destruct (F c t). }
  assert (first_ok (rev m)) as L'.
  { destruct (rev m) as [|c r] eqn:E; cbn; auto. destruct (is_space c) eqn:E1; auto. apply white_space in E1.
    apply (f_equal (@rev _)) in E. rewrite rev_involutive in E. cbn [rev] in E. exfalso.
    apply (L c (string_of_list_ascii (rev r))); auto. change (String c "") with (string_of_list_ascii [c]). rewrite <- str_app, <- E.
    subst m. now rewrite string_of_list_ascii_of_string. }
  assert (rev (lstrip (rev (lstrip (m ++ b)))) = m) as ->; [|subst m; now rewrite string_of_list_ascii_of_string].
  destruct m as [|c m'] eqn:E.
  - cbn [app]. replace b with (b ++ []) by apply app_nil_r. rewrite lstrip_blank by auto. reflexivity.
  - rewrite (@lstrip_id ((c :: m') ++ b)) by exact F'. rewrite rev_app_distr, lstrip_blank by now apply Forall_rev.
    rewrite lstrip_id by exact L'. apply rev_involutive.
Qed.
(** ** getters *)
Lemma attr_of k el : attr el k = value (attrib el) k. Proof. reflexivity. Qed.
Section Get.
Variable ex : string -> bool.
Lemma filename_ok own doc d s b : shows doc d -> get_filename ex own doc s b =
  match s_name (side_of d s) with
  | None => Err AttributeError
  | Some x => if b then match List.find ex [strip x; join (dirname own) (strip x); join (dirname own) (basename own)] with Some p => Ok p | None => Ok (strip x) end
              else Ok (strip x)
  end.
Proof.
  intros H. destruct (shows_parts s H) as (fn & el & [P1 P2 P3]). unfold get_filename, found. rewrite P1, P3. cbn [bind pack s_name].
  destruct (text fn) as [x|]; cbn [need bind]; auto.
Qed.
End Get.
Lemma root_ok doc d s : shows doc d -> get_pseudo_root doc s = Ok (s_root (side_of d s)).
Proof. intros H. destruct (shows_parts s H) as (fn & el & [P1 P2 P3]). unfold get_pseudo_root, found. now rewrite P2, P3. Qed.
Lemma elem_tags_ok doc d s : shows doc d -> get_elem_tags doc s = Ok (map fst (s_elems (side_of d s))).
Proof. intros H. destruct (shows_parts s H) as (fn & el & [P1 P2 P3]). unfold get_elem_tags, found. rewrite P2, P3. cbn [bind pack s_elems]. now rewrite entries_tags. Qed.
Lemma tags_ok doc d s a : shows doc d -> exists l, get_tags doc s a = Ok l /\
  l = map fst (filter (fun x => match value (snd x) a with Some v => String.eqb v "True" | None => false end) (s_elems (side_of d s))).
Proof.
  intros H. destruct (shows_parts s H) as (fn & el & [P1 P2 P3]). unfold get_tags, found. rewrite P2, P3. cbn [bind pack s_elems].
  eexists. split; [reflexivity|]. unfold entries. induction (kids el) as [|k l IH]; cbn [filter map]; auto.
  unfold is_true at 1. rewrite attr_of. cbn [snd]. destruct (value (attrib k) a) as [v|]; [destruct (String.eqb v "True")|]; cbn [map fst]; now rewrite IH.
Qed.
Definition seen_as (e : elem) := (tag e, attrib e).
Lemma find_kids t el : option_map seen_as (find [t] el) = List.find (fun x => String.eqb (fst x) t) (entries el).
Proof.
  destruct el as [tg a x ks]. cbn [find kids]. unfold entries. cbn [kids]. induction ks as [|k l IH]; cbn [List.find map]; auto.
  cbn [fst]. destruct (String.eqb (tag k) t); auto.
Qed.
Lemma get_elem_ok doc d s t : shows doc d -> option_map seen_as (get_elem doc s t) = List.find (fun x => String.eqb (fst x) t) (s_elems (side_of d s)).
Proof.
  intros H. assert (S0 := H). destruct S0 as (F & T & _). assert (shows_side doc (name_of s) (side_of d s)) as S1 by (destruct s; auto). clear F T.
  destruct S1 as (x & fn1 & rd & el1 & A & B & C & D & N & R & L). unfold get_elem, elements_path. cbn [app].
  rewrite (find_only _ A), (find_only _ C), (find_only _ D), find_kids, L. reflexivity.
Qed.
Lemma dict_ok doc d s : shows doc d -> exists m, get_elem_dict doc s = Ok m /\ NoDup (dkeys m) /\
  (forall t, option_map seen_as (dget String.eqb m t) = List.find (fun x => String.eqb (fst x) t) (rev (s_elems (side_of d s)))) /\
  (forall t, In t (dkeys m) <-> In t (map fst (s_elems (side_of d s)))).
Proof.
  intros H. destruct (shows_parts s H) as (fn & el & [P1 P2 P3]). unfold get_elem_dict, found. rewrite P2, P3. cbn [bind pack s_elems].
  eexists. split; [reflexivity|]. rewrite entries_tags. unfold entries.
  rewrite <- (rev_involutive (kids el)). set (r := rev (kids el)). clearbody r. rewrite (map_rev _ r), rev_involutive.
  assert (forall t, In t (map tag (rev r)) <-> In t (map tag r)) as IR.
  { intros t. rewrite map_rev. symmetry. apply in_rev. }
  rewrite <- fold_left_rev_right, rev_involutive.
  enough (NoDup (dkeys (fold_right (fun c d => dset String.eqb d (tag c) c) [] r)) /\
    (forall t, option_map seen_as (dget String.eqb (fold_right (fun c d => dset String.eqb d (tag c) c) [] r) t) =
       List.find (fun x => String.eqb (fst x) t) (map (fun k => (tag k, attrib k)) r)) /\
    (forall t, In t (dkeys (fold_right (fun c d => dset String.eqb d (tag c) c) [] r)) <-> In t (map tag r))) as (N & G & K).
  { split; auto. split; auto. intros t. rewrite IR. apply K. }
  clear IR.
  induction r as [|k r (N & G & K)]; cbn [fold_right map List.find].
  - split; [constructor|]. split; auto. intros t. cbn. tauto.
  - split; [now apply (nodup_dset String.eqb String.eqb_eq)|]. split; intros t.
    + cbn [fst]. destruct (String.eqb (tag k) t) eqn:E.
      * apply String.eqb_eq in E as <-. rewrite (dget_dset_same String.eqb String.eqb_eq). reflexivity.
      * apply String.eqb_neq in E. rewrite (dget_dset_other String.eqb String.eqb_eq) by auto. apply G.
    + destruct (mem String.eqb (tag k) (dkeys (fold_right (fun c d => dset String.eqb d (tag c) c) [] r))) eqn:M.
      * apply (mem_spec String.eqb String.eqb_eq) in M. rewrite (dkeys_dset_in String.eqb String.eqb_eq) by auto. rewrite K.
        cbn [In]. apply K in M. split; [tauto|]. now intros [<-|X].
      * rewrite (dkeys_dset_new String.eqb String.eqb_eq).
        -- unfold dkeys at 1. rewrite map_app. fold (dkeys (fold_right (fun c d => dset String.eqb d (tag c) c) [] r)).
           cbn [map fst In]. rewrite in_app_iff, K. cbn [In]. tauto.
        -- intros X. apply (mem_spec String.eqb String.eqb_eq) in X. congruence.
Qed.
(** ** paths *)
Lemma slashless_tail c s : slashless (String c s) -> slashless s.
Proof. intros H a b ->. now apply (H (String c a) b). Qed.
Lemma slashless_head c s : slashless (String c s) -> (c =? "/")%char = false.
Proof. intros H. apply Ascii.eqb_neq. intros ->. now apply (H "" s). Qed.
Lemma rpart_none s : slashless s -> rpart s = None.
Proof.
  induction s as [|c s IH]; intros H; cbn [rpart]; auto. rewrite IH by now apply slashless_tail in H. now rewrite (slashless_head H).
Qed.
Lemma rpart_some d b : slashless b -> rpart (d ++ "/" ++ b)%string = Some ((d ++ "/")%string, b).
Proof.
  intros H. induction d as [|c d IH].
  - cbn [String.append rpart]. rewrite rpart_none by auto. reflexivity.
  - cbn [String.append rpart]. cbn [String.append] in IH. now rewrite IH.
Qed.
Lemma abs_spec n : isabs n = true <-> exists r, n = ("/" ++ r)%string.
Proof.
  destruct n as [|c n]; cbn [isabs]; split.
  - discriminate.
  - intros (r & K). discriminate.
  - intros K. apply Ascii.eqb_eq in K as ->. now exists n.
  - intros (r & K). injection K as -> _. reflexivity.
Qed.
Lemma abs_slashless b : slashless b -> isabs b = false.
Proof. intros H. destruct (isabs b) eqn:E; auto. apply abs_spec in E as (r & ->). now destruct (H "" r). Qed.
Lemma ends_spec s : ends_slash s = true <-> exists r, s = (r ++ "/")%string.
Proof.
  induction s as [|c s IH]; cbn [ends_slash].
  - split; [discriminate|]. intros ([|x r] & K); discriminate.
  - destruct s as [|c' s].
    + split; [intros K; apply Ascii.eqb_eq in K as ->; now exists ""|]. intros ([|x r] & K); injection K; [intros ->; reflexivity|]. intros K1 _. destruct r; discriminate.
    + rewrite IH. split; [intros (r & K); exists (String c r); cbn; now rewrite K|]. intros ([|x r] & K); [discriminate|]. injection K as -> K. now exists r.
Qed.
Lemma slashes_app d : only_slashes (d ++ "/") = only_slashes d.
Proof. induction d as [|c d IH]; cbn; auto. now rewrite IH. Qed.
Lemma slashes_last d : only_slashes d = true -> d <> "" -> exists r, d = (r ++ "/")%string.
Proof.
  induction d as [|c d IH]; [congruence|]. cbn [only_slashes]. intros H _. apply andb_true_iff in H as [A B]. apply Ascii.eqb_eq in A as ->.
  destruct d as [|c d]; [now exists ""|]. destruct IH as (r & E); auto; [discriminate|]. exists (String "/" r). cbn. now rewrite <- E.
Qed.
Lemma rstrip_snoc d : d <> "" -> (forall r, d <> (r ++ "/")%string) -> rstrip_slashes (d ++ "/") = d.
Proof.
  induction d as [|c d IH]; [congruence|]. intros _ N. cbn [String.append rstrip_slashes].
  assert (only_slashes (String c (d ++ "/")) = false) as ->.
  { change (String c (d ++ "/")) with (String c d ++ "/")%string. rewrite slashes_app. destruct (only_slashes (String c d)) eqn:E; auto.
    destruct (slashes_last E) as (r & K); [discriminate|]. now destruct (N r). }
  f_equal. destruct d as [|c' d]; [reflexivity|]. apply IH; [discriminate|]. intros r K. apply (N (String c r)). cbn. now rewrite K.
Qed.
Lemma dirname_ok p d : directory p d -> dirname p = d.
Proof.
  intros [p' H|b H|d' b N E H]; unfold dirname, head_part.
  - now rewrite rpart_none.
  - change ("/" ++ b)%string with ("" ++ "/" ++ b)%string. rewrite rpart_some by auto. reflexivity.
  - rewrite rpart_some by auto. cbn [fst]. rewrite slashes_app. destruct (only_slashes d') eqn:O.
    + destruct (slashes_last O) as (r & K); auto. now destruct (E r).
    + now apply rstrip_snoc.
Qed.
Lemma own_ok p d : directory p d -> join (dirname p) (basename p) = p.
Proof.
  intros D. rewrite (dirname_ok D). destruct D as [p' H|b H|d' b N E H]; unfold basename, join.
  - rewrite rpart_none, abs_slashless by auto. reflexivity.
  - change ("/" ++ b)%string with ("" ++ "/" ++ b)%string. rewrite rpart_some by auto. cbn [snd]. rewrite abs_slashless by auto. reflexivity.
  - rewrite rpart_some by auto. cbn [snd]. rewrite abs_slashless by auto. apply String.eqb_neq in N. rewrite N. cbn [orb].
    destruct (ends_slash d') eqn:S1; auto. apply ends_spec in S1 as (r & ->). now destruct (E r).
Qed.
Lemma directory_some_not d d' : directory d d' -> d' <> "" -> d' <> "/" -> ends_slash d' = false.
Proof.
  intros [p' H|b H|x b N E H] A B; try congruence. destruct (ends_slash x) eqn:S1; auto. apply ends_spec in S1 as (r & ->). now destruct (E r).
Qed.
Lemma beside_ok p n q : beside p n q -> (exists d, directory p d) -> join (dirname p) n = q.
Proof.
  intros B (d & D). destruct B as [r ->|N D'|N D'|d' N D' A B]; unfold join.
  - assert (isabs ("/" ++ r) = true) as -> by (apply abs_spec; eauto). reflexivity.
  - destruct (isabs n) eqn:E; [apply abs_spec in E as (r & ->); now destruct (N r)|]. rewrite (dirname_ok D'). reflexivity.
  - destruct (isabs n) eqn:E; [apply abs_spec in E as (r & ->); now destruct (N r)|]. rewrite (dirname_ok D'). reflexivity.
  - destruct (isabs n) eqn:E; [apply abs_spec in E as (r & ->); now destruct (N r)|]. rewrite (dirname_ok D').
    apply String.eqb_neq in A. rewrite A. cbn [orb]. apply String.eqb_neq in A. now rewrite (directory_some_not D' A B).
Qed.
Lemma first_ok' ex n l p : first_existing ex n l p -> match List.find ex l with Some p => Ok p | None => Ok n end = Ok p.
Proof. induction 1 as [|x l E|x l y E _ IH]; cbn [List.find]; auto; now rewrite E. Qed.
(** ** the constructor *)
Lemma str_empty s : String.eqb s "" = true <-> s = "". Proof. apply String.eqb_eq. Qed.
Lemma validate_ok ex own doc d : shows doc d -> validate ex own doc =
  match s_name (v_from d), s_name (v_to d) with
  | None, _ => Err AttributeError
  | Some x, y => if String.eqb (strip x) "" then Err AssertionError else
      match y with None => Err AttributeError | Some y => if String.eqb (strip y) "" then Err AssertionError else Ok tt end
  end.
Proof.
  intros H. unfold validate. rewrite !(filename_ok ex own _ _ H). cbn [side_of]. destruct (s_name (v_from d)) as [x|]; auto. cbn [bind].
  destruct (String.eqb (strip x) ""); auto. destruct (s_name (v_to d)) as [y|]; auto.
Qed.
Lemma named_iff v : named v <-> exists x, s_name v = Some x /\ String.eqb (strip x) "" = false.
Proof.
  split.
  - intros (x & t & A & B & C). exists x. split; auto. apply trimmed_strip in B as ->. now apply String.eqb_neq.
  - intros (x & A & B). exists x, (strip x). apply String.eqb_neq in B. auto using strip_trimmed.
Qed.
Lemma validate_iff ex own doc d : shows doc d -> validate ex own doc = Ok tt <-> named (v_from d) /\ named (v_to d).
Proof.
  intros H. rewrite (validate_ok ex own H), !named_iff. split.
  - destruct (s_name (v_from d)) as [x|]; [|discriminate]. destruct (String.eqb (strip x) "") eqn:E; [discriminate|].
    destruct (s_name (v_to d)) as [y|]; [|discriminate]. destruct (String.eqb (strip y) "") eqn:E'; [discriminate|].
    intros _. split; eauto.
  - intros [(x & -> & ->) (y & -> & ->)]. reflexivity.
Qed.
(** ** writing and reading *)
Lemma filter_reread t l : filter (is_tag t) (map reread l) = map reread (filter (is_tag t) l).
Proof. induction l as [|x l IH]; cbn [map filter]; auto. unfold is_tag in *. rewrite reread_tag. destruct (String.eqb (tag x) t); cbn [map]; now rewrite IH. Qed.
Lemma only_reread t e k : only t e k -> only t (reread e) (reread k).
Proof. unfold only. fold (is_tag t). intros H. now rewrite reread_kids, filter_reread, H. Qed.
Lemma reread_attrib e : attrib (reread e) = attrib e. Proof. now destruct e. Qed.
Lemma reread_text e : text (reread e) = match text e with Some "" => None | x => x end.
Proof. destruct e as [t a x k]. cbn [reread text]. destruct x as [[|c s]|]; reflexivity. Qed.
Lemma side_reread doc n v : shows_side doc n v -> shows_side (reread doc) n (read_back v).
Proof.
  intros (x & fn & rd & el & A & B & C & D & N & R & L). exists (reread x), (reread fn), (reread rd), (reread el).
  repeat (split; [now apply only_reread|]). cbn [read_back s_name s_root s_elems].
  rewrite reread_text, N, reread_attr, R, reread_kids, map_map, L. split; auto. split; auto.
  apply map_ext. intros k. now rewrite reread_tag, reread_attrib.
Qed.
Lemma reread_shows doc d : shows doc d ->
  shows (reread doc) {| v_from := read_back (v_from d); v_to := read_back (v_to d); v_align := option_map reread (v_align d) |}.
Proof.
  intros (F & T & A). split; [|split]; cbn [v_from v_to v_align]; auto using side_reread.
  rewrite A, reread_kids. fold (is_tag "alignment"). rewrite filter_reread. now destruct (filter (is_tag "alignment") (kids doc)).
Qed.
Lemma exec_fails o doc d e : shows doc d ->
  exec o doc = Err e <-> e = AttributeError /\ exists s t k v, o = SetElem s t k v /\ ~ In t (map fst (s_elems (side_of d s))).
Proof.
  intros H. destruct o as [s fn|s t|s t|s t k v|s tree]; cbn [exec].
  - destruct (set_filename_good s fn H) as (? & -> & _). split; [discriminate|]. intros (_ & ? & ? & ? & ? & K & _). discriminate.
  - destruct (set_root_good s t H) as (? & -> & _). split; [discriminate|]. intros (_ & ? & ? & ? & ? & K & _). discriminate.
  - destruct (add_good s t H) as (? & -> & _). split; [discriminate|]. intros (_ & ? & ? & ? & ? & K & _). discriminate.
  - destruct (set_elem_good s t k v H) as [(l & F & ? & -> & _)|[N ->]].
    + split; [discriminate|]. intros (_ & s' & t' & k' & v' & K & N). injection K as <- <- <- <-. apply set_first_in in F. contradiction.
    + split; [intros [= <-]; eauto 8|]. now intros (-> & _).
  - destruct (init_elems_good s tree H) as (? & -> & _). split; [discriminate|]. intros (_ & ? & ? & ? & ? & K & _). discriminate.
Qed.
Lemma find_lacks doc s p : lacks doc s -> find (name_of s :: p) doc = None.
Proof.
  unfold lacks. intros H. change (match s with From => "from" | To => "to" end) with (name_of s) in H. cbn [find].
  induction (kids doc) as [|k l IH]; auto. cbn [map In] in H. destruct (String.eqb (tag k) (name_of s)) eqn:E; [|tauto].
  apply String.eqb_eq in E. tauto.
Qed.
Lemma change_lacks doc s p f : lacks doc s -> change_at (name_of s :: p) f doc = None.
Proof.
  unfold lacks. intros H. change (match s with From => "from" | To => "to" end) with (name_of s) in H. cbn [change_at].
  match goal with |- option_map _ ?x = None => enough (x = None) as -> by reflexivity end.
  induction (kids doc) as [|k l IH]; auto. cbn [map In] in H. destruct (String.eqb (tag k) (name_of s)) eqn:E; [|rewrite IH; tauto].
  apply String.eqb_eq in E. tauto.
Qed.
Lemma exec_lacks o doc : lacks doc (about o) -> exec o doc = Err AttributeError.
Proof.
  destruct o as [s fn|s t|s t|s t k v|s tree]; cbn [about exec]; intros H.
  - unfold set_filename, changed, filename_path. now rewrite change_lacks.
  - unfold set_pseudo_root, changed, elements_path. now rewrite change_lacks.
  - unfold add_elem, changed, elements_path. now rewrite change_lacks.
  - unfold set_elem, changed, elements_path. cbn [app]. now rewrite change_lacks.
  - unfold init_elems. destruct tree as [t a x ks]. cbn [iter init_loop dget]. unfold found, elements_path. now rewrite find_lacks.
Qed.
