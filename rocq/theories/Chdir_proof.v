From Coq Require Import String.
From Verif Require Import Py PyLemmas Etree_spec Etree_model Etree_proof Chdir_spec Chdir_model.
Open Scope nat_scope.

Lemma startswith_spec t p : startswith t p = true <-> starts p t.
Proof.
  revert t. induction p as [|c p IH]; intros t; cbn [startswith].
  - split; [intros _; exists t; reflexivity|destruct t; reflexivity].
  - destruct t as [|d t]; [split; [discriminate|intros [r E]; discriminate]|]. cbn [startswith]. rewrite andb_true_iff, N.eqb_eq, IH. split.
    + intros [-> [r ->]]. exists r. reflexivity.
    + intros [r E]. injection E as -> ->. split; [reflexivity|]. exists r. reflexivity.
Qed.
Definition mv (a b t : text) : text := if startswith t a then b ++ skipn (length a) t else t.
Lemma mv_app a b r : mv a b (a ++ r) = b ++ r.
Proof.
  unfold mv. rewrite (proj2 (startswith_spec (a ++ r) a)) by (exists r; reflexivity). f_equal.
  rewrite skipn_app, skipn_all, Nat.sub_diag. reflexivity.
Qed.
Lemma mv_no a b t : ~ starts a t -> mv a b t = t.
Proof. intros H. unfold mv. destruct (startswith t a) eqn:E; [apply startswith_spec in E; tauto|reflexivity]. Qed.
Lemma mv_moved a b t : moved a b t (mv a b t).
Proof. split; [intros r ->; apply mv_app|apply mv_no]. Qed.
Lemma starts_dec a t : starts a t \/ ~ starts a t.
Proof. rewrite <- startswith_spec. destruct (startswith t a); auto. Qed.
Lemma mv_back a b t : mv b a (mv a b t) = t <-> starts a t \/ ~ starts b t.
Proof.
  destruct (starts_dec a t) as [[r ->]|N].
  - rewrite mv_app, mv_app. split; [left; exists r; reflexivity|reflexivity].
  - rewrite (mv_no a b t N). destruct (starts_dec b t) as [[r ->]|M].
    + rewrite mv_app. split; [|intros [H|H]; [tauto|exfalso; apply H; exists r; reflexivity]]. intros E. exfalso. apply N. exists r. now symmetry.
    + rewrite (mv_no b a t M). tauto.
Qed.

Definition is_file (root : bool) (e : node) : bool := negb root && String.eqb (tag e) "file".
Fixpoint reb (a b : text) (root : bool) (e : node) : node :=
  match e with
  | Node tg tx tl at_ ch => Node tg (if negb root && String.eqb tg "file" then option_map (mv a b) tx else tx) tl at_ (map (reb a b false) ch)
  end.
(** The file elements of a tree, including its top unless it is the root. *)
Definition files (root : bool) (e : node) : list node := (if is_file root e then [e] else []) ++ file_elems e.
Lemma file_elems_eq tg tx tl at_ ch : file_elems (Node tg tx tl at_ ch) = flat_map (files false) ch.
Proof.
  unfold file_elems. cbn [below]. induction ch as [|c ch IH]; [reflexivity|]. cbn [flat_map]. cbn [app filter]. rewrite filter_app, IH.
  unfold files, is_file. cbn [negb andb]. destruct (String.eqb (tag c) "file"); reflexivity.
Qed.
Definition go_change a b := fix go (l : list node) : res (list node) :=
                match l with [] => Ok [] | c :: l' => c' <- change_elem a b false c ;; r <- go l' ;; Ok (c' :: r) end.
Lemma change_eq a b root tg tx tl at_ ch : change_elem a b root (Node tg tx tl at_ ch) =
  (tx' <- (if negb root && String.eqb tg "file" then change_text a b tx else Ok tx) ;; ch' <- go_change a b ch ;; Ok (Node tg tx' tl at_ ch')).
Proof. reflexivity. Qed.
Lemma change_ok a b : forall e root, Forall (fun d => txt d <> None) (files root e) -> change_elem a b root e = Ok (reb a b root e).
Proof.
  induction e as [tg tx tl at_ ch IH] using node_ind2. intros root F. rewrite change_eq. unfold files in F. apply Forall_app in F. destruct F as [F1 F2].
  rewrite file_elems_eq in F2.
  assert (T : (if negb root && String.eqb tg "file" then change_text a b tx else Ok tx) = Ok (if negb root && String.eqb tg "file" then option_map (mv a b) tx else tx)).
  { unfold is_file in F1. cbn [tag] in F1. destruct (negb root && String.eqb tg "file"); [|reflexivity]. inversion F1 as [|? ? H _]; subst.
    destruct tx as [t|]; [reflexivity|now destruct H]. }
  rewrite T. cbn [bind]. assert (G : go_change a b ch = Ok (map (reb a b false) ch)).
  { clear -IH F2. induction IH as [|c l H _ IHl]; [reflexivity|]. cbn [flat_map] in F2. apply Forall_app in F2. destruct F2 as [F3 F4].
    cbn [go_change]. rewrite (H false F3). cbn [bind]. fold (go_change a b). rewrite (IHl F4). reflexivity. }
  rewrite G. reflexivity.
Qed.
Lemma change_err a b : forall e root x, change_elem a b root e = Err x -> x = AttributeError /\ exists d, In d (files root e) /\ txt d = None.
Proof.
  induction e as [tg tx tl at_ ch IH] using node_ind2. intros root x E. rewrite change_eq in E. unfold files, is_file. rewrite file_elems_eq. cbn [tag].
  destruct (negb root && String.eqb tg "file") eqn:B.
  - destruct tx as [t|]; cbn [change_text bind] in E.
    + destruct (go_change a b ch) as [l|y] eqn:G; [discriminate|]. cbn [bind] in E. injection E as ->.
      assert (X : x = AttributeError /\ exists d, In d (flat_map (files false) ch) /\ txt d = None).
      { clear -IH G. induction IH as [|c l H _ IHl]; [discriminate|]. cbn [go_change] in G. fold (go_change a b) in G.
        destruct (change_elem a b false c) as [c'|y] eqn:Q; cbn [bind] in G.
        - destruct (go_change a b l) as [r|y] eqn:Z; [discriminate|]. cbn [bind] in G. injection G as ->. destruct (IHl eq_refl) as [A [d [D1 D2]]].
          split; [trivial|]. exists d. split; [|trivial]. cbn [flat_map]. apply in_app_iff. auto.
        - injection G as ->. destruct (H false x Q) as [A [d [D1 D2]]]. split; [trivial|]. exists d. split; [|trivial]. cbn [flat_map]. apply in_app_iff. auto. }
      destruct X as [A [d [D1 D2]]]. split; [trivial|]. exists d. split; [|trivial]. apply in_app_iff. auto.
    + injection E as <-. split; [reflexivity|]. exists (Node tg None tl at_ ch). split; [now left|reflexivity].
  - cbn [bind app] in *. destruct (go_change a b ch) as [l|y] eqn:G; [discriminate|]. cbn [bind] in E. injection E as ->.
    clear -IH G. induction IH as [|c l H _ IHl]; [discriminate|]. cbn [go_change] in G. fold (go_change a b) in G.
    destruct (change_elem a b false c) as [c'|y] eqn:Q; cbn [bind] in G.
    + destruct (go_change a b l) as [r|y] eqn:Z; [discriminate|]. cbn [bind] in G. injection G as ->. destruct (IHl eq_refl) as [A [d [D1 D2]]].
      split; [trivial|]. exists d. split; [|trivial]. cbn [flat_map]. apply in_app_iff. auto.
    + injection G as ->. destruct (H false x Q) as [A [d [D1 D2]]]. split; [trivial|]. exists d. split; [|trivial]. cbn [flat_map]. apply in_app_iff. auto.
Qed.
Lemma has_txt_dec l : Forall (fun d => txt d <> None) l \/ exists d, In d l /\ txt d = None.
Proof.
  induction l as [|d l [F|[x [I E]]]]; [left; constructor| |right; exists x; split; [now right|trivial]].
  destruct (txt d) eqn:T; [left; constructor; [congruence|trivial]|right; exists d; split; [now left|trivial]].
Qed.
Lemma reb_rebased a b : forall e root, Forall (fun d => txt d <> None) (files root e) -> rebased a b root e (reb a b root e).
Proof.
  induction e as [tg tx tl at_ ch IH] using node_ind2. intros root F. unfold files in F. apply Forall_app in F. destruct F as [F1 F2].
  rewrite file_elems_eq in F2. unfold is_file in F1. cbn [tag] in F1. constructor; cbn [reb tag tail attrib txt children]; try reflexivity.
  - intros [-> |N]; [reflexivity|]. apply String.eqb_neq in N. rewrite N, andb_false_r. reflexivity.
  - intros [-> ->]. cbn in F1. inversion F1 as [|? ? H _]; subst. cbn [txt] in H. destruct tx as [t|]; [|congruence]. exists t, (mv a b t).
    repeat split; [intros r ->; apply mv_app|apply mv_no].
  - clear -IH F2. induction IH as [|c l H _ IHl]; cbn [map]; constructor; cbn [flat_map] in F2; apply Forall_app in F2; destruct F2; auto.
Qed.
Lemma moved_fun a b t t1 t2 : moved a b t t1 -> moved a b t t2 -> t1 = t2.
Proof.
  intros [A1 A2] [B1 B2]. destruct (starts_dec a t) as [[r E]|N]; [now rewrite (A1 r E), (B1 r E)|now rewrite A2, B2].
Qed.
Lemma rebased_fun a b : forall e root e1 e2, rebased a b root e e1 -> rebased a b root e e2 -> e1 = e2.
Proof.
  induction e as [tg tx tl at_ ch IH] using node_ind2. intros root e1 e2 P Q.
  inversion P as [? ? ? P1 P2 P3 P4 P5 P6]; subst. inversion Q as [? ? ? Q1 Q2 Q3 Q4 Q5 Q6]; subst.
  destruct e1 as [tg1 tx1 tl1 at1 ch1], e2 as [tg2 tx2 tl2 at2 ch2]. cbn [tag txt tail attrib children] in *.
  assert (T : tx1 = tx2).
  { destruct root; [rewrite P4, Q4 by auto; reflexivity|]. destruct (string_dec tg "file") as [E|N].
    - destruct P5 as [t [t1 [X1 [X2 X3]]]]; [auto|]. destruct Q5 as [t' [t2 [Y1 [Y2 Y3]]]]; [auto|]. assert (t' = t) by congruence. subst t'.
      rewrite X2, Y2. f_equal. eapply moved_fun; eauto.
    - rewrite P4, Q4 by auto. reflexivity. }
  assert (C : ch1 = ch2).
  { clear -IH P6 Q6. revert ch1 ch2 P6 Q6. induction IH as [|c l H _ IHl]; intros ch1 ch2 P Q; inversion P; subst; inversion Q; subst; [reflexivity|].
    f_equal; eauto. }
  congruence.
Qed.
Lemma reb_back a b : forall e root, Forall (fun d => txt d <> None) (files root e) ->
  (reb b a root (reb a b root e) = e <-> forall d t, In d (files root e) -> txt d = Some t -> starts a t \/ ~ starts b t).
Proof.
  induction e as [tg tx tl at_ ch IH] using node_ind2. intros root F. unfold files in *. apply Forall_app in F. destruct F as [F1 F2].
  rewrite file_elems_eq in *. unfold is_file in *. cbn [tag] in *. cbn [reb]. 
  assert (C : map (reb b a false) (map (reb a b false) ch) = ch <-> forall d t, In d (flat_map (files false) ch) -> txt d = Some t -> starts a t \/ ~ starts b t).
  { clear -IH F2. induction IH as [|c l H _ IHl]; [split; [intros _ d t []|reflexivity]|]. cbn [map flat_map] in *. apply Forall_app in F2. destruct F2 as [F3 F4].
    specialize (H false F3). specialize (IHl F4). split.
    - intros E. injection E as E1 E2. intros d t I T. apply in_app_iff in I. destruct I as [I|I]; [apply (proj1 H E1 d t I T)|apply (proj1 IHl E2 d t I T)].
    - intros E. f_equal; [apply H|apply IHl]; intros d t I; apply E; apply in_app_iff; auto. }
  destruct (negb root && String.eqb tg "file").
  - inversion F1 as [|? ? N _]; subst. cbn [txt] in N. destruct tx as [t|]; [|congruence]. cbn [option_map]. split.
    + intros E. injection E as E1 E2. intros d s I T. apply in_app_iff in I. destruct I as [[<-|[]]|I]; [|apply (proj1 C E2 d s I T)].
      cbn in T. injection T as <-. now apply mv_back.
    + intros H. f_equal; [|apply C; intros d s I; apply H; apply in_app_iff; auto]. f_equal. apply mv_back.
      apply (H (Node tg (Some t) tl at_ ch)); [now left|reflexivity].
  - split.
    + intros E. injection E as E. apply C. exact E.
    + intros H. f_equal. apply C. exact H.
Qed.
Lemma files_root e : files true e = file_elems e.
Proof. reflexivity. Qed.

(** ** Runs over files *)
Section Run.
Variable V : Type.
Variable change : V -> res V.
Fixpoint run (fs : list (string * V)) (test : bool) (fns : list string) : list (string * V) * option exc :=
  match fns with
  | [] => (fs, None)
  | fn :: fns' =>
      match dget String.eqb fs fn with
      | None => (fs, Some OSError)
      | Some e => match change e with Err x => (fs, Some x) | Ok e' => run (if test then fs else dset String.eqb fs fn e') test fns' end
      end
  end.
Lemma run_test fs fns : fst (run fs true fns) = fs.
Proof.
  induction fns as [|fn fns IH]; cbn [run]; [reflexivity|]. destruct (dget String.eqb fs fn) as [e|]; [|reflexivity].
  destruct (change e); [exact IH|reflexivity].
Qed.
Lemma run_other fns : forall fs test fn, ~ In fn fns -> dget String.eqb (fst (run fs test fns)) fn = dget String.eqb fs fn.
Proof.
  induction fns as [|f fns IH]; intros fs test fn N; cbn [run]; [reflexivity|]. destruct (dget String.eqb fs f) as [e|]; [|reflexivity].
  destruct (change e); [|reflexivity]. rewrite IH by (intros I; apply N; now right). destruct test; [reflexivity|].
  apply (dget_dset_other String.eqb String.eqb_eq). intros ->. apply N. now left.
Qed.
Lemma run_ok fns : forall fs fs', NoDup fns -> run fs false fns = (fs', None) ->
  forall fn, In fn fns -> exists e e', dget String.eqb fs fn = Some e /\ change e = Ok e' /\ dget String.eqb fs' fn = Some e'.
Proof.
  induction fns as [|f fns IH]; intros fs fs' N E fn I; [destruct I|]. inversion N; subst. cbn [run] in E.
  destruct (dget String.eqb fs f) as [e|] eqn:D; [|discriminate]. destruct (change e) as [e'|] eqn:C; [|discriminate]. destruct I as [->|I].
  - exists e, e'. split; [trivial|]. split; [trivial|]. replace fs' with (fst (run (dset String.eqb fs fn e') false fns)) by now rewrite E.
    rewrite run_other by trivial. apply (dget_dset_same String.eqb String.eqb_eq).
  - destruct (IH _ _ H2 E fn I) as [x [x' [X1 [X2 X3]]]]. exists x, x'. split; [|auto].
    rewrite (dget_dset_other String.eqb String.eqb_eq) in X1; [trivial|]. intros ->. contradiction.
Qed.
Lemma run_stop fns : forall fs fs' x, NoDup fns -> run fs false fns = (fs', Some x) ->
  exists dn fn rest, fns = dn ++ fn :: rest /\
    (forall f, In f dn -> exists e e', dget String.eqb fs f = Some e /\ change e = Ok e' /\ dget String.eqb fs' f = Some e') /\
    (forall f, ~ In f dn -> dget String.eqb fs' f = dget String.eqb fs f) /\
    (x = OSError /\ dget String.eqb fs fn = None \/ exists e, dget String.eqb fs fn = Some e /\ change e = Err x).
Proof.
  induction fns as [|f fns IH]; intros fs fs' x N E; [discriminate|]. inversion N; subst. cbn [run] in E.
  destruct (dget String.eqb fs f) as [e|] eqn:D.
  2: { injection E as <- <-. exists [], f, fns. repeat split; [intros ? []|left; auto]. }
  destruct (change e) as [e'|y] eqn:C.
  2: { injection E as <- <-. exists [], f, fns. repeat split; [intros ? []|right; exists e; auto]. }
  destruct (IH _ _ _ H2 E) as [dn [fn [rest [Q [A [B X]]]]]]. exists (f :: dn), fn, rest. subst fns.
  assert (O : forall g, g <> f -> dget String.eqb (dset String.eqb fs f e') g = dget String.eqb fs g) by (intros g G; apply (dget_dset_other String.eqb String.eqb_eq); congruence).
  assert (ND : ~ In f dn) by (intros I; apply H1; apply in_app_iff; now left).
  split; [reflexivity|]. split; [|split].
  - intros g [<-|I].
    + exists e, e'. split; [trivial|]. split; [trivial|]. rewrite (B _ ND). apply (dget_dset_same String.eqb String.eqb_eq).
    + destruct (A g I) as [u [u' [U1 U2]]]. exists u, u'. split; [|trivial]. rewrite <- O; [trivial|]. intros ->. contradiction.
  - intros g G. rewrite B by (intros I; apply G; now right). apply O. intros ->. apply G. now left.
  - assert (F : fn <> f) by (intros ->; apply H1; apply in_app_iff; right; now left). rewrite O in X by trivial. exact X.
Qed.
End Run.
Lemma pgc_run fs test a b fns : pgc_chdir fs test a b fns = run _ (change_elem a b true) fs test fns.
Proof. revert fs. induction fns as [|f fns IH]; intros fs; cbn [pgc_chdir run]; [reflexivity|]. destruct (dget _ _ _); [|reflexivity]. destruct (change_elem _ _ _ _); [apply IH|reflexivity]. Qed.
Lemma run_ext V (f g : V -> res V) (H : forall v, f v = g v) fns : forall fs test, run _ f fs test fns = run _ g fs test fns.
Proof. induction fns as [|n fns IH]; intros fs test; cbn [run]; [reflexivity|]. destruct (dget _ _ _); [|reflexivity]. rewrite H. destruct (g _); [apply IH|reflexivity]. Qed.
Lemma ptc_run fs test dir fns : ptc_chdir fs test dir fns = run _ (change_doc dir test) fs test fns.
Proof. revert fs. induction fns as [|f fns IH]; intros fs; cbn [ptc_chdir run]; [reflexivity|]. destruct (dget _ _ _); [|reflexivity]. destruct (change_doc _ _ _); [apply IH|reflexivity]. Qed.

(** ** Paths *)
Definition slash (c : N) : N := if (c =? 92)%N then 47%N else c.
Definition norm (p : text) : text := map slash p.
Lemma existsb_slash p : existsb (N.eqb 47) p = false <-> Forall (fun c => c <> 47%N) p.
Proof.
  induction p as [|c p IH]; cbn [existsb]; [split; constructor|]. rewrite orb_false_iff, IH, N.eqb_neq. split.
  - intros [A B]. constructor; [congruence|trivial].
  - intros F. inversion F; subst. split; [congruence|trivial].
Qed.
Lemma basename_ok p : Forall (fun c => c <> 47%N) (basename p) /\ (p = basename p \/ exists d, p = d ++ 47%N :: basename p).
Proof.
  induction p as [|c p [IH1 IH2]]; cbn [basename]; [split; [constructor|auto]|].
  destruct (existsb (N.eqb 47) p) eqn:E.
  - split; [trivial|]. right. destruct IH2 as [Q|[d Q]].
    + exfalso. rewrite <- Q in IH1. apply existsb_slash in IH1. congruence.
    + exists (c :: d). cbn. now f_equal.
  - apply existsb_slash in E. destruct (c =? 47)%N eqn:C.
    + apply N.eqb_eq in C. subst c. split; [trivial|]. right. exists []. reflexivity.
    + apply N.eqb_neq in C. split; [now constructor|auto].
Qed.
Lemma basename_app d b : Forall (fun c => c <> 47%N) b -> basename (d ++ 47%N :: b) = b.
Proof.
  intros F. apply existsb_slash in F. induction d as [|c d IH]; cbn [app basename].
  - rewrite F. reflexivity.
  - replace (existsb (N.eqb 47) (d ++ 47%N :: b)) with true; [trivial|]. symmetry. apply existsb_exists. exists 47%N. split; [apply in_app_iff; right; now left|reflexivity].
Qed.
Lemma basename_id b : Forall (fun c => c <> 47%N) b -> basename b = b.
Proof.
  intros F. destruct (basename_ok b) as [_ [Q|[d Q]]]; [congruence|]. exfalso. rewrite Q in F. apply Forall_app in F. destruct F as [_ F]. inversion F; congruence.
Qed.
Lemma norm_app a b : norm (a ++ b) = norm a ++ norm b.
Proof. apply map_app. Qed.
Lemma norm_id b : Forall (fun c => c <> 92%N) b -> norm b = b.
Proof. induction 1 as [|c b H _ IH]; [reflexivity|]. cbn [norm map]. unfold slash at 1. apply N.eqb_neq in H. rewrite H. unfold norm in IH. now f_equal. Qed.
Lemma norm_no p : Forall (fun c => c <> 92%N) (norm p).
Proof. induction p as [|c p IH]; constructor; [|exact IH]. unfold slash. destruct (c =? 92)%N eqn:E; [discriminate|now apply N.eqb_neq]. Qed.
Lemma last_comp p : last_component p (basename (norm p)).
Proof.
  destruct (basename_ok (norm p)) as [F Q]. assert (B : Forall (fun c => c <> 92%N) (basename (norm p))).
  { pose proof (norm_no p) as N. destruct Q as [Q|[d Q]]; [now rewrite <- Q|]. rewrite Q in N. apply Forall_app in N. destruct N as [_ N]. now inversion N. }
  split.
  - apply Forall_forall. intros c I [->| ->]; rewrite Forall_forall in F, B; [exact (F _ I eq_refl)|exact (B _ I eq_refl)].
  - set (b := basename (norm p)) in *. clearbody b. destruct Q as [Q|[d Q]].
    + left. subst b. induction p as [|c p IH]; [reflexivity|]. cbn [norm map] in *. inversion F; subst. inversion B; subst.
      f_equal; [|now apply IH]. unfold slash in *. destruct (c =? 92)%N eqn:E; [congruence|reflexivity].
    + right. revert p Q. induction d as [|x d IH]; intros p Q; destruct p as [|c p]; try discriminate.
      * cbn [norm map app] in Q. injection Q as Q1 Q2. exists [], c. split.
        { unfold separator. unfold slash in Q1. destruct (c =? 92)%N eqn:E; [right; now apply N.eqb_eq|left; trivial]. }
        cbn [app]. f_equal. clear -Q2 F B. subst b. induction p as [|c p IH]; [reflexivity|]. cbn [norm map] in *. inversion F; subst. inversion B; subst.
        f_equal; [|now apply IH]. unfold slash in *. destruct (c =? 92)%N eqn:E; [congruence|reflexivity].
      * cbn [norm map app] in Q. injection Q as Q1 Q2. destruct (IH p Q2) as [d' [c' [S E]]]. exists (c :: d'), c'. split; [trivial|]. cbn. now f_equal.
Qed.
Lemma last_component_fun p b b' : last_component p b -> last_component p b' -> b = b'.
Proof.
  assert (K : forall d c x d' c' y, separator c -> separator c' -> Forall (fun c => ~ separator c) x -> Forall (fun c => ~ separator c) y ->
            d ++ c :: x = d' ++ c' :: y -> x = y).
  { induction d as [|z d IH]; intros c x d' c' y S S' X Y E; destruct d' as [|z' d']; cbn [app] in E.
    - now injection E.
    - injection E as -> E. exfalso. rewrite E in X. apply Forall_app in X. destruct X as [_ X]. inversion X; subst. contradiction.
    - injection E as -> E. exfalso. rewrite <- E in Y. apply Forall_app in Y. destruct Y as [_ Y]. inversion Y; subst. contradiction.
    - injection E as -> E. eapply IH; [exact S|exact S'|exact X|exact Y|exact E]. }
  intros [F [E|[d [c [S E]]]]] [G [E'|[d' [c' [S' E']]]]].
  - congruence.
  - exfalso. rewrite <- E, E' in F. apply Forall_app in F. destruct F as [_ F]. inversion F; subst. contradiction.
  - exfalso. rewrite <- E', E in G. apply Forall_app in G. destruct G as [_ G]. inversion G; subst. contradiction.
  - eapply K; [exact S|exact S'|exact F|exact G|exact (eq_trans (eq_sym E) E')].
Qed.
Lemma last_snoc (A : Type) (l : list A) x d : last (l ++ [x]) d = x.
Proof. apply last_last. Qed.
Lemma join_in_dir d b : in_dir d b (join d b).
Proof.
  unfold in_dir, join. destruct d as [|c d]; [split; [reflexivity|intros N; exfalso; auto]|]. set (l := c :: d).
  assert (E : (last l 0 =? 47)%N = true <-> (l = [] \/ exists d', l = d' ++ [47%N])).
  { rewrite N.eqb_eq. split.
    - intros L. right. exists (removelast l). rewrite <- L. apply app_removelast_last. discriminate.
    - intros [Q|[d' ->]]; [discriminate|]. apply last_snoc. }
  destruct (last l 0 =? 47)%N; split; intros H; trivial; exfalso.
  - apply H. now apply E.
  - apply E in H. discriminate.
Qed.
Definition undrive (p : text) : text :=
  match p with c :: d :: r => if ((65 <=? c)%N && (c <=? 90)%N) && (d =? 58)%N then r else p | _ => p end.
Lemma undrive_ok p : without_drive p (undrive p).
Proof.
  destruct p as [|c [|d r]]; cbn [undrive]; try (right; split; [discriminate|reflexivity]).
  destruct (((65 <=? c)%N && (c <=? 90)%N) && (d =? 58)%N) eqn:E.
  - apply andb_true_iff in E. destruct E as [E1 E2]. apply andb_true_iff in E1. destruct E1 as [E1 E3]. apply N.leb_le in E1, E3. apply N.eqb_eq in E2. subst d.
    left. exists c. split; [unfold drive; lia|reflexivity].
  - right. split; [|reflexivity]. intros c' r' Q [D1 D2]. injection Q as <- -> ->. apply N.leb_le in D1, D2. rewrite D1, D2 in E. discriminate.
Qed.
Lemma without_drive_fun p q q' : without_drive p q -> without_drive p q' -> q = q'.
Proof.
  intros [[c [D E]]|[D E]] [[c' [D' E']]|[D' E']].
  - congruence.
  - exfalso. exact (D' _ _ E D).
  - exfalso. exact (D _ _ E' D').
  - congruence.
Qed.
Lemma new_path_ok dir p : (forall c, p = [c] -> ~ drive c) -> p <> [] -> new_path dir p = Ok (join dir (basename (norm (undrive p)))).
Proof.
  intros H N. unfold new_path, at_. destruct p as [|c [|d r]]; [congruence| |]; cbn [get nth_error bind].
  - destruct ((65 <=? c)%N && (c <=? 90)%N) eqn:E; [|reflexivity]. exfalso. apply andb_true_iff in E. destruct E as [A B]. apply N.leb_le in A, B. exact (H c eq_refl (conj A B)).
  - cbn [undrive]. destruct ((65 <=? c)%N && (c <=? 90)%N) eqn:E; cbn [andb bind]; [|reflexivity]. destruct (d =? 58)%N; reflexivity.
Qed.
Lemma new_path_err dir p : p = [] \/ (exists c, p = [c] /\ drive c) -> new_path dir p = Err IndexError.
Proof.
  intros [->|[c [-> [A B]]]]; [reflexivity|]. unfold new_path, at_. cbn [get nth_error bind]. apply N.leb_le in A, B. rewrite A, B. reflexivity.
Qed.

Lemma change_none a b : forall e root d, In d (files root e) -> txt d = None -> forall e', change_elem a b root e <> Ok e'.
Proof.
  induction e as [tg tx tl at_ ch IH] using node_ind2. intros root d I T e'. rewrite change_eq. unfold files in I. apply in_app_iff in I.
  rewrite file_elems_eq in I. unfold is_file in I. cbn [tag] in I. destruct I as [I|I].
  - destruct (negb root && String.eqb tg "file"); [|destruct I]. destruct I as [<-|[]]. cbn [txt] in T. subst tx. discriminate.
  - destruct (if negb root && String.eqb tg "file" then change_text a b tx else Ok tx) as [tx'|x]; [|discriminate]. cbn [bind].
    assert (G : forall l, go_change a b ch <> Ok l).
    { clear -IH I T. induction IH as [|c l H _ IHl]; [destruct I|]. cbn [flat_map] in I. apply in_app_iff in I. intros r. cbn [go_change].
      destruct I as [I|I].
      - destruct (change_elem a b false c) as [c'|x] eqn:C; [|discriminate]. exfalso. exact (H false d I T _ C).
      - destruct (change_elem a b false c) as [c'|x]; [|discriminate]. cbn [bind]. fold (go_change a b). destruct (go_change a b l) as [r'|x] eqn:G; [|discriminate].
        exfalso. exact (IHl I _ eq_refl). }
    destruct (go_change a b ch) as [l|x]; [|discriminate]. exfalso. exact (G l eq_refl).
Qed.
Lemma rebased_txt a b : forall e root e', rebased a b root e e' -> Forall (fun d => txt d <> None) (files root e).
Proof.
  induction e as [tg tx tl at_ ch IH] using node_ind2. intros root e' R. inversion R as [? ? ? P1 P2 P3 P4 P5 P6]; subst. cbn [children tag txt] in *.
  unfold files. rewrite file_elems_eq. apply Forall_app. split.
  - unfold is_file. cbn [tag]. destruct root; [constructor|]. cbn [negb andb]. destruct (String.eqb_spec tg "file") as [->|]; [|constructor].
    destruct P5 as [t [t' [E _]]]; [auto|]. constructor; [cbn; congruence|constructor].
  - clear -IH P6. revert P6. generalize (children e') as ch'. induction IH as [|c l H _ IHl]; intros ch' F; [constructor|].
    inversion F; subst. cbn [flat_map]. apply Forall_app. split; [eapply H; eauto|eapply IHl; eauto].
Qed.
Lemma reb_has a b : forall e root, Forall (fun d => txt d <> None) (files root e) -> Forall (fun d => txt d <> None) (files root (reb a b root e)).
Proof.
  induction e as [tg tx tl at_ ch IH] using node_ind2. intros root F. unfold files in *. apply Forall_app in F. destruct F as [F1 F2].
  cbn [reb]. rewrite file_elems_eq in *. unfold is_file in *. cbn [tag] in *. apply Forall_app. split.
  - destruct (negb root && String.eqb tg "file"); [|constructor]. inversion F1; subst. constructor; [|constructor]. cbn [txt] in *. destruct tx; [discriminate|congruence].
  - clear -IH F2. induction IH as [|c l H _ IHl]; [constructor|]. cbn [map flat_map] in *. apply Forall_app in F2. destruct F2. apply Forall_app. split; [now apply (H false)|now apply IHl].
Qed.
Lemma mv_same a t : mv a a t = t.
Proof. destruct (starts_dec a t) as [[r ->]|N]; [apply mv_app|now apply mv_no]. Qed.
Lemma reb_same a : forall e root, reb a a root e = e.
Proof.
  induction e as [tg tx tl at_ ch IH] using node_ind2. intros root. cbn [reb]. f_equal.
  - destruct (negb root && String.eqb tg "file"); [|reflexivity]. destruct tx; [cbn; now rewrite mv_same|reflexivity].
  - induction IH as [|c l H _ IHl]; [reflexivity|]. cbn [map]. now rewrite H, IHl.
Qed.
Lemma path_dec (p : text) : (p <> [] /\ (forall c, p = [c] -> ~ drive c)) \/ (p = [] \/ exists c, p = [c] /\ drive c).
Proof.
  destruct p as [|c [|d r]]; [auto| |left; split; discriminate].
  destruct (N.leb_spec 65 c); [destruct (N.leb_spec c 90)|].
  - right. right. exists c. split; [reflexivity|split; trivial].
  - left. split; [discriminate|]. intros x E [A B]. injection E as <-. lia.
  - left. split; [discriminate|]. intros x E [A B]. injection E as <-. lia.
Qed.
Lemma in_dir_fun d b p q : in_dir d b p -> in_dir d b q -> p = q.
Proof.
  assert (D : (d = [] \/ exists d', d = d' ++ [47%N]) \/ ~ (d = [] \/ exists d', d = d' ++ [47%N])).
  { destruct d as [|c d]; [auto|]. destruct (@exists_last _ (c :: d) ltac:(discriminate)) as [l [x ->]].
    destruct (N.eq_dec x 47) as [->|N]; [left; right; now exists l|right]. intros [E|[l' E]]; [destruct l; discriminate|].
    apply app_inj_tail in E. tauto. }
  intros [A1 A2] [B1 B2]. destruct D as [D|D]; [rewrite A1, B1|rewrite A2, B2]; auto.
Qed.

Lemma new_path_again dir b : dir <> [] -> Forall (fun c => ~ separator c) b -> new_path dir (join dir b) = Ok (join dir b).
Proof.
  intros D B. assert (Q : exists d, join dir b = d ++ 47%N :: b).
  { unfold join. destruct dir as [|c dir]; [congruence|]. destruct (last (c :: dir) 0%N =? 47)%N eqn:L.
    - exists (removelast (c :: dir)). apply N.eqb_eq in L. rewrite (app_removelast_last 0%N (l := c :: dir)) at 1 by discriminate.
      rewrite L, <- app_assoc. reflexivity.
    - exists (c :: dir). reflexivity. }
  destruct Q as [d Q]. assert (B47 : Forall (fun c => c <> 47%N) b) by (eapply Forall_impl; [|exact B]; intros c N ->; apply N; now left).
  assert (B92 : Forall (fun c => c <> 92%N) b) by (eapply Forall_impl; [|exact B]; intros c N ->; apply N; now right).
  assert (G : new_path dir (join dir b) = Ok (join dir (basename (norm (undrive (join dir b)))))).
  { apply new_path_ok.
    - intros c E. rewrite Q in E. destruct d as [|x [|y d]]; try discriminate. injection E as <- E. intros [A _]. lia.
    - rewrite Q. destruct d; discriminate. }
  rewrite G. do 2 f_equal. rewrite Q. assert (U : exists d', undrive (d ++ 47%N :: b) = d' ++ 47%N :: b).
  { destruct d as [|x [|y d]]; cbn [app undrive].
    - destruct b; exists []; reflexivity.
    - destruct (((65 <=? x)%N && (x <=? 90)%N) && (47 =? 58)%N) eqn:E; [apply andb_true_iff in E; destruct E; discriminate|]. exists [x]. reflexivity.
    - destruct (((65 <=? x)%N && (x <=? 90)%N) && (y =? 58)%N); [exists d|exists (x :: y :: d)]; reflexivity. }
  destruct U as [d' ->]. rewrite norm_app. cbn [norm map]. change (slash 47%N) with 47%N. fold (norm b). rewrite (norm_id b B92). now apply basename_app.
Qed.
