From Coq Require Import String Ascii QArith Qabs Qround Lqa Lia.
From Verif Require Import Py PyLemmas Number_model Table_spec Table_model Table_proof Segstats_spec Segstats_model.
Open Scope string_scope.
Open Scope list_scope.
Open Scope nat_scope.

(** Hundredths. *)
Lemma hundredths_exists q : exists z, hundredths q z.
Proof. exists (round_even (100 * q)). apply round_even_spec. Qed.
Lemma even_succ z : Z.even z = true -> Z.even (z + 1) = true -> False.
Proof. intros A B. rewrite Z.add_1_r, Z.even_succ, <- Z.negb_even, A in B. discriminate. Qed.
Lemma hundredths_le q y z : hundredths q y -> hundredths q z -> (y <= z)%Z.
Proof.
  intros (A & A') (B & B'). destruct (Z.le_gt_cases y z) as [L|L]; [auto|exfalso].
  assert (G : (inject_Z z + 1 <= inject_Z y)%Q) by (change 1%Q with (inject_Z 1); rewrite <- inject_Z_plus, <- Zle_Qle; lia).
  apply Qabs_Qle_condition in A. apply Qabs_Qle_condition in B. destruct A as (A1 & A2), B as (B1 & B2).
  assert (E1 : (100 * q - inject_Z y == - (1 # 2))%Q) by lra. assert (E2 : (100 * q - inject_Z z == 1 # 2)%Q) by lra.
  assert (E3 : (inject_Z y == inject_Z (z + 1))%Q) by (rewrite inject_Z_plus; change (inject_Z 1) with 1%Q; lra).
  apply (proj1 (inject_Z_injective _ _)) in E3. subst y.
  apply (even_succ z); [apply B'; rewrite E2; reflexivity|apply A'; rewrite E1; reflexivity].
Qed.
Lemma hundredths_fun q y z : hundredths q y -> hundredths q z -> y = z.
Proof. intros A B. apply Z.le_antisymm; eauto using hundredths_le. Qed.
Lemma shown_refl q : same_shown q q.
Proof. destruct (hundredths_exists q) as (z & H). exists z. auto. Qed.
Lemma shown_sym q r : same_shown q r -> same_shown r q.
Proof. intros (z & A & B). exists z. auto. Qed.
Lemma shown_trans q r s : same_shown q r -> same_shown r s -> same_shown q s.
Proof. intros (z & A & B) (y & C & D). rewrite (hundredths_fun _ _ _ C B) in D. exists z. auto. Qed.
Lemma rounded_shown q r : rounded q r -> same_shown q r.
Proof.
  intros (z & H & E). exists z. split; [auto|]. assert (X : (100 * r - inject_Z z == 0)%Q) by (rewrite E; field).
  split; rewrite X; cbn; [lra|intros Y; discriminate].
Qed.

(** Rows. *)
Lemma cells_refl a : same_cells a a.
Proof. destruct a; cbn; auto. split; auto. induction l; constructor; auto using shown_refl. Qed.
Lemma f2_sym A (R : A -> A -> Prop) l m : (forall x y, R x y -> R y x) -> Forall2 R l m -> Forall2 R m l.
Proof. intros H. induction 1; constructor; auto. Qed.
Lemma f2_trans A (R : A -> A -> Prop) l m n : (forall x y z, R x y -> R y z -> R x z) -> Forall2 R l m -> Forall2 R m n -> Forall2 R l n.
Proof. intros H F. revert n. induction F; intros n G; inversion G; subst; constructor; eauto. Qed.
Lemma f2_refl A (R : A -> A -> Prop) l : (forall x, R x x) -> Forall2 R l l.
Proof. intros H. induction l; constructor; auto. Qed.
Lemma f2_length A B (R : A -> B -> Prop) l m : Forall2 R l m -> length l = length m.
Proof. induction 1; cbn; auto. Qed.
Lemma cells_sym a b : same_cells a b -> same_cells b a.
Proof. destruct a, b; cbn; auto. intros (-> & F). split; auto. eapply f2_sym; eauto using shown_sym. Qed.
Lemma cells_trans a b c : same_cells a b -> same_cells b c -> same_cells a c.
Proof. destruct a, b, c; cbn; try easy; try congruence. intros (-> & F) (-> & G). split; auto. eapply f2_trans; eauto using shown_trans. Qed.
Lemma rows_refl cs : same_rows cs cs.
Proof. apply f2_refl. auto using cells_refl. Qed.
Lemma rows_sym cs ds : same_rows cs ds -> same_rows ds cs.
Proof. apply f2_sym. intros c d (A & B). auto using cells_sym. Qed.
Lemma rows_trans cs ds es : same_rows cs ds -> same_rows ds es -> same_rows cs es.
Proof. apply f2_trans. intros c d e (A & B) (C & D). split; [congruence|eauto using cells_trans]. Qed.
Lemma append_cells_same a b c d : same_cells a b -> same_cells c d -> same_cells (append_cells a c) (append_cells b d).
Proof. destruct a, b, c, d; cbn; try easy; try congruence. intros (-> & F) (_ & G). split; auto using Forall2_app. Qed.
Lemma append_rows_same cs ds : forall cs' ds', same_rows cs cs' -> same_rows ds ds' -> same_rows (append_rows cs ds) (append_rows cs' ds').
Proof.
  revert ds. unfold append_rows. induction cs as [|c cs IH]; intros ds cs' ds' A B; inversion A; subst; [constructor|]. inversion B; subst; [constructor|]. cbn [combine map]. constructor; [|apply IH; auto].
  cbn [fst snd label data]. destruct H1, H. split; auto using append_cells_same.
Qed.
Lemma all_rows_snoc k l x : all_rows k (l ++ [x]) = append_rows (all_rows k l) x.
Proof. unfold all_rows. now rewrite fold_left_app. Qed.
Lemma same_size c d : same_cells (data c) (data d) -> size c = size d.
Proof. unfold size. destruct (data c), (data d); cbn; try easy; intros H; subst; auto. destruct H as (_ & F). eapply f2_length; eauto. Qed.
Lemma same_kind_cells a b : same_cells a b -> same_kind a b.
Proof. destruct a, b; cbn; tauto. Qed.
Lemma kind_sym a b : same_kind a b -> same_kind b a.
Proof. destruct a, b; cbn; congruence || easy. Qed.
Lemma kind_trans a b c : same_kind a b -> same_kind b c -> same_kind a c.
Proof. destruct a, b, c; cbn; congruence || easy. Qed.
Lemma column_sym c d : same_column c d -> same_column d c.
Proof. intros (A & B). split; [congruence|now apply kind_sym]. Qed.
Lemma column_trans c d e : same_column c d -> same_column d e -> same_column c e.
Proof. intros (A & B) (C & D). split; [congruence|eauto using kind_trans]. Qed.
Lemma rows_columns cs ds : same_rows cs ds -> Forall2 same_column cs ds.
Proof. induction 1 as [|c d cs ds (A & B) F IH]; constructor; auto. split; auto using same_kind_cells. Qed.
Lemma append_columns cs ds : Forall2 same_column cs ds -> Forall2 same_column cs (append_rows cs ds).
Proof.
  unfold append_rows. induction 1 as [|c d cs ds (A & B) F IH]; cbn [combine map]; constructor; auto. cbn [fst snd]. split; cbn [label data]; auto.
  destruct (data c), (data d); cbn in *; easy.
Qed.

(** Readable tables. *)
Lemma narrow_shown q r : same_shown q r -> (-999995 # 1000 < q /\ q < 9999995 # 1000)%Q -> (-999995 # 1000 < r /\ r < 9999995 # 1000)%Q.
Proof.
  intros (z & (A & A') & (B & B')) (L & U). apply Qabs_Qle_condition in A. destruct A as (A1 & A2).
  assert (Z1 : (-100000 < z)%Z). { rewrite Zlt_Qlt. change (inject_Z (-100000)) with (-100000 # 1)%Q. lra. }
  assert (Z2 : (z < 1000000)%Z). { rewrite Zlt_Qlt. change (inject_Z 1000000) with (1000000 # 1)%Q. lra. }
  assert (Z3 : (-99999 # 1 <= inject_Z z)%Q). { change (-99999 # 1)%Q with (inject_Z (-99999)). rewrite <- Zle_Qle. lia. }
  assert (Z4 : (inject_Z z <= 999999 # 1)%Q). { change (999999 # 1)%Q with (inject_Z 999999). rewrite <- Zle_Qle. lia. }
  apply Qabs_Qle_condition in B. destruct B as (B1 & B2). split.
  - apply Qnot_le_lt. intros X. assert (E : (100 * r - inject_Z z == - (1 # 2))%Q) by lra.
    assert (EZ : (inject_Z z == inject_Z (-99999))%Q) by (change (inject_Z (-99999)) with (-99999 # 1)%Q; lra). apply (proj1 (inject_Z_injective _ _)) in EZ. subst z.
    rewrite E in B'. discriminate (B' (Qeq_refl _)).
  - apply Qnot_le_lt. intros X. assert (E : (100 * r - inject_Z z == 1 # 2)%Q) by lra.
    assert (EZ : (inject_Z z == inject_Z 999999)%Q) by (change (inject_Z 999999) with (999999 # 1)%Q; lra). apply (proj1 (inject_Z_injective _ _)) in EZ. subst z.
    rewrite E in B'. discriminate (B' (Qeq_refl _)).
Qed.
Lemma narrow_same c d : same_cells (data c) (data d) -> narrow c -> narrow d.
Proof.
  unfold narrow. destruct (data c), (data d); cbn; try easy; [intros ->; auto|]. intros (_ & F). induction F; intros G; constructor; inversion G; subst; eauto using narrow_shown.
Qed.
Lemma textual_kind c d : same_kind (data c) (data d) -> textual c -> textual d.
Proof. intros K (l & E). rewrite E in K. unfold textual. destruct (data d); cbn in K; [eauto|easy|easy]. Qed.
Lemma separated_same cs ds : same_rows cs ds -> separated cs -> separated ds.
Proof.
  induction 1 as [|c d cs ds (A & B) F IH]; auto. destruct F as [|c' d' cs ds (A' & B') F]; auto. cbn [separated]. intros (O & S). split; [|apply IH; auto].
  destruct O as [O|O]; [left; eapply textual_kind; eauto using same_kind_cells|right; eapply narrow_same; eauto].
Qed.
Lemma wide_kind cs ds : Forall2 same_column cs ds -> wide cs -> wide ds.
Proof.
  induction 1 as [|c d cs ds (A & B) F IH]; intros (x & I & W); [easy|]. destruct I as [->|I].
  - exists d. split; [now left|]. destruct W as [W|W]; [left|right; congruence]. intros T. apply W. eapply textual_kind; eauto using kind_sym.
  - destruct IH as (y & J & W'); [exists x; auto|]. exists y. split; [now right|auto].
Qed.
Lemma readable_same cs ds : same_rows cs ds -> readable cs -> readable ds.
Proof.
  intros F ((n & S) & L & W & SP & WD & D). pose proof (rows_columns _ _ F) as K. repeat split.
  - exists n. clear -F S. induction F as [|c d cs ds (A & B) F IH]; constructor; inversion S; subst; auto. symmetry. now apply same_size.
  - clear -F L. induction F as [|c d cs ds (A & B) F IH]; constructor; inversion L; subst; auto. congruence.
  - clear -F W. induction F as [|c d cs ds (A & B) F IH]; constructor; inversion W; subst; auto. unfold words_only in *. destruct (data c), (data d); cbn in B; try easy. now subst.
  - eapply separated_same; eauto.
  - eapply wide_kind; eauto.
  - destruct F as [|c d cs ds (A & B) F]; auto. destruct D as (D1 & D2). split; [congruence|]. destruct (data c), (data d); cbn in B; try easy. now subst.
Qed.
Lemma append_size c d : same_kind (data c) (data d) -> size {| label := label c; descr := descr c; data := append_cells (data c) (data d); overall := overall c |} = size c + size d.
Proof. unfold size. cbn [data]. destruct (data c), (data d); cbn; try easy; intros; apply app_length. Qed.
Lemma readable_append cs ds : Forall2 same_column cs ds -> readable cs -> readable ds -> readable (append_rows cs ds).
Proof.
  intros K ((n & S) & L & W & SP & WD & D) ((n' & S') & L' & W' & SP' & WD' & D'). repeat split.
  - exists (n + n'). clear -K S S'. unfold append_rows. induction K as [|c d cs ds (A & B) K IH]; cbn [combine map]; constructor; inversion S; inversion S'; subst; auto. cbn [fst snd]. rewrite append_size; auto. 
  - clear -K L. unfold append_rows. induction K as [|c d cs ds (A & B) K IH]; cbn [combine map]; constructor; inversion L; subst; auto.
  - clear -K W W'. unfold append_rows. induction K as [|c d cs ds (A & B) K IH]; cbn [combine map]; constructor; inversion W; inversion W'; subst; auto.
    unfold words_only in *. cbn [fst snd data]. destruct (data c), (data d); cbn in *; try easy. apply Forall_app; auto.
  - clear -K SP SP'. unfold append_rows. induction K as [|c d cs ds (A & B) K IH]; auto. cbn [combine map]. destruct K as [|c' d' cs ds (A' & B') K]; auto. cbn [combine map fst snd] in *. destruct SP as (O & SP), SP' as (O' & SP'). split; [|apply IH; auto].
    destruct O as [(l & E)|O]; [left; unfold textual; cbn [data]; destruct (data c), (data d); cbn in *; try easy; eauto|].
    destruct O' as [(l & E)|O']; [left; unfold textual; cbn [data]; destruct (data c), (data d); cbn in *; try easy; eauto|].
    right. unfold narrow in *. cbn [data]. destruct (data c'), (data d'); cbn in *; try easy; apply Forall_app; auto.
  - eapply wide_kind; [|exact WD]. now apply append_columns.
  - destruct K as [|c d cs ds (A & B) K]; auto. unfold append_rows. cbn [combine map fst snd label]. destruct D as (D1 & D2), D' as (_ & D3). split; auto. cbn [data]. destruct (data c), (data d); cbn in *; try easy. apply Forall_app; auto.
Qed.

(** Reading. *)
Definition plain (t : table) : Prop := Forall (fun c => overall c = None) (values t).
Lemma read_table t0 t leg : Forall2 same_column (values t0) (values t) -> readable (values t) ->
  exists t1, read t0 (write t leg) = Ok t1 /\ map fst t1 = map fst t0 /\ same_rows (values t1) (append_rows (values t0) (values t)) /\ (plain t0 -> plain t1).
Proof.
  intros K R. destruct (round_trip t0 t leg R K) as (t1 & E & A). exists t1. split; [exact E|]. clear E R K. unfold plain.
  induction A as [|k c0 t0 c cs c1 t1 (H1 & H2 & H3 & H4) A (IH1 & IH2 & IH3)]; [repeat split; constructor|]. cbn [map fst values snd]. split; [now f_equal|]. split.
  - unfold append_rows. cbn [combine map fst snd]. constructor; [|exact IH2]. cbn [label data]. split; [auto|].
    destruct (data c0), (data c), (data c1); cbn in H4; try easy; cbn; subst; auto.
    destruct H4 as (-> & r & -> & F). split; auto. apply Forall2_app; [apply f2_refl; apply shown_refl|]. clear -F. induction F; constructor; auto. now apply shown_sym, rounded_shown.
  - intros F. inversion F; subst. constructor; [congruence|auto].
Qed.

(** New tables. *)
Lemma is_word s : (match s with [] => false | _ => true end && forallb (fun c => negb (Table_spec.blank c)) s)%bool = true -> word s.
Proof.
  intros H. apply andb_true_iff in H as (A & B). split; [destruct s; discriminate|]. rewrite forallb_forall in B. apply Forall_forall. intros c C. specialize (B c C). now apply negb_true_iff.
Qed.
Lemma not_dashes s : is_separator s = false -> ~ starts_with_dashes s.
Proof. intros H X. apply sep_spec in X. congruence. Qed.
Lemma blank_readable k : readable (blank_table k).
Proof.
  repeat split.
  - exists 0. destruct k; repeat constructor.
  - destruct k; cbn [blank_table columns map fst snd]; repeat (constructor; [apply is_word; reflexivity|]); constructor.
  - destruct k; repeat constructor.
  - destruct k; cbn [blank_table columns map]; (split; [left; eexists; reflexivity|]); repeat (split; [right; constructor|]); exact I.
  - destruct k; (eexists; split; [left; reflexivity|right; cbn; lia]).
  - destruct k; (split; [apply not_dashes; reflexivity|constructor]).
Qed.
Lemma new_ok k : exists e, new k = Ok e /\ map fst e = map label (blank_table k) /\ same_rows (blank_table k) (values e) /\ plain e.
Proof.
  destruct k; (eexists; split; [vm_compute; reflexivity|]); (split; [vm_compute; reflexivity|]); (split; [|vm_compute; repeat constructor]); unfold values; cbn [map snd]; cbn [blank_table columns map fst snd];
    repeat (constructor; [split; [reflexivity|vm_compute; auto]|]); constructor.
Qed.

(** Overalls. *)
Definition mk (x : string * string) : column := {| label := lit (fst x); descr := []; data := no_cells (snd x); overall := None |}.
Lemma peel lab ty bs t : map fst t = map label (map mk ((lab, ty) :: bs)) -> Forall2 same_column (map mk ((lab, ty) :: bs)) (values t) -> plain t ->
  exists d a t', t = (lit lab, {| label := lit lab; descr := d; data := a; overall := None |}) :: t' /\ same_kind (no_cells ty) a /\
    map fst t' = map label (map mk bs) /\ Forall2 same_column (map mk bs) (values t') /\ plain t'.
Proof.
  intros E K P. destruct t as [|(k, [l d a o]) t]; [discriminate E|]. cbn [map fst] in E. injection E as -> E. cbn [map values snd] in K. fold (values t) in K. inversion K; subst. inversion P; subst. cbn [overall] in *. subst o.
  match goal with H : same_column _ _ |- _ => destruct H as (H1 & H2) end. cbn [mk label data fst snd] in *. subst l. exists d, a, t. auto.
Qed.
Ltac peel_all E K P :=
  lazymatch type of E with
  | _ = map label (map mk (_ :: _)) =>
      let d := fresh "d" in let a := fresh "a" in let t' := fresh "t" in let S := fresh in
      destruct (peel _ _ _ _ E K P) as (d & a & t' & -> & S & E' & K' & P'); clear E K P; rename E' into E; rename K' into K; rename P' into P;
      destruct a; try (exfalso; exact S); clear S; peel_all E K P
  | _ => idtac
  end.
Lemma sum_here lab lab' d l o cs : lab' = lit lab -> column_sum ({| label := lab'; descr := d; data := Counts l; overall := o |} :: cs) lab (sum l).
Proof. intros ->. eexists _, l. split; [left; reflexivity|]. repeat split. Qed.
Lemma sum_next lab c cs z : column_sum cs lab z -> column_sum (c :: cs) lab z.
Proof. intros (x & l & I & H). exists x, l. split; [now right|auto]. Qed.
Ltac find_sum := first [apply sum_here; reflexivity | apply sum_next; find_sum].
Ltac try_ratio a b c f :=
  exists a, b, c, f; eexists; eexists; split; [cbn; auto 10|]; split; [reflexivity|]; split; [find_sum|]; split; [find_sum|].
Ltac compute_all := lazy -[sum Z.eqb Qdiv Qmult inject_Z].
Lemma factor_comm f n d : (inject_Z n / inject_Z d * f == f * (inject_Z n / inject_Z d))%Q.
Proof. apply Qmult_comm. Qed.
Ltac zeros := split; intros ?; [first [reflexivity | exfalso; match goal with H : (_ =? 0)%Z = false |- _ => apply Z.eqb_neq in H; auto; fail end | match goal with H : (?x =? 0)%Z = false, G : ?x = 0%Z |- _ => apply Z.eqb_neq in H; contradiction end]
  | first [eexists; split; [reflexivity|apply factor_comm] | match goal with H : (?x =? 0)%Z = true, G : ?x <> 0%Z |- _ => apply Z.eqb_eq in H; contradiction end]].
Lemma summarize_ok k t : map fst t = map label (blank_table k) -> Forall2 same_column (blank_table k) (values t) -> plain t ->
  exists t', summarize_all k t = Ok t' /\ map fst t' = map fst t /\ same_rows (values t') (values t) /\ summed k (values t').
Proof.
  destruct k; intros E K P.
  - change (blank_table Pgc) with (map mk (columns Pgc)) in *. unfold columns in *. peel_all E K P. destruct t0; [|discriminate E]. clear E K P.
    destruct (sum l0 =? 0)%Z eqn:Z0, (sum l7 =? 0)%Z eqn:Z7; (eexists; split; [compute_all; rewrite Z0; compute_all; rewrite Z7; compute_all; reflexivity|]);
    (split; [reflexivity|]); (split; [cbn [values map snd]; repeat (constructor; [split; [reflexivity|apply cells_refl]|]); constructor|]);
    cbn [values map snd]; intros c I; repeat (destruct I as [<-|I]; [cbn [data overall label]; first [reflexivity | first [try_ratio "PGPFU" "CGPFU" "CGP" 100%Q | try_ratio "PGPFP" "CGPFP" "CGP" 100%Q | try_ratio "PGPUR" "CGPUR" "CGP" 100%Q | try_ratio "PEQ" "CEQ" "CNP" 100%Q | try_ratio "PRE" "CRE" "CNP" 100%Q | try_ratio "PGEN" "CGEN" "CNP" 100%Q | try_ratio "PSPEC" "CSPEC" "CNP" 100%Q | try_ratio "PINT" "CINT" "CNP" 100%Q]; zeros]|]); destruct I.
  - change (blank_table Gb) with (map mk (columns Gb)) in *. unfold columns in *. peel_all E K P. match type of E with map fst ?x = _ => destruct x; [|discriminate E] end. clear E K P.
    destruct (sum l0 =? 0)%Z eqn:Z0, (sum l1 =? 0)%Z eqn:Z1, (sum l14 =? 0)%Z eqn:Z14; (eexists; split; [compute_all; rewrite Z0; compute_all; rewrite Z1; compute_all; rewrite Z14; compute_all; rewrite Z0; compute_all; reflexivity|]);
    (split; [reflexivity|]); (split; [cbn [values map snd]; repeat (constructor; [split; [reflexivity|apply cells_refl]|]); constructor|]);
    cbn [values map snd]; intros c I; repeat (destruct I as [<-|I]; [cbn [data overall label]; first [reflexivity | first [try_ratio "PGA" "CGA" "CG" 100%Q | try_ratio "PGSA" "CGSA" "CGA" 100%Q | try_ratio "PGMA" "CGMA" "CGA" 100%Q | try_ratio "PGUR" "CGUR" "CG" 100%Q | try_ratio "PGFP" "CGFP" "CG" 100%Q | try_ratio "ATG" "CT" "CG" 1%Q | try_ratio "ANG" "CN" "CG" 1%Q | try_ratio "PNA" "CNA" "CN" 100%Q]; zeros]|]); destruct I.
Qed.
