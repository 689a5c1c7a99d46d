From Coq Require Import Ascii Lia.
From Verif Require Import Py Reading_spec Reading_model.
Open Scope nat_scope.
Open Scope list_scope.

(** what can still be read *)
Definition future (l : list happening) (e : env) : txt := pending e ++ (if hung e then [] else output l).
Definition total (e : env) : txt := future (schedule e) e.
(** what waiting does: from [l] and [e] to [e'] *)
Definition later (l : list happening) (e e' : env) : Prop :=
  future l e = total e' /\ now e <= now e' /\ (alive e' = true -> alive e = true) /\ (hung e = true -> hung e' = true) /\ length (schedule e') <= length l /\ (In Dies l -> alive e' = false \/ In Dies (schedule e')).
Lemma later_refl l e : later l e (set_schedule l e).
Proof. repeat split; auto. Qed.
Lemma later_step h l e e' : later l (happen h e) e' -> later (h :: l) e e'.
Proof.
  intros (A & B & C & D & F & G). repeat split.
  - rewrite <- A. unfold future. destruct h; cbn [happen pending hung output]; destruct (hung e); rewrite <- ?app_assoc, ?app_nil_r; easy.
  - destruct h; cbn [happen now] in B; lia.
  - intros H. apply C in H. destruct h; cbn in H; congruence.
  - intros H. apply D. destruct h; cbn; easy.
  - cbn. lia.
  - intros [->|H]; [|auto]. cbn in C. destruct (alive e'); [discriminate (C eq_refl)|now left].
Qed.
Lemma later_trans l e e1 e2 : later l e e1 -> later (schedule e1) e1 e2 -> later l e e2.
Proof. intros (A & B & C & D & F & G) (A' & B' & C' & D' & F' & G'). repeat split; [exact (eq_trans A A')|lia|auto|auto|lia|]. intros H. destruct (G H) as [K|K]; [|auto]. left. destruct (alive e2); [rewrite (C' eq_refl) in K; discriminate|easy]. Qed.
Lemma later_pass x d l e : x < d -> later (Passes d :: l) e (set_schedule (Passes (d - x) :: l) (happen (Passes x) e)).
Proof. intros L. repeat split; cbn; auto; try lia; intros [H|H]; try discriminate; auto. Qed.

(** *** select *)
Lemma select_spec : forall l t e, let '(r, e') := select l t e in
  later l e e' /\ (readable e = true -> r = Ready /\ e' = set_schedule l e) /\
  match r with
  | Ready => readable e' = true /\ (forall x, t = Some x -> now e' <= now e + x)
  | Quiet => readable e' = false /\ (exists x, t = Some x /\ now e' = now e + x)
  | Interrupted => readable e' = false /\ length (schedule e') < length l /\ (forall x, t = Some x -> now e' <= now e + x)
  | Never => t = None /\ readable e' = false /\ schedule e' = []
  end.
Proof.
  assert (forall l e, readable (set_schedule l e) = readable e) as RS by easy.
  induction l as [|h l IH]; intros t e.
  - cbn [select]. destruct (readable e) eqn:R.
    + split; [apply later_refl|]. split; [easy|]. split; [now rewrite RS|]. cbn. intros x _. lia.
    + destruct t as [x|].
      * split; [repeat split; cbn; auto; lia|]. split; [easy|]. split; [exact R|]. now exists x.
      * split; [apply later_refl|]. split; [easy|]. split; [easy|]. split; [exact R|easy].
  - cbn [select]. destruct (readable e) eqn:R.
    { split; [apply later_refl|]. split; [easy|]. split; [now rewrite RS|]. cbn. intros x _. lia. }
    assert (forall t' x d, (d = 0 -> t' = t) -> (h = Passes d \/ d = 0 /\ now (happen h e) = now e) -> now (happen h e) = now e + d -> (t = Some x -> d <= x /\ t' = Some (x - d)) -> (t = None -> t' = None) -> True) as _ by easy.
    assert (now (happen h e) = now e -> let '(r, e') := select l t (happen h e) in later (h :: l) e e' /\ (false = true -> r = Ready /\ e' = set_schedule (h :: l) e) /\
      match r with
      | Ready => readable e' = true /\ (forall x, t = Some x -> now e' <= now e + x)
      | Quiet => readable e' = false /\ (exists x, t = Some x /\ now e' = now e + x)
      | Interrupted => readable e' = false /\ length (schedule e') < length (h :: l) /\ (forall x, t = Some x -> now e' <= now e + x)
      | Never => t = None /\ readable e' = false /\ schedule e' = []
      end) as Same.
    { intros N. specialize (IH t (happen h e)). destruct (select l t (happen h e)) as [r e']. destruct IH as (A & B & C). rewrite N in C. split; [now apply later_step|]. split; [easy|].
      destruct r; try easy. cbn. split; [easy|]. split; [lia|easy]. }
    destruct h as [s| | | |d]; try (apply Same; reflexivity).
    + split; [apply later_step, later_refl|]. split; [easy|]. split; [exact R|]. split; [cbn; lia|]. cbn. intros x _. lia.
    + clear Same. destruct t as [x|].
      * destruct (Nat.ltb_spec x d) as [L|L].
        -- split; [now apply later_pass|]. split; [easy|]. split; [exact R|]. now exists x.
        -- specialize (IH (Some (x - d)) (happen (Passes d) e)). destruct (select l _ _) as [r e']. destruct IH as (A & B & C). split; [now apply later_step|]. split; [easy|].
           cbn [happen now] in C. destruct r; try easy.
           ++ split; [easy|]. intros y H. injection H as <-. destruct C as [_ C]. specialize (C _ eq_refl). lia.
           ++ split; [easy|]. destruct C as (_ & y & H & C). injection H as <-. exists x. split; [easy|lia].
           ++ destruct C as (C0 & C1 & C2). split; [easy|]. split; [cbn; lia|]. intros y H. injection H as <-. specialize (C2 _ eq_refl). lia.
      * specialize (IH None (happen (Passes d) e)). destruct (select l _ _) as [r e']. destruct IH as (A & B & C). split; [now apply later_step|]. split; [easy|]. destruct r; try easy.
        -- destruct C as (_ & y & H & _). discriminate.
        -- destruct C as (C0 & C1 & C2). split; [easy|]. split; [cbn; lia|easy].
Qed.
Lemma select_loop_spec : forall fuel en t e, length (schedule e) < fuel -> (forall x, t = Some x -> en = now e + x) -> let '(r, e') := select_loop fuel en t e in
  later (schedule e) e e' /\ (readable e = true -> r = Ready /\ e' = e) /\
  match r with
  | Ready => readable e' = true /\ (forall x, t = Some x -> now e' <= now e + x)
  | Quiet => readable e' = false /\ (exists x, t = Some x /\ now e' = now e + x)
  | Interrupted => False
  | Never => t = None /\ readable e' = false /\ schedule e' = []
  end.
Proof.
  induction fuel as [|fuel IH]; intros en t e L EN; [lia|]. cbn [select_loop]. pose proof (select_spec (schedule e) t e) as P. destruct (select (schedule e) t e) as [r e1].
  destruct P as (A & B & C).
  assert (readable e = true -> r = Ready /\ e1 = e) as B' by (intros H; destruct (B H) as [-> ->]; split; [easy|now destruct e]). clear B.
  destruct r; try (split; [exact A|]; split; [exact B'|]; exact C).
  destruct C as (C0 & C1 & C2). destruct t as [x|].
  - specialize (C2 x eq_refl). specialize (EN x eq_refl). destruct (Nat.ltb_spec en (now e1)); [lia|]. specialize (IH en (Some (en - now e1)) e1 ltac:(lia)).
    specialize (IH ltac:(intros y H'; injection H' as <-; lia)). destruct (select_loop fuel en _ e1) as [r e2]. destruct IH as (I1 & I2 & I3). split; [now apply (later_trans _ e e1)|].
    split; [intros R; destruct (B' R); discriminate|]. destruct r; try easy.
    + split; [easy|]. intros y H'. injection H' as <-. destruct I3 as [_ I3]. specialize (I3 _ eq_refl). lia.
    + split; [easy|]. exists x. split; [easy|]. destruct I3 as (_ & y & H' & I3). injection H' as <-. lia.
  - specialize (IH en None e1 ltac:(lia) ltac:(easy)). destruct (select_loop fuel en None e1) as [r e2]. destruct IH as (I1 & I2 & I3). split; [now apply (later_trans _ e e1)|].
    split; [intros R; destruct (B' R); discriminate|]. destruct r; try easy. destruct I3 as (_ & y & H' & _). discriminate.
Qed.
Lemma self_select_spec t e : let '(r, e') := self_select t e in
  later (schedule e) e e' /\ (readable e = true -> r = Ready /\ e' = e) /\
  match r with
  | Ready => readable e' = true /\ (forall x, t = Some x -> now e' <= now e + x)
  | Quiet => readable e' = false /\ (exists x, t = Some x /\ now e' = now e + x)
  | Interrupted => False
  | Never => t = None /\ readable e' = false /\ schedule e' = []
  end.
Proof. unfold self_select. apply select_loop_spec; [lia|]. now intros x ->. Qed.

(** *** isalive *)
Lemma wait_end_spec : forall l e, match wait_end l e with Some e' => later l e e' /\ alive e' = false | None => alive e = true /\ ~ In Dies l end.
Proof.
  induction l as [|h l IH]; intros e; cbn [wait_end]; destruct (alive e) eqn:A.
  - split; [easy|now intros []].
  - split; [apply later_refl|exact A].
  - specialize (IH (happen h e)). destruct (wait_end l (happen h e)) as [e'|]; [split; [now apply later_step|easy]|]. destruct IH as [B C]. split; [easy|]. intros [->|H]; [discriminate|easy].
  - split; [apply later_refl|exact A].
Qed.
(** the attributes that isalive leaves *)
Definition same (o o' : spawn) : Prop := closed o' = closed o /\ flag_eof o' = flag_eof o /\ timeout o' = timeout o /\ logfile o' = logfile o /\ logfile_read o' = logfile_read o /\ gives o' = gives o.
Definition sane (o : spawn) (e : env) : Prop := terminated o = true -> alive e = false.
Lemma isalive_spec o e : sane o e -> match isalive o e with
  | Some (a, o', e') => later (schedule e) e e' /\ same o o' /\ sane o' e' /\ alive e' = a /\ (a = true -> o' = o /\ e' = e /\ flag_eof o = false) /\ (flag_eof o = false -> e' = e) /\ (a = false -> terminated o' = true)
  | None => flag_eof o = true /\ terminated o = false /\ alive e = true /\ ~ In Dies (schedule e)
  end.
Proof.
  intros S. assert (later (schedule e) e e) as LR by (pose proof (later_refl (schedule e) e) as H; now destruct e). unfold isalive. destruct (terminated o) eqn:T.
  - specialize (S T). split; [easy|]. split; [now repeat split|]. split; [easy|]. now split.
  - destruct (flag_eof o) eqn:F.
    + pose proof (wait_end_spec (schedule e) e) as W. destruct (wait_end (schedule e) e) as [e'|]; [|easy]. destruct W as [A B]. split; [easy|]. split; [now repeat split|]. split; [easy|]. split; [easy|]. easy.
    + destruct (alive e) eqn:A.
      * split; [easy|]. split; [now repeat split|]. split; [intros T'; congruence|]. easy.
      * split; [easy|]. split; [now repeat split|]. split; [easy|]. easy.
Qed.
