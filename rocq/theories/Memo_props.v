(** C57: recursive functions with the cached() decorator (GenericCache/decorators.py). *)
From Coq Require Import ZArith.
From Verif Require Import Py Cache_spec Cache_model Cache_proof2 Memo_spec Memo_model Memo_proof.
Set Implicit Arguments.

(** Functions which share a cache, with different keys for different calls: whatever is called, in whatever
    order, with removals, clearing, collection and reconfiguration in between, for any size limit, time to live
    and clock, every call returns - given enough depth of recursion - with the value or exception of plain
    evaluation; and only values of plain evaluation are ever stored, never failures. *)
Theorem memo_transparent :
  forall (A V K : Type) (keqb : K -> K -> bool), (forall x y, keqb x y = true <-> x = y) ->
  forall (none_key : K) (key : A -> K), (forall a b, key a = key b -> a = b) ->
  forall (body : A -> prog A V) clock m x (events : list (event A V K)),
  Forall (fun e => match e with Ask a => exists r, evals body a r | Other c => no_store c end) events ->
  exists n, forall depth rounds, n <= depth -> n <= rounds ->
  exists s replies, session keqb none_key key body clock rounds depth (start A V K m x false) events = (s, Some replies) /\
    Forall2 (fun e y => match e with Ask a => exists r, y = Answered r /\ evals body a r | Other _ => True end) events replies /\
    (forall k v now, snd (fetch keqb (cache_of s) k now) = Some v -> exists a, k = key a /\ evals body a (Ok v)).
Proof.
  intros A V K keqb keq none_key key inj body clock m x events H.
  destruct (cost_ex H) as [n Co]. exists n. intros depth rounds Dp Rd.
  destruct (@session_ok A V K keqb keq none_key key inj body clock rounds depth events n Co Dp (start A V K m x false) {| cap := m; ttl := x; entries := [] |}) as (st & s & ys & E & C & G & Y).
  - apply clean_new.
  - reflexivity.
  - intros k v t [].
  - exact Rd.
  - exists st, ys. split; [exact E|]. split; [exact Y|]. intros k v now F. pose proof (@clean_fetch _ _ keqb keq (cache_of st) s k now C) as W. pose proof (@sfetch_found _ _ keqb keq s k now v) as Fo.
    destruct (fetch keqb (cache_of st) k now) as [c' f]. destruct (sfetch keqb s k now) as [s' f']. destruct W as (<- & _). destruct (Fo F) as [t I]. exact (G _ _ _ I).
Qed.
(** Evaluation has at most one result, so these are the only possible answers. *)
Theorem plain_evaluation_deterministic : forall (A V : Type) (body : A -> prog A V) a r r', evals body a r -> evals body a r' -> r = r'.
Proof. intros A V body a r r'. apply evals_fun. Qed.
(** Without size limit and time to live a function is run only for arguments that are needed, and at most once
    for each of them unless it raised; so never twice if no needed call raises. *)
Theorem memo_once :
  forall (A V K : Type) (keqb : K -> K -> bool), (forall x y, keqb x y = true <-> x = y) ->
  forall (none_key : K) (key : A -> K), (forall a b, key a = key b -> a = b) ->
  forall (body : A -> prog A V) clock m x (asked : list A), (m = None \/ m = Some 0) -> (x = None \/ x = Some 0%Z) ->
  (forall a, In a asked -> exists r, evals body a r) ->
  exists n, forall depth rounds, n <= depth -> n <= rounds ->
  let ran := made (fst (session keqb none_key key body clock rounds depth (start A V K m x false) (map Ask asked))) in
  (forall b, In b ran -> exists a, In a asked /\ needs body a b) /\
  (forall before b between after, ran = before ++ b :: between ++ b :: after -> forall v, ~ evals body b (Ok v)) /\
  ((forall a b x, In a asked -> needs body a b -> ~ evals body b (Err x)) -> NoDup ran).
Proof.
  intros A V K keqb keq none_key key inj body clock m x asked M X H.
  assert (H' : Forall (answerable body (K := K)) (map Ask asked)). { apply Forall_forall. intros e I. apply in_map_iff in I. destruct I as (a & <- & I). exact (H a I). }
  destruct (cost_ex H') as [n Co]. exists n. intros depth rounds Dp Rd.
  destruct (@asks_ok A V K keqb keq none_key key inj body clock rounds depth asked n Co Dp (start A V K m x false) {| cap := m; ttl := x; entries := [] |}) as (s' & Ef).
  - apply clean_new.
  - reflexivity.
  - intros k v t [].
  - exact Rd.
  - destruct (session keqb none_key key body clock rounds depth (start A V K m x false) (map Ask asked)) as [st ys]. cbn [fst] in *. destruct (ef_made Ef) as (l & E & F & U). cbn [start made app] in E. rewrite E.
    rewrite Forall_forall in F. assert (Un : unlimited {| cap := m; ttl := x; entries := @nil (entry K V) |}) by (split; assumption). destruct (U Un) as (U1 & U2 & U3).
    split; [exact F|]. split.
    + intros l1 b l2 l3 Q v. exact (U3 _ _ _ _ v Q).
    + intros Ok1. assert (T : forall b, In b l -> exists v, evals body b (Ok v)).
      { intros b I. destruct (F b I) as (a & Ia & Na). destruct (H a Ia) as [r R]. assert (R' : exists r, evals body b r).
        { clear -R Na. revert r R. induction Na as [a|a b c Ca _ IH]; intros r R; [exists r; exact R|]. 
          assert (P : exists r', evals body b r').
          { unfold evals in R. clear IH. revert r R. induction Ca as [a1 g|a1 g r1 b1 E1 _ IHc]; intros r R; inversion R as [| |? ? r2 ? R1 R2]; subst; [exists r2; exact R1|].
            apply (IHc r). rewrite (evals_fun E1 R1). exact R2. }
          destruct P as [r' P]. exact (IH r' P). }
        destruct R' as [[v|e] R']; [exists v; exact R'|]. destruct (Ok1 a b e Ia Na R'). }
      clear -T U3. assert (G : forall l : list A, (forall l1 b l2 l3, l = l1 ++ b :: l2 ++ b :: l3 -> False) -> NoDup l).
      { clear. induction l as [|b l IH]; intros W; constructor.
        - intros I. apply in_split in I. destruct I as (l2 & l3 & ->). exact (W [] b l2 l3 eq_refl).
        - apply IH. intros l1 c l2 l3 ->. exact (W (b :: l1) c l2 l3 eq_refl). }
      apply G. intros l1 b l2 l3 ->. destruct (T b) as [v R]; [apply in_or_app; right; now left|]. exact (U3 _ _ _ _ v eq_refl R).
Qed.
(** With a cache made with default_fail = True a cached function is never run at all: every call raises KeyError. *)
Theorem memo_default_fail : forall (A V K : Type) (keqb : K -> K -> bool) (none_key : K) (key : A -> K) (body : A -> prog A V) clock m x asked depth rounds,
  exists s, session keqb none_key key body clock rounds (S depth) (start A V K m x true) (map Ask asked) = (s, Some (map (fun _ => Answered (Err KeyError)) asked)) /\ made s = [].
Proof.
  intros A V K keqb none_key key body clock m x asked depth rounds.
  assert (G : forall l st, cache_of st = new_cache K V m x true -> exists s, session keqb none_key key body clock rounds (S depth) st (map Ask l) = (s, Some (map (fun _ => Answered (Err KeyError)) l)) /\ made s = made st).
  { induction l as [|a l IH]; intros st E; cbn [map session]; [exists st; split; reflexivity|]. cbn [inner]. rewrite E. cbn [fetch dget values new_cache default_fail option_map].
    destruct (IH {| cache_of := new_cache K V m x true; ticks := S (ticks st); made := made st |} eq_refl) as (s & Q & M). match goal with |- context [let (_, _) := ?X in _] => change X with (session keqb none_key key body clock rounds (S depth) {| cache_of := new_cache K V m x true; ticks := S (ticks st); made := made st |} (map Ask l)) end. rewrite Q. exists s. split; [reflexivity|exact M]. }
  exact (G asked (start A V K m x true) eq_refl).
Qed.
(** The default marshaller: functions with different names can share a cache. *)
Theorem default_marshaller_distinct : forall (F N X K : Type) (name : F -> N) (repr : N * X -> K),
  (forall p q, repr p = repr q -> p = q) -> (forall f g, name f = name g -> f = g) ->
  forall a b : F * X, default_marshaller name repr a = default_marshaller name repr b -> a = b.
Proof. intros F N X K name repr R Nm [f x] [g y] E. apply R in E. cbn in E. injection E as E ->. apply Nm in E. now subst. Qed.

(** The Fibonacci function, which raises for the argument 7 and passes that on. *)
Definition fib (n : nat) : prog nat nat :=
  if n =? 7 then Raise ValueError else if n <? 2 then Ret n else
  Call (n - 1) (fun r => match r with Err x => Raise x | Ok a => Call (n - 2) (fun r => match r with Err x => Raise x | Ok b => Ret (a + b) end) end).
Example fib_session : let (s, ys) := session Nat.eqb 1000 (fun n => n) fib (fun n => Z.of_nat n) 100 100 (start nat nat nat None None false) [Ask 5; Ask 6; Ask 8; Other (CRemove 3); Ask 3; Ask 8] in
  ys = Some [Answered (Ok 5); Answered (Ok 8); Answered (Err ValueError); Did CDone; Answered (Ok 2); Answered (Err ValueError)] /\ made s = [5; 4; 3; 2; 1; 0; 6; 8; 7; 3; 8; 7].
Proof. vm_compute. split; reflexivity. Qed.
(** With room for one value only, values are computed again, but right. *)
Example fib_small : let (s, ys) := session Nat.eqb 1000 (fun n => n) fib (fun n => Z.of_nat n) 100 100 (start nat nat nat (Some 1) (Some 2%Z) false) [Ask 5; Ask 6] in
  ys = Some [Answered (Ok 5); Answered (Ok 8)] /\ length (made s) = 25.
Proof. vm_compute. split; reflexivity. Qed.
Example fib_evals : evals fib 3 (Ok 2) /\ evals fib 8 (Err ValueError).
Proof.
  assert (E0 : evals fib 0 (Ok 0)) by constructor. assert (E1 : evals fib 1 (Ok 1)) by constructor.
  assert (E2 : evals fib 2 (Ok 1)) by (eapply runs_call; [exact E1|]; eapply runs_call; [exact E0|]; constructor).
  split; [eapply runs_call; [exact E2|]; eapply runs_call; [exact E1|]; constructor|].
  eapply runs_call; [apply runs_raise|]. constructor.
Qed.
Example fib_answerable : Forall (fun e : event nat nat nat => match e with Ask a => exists r, evals fib a r | Other c => no_store c end) [Ask 3; Other (CRemove 3); Ask 8].
Proof. constructor; [exists (Ok 2); apply fib_evals|]. constructor; [exact I|]. constructor; [exists (Err ValueError); apply fib_evals|constructor]. Qed.

(** "Functions that share a cache do not disturb each other" is false if they have the same name: the second
    function gives the result of the first. *)
Theorem same_name_refuted :
  ~ (forall (F N X K V : Type) (keqb : K -> K -> bool) (none_key : K) (name : F -> N) (repr : N * X -> K) (body : F * X -> prog (F * X) V) clock asked,
      (forall x y, keqb x y = true <-> x = y) -> (forall p q, repr p = repr q -> p = q) -> (forall a, In a asked -> exists r, evals body a r) ->
      exists n, forall depth rounds, n <= depth -> n <= rounds -> exists s replies,
      session keqb none_key (default_marshaller name repr) body clock rounds depth (start (F * X) V K None None false) (map Ask asked) = (s, Some replies) /\
      Forall2 (fun a y => exists r, y = Answered r /\ evals body a r) asked replies).
Proof.
  intros H. specialize (H bool unit nat nat nat Nat.eqb 1000 (fun _ => tt) snd (fun a => Ret (if fst a then 0 else 1)) (fun _ => 0%Z) [(true, 5); (false, 5)] Nat.eqb_eq).
  destruct H as [n H].
  - intros [[] p] [[] q]. cbn. now intros ->.
  - intros a _. eexists. constructor.
  - destruct (H (S n) (S n) ltac:(lia) ltac:(lia)) as (s & ys & E & F). cbn in E. injection E as _ <-. inversion F as [|? ? ? ? _ F2]; subst. inversion F2 as [|? ? ? ? G _]; subst. destruct G as (r & Q & R). injection Q as <-.
    unfold evals in R. cbn in R. inversion R.
Qed.

Print Assumptions memo_transparent.
Print Assumptions plain_evaluation_deterministic.
Print Assumptions memo_once.
Print Assumptions memo_default_fail.
Print Assumptions default_marshaller_distinct.
Print Assumptions same_name_refuted.
