(** C76: the echo mode of the terminal of a child. *)
From Coq Require Import ZArith NArith Lia.
From Verif Require Import Py Echo_spec Echo_model Echo_proof.

(** setecho changes the echo flag, which getecho then tells, and nothing else. *)
Theorem setecho_then_getecho state a : getecho (setecho state a) = state.
Proof. rewrite getecho_bit, setecho_bit. now destruct state. Qed.
Theorem setecho_changes_nothing_else state a n : n <> 3%N -> N.testbit (lflag (setecho state a)) n = N.testbit (lflag a) n /\ before (setecho state a) = before a /\ after (setecho state a) = after a.
Proof. intros D. rewrite setecho_bit. apply N.eqb_neq in D. rewrite D. easy. Qed.
Theorem setecho_is_idempotent state a : getecho a = state -> setecho state a = a.
Proof.
  intros E. destruct a as [b l f]. unfold setecho. cbn [before lflag after]. f_equal. apply N.bits_inj. intros n. pose proof (setecho_bit state {| before := b; lflag := l; after := f |} n) as P.
  unfold setecho in P. cbn [lflag] in P. rewrite P. destruct (N.eqb_spec n 3) as [En|]; [|easy]. rewrite En, <- E, getecho_bit. easy.
Qed.

(** waitnoecho with a time-out of t: True when the echo is found off for the first time, by looking every 0.1 seconds; False if it was on at
    every look until the time-out had passed, between 0.1 and 0.2 seconds after that. *)
Theorem waitnoecho_in_time rounds default timeout terminal start t : (match timeout with Some t => t | None => default end) = Some t -> (0 <= t)%Z -> (t < 100 * (Z.of_nat rounds - 2))%Z ->
  let echo := fun w => getecho (terminal w) in
  exists n, (exists answer, waitnoecho rounds default timeout terminal start = Some (answer, start + 100 * n) /\
    if answer : bool then first_off echo start n /\ (100 * Z.of_nat n <= t + 200)%Z else on_before echo start (S n) /\ (t + 100 < 100 * Z.of_nat n <= t + 200)%Z).
Proof.
  intros T P R. unfold waitnoecho. replace (match timeout with None => default | Some t0 => t0 end) with (Some t) by (rewrite <- T; now destruct timeout). cbv zeta.
  pose proof (loop_spec terminal start t rounds 0) as L. cbn [left_at] in L. rewrite Nat.mul_0_r, Nat.add_0_r in L. specialize (L ltac:(intros j H; lia) ltac:(intros j H; lia)).
  assert (forall n, (forall j, j < n -> (0 <= left_at start t j)%Z) -> (100 * Z.of_nat n <= t + 200)%Z) as B.
  { intros n H. destruct n as [|[|n]]; [lia|lia|]. specialize (H (S n) ltac:(lia)). cbn [left_at] in H. lia. }
  destruct (noecho_loop rounds terminal _ _ start) as [[[|] w]|].
  - destruct L as (n & -> & F & H). exists n, true. split; [easy|]. split; [exact F|now apply B].
  - destruct L as (n & -> & O & N & H). exists n, false. split; [easy|]. split; [exact O|]. split; [|now apply B]. destruct n; cbn [left_at] in N; lia.
  - destruct L as (_ & H). cbn [Nat.add] in H. destruct rounds as [|r]; [lia|]. specialize (H r ltac:(lia)). destruct r; cbn [left_at] in H; lia.
Qed.
(** So it is True if and only if the echo is found off soon enough. *)
Theorem waitnoecho_finds_it rounds default timeout terminal start t n : (match timeout with Some t => t | None => default end) = Some t -> (0 <= t)%Z -> (t < 100 * (Z.of_nat rounds - 2))%Z ->
  first_off (fun w => getecho (terminal w)) start n -> (100 * Z.of_nat n <= t + 100)%Z -> waitnoecho rounds default timeout terminal start = Some (true, start + 100 * n).
Proof.
  intros T P R F B. destruct (waitnoecho_in_time rounds default timeout terminal start t T P R) as (m & [|] & E & H).
  - destruct H as [H _]. now rewrite (first_off_unique _ _ _ _ F H).
  - destruct H as [O H], F as [_ F]. rewrite (O n ltac:(lia)) in F. discriminate.
Qed.
(** Without a time-out it is never False: it ends when the echo is found off, or never. *)
Theorem waitnoecho_for_ever rounds default timeout terminal start : (match timeout with Some t => t | None => default end) = None ->
  let echo := fun w => getecho (terminal w) in
  match waitnoecho rounds default timeout terminal start with
  | Some (answer, w) => answer = true /\ exists n, w = start + 100 * n /\ first_off echo start n
  | None => on_before echo start rounds
  end.
Proof.
  intros T. unfold waitnoecho. replace (match timeout with None => default | Some t0 => t0 end) with (@None Z) by (rewrite <- T; now destruct timeout). cbv zeta.
  pose proof (loop_none terminal start rounds 0 0%Z) as L. rewrite Nat.mul_0_r, Nat.add_0_r in L. specialize (L ltac:(intros j H; lia)).
  destruct (noecho_loop rounds terminal _ None start) as [[[|] w]|]; [split; [easy|exact L]|easy|exact L].
Qed.
(** A finding: the time-out is exceeded; an echo that is off for less than 0.1 seconds may not be noticed. *)
Theorem short_silence_is_missed rounds default timeout terminal start t : (match timeout with Some t => t | None => default end) = Some t -> (0 <= t)%Z -> (t < 100 * (Z.of_nat rounds - 2))%Z ->
  (forall k, getecho (terminal (start + 100 * k)) = true) -> exists w, waitnoecho rounds default timeout terminal start = Some (false, w) /\ (Z.of_nat start + t + 100 < Z.of_nat w)%Z.
Proof.
  intros T P R A. destruct (waitnoecho_in_time rounds default timeout terminal start t T P R) as (m & [|] & E & H).
  - destruct H as [[_ H] _]. rewrite A in H. discriminate.
  - exists (start + 100 * m). split; [exact E|]. lia.
Qed.

Print Assumptions setecho_then_getecho.
Print Assumptions setecho_changes_nothing_else.
Print Assumptions setecho_is_idempotent.
Print Assumptions waitnoecho_in_time.
Print Assumptions waitnoecho_finds_it.
Print Assumptions waitnoecho_for_ever.
Print Assumptions short_silence_is_missed.

(** Concrete cases: a terminal with flags 0x8a3b that turns the echo off from 250 to 290 or from 250 on. *)
Definition flags (echo : bool) : attributes := setecho echo {| before := [1280; 5; 191]%N; lflag := 35387%N; after := [15; 15]%N |}.
Example flags_set : lflag (flags true) = 35387%N /\ lflag (flags false) = 35379%N.
Proof. now vm_compute. Qed.
Example found : waitnoecho 10 (Some 30000%Z) (Some (Some 200%Z)) (fun w => flags (w <? 250)) 0 = Some (true, 300).
Proof. now vm_compute. Qed.
Example not_found : waitnoecho 10 None (Some (Some 200%Z)) (fun w => flags ((w <? 250) || (290 <? w))) 0 = Some (false, 400).
Proof. now vm_compute. Qed.
Example at_the_default : waitnoecho 10 (Some 0%Z) None (fun w => flags true) 5 = Some (false, 205).
Proof. now vm_compute. Qed.
Example never : waitnoecho 20 None None (fun w => flags true) 5 = None /\ waitnoecho 20 None None (fun w => flags (w <? 1000)) 5 = Some (true, 1005).
Proof. now vm_compute. Qed.
