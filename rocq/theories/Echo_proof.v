From Coq Require Import ZArith NArith Lia.
From Verif Require Import Py Echo_spec Echo_model.

Lemma getecho_bit a : getecho a = N.testbit (lflag a) 3.
Proof.
  unfold getecho, ECHO. destruct (N.eqb_spec (N.land (lflag a) 8) 0) as [E|E]; cbn [negb].
  - apply (f_equal (fun n => N.testbit n 3)) in E. rewrite N.land_spec in E. cbn in E. rewrite andb_true_r in E. now rewrite E.
  - destruct (N.testbit (lflag a) 3) eqn:T; [easy|]. elim E. apply N.bits_inj. intros n. rewrite N.land_spec, N.bits_0. change 8%N with (2 ^ 3)%N. destruct (N.eq_dec n 3) as [->|D]; [now rewrite T|].
    rewrite N.pow2_bits_false by congruence. apply andb_false_r.
Qed.
Lemma setecho_bit state a n : N.testbit (lflag (setecho state a)) n = if N.eqb n 3 then state else N.testbit (lflag a) n.
Proof.
  unfold setecho, ECHO. change 8%N with (2 ^ 3)%N. cbn [lflag]. destruct state.
  - rewrite N.lor_spec, N.pow2_bits_eqb. rewrite (N.eqb_sym 3). destruct (N.eqb n 3); [apply orb_true_r|apply orb_false_r].
  - rewrite N.ldiff_spec, N.pow2_bits_eqb. rewrite (N.eqb_sym 3). destruct (N.eqb n 3); [apply andb_false_r|apply andb_true_r].
Qed.

Section S.
Variable terminal : nat -> attributes.
Definition echo (t : nat) : bool := getecho (terminal t).
(** from the k-th look on: [timeout] is what is left at the look before *)
Definition left_at (start : nat) (t : Z) (k : nat) : Z := match k with 0 => t | S j => (t - 100 * Z.of_nat j)%Z end.
Lemma loop_spec start t : forall rounds k, on_before echo start k -> (forall j, j < k -> (0 <= left_at start t j)%Z) ->
  match noecho_loop rounds terminal (Z.of_nat start + t) (Some (left_at start t k)) (start + 100 * k) with
  | Some (true, w) => exists n, w = start + 100 * n /\ first_off echo start n /\ (forall j, j < n -> (0 <= left_at start t j)%Z)
  | Some (false, w) => exists n, w = start + 100 * n /\ on_before echo start (S n) /\ (left_at start t n < 0)%Z /\ (forall j, j < n -> (0 <= left_at start t j)%Z)
  | None => on_before echo start (k + rounds) /\ (forall j, j < k + rounds -> (0 <= left_at start t j)%Z)
  end.
Proof.
  induction rounds as [|rounds IH]; intros k O L; cbn [noecho_loop].
  - rewrite Nat.add_0_r. easy.
  - fold (echo (start + 100 * k)). destruct (echo (start + 100 * k)) eqn:E; cbn [negb].
    + assert (on_before echo start (S k)) as O' by (intros j H; destruct (Nat.eq_dec j k) as [->|D]; [easy|apply O; lia]).
      destruct (Z.ltb_spec (left_at start t k) 0) as [N|N]; [now exists k|].
      assert (forall j, j < S k -> (0 <= left_at start t j)%Z) as L' by (intros j H; destruct (Nat.eq_dec j k) as [->|D]; [easy|apply L; lia]).
      specialize (IH (S k) O' L'). replace (left_at start t (S k)) with (Z.of_nat start + t - Z.of_nat (start + 100 * k))%Z in IH by (unfold left_at; lia).
      replace (start + 100 * S k) with (start + 100 * k + 100) in IH by lia. replace (S k + rounds) with (k + S rounds) in IH by lia. exact IH.
    + exists k. split; [easy|]. split; [now split|easy].
Qed.
Lemma loop_none start : forall rounds k en, on_before echo start k ->
  match noecho_loop rounds terminal en None (start + 100 * k) with
  | Some (true, w) => exists n, w = start + 100 * n /\ first_off echo start n
  | Some (false, w) => False
  | None => on_before echo start (k + rounds)
  end.
Proof.
  induction rounds as [|rounds IH]; intros k en O; cbn [noecho_loop].
  - now rewrite Nat.add_0_r.
  - fold (echo (start + 100 * k)). destruct (echo (start + 100 * k)) eqn:E; cbn [negb].
    + assert (on_before echo start (S k)) as O' by (intros j H; destruct (Nat.eq_dec j k) as [->|D]; [easy|apply O; lia]).
      specialize (IH (S k) en O'). replace (start + 100 * S k) with (start + 100 * k + 100) in IH by lia. replace (S k + rounds) with (k + S rounds) in IH by lia. exact IH.
    + exists k. split; [easy|]. now split.
Qed.
End S.
Lemma first_off_unique e s n m : first_off e s n -> first_off e s m -> n = m.
Proof.
  intros [A B] [C D]. destruct (Nat.lt_trichotomy n m) as [H|[H|H]]; [|easy|].
  - rewrite (C n H) in B. discriminate.
  - rewrite (A m H) in D. discriminate.
Qed.
