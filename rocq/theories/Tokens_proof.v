From Coq Require Import String Ascii Lia List Bool.
From Verif Require Import Py PyLemmas Tokens_spec Tokens_model.
Import ListNotations.
Open Scope string_scope.
Open Scope nat_scope.
Open Scope list_scope.

Lemma app_s_nil (s : string) : (s ++ "")%string = s.
Proof. induction s; cbn; congruence. Qed.
Lemma app_s_assoc (a b c : string) : ((a ++ b) ++ c)%string = (a ++ b ++ c)%string.
Proof. induction a; cbn; congruence. Qed.
Lemma join_spaced ws : spaced ws (join ws).
Proof. induction ws as [|w [|v ws] IH]; [constructor|constructor|]. cbn [join]. constructor. exact IH. Qed.
Lemma spaced_join ws s : spaced ws s -> s = join ws.
Proof. induction 1 as [|w|w v ws s _ IH]; [reflexivity|reflexivity|]. cbn [join]. now rewrite IH. Qed.
Lemma split_ne s : split s <> [].
Proof. destruct s; cbn; [discriminate|]. destruct (_ =? _)%char; [discriminate|]. destruct (split s); discriminate. Qed.
Lemma join_split s : join (split s) = s.
Proof.
  induction s as [|c s IH]; [reflexivity|]. cbn [split]. pose proof (split_ne s) as NE. destruct (c =? " ")%char eqn:E.
  - apply Ascii.eqb_eq in E. subst c. destruct (split s) as [|w ws]; [congruence|]. change (join ("" :: w :: ws)) with (" " ++ join (w :: ws))%string. now rewrite IH.
  - destruct (split s) as [|w ws]; [congruence|]. destruct ws as [|v ws]; cbn [join append] in *; congruence.
Qed.
Lemma no_space_nil : no_space "".
Proof. intros [|? ?] ?; discriminate. Qed.
Lemma no_space_cons c w : no_space (String c w) <-> c <> " "%char /\ no_space w.
Proof.
  split.
  - intros H. split; [intros ->; exact (H "" w eq_refl)|]. intros a b ->. exact (H (String c a) b eq_refl).
  - intros [C H] [|x a] b; cbn; intros [= ? ?]; [auto|]. now apply (H a b).
Qed.
Lemma split_no_space s : Forall no_space (split s).
Proof.
  induction s as [|c s IH]; [constructor; [apply no_space_nil|constructor]|]. cbn [split]. destruct (c =? " ")%char eqn:E.
  - constructor; [apply no_space_nil|exact IH].
  - apply Ascii.eqb_neq in E. destruct (split s) as [|w ws]; [constructor; [apply no_space_cons; split; [exact E|apply no_space_nil]|constructor]|].
    constructor; [apply no_space_cons; split; [exact E|exact (Forall_inv IH)]|exact (Forall_inv_tail IH)].
Qed.
Lemma split_word w : no_space w -> split w = [w].
Proof.
  induction w as [|c w IH]; intros H; [reflexivity|]. apply no_space_cons in H as [C H]. cbn [split]. destruct (c =? " ")%char eqn:E; [apply Ascii.eqb_eq in E; contradiction|].
  now rewrite (IH H).
Qed.
Lemma split_app w s : no_space w -> split (w ++ " " ++ s) = w :: split s.
Proof.
  induction w as [|c w IH]; intros H; [reflexivity|]. apply no_space_cons in H as [C H]. cbn [append split]. destruct (c =? " ")%char eqn:E; [apply Ascii.eqb_eq in E; contradiction|].
  cbn [append] in IH. now rewrite (IH H).
Qed.
Lemma split_join ws : Forall no_space ws -> ws <> [] -> split (join ws) = ws.
Proof.
  induction ws as [|w [|v ws] IH]; intros F NE; [congruence|exact (split_word _ (Forall_inv F))|].
  cbn [join]. rewrite (split_app _ _ (Forall_inv F)). f_equal. apply IH; [exact (Forall_inv_tail F)|discriminate].
Qed.
Lemma prefix_spec t : forall s, String.prefix t s = true <-> exists b, s = (t ++ b)%string.
Proof.
  induction t as [|c t IH]; intros s.
  - split; [intros _; exists s; reflexivity|]. intros _. destruct s; reflexivity.
  - destruct s as [|d s]; [split; [discriminate|intros [? ?]; discriminate]|].
    change (String.prefix (String c t) (String d s)) with (if ascii_dec c d then String.prefix t s else false). destruct (ascii_dec c d) as [->|N].
    + rewrite IH. split; intros [b H]; exists b; [now rewrite H|cbn in H; congruence].
    + split; [discriminate|]. intros [b H]. cbn in H. congruence.
Qed.
Lemma is_in_spec t s : is_in t s = true <-> occurs t s.
Proof.
  unfold occurs. induction s as [|c s IH]; cbn [is_in]; rewrite orb_true_iff, prefix_spec.
  - split; [intros [[b H]|]; [exists "", b; exact H|discriminate]|]. intros (a & b & H). left. destruct a; [exists b; exact H|discriminate].
  - rewrite IH. split.
    + intros [[b H]|(a & b & H)]; [exists "", b; exact H|]. exists (String c a), b. cbn. now rewrite H.
    + intros (a & b & H). destruct a as [|x a]; [left; exists b; exact H|]. right. exists a, b. cbn in H. congruence.
Qed.
Lemma up_spec c : upper_char c (up c).
Proof.
  unfold upper_char, up. cbn zeta. destruct (97 <=? nat_of_ascii c) eqn:A; [apply Nat.leb_le in A|apply Nat.leb_gt in A]; cbn [andb].
  - destruct (nat_of_ascii c <=? 122) eqn:B; [apply Nat.leb_le in B|apply Nat.leb_gt in B].
    + left. split; [lia|]. apply nat_ascii_embedding. lia.
    + right. split; [lia|reflexivity].
  - right. split; [lia|reflexivity].
Qed.
Lemma upper_spec s : upper_of s (upper s).
Proof. induction s; cbn; constructor; auto. apply up_spec. Qed.

Section T.
Variable N : Type.
Variable neqb : N -> N -> bool.
Hypothesis neq : forall x y, neqb x y = true <-> x = y.
Notation graph := (graph N).
Notation step := (step neqb).
Notation run := (run neqb).
Lemma dread_dget (g : graph) n : dread neqb g n = match dget neqb g n with Some v => Ok v | None => Err KeyError end.
Proof. reflexivity. Qed.
Lemma n_dec (m n : N) : m = n \/ m <> n.
Proof. destruct (neqb m n) eqn:E; [left; now apply neq|right; intros H; apply neq in H; congruence]. Qed.
Lemma step_means (g : graph) c n : means n (dget neqb g n) c (dget neqb (step g c) n).
Proof.
  destruct c as [m ts|ms|m ts|m s]; cbn [Tokens_model.step].
  - unfold add_node. destruct (n_dec m n) as [-> |D]; [rewrite (dget_dset_same neqb neq); constructor|]. rewrite (dget_dset_other neqb neq) by congruence. now constructor.
  - unfold add_nodes_from. constructor.
  - unfold set_node_tokens. rewrite dread_dget. destruct (dget neqb g m) as [x|] eqn:E; cbn [bind].
    + destruct (n_dec m n) as [-> |D]; [rewrite (dget_dset_same neqb neq); constructor; congruence|]. rewrite (dget_dset_other neqb neq) by congruence. constructor. now left.
    + constructor. destruct (n_dec m n) as [-> |D]; auto.
  - unfold set_node_token_string. rewrite dread_dget. destruct (dget neqb g m) as [x|] eqn:E; cbn [bind].
    + destruct (n_dec m n) as [-> |D]; [rewrite (dget_dset_same neqb neq)|rewrite (dget_dset_other neqb neq) by congruence; constructor; now left].
      constructor; [congruence| |apply split_ne|apply split_no_space]. rewrite <- (join_split s) at 2. apply join_spaced.
    + constructor. destruct (n_dec m n) as [-> |D]; auto.
Qed.
Lemma run_means cs : forall (g : graph) n, means_all n (dget neqb g n) cs (dget neqb (run g cs) n).
Proof.
  induction cs as [|c cs IH]; intros g n; [constructor|]. econstructor; [apply step_means|]. exact (IH (step g c) n).
Qed.
Lemma means_fun n v c a b : @means N n v c a -> @means N n v c b -> a = b.
Proof.
  intros H1 H2. destruct H1; inversion H2; subst; try reflexivity; try congruence;
    try (repeat match goal with H : _ \/ _ |- _ => destruct H end; congruence).
  do 2 f_equal. match goal with A : spaced ?x s, B : spaced ?y s |- ?x = ?y => apply spaced_join in A; apply spaced_join in B; rewrite <- (split_join x), <- (split_join y) by assumption; congruence end.
Qed.
End T.
