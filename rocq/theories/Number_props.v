(** C15: spelling out numbers in Dutch (daeso.string.number.spell_out_number) *)
From Coq Require Import List NArith ZArith String.
From Verif Require Import Py Number_spec Number_model Number_proof.
Import ListNotations.
Open Scope string_scope.
Open Scope N_scope.

(** C15. Below 10^24, without hundreds: the words are the readings of the groups of three digits, with their magnitudes. *)
Theorem spell_words : forall n gs, groups_of n gs -> n < 10 ^ 24 ->
  spell_out_number (Z.of_N n) false = Ok (read_groups 0 gs).
Proof. exact spell_false. Qed.
Print Assumptions spell_words.
Theorem groups_always_exist : forall n, exists gs, groups_of n gs.
Proof. exact groups_exist. Qed.
Print Assumptions groups_always_exist.
(** C15. [prefer_hundreds] only changes numbers of four digits with a nonzero second digit, which are read as so many hundreds plus the rest. *)
Theorem spell_hundreds : forall n,
  spell_out_number (Z.of_N n) true =
  if (1000 <=? n) && (n <? 10000) && negb ((n / 100) mod 10 =? 0)
  then Ok ((read_group (n / 100) ++ "honderd") ++ read_group (n mod 100))
  else spell_out_number (Z.of_N n) false.
Proof. exact spell_true. Qed.
Print Assumptions spell_hundreds.
(** C15. Two numbers below 10^24 get the same words exactly if they are equal or differ only in having 0 or 1 thousand(s) below some millions. *)
Theorem same_words_iff : forall n m prefer_hundreds, n < 10 ^ 24 -> m < 10 ^ 24 ->
  (spell_out_number (Z.of_N n) prefer_hundreds = spell_out_number (Z.of_N m) prefer_hundreds <-> n = m \/ thousand_confused n m).
Proof. exact same_words. Qed.
Print Assumptions same_words_iff.
(** ... in particular the words are unambiguous below one million ... *)
Theorem words_unambiguous_below_million : forall n m prefer_hundreds, n < 10 ^ 6 -> m < 10 ^ 6 ->
  spell_out_number (Z.of_N n) prefer_hundreds = spell_out_number (Z.of_N m) prefer_hundreds -> n = m.
Proof.
  intros n m pref Hn Hm E. apply same_words in E; try (change (10 ^ 6) with 1000000 in *; change (10 ^ 24) with 1000000000000000000000000; Lia.lia).
  destruct E as [E|(hi & a & b & lo & H & _ & _ & _ & -> & _)]; [exact E|]. change (10 ^ 6) with 1000000 in Hn. Lia.lia.
Qed.
Print Assumptions words_unambiguous_below_million.
(** ... but not in general (finding). *)
Theorem words_determine_number_refuted : exists n m : Z, n <> m /\
  spell_out_number n true = Ok "een miljoen duizend nul" /\ spell_out_number m true = Ok "een miljoen duizend nul".
Proof. exists 1000000%Z, 1001000%Z. split; [discriminate|split; reflexivity]. Qed.
Print Assumptions words_determine_number_refuted.
(** Finding: round thousands end in "nul". *)
Theorem round_thousands_say_nul : forall n, n mod 1000 = 0 -> n < 10 ^ 24 -> exists w, spell_out_number (Z.of_N n) false = Ok (w ++ "nul").
Proof.
  intros n H L. destruct (groups_exist n) as (gs & G). pose proof (spell_false n gs G L) as E. destruct G as (V & F & NE & T).
  destruct gs as [|g gs]; [now destruct NE|]. inversion F; subst. cbn [group_value] in H. rewrite (N.mul_comm 1000), N.mod_add, N.mod_small in H by (auto; discriminate). subst g.
  exists (read_groups 1 gs). exact E.
Qed.
Print Assumptions round_thousands_say_nul.
(** C15. 10^24 and above: IndexError; negative numbers: an error. *)
Theorem spell_out_of_range : forall (z : Z) prefer_hundreds,
  (10 ^ 24 <= z -> spell_out_number z prefer_hundreds = Err IndexError)%Z /\
  (z < 0 -> exists e, spell_out_number z prefer_hundreds = Err e)%Z.
Proof.
  intros z pref. split; intros H.
  - assert (spell_out_number z false = Err IndexError) as E. { rewrite <- (Z2N.id z) by Lia.lia. apply spell_big. Lia.lia. }
    destruct pref; auto. rewrite <- (Z2N.id z) in * by Lia.lia. rewrite spell_true, E. unfold hundreds.
    destruct (Z.to_N z <? 10000) eqn:Q; [|now rewrite Bool.andb_false_r]. apply N.ltb_lt in Q. exfalso. Lia.lia.
  - destruct z; try Lia.lia. apply spell_neg.
Qed.
Print Assumptions spell_out_of_range.

Example spell_example : spell_out_number 1846 true = Ok "achttienhonderdzesenveertig" /\
  spell_out_number 123456789 true = Ok "honderddrieentwintig miljoen vierhonderdzesenvijftigduizend zevenhonderdnegenentachtig" /\
  spell_out_number 2001 true = Ok "tweeduizend een" /\ spell_out_number 0 true = Ok "nul".
Proof. repeat split. Qed.
Example groups_example : groups_of 1002003 [3; 2; 1]. Proof. repeat split; try discriminate; [repeat constructor|right; discriminate]. Qed.
Example confused_example : thousand_confused 5001007 5000007.
Proof. exists 5, 1, 0, 7. repeat split; discriminate. Qed.
