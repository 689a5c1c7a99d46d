From Coq Require Import List NArith ZArith String Ascii Lia ZifyN FMapPositive.
From Verif Require Import Py Number_spec Number_model.
Import ListNotations.
Open Scope string_scope.
Open Scope N_scope.

(** ** digits *)
Lemma rdigits_fuel f g n : n < 10 ^ N.of_nat f -> n < 10 ^ N.of_nat g -> (0 < f)%nat -> (0 < g)%nat -> rdigits f n = rdigits g n.
Proof.
  revert g n. induction f as [|f IH]; intros g n Hf Hg Pf Pg; [lia|]. destruct g as [|g]; [lia|]. cbn [rdigits].
  destruct (n <? 10) eqn:E; auto. apply N.ltb_ge in E. f_equal.
  rewrite Nat2N.inj_succ, N.pow_succ_r' in Hf, Hg.
  apply IH.
  - apply N.div_lt_upper_bound; lia.
  - apply N.div_lt_upper_bound; lia.
  - destruct f; [cbn in Hf; lia|lia].
  - destruct g; [cbn in Hg; lia|lia].
Qed.
Lemma size_pow n : n < 10 ^ N.of_nat (S (N.size_nat n)).
Proof.
  assert (n < 2 ^ N.of_nat (N.size_nat n)) as H.
  { destruct n as [|p]; [cbn; lia|]. pose proof (Pos.size_gt p) as G. cbn [N.size_nat].
    assert (Pos.of_nat (Pos.size_nat p) = Pos.size p) as E.
    { clear. induction p; cbn [Pos.size_nat Pos.size]; auto; rewrite <- IHp; destruct (Pos.size_nat p) eqn:Q; auto; destruct p; discriminate. }
    assert (0 < Pos.size_nat p)%nat as P by (destruct p; cbn; lia).
    rewrite <- E in G. destruct (Pos.size_nat p) as [|k]; [lia|].
    replace (N.of_nat (S k)) with (Npos (Pos.of_nat (S k))) by (cbn; f_equal; now rewrite Pos.of_nat_succ).
    exact G. }
  eapply N.lt_le_trans; [exact H|]. transitivity (10 ^ N.of_nat (N.size_nat n)); [apply N.pow_le_mono_l; lia|apply N.pow_le_mono_r; lia].
Qed.
Definition ds (n : N) : list N := rdigits (S (N.size_nat n)) n.
Lemma ds_small n : n < 10 -> ds n = [n].
Proof. intros H. unfold ds. cbn [rdigits]. apply N.ltb_lt in H. now rewrite H. Qed.
Lemma ds_big n : 10 <= n -> ds n = n mod 10 :: ds (n / 10).
Proof.
  intros H. unfold ds at 1. cbn [rdigits]. destruct (n <? 10) eqn:E; [apply N.ltb_lt in E; lia|]. f_equal.
  pose proof (size_pow n) as S1. rewrite Nat2N.inj_succ, N.pow_succ_r' in S1.
  assert (n / 10 < 10 ^ N.of_nat (N.size_nat n)) by (apply N.div_lt_upper_bound; lia).
  apply rdigits_fuel; auto; [apply size_pow| |lia].
  destruct (N.size_nat n) eqn:Q; [|lia]. cbn in H0. assert (1 <= n / 10) by (apply N.div_le_lower_bound; lia). lia.
Qed.
Lemma ds_ne n : ds n <> [].
Proof. destruct (N.lt_ge_cases n 10); [rewrite ds_small by auto|rewrite ds_big by auto]; discriminate. Qed.
Definition tri (k : N) : list N := [k mod 10; (k / 10) mod 10; (k / 100) mod 10].
Lemma ds_1000 n : 1000 <= n -> ds n = (tri (n mod 1000) ++ ds (n / 1000))%list.
Proof.
  intros H. rewrite ds_big by lia. rewrite ds_big by (apply N.div_le_lower_bound; lia).
  rewrite N.div_div by lia. rewrite ds_big by (apply N.div_le_lower_bound; lia). rewrite N.div_div by lia. unfold tri. cbn [app].
  assert (forall a, a mod 1000 mod 10 = a mod 10) as E1 by (intros; zify; Z.div_mod_to_equations; lia).
  assert (forall a, (a mod 1000 / 10) mod 10 = (a / 10) mod 10) as E2 by (intros; zify; Z.div_mod_to_equations; lia).
  assert (forall a, (a mod 1000 / 100) mod 10 = (a / 100) mod 10) as E3 by (intros; zify; Z.div_mod_to_equations; lia).
  rewrite E1, E2, E3. change (10 * 10) with 100. change (100 * 10) with 1000. reflexivity.
Qed.
(** finite checks over all triples *)
Definition upto (n : N) : list N := map N.of_nat (seq 0 (N.to_nat n)).
Lemma upto_in n k : k < n -> In k (upto n).
Proof. intros H. unfold upto. apply in_map_iff. exists (N.to_nat k). rewrite N2Nat.id. split; auto. apply in_seq. lia. Qed.
Lemma check n (P : N -> bool) : forallb P (upto n) = true -> forall k, k < n -> P k = true.
Proof. intros H k Hk. eapply forallb_forall in H; [exact H|]. now apply upto_in. Qed.
Definition tris (k : N) : dstring := rev (map dchar (tri k)).
Definition res_str_eqb (a b : res string) : bool := match a, b with Ok x, Ok y => String.eqb x y | _, _ => false end.
Lemma res_str_eq a b : res_str_eqb a b = true -> a = b.
Proof. destruct a, b; cbn; try discriminate. intros H. apply String.eqb_eq in H. now subst. Qed.
Lemma triple_words k : k < 1000 -> digit_triple_to_words (tris k) = Ok (read_group k).
Proof.
  intros H. apply res_str_eq. revert k H. apply check. vm_compute. reflexivity.
Qed.
Lemma pad_small k : k < 1000 -> rjust3 (rev (map dchar (ds k))) = tris k.
Proof.
  intros H. assert (forallb (fun k => if list_eq_dec ascii_dec (rjust3 (rev (map dchar (ds k)))) (tris k) then true else false) (upto 1000) = true) as K.
  { vm_compute. reflexivity. }
  eapply check in K; [|exact H]. cbv beta in K. destruct (list_eq_dec _ _ _); [auto|discriminate].
Qed.
Lemma tri_eq k (c : N) : c < 2 -> k < 1000 -> String.eqb (string_of_list_ascii (tris k)) (if c =? 0 then "000" else "001") = (k =? c).
Proof.
  intros Hc H. apply Bool.eqb_prop.
  assert (forallb (fun c => forallb (fun k => Bool.eqb (String.eqb (string_of_list_ascii (tris k)) (if c =? 0 then "000" else "001")) (k =? c)) (upto 1000)) (upto 2) = true) as K.
  { vm_compute. reflexivity. }
  eapply check in K; [|exact Hc]. cbv beta in K. eapply check in K; [|exact H]. exact K.
Qed.
Lemma ds_short n : n < 1000 -> (List.length (ds n) <= 3)%nat.
Proof. intros H. apply Nat.leb_le. revert n H. apply (check 1000 (fun n => (List.length (ds n) <=? 3)%nat)). vm_compute. reflexivity. Qed.
Lemma zero_char k : k < 10 -> Ascii.eqb (dchar k) "0" = (k =? 0).
Proof. intros H. apply Bool.eqb_prop. revert k H. apply check. vm_compute. reflexivity. Qed.
(** one step of the loop on the digits of n *)
Lemma chunk_rev (r : dstring) : let s := rev r in
  skipn (List.length s - 3) s = rev (firstn 3 r) /\ firstn (List.length s - 3) s = rev (skipn 3 r).
Proof.
  cbv zeta. rewrite rev_length. split; [rewrite skipn_rev|rewrite firstn_rev]; f_equal.
  - destruct (Nat.le_gt_cases 3 (List.length r)); [f_equal; lia|]. replace (_ - (_ - 3))%nat with (List.length r) by lia. rewrite firstn_all, firstn_all2; auto; lia.
  - destruct (Nat.le_gt_cases 3 (List.length r)); [f_equal; lia|]. replace (_ - (_ - 3))%nat with (List.length r) by lia. rewrite skipn_all, skipn_all2; auto; lia.
Qed.
Lemma str_chunks n : let s := str_N n in
  rjust3 (skipn (List.length s - 3) s) = tris (n mod 1000) /\
  firstn (List.length s - 3) s = if n <? 1000 then [] else str_N (n / 1000).
Proof.
  cbv zeta. unfold str_N. fold (ds n). destruct (chunk_rev (map dchar (ds n))) as [-> ->].
  destruct (n <? 1000) eqn:E.
  - apply N.ltb_lt in E. rewrite N.mod_small by auto.
    pose proof (ds_short n E) as L.
    rewrite firstn_all2, skipn_all2 by (rewrite map_length; auto). split; auto. now apply pad_small.
  - apply N.ltb_ge in E. rewrite (ds_1000 n E), map_app. unfold tri at 1 2. cbn [map app firstn skipn]. split; [reflexivity|].
    reflexivity.
Qed.
Lemma str_ne n : str_N n <> [].
Proof.
  unfold str_N. fold (ds n). pose proof (ds_ne n). destruct (ds n) as [|d l]; [easy|]. cbn. intros E. now apply app_eq_nil in E.
Qed.
Lemma str_len n : List.length (str_N n) = List.length (ds n).
Proof. unfold str_N. fold (ds n). now rewrite rev_length, map_length. Qed.
(** ** groups *)
Definition top_ok (gs : list N) : Prop := gs = [0] \/ last gs 0 <> 0.
Lemma last_ne_value gs : gs <> [] -> last gs 0 <> 0 -> 1 <= group_value gs.
Proof.
  induction gs as [|g r IH]; [easy|]. intros _ H. destruct r as [|g' r]; [cbn in *; lia|].
  change (group_value (g :: g' :: r)) with (g + 1000 * group_value (g' :: r)). assert (1 <= group_value (g' :: r)) by (apply IH; [easy|exact H]). lia.
Qed.
Lemma group_split g r : g < 1000 -> (g + 1000 * r) mod 1000 = g /\ (g + 1000 * r) / 1000 = r.
Proof. intros H. rewrite (N.mul_comm 1000). rewrite N.mod_add, N.div_add by lia. now rewrite N.mod_small, N.div_small by auto. Qed.
Lemma step_ok i k words : k < 1000 -> (i <> 0%nat \/ words = "") ->
  (if andb (Nat.eqb i 0) (String.eqb (string_of_list_ascii (tris k)) "000") then Ok "nul"
   else if andb (Nat.eqb i 1) (String.eqb (string_of_list_ascii (tris k)) "001") then m <- get triple_modifiers i ;; Ok (m ++ words)
   else t <- digit_triple_to_words (tris k) ;; m <- get triple_modifiers i ;; Ok ((t ++ m) ++ words))
  = if (i <? 8)%nat then Ok (read_at i k ++ words) else Err IndexError.
Proof.
  intros H W. rewrite (tri_eq k 0 eq_refl H : String.eqb _ "000" = _), (tri_eq k 1 eq_refl H : String.eqb _ "001" = _).
  rewrite triple_words by auto.
  assert (forall a b : string, (a ++ "") ++ b = a ++ b) as AN.
  { intros a b. induction a as [|c a IH]; cbn; [reflexivity|]. cbn in IH. now rewrite IH. }
  destruct i as [|[|i]].
  - destruct W as [W| ->]; [easy|]. cbn. destruct (k =? 0); [reflexivity|]. now rewrite AN.
  - cbn. destruct (k =? 1); reflexivity.
  - cbn [Nat.eqb andb bind]. do 6 (destruct i as [|i]; [reflexivity|]). cbn. destruct i; reflexivity.
Qed.
Lemma sapp_assoc (a b c : string) : (a ++ b) ++ c = a ++ (b ++ c).
Proof. induction a as [|x a IH]; cbn; [reflexivity|now rewrite IH]. Qed.
Lemma sapp_nil (a : string) : a ++ "" = a.
Proof. induction a as [|x a IH]; cbn; [reflexivity|now rewrite IH]. Qed.
Lemma loop_ok gs : forall i words fuel, Forall (fun g => g < 1000) gs -> gs <> [] -> (last gs 0 <> 0 \/ gs = [0]) ->
  (i <> 0%nat \/ words = "") -> (i <= 8)%nat -> (List.length (ds (group_value gs)) <= fuel)%nat ->
  spell_loop fuel (str_N (group_value gs)) i words =
  if (i + List.length gs <=? 8)%nat then Ok (read_groups i gs ++ words) else Err IndexError.
Proof.
  induction gs as [|g r IH]; [easy|]. intros i words fuel F _ L W I8 HF. inversion F as [|? ? Hg Fr]; subst.
  destruct fuel as [|fuel]. { exfalso. apply (ds_ne (group_value (g :: r))). apply length_zero_iff_nil. lia. }
  set (n := group_value (g :: r)) in *. cbn [spell_loop]. destruct (str_N n) eqn:ES; [now apply str_ne in ES|]. rewrite <- ES. clear ES.
  destruct (str_chunks n) as [-> ->].
  destruct (@group_split g (group_value r) Hg) as [M D].
  assert (n mod 1000 = g) as -> by exact M. rewrite step_ok by auto.
  destruct (i <? 8)%nat eqn:E8.
  2:{ apply Nat.ltb_ge in E8. cbn [bind]. destruct (i + List.length (g :: r) <=? 8)%nat eqn:E; auto. apply Nat.leb_le in E. cbn in E. lia. }
  apply Nat.ltb_lt in E8. cbn [bind]. destruct r as [|g' r].
  - assert (n <? 1000 = true) as ->. { apply N.ltb_lt. unfold n. cbn. lia. }
    cbn [List.length]. replace (i + 1 <=? 8)%nat with true by (symmetry; apply Nat.leb_le; lia).
    destruct fuel; cbn; reflexivity.
  - assert (last (g' :: r) 0 <> 0) as L' by (destruct L as [L|L]; [exact L|discriminate]).
    pose proof (last_ne_value (g' :: r) ltac:(easy) L') as V.
    assert (n = g + 1000 * group_value (g' :: r)) as En by reflexivity.
    assert (1000 <= n) as N1 by lia.
    assert (n <? 1000 = false) as -> by (apply N.ltb_ge; auto).
    assert (n / 1000 = group_value (g' :: r)) as -> by exact D.
    rewrite IH; auto.
    + replace (S i + List.length (g' :: r))%nat with (i + List.length (g :: g' :: r))%nat by (cbn; lia).
      destruct (_ <=? 8)%nat; auto. change (read_groups i (g :: g' :: r)) with (read_groups (S i) (g' :: r) ++ read_at i g). now rewrite sapp_assoc.
    + easy.
    + assert (n / 1000 = group_value (g' :: r)) as <- by exact D. rewrite (ds_1000 n N1), app_length in HF. change (List.length (tri (n mod 1000))) with 3%nat in HF. lia.
Qed.
Lemma groups_exist n : exists gs, groups_of n gs.
Proof.
  assert (forall f n, n < 1000 ^ N.of_nat f -> (0 < f)%nat -> exists gs, groups_of n gs) as K.
  { clear. induction f as [|f IH]; [lia|]. intros n H _. rewrite Nat2N.inj_succ, N.pow_succ_r' in H.
    destruct (N.lt_ge_cases n 1000) as [S|S].
    - exists [n]. unfold groups_of. split; [unfold group_value; lia|]. split; [repeat constructor; auto|]. split; [discriminate|].
      destruct (N.eq_dec n 0) as [->|]; auto.
    - destruct (IH (n / 1000)) as (gs & V & F & NE & T).
      + apply N.div_lt_upper_bound; lia.
      + destruct f; [cbn in H; lia|lia].
      + exists (n mod 1000 :: gs). repeat split.
        * cbn [group_value]. rewrite V. pose proof (N.div_mod n 1000). lia.
        * constructor; auto. apply N.mod_lt. lia.
        * easy.
        * right. destruct gs as [|g gs]; [easy|]. destruct T as [[= -> ->]|T]; auto. exfalso.
          unfold group_value in V. assert (1 <= n / 1000) by (apply N.div_le_lower_bound; lia). lia. }
  apply (K (S (N.size_nat n))); [|lia]. eapply N.lt_le_trans; [apply size_pow|]. apply N.pow_le_mono_l. lia.
Qed.
Lemma groups_len n gs : groups_of n gs -> (List.length gs <= 8)%nat <-> n < 10 ^ 24.
Proof.
  intros (V & F & NE & T). subst n. split.
  - intros L. assert (group_value gs < 1000 ^ N.of_nat (List.length gs)) as U.
    { clear -F. induction F as [|g r Hg F IH]; [cbn; lia|]. cbn [group_value List.length]. rewrite Nat2N.inj_succ, N.pow_succ_r'. lia. }
    eapply N.lt_le_trans; [exact U|]. change (10 ^ 24) with (1000 ^ 8). apply N.pow_le_mono_r; lia.
  - intros U. destruct (Nat.le_gt_cases (List.length gs) 8) as [|H]; auto. exfalso.
    assert (last gs 0 <> 0) as L by (destruct T as [->|]; auto; cbn in H; lia).
    assert (1000 ^ N.of_nat (List.length gs - 1) <= group_value gs) as B.
    { clear -L NE. induction gs as [|g r IH]; [easy|]. destruct r as [|g' r]; [cbn in *; lia|].
      specialize (IH ltac:(easy) L). change (group_value (g :: g' :: r)) with (g + 1000 * group_value (g' :: r)). cbn [List.length] in *. replace (S (S (List.length r)) - 1)%nat with (S (S (List.length r) - 1)) by lia.
      rewrite Nat2N.inj_succ, N.pow_succ_r'. lia. }
    assert (1000 ^ 8 <= 1000 ^ N.of_nat (List.length gs - 1)) as B2 by (apply N.pow_le_mono_r; lia).
    change (1000 ^ 8) with (10 ^ 24) in B2. lia.
Qed.
(** ** the words as lists of characters *)
Notation L := list_ascii_of_string.
Notation sp := (" "%char).
Lemma L_app a b : L (a ++ b) = (L a ++ L b)%list.
Proof. induction a as [|c a IH]; cbn; [reflexivity|now rewrite IH]. Qed.
Lemma L_inj a b : L a = L b -> a = b.
Proof. intros H. rewrite <- (string_of_list_ascii_of_string a), <- (string_of_list_ascii_of_string b). now rewrite H. Qed.
Definition spb (c : ascii) : bool := Ascii.eqb c sp.
Lemma group_chars k : k < 1000 -> ~ In sp (L (read_group k)) /\ (k <> 0 -> L (read_group k) <> []).
Proof.
  intros H. assert (forallb (fun k => andb (forallb (fun c => negb (spb c)) (L (read_group k))) (orb (k =? 0) (negb (List.length (L (read_group k)) =? 0)%nat))) (upto 1000) = true) as K.
  { vm_compute. reflexivity. }
  eapply check in K; [|exact H]. cbv beta in K. apply andb_prop in K as [K1 K2]. split.
  - intros I. rewrite forallb_forall in K1. specialize (K1 _ I). discriminate.
  - intros Hk E. rewrite E in K2. apply orb_prop in K2 as [K2|K2]; [apply N.eqb_eq in K2; auto|discriminate].
Qed.
Fixpoint enc (l : list ascii) : positive :=
  match l with
  | [] => xH
  | Ascii b0 b1 b2 b3 b4 b5 b6 b7 :: r =>
    let bit (b : bool) (p : positive) := if b then xI p else xO p in
    bit b0 (bit b1 (bit b2 (bit b3 (bit b4 (bit b5 (bit b6 (bit b7 (enc r))))))))
  end.
Definition index (w : N -> string) (l : list N) : PositiveMap.t N :=
  fold_left (fun m k => PositiveMap.add (enc (L (w k))) k m) l (PositiveMap.empty N).
Definition indexed (w : N -> string) (l : list N) : bool :=
  let m := index w l in forallb (fun k => match PositiveMap.find (enc (L (w k))) m with Some k' => k =? k' | None => false end) l.
Lemma indexed_inj w n : indexed w (upto n) = true -> forall k k', k < n -> k' < n -> w k = w k' -> k = k'.
Proof.
  unfold indexed. cbv zeta. intros H k k' Hk Hk' E. pose proof (check n _ H k Hk) as A. pose proof (check n _ H k' Hk') as B. cbv beta in A, B.
  rewrite E in A. destruct (PositiveMap.find _ _) as [x|]; [|discriminate]. apply N.eqb_eq in A, B. congruence.
Qed.
Lemma group_inj k k' : k < 1000 -> k' < 1000 -> read_group k = read_group k' -> k = k'.
Proof. apply indexed_inj. vm_compute. reflexivity. Qed.
Lemma not_nul k : k < 1000 -> read_group k <> "nul".
Proof.
  intros H E. assert (forallb (fun k => negb (String.eqb (read_group k) "nul")) (upto 1000) = true) as K by (vm_compute; reflexivity).
  eapply check in K; [|exact H]. cbv beta in K. rewrite E in K. discriminate.
Qed.
(** peeling the last word *)
Lemma peel (x x' w w' : list ascii) : ~ In sp w -> ~ In sp w' -> ((x ++ [sp]) ++ w = (x' ++ [sp]) ++ w')%list -> x = x' /\ w = w'.
Proof.
  intros H H' E. assert (rev w = rev w' /\ rev x = rev x') as [A B].
  { apply (f_equal (@rev _)) in E. rewrite !rev_app_distr in E. cbn in E.
    assert (~ In sp (rev w)) as R by (rewrite <- in_rev; auto). assert (~ In sp (rev w')) as R' by (rewrite <- in_rev; auto).
    revert R R' E. generalize (rev w) (rev w') (rev x) (rev x'). clear. intros a. induction a as [|c a IH]; intros [|c' a'] y y' R R' E; cbn in *.
    - now injection E.
    - exfalso. apply R'. left. congruence.
    - exfalso. apply R. left. congruence.
    - injection E as -> E. destruct (IH a' y y') as [-> ->]; auto. }
  split; [rewrite <- (rev_involutive x), B, rev_involutive|rewrite <- (rev_involutive w), A, rev_involutive]; auto.
Qed.
Definition ends (l : list ascii) : Prop := exists x, l = (x ++ [sp])%list.
Lemma at_ends i g : (0 < i < 8)%nat -> exists x, L (read_at i g) = (x ++ [sp])%list.
Proof.
  intros H. destruct i as [|[|i]]; [lia| |].
  - cbn [read_at]. rewrite L_app. exists (L (if g =? 1 then "" else read_group g) ++ L "duizend")%list. now rewrite <- app_assoc.
  - cbn [read_at]. rewrite L_app. assert (exists y, L (nth (S (S i)) magnitudes "") = (y ++ [sp])%list) as (y & ->).
    { exists (removelast (L (nth (S (S i)) magnitudes ""))). do 6 (destruct i as [|i]; [vm_compute; reflexivity|]). lia. }
    exists (L (read_group g) ++ y)%list. now rewrite app_assoc.
Qed.
Lemma groups_ends i g gs : (0 < i)%nat -> (i + List.length (g :: gs) <= 8)%nat -> ends (L (read_groups i (g :: gs))).
Proof.
  intros Hi H. cbn [read_groups]. rewrite L_app. destruct (at_ends i g) as (x & ->); [cbn in H; lia|].
  exists (L (read_groups (S i) gs) ++ x)%list. now rewrite app_assoc.
Qed.
Lemma word_after i gs i' gs' w w' : (0 < i)%nat -> (i + List.length gs <= 8)%nat -> List.length gs = List.length gs' -> i = i' ->
  ~ In sp w -> ~ In sp w' -> (L (read_groups i gs) ++ w = L (read_groups i' gs') ++ w')%list -> read_groups i gs = read_groups i' gs' /\ w = w'.
Proof.
  intros Hi H8 EL <- N N' E. destruct gs as [|g gs], gs' as [|g' gs']; try discriminate EL; [cbn in *; auto|].
  destruct (groups_ends i g gs) as (x & Ex); auto. destruct (groups_ends i g' gs') as (x' & Ex'); [auto|rewrite <- EL; auto|].
  rewrite Ex, Ex' in E. apply peel in E as [E1 E2]; auto. split; auto. apply L_inj. now rewrite Ex, Ex', E1.
Qed.
Lemma high_inj gs : forall i gs', (2 <= i)%nat -> (i + List.length gs <= 8)%nat -> List.length gs = List.length gs' ->
  Forall (fun g => g < 1000) gs -> Forall (fun g => g < 1000) gs' -> read_groups i gs = read_groups i gs' -> gs = gs'.
Proof.
  induction gs as [|g gs IH]; intros i [|g' gs'] Hi H8 EL F F' E; try discriminate EL; auto.
  inversion F as [|? ? Hg Fg]; inversion F' as [|? ? Hg' Fg']; subst. cbn [List.length] in *. injection EL as EL.
  cbn [read_groups] in E. apply (f_equal L) in E. rewrite !L_app in E.
  destruct i as [|[|i]]; [lia|lia|]. cbn [read_at] in E. rewrite !L_app, !app_assoc in E. apply app_inv_tail in E.
  apply word_after in E as [E1 E2]; auto; try lia; try now apply group_chars.
  apply L_inj in E2. apply group_inj in E2; auto. subst g'. f_equal. eapply IH; [| | | | |exact E1]; auto; lia.
Qed.
(** number of blanks *)
Definition blanks (s : string) : nat := count_occ ascii_dec (L s) sp.
Lemma blanks_app a b : blanks (a ++ b) = (blanks a + blanks b)%nat.
Proof. unfold blanks. now rewrite L_app, count_occ_app. Qed.
Lemma blanks_group k : k < 1000 -> blanks (read_group k) = 0%nat.
Proof. intros H. apply count_occ_not_In. now apply group_chars. Qed.
Lemma blanks_at i g : g < 1000 -> (i < 8)%nat -> blanks (read_at i g) = match i with O => 0%nat | S O => 1%nat | _ => 2%nat end.
Proof.
  intros H Hi. destruct i as [|[|i]]; cbn [read_at].
  - destruct (g =? 0); [reflexivity|now apply blanks_group].
  - rewrite blanks_app. destruct (g =? 1); [reflexivity|now rewrite blanks_group].
  - rewrite blanks_app, blanks_group by auto. do 6 (destruct i as [|i]; [reflexivity|]). lia.
Qed.
Lemma blanks_high gs : forall i, (2 <= i)%nat -> (i + List.length gs <= 8)%nat -> Forall (fun g => g < 1000) gs -> blanks (read_groups i gs) = (2 * List.length gs)%nat.
Proof.
  induction gs as [|g gs IH]; intros i Hi H8 F; [reflexivity|]. inversion F; subst. cbn [read_groups List.length] in *.
  rewrite blanks_app, IH, blanks_at by (auto; lia). destruct i as [|[|i]]; lia.
Qed.
Lemma blanks_all gs : gs <> [] -> (List.length gs <= 8)%nat -> Forall (fun g => g < 1000) gs ->
  blanks (read_groups 0 gs) = match List.length gs with 1 => 0 | n => 2 * n - 3 end%nat.
Proof.
  destruct gs as [|g [|g1 gs]]; [easy| |]; intros _ H8 F; inversion F as [|? ? ? F1]; subst.
  - cbn [read_groups List.length]. rewrite blanks_app, blanks_at by (auto; lia). reflexivity.
  - inversion F1; subst. cbn [read_groups List.length] in *. rewrite !blanks_app, !blanks_at, blanks_high by (auto; lia). lia.
Qed.
(** which numbers are read the same way *)
Definition same_but_thousand (gs gs' : list N) : Prop :=
  exists lo a b hi, gs = lo :: a :: hi /\ gs' = lo :: b :: hi /\ a <= 1 /\ b <= 1.
Lemma read_inj gs gs' : gs <> [] -> gs' <> [] -> (List.length gs <= 8)%nat -> (List.length gs' <= 8)%nat ->
  Forall (fun g => g < 1000) gs -> Forall (fun g => g < 1000) gs' ->
  read_groups 0 gs = read_groups 0 gs' -> gs = gs' \/ same_but_thousand gs gs'.
Proof.
  intros N N' H8 H8' F F' E. pose proof (f_equal blanks E) as B. rewrite !blanks_all in B by auto.
  assert (List.length gs = List.length gs') as EL.
  { destruct gs as [|? [|? gs]], gs' as [|? [|? gs']]; cbn [List.length] in *; try easy; lia. }
  clear B. destruct gs as [|g gs], gs' as [|g' gs']; try easy. cbn [List.length] in *. injection EL as EL.
  inversion F as [|? ? Hg Fg]; inversion F' as [|? ? Hg' Fg']; subst.
  cbn [read_groups] in E. apply (f_equal L) in E. rewrite !L_app in E.
  assert (forall k, k < 1000 -> ~ In sp (L (read_at 0 k))) as Z.
  { intros k Hk. cbn [read_at]. destruct (k =? 0); [|now apply group_chars]. cbn. intuition discriminate. }
  apply word_after in E as [E1 E2]; auto; try lia.
  assert (g = g') as ->.
  { apply L_inj in E2. cbn [read_at] in E2. destruct (g =? 0) eqn:E0, (g' =? 0) eqn:E0'.
    - apply N.eqb_eq in E0, E0'. congruence.
    - symmetry in E2. now apply not_nul in E2.
    - now apply not_nul in E2.
    - now apply group_inj. }
  clear E2. destruct gs as [|h gs], gs' as [|h' gs']; try discriminate EL; auto. cbn [List.length] in *. injection EL as EL.
  inversion Fg as [|? ? Hh Fh]; inversion Fg' as [|? ? Hh' Fh']; subst. cbn [read_groups] in E1. apply (f_equal L) in E1. rewrite !L_app in E1.
  cbn [read_at] in E1. rewrite !L_app, !app_assoc in E1. apply app_inv_tail in E1.
  assert (forall k, k < 1000 -> ~ In sp (L (if k =? 1 then "" else read_group k))) as Z1.
  { intros k Hk. destruct (k =? 1); [auto|now apply group_chars]. }
  apply word_after in E1 as [E1 E2]; auto; try lia. apply high_inj in E1; auto; try lia. subst gs'. apply L_inj in E2.
  assert (read_group 0 = "") as R0 by reflexivity.
  destruct (h =? 1) eqn:E0, (h' =? 1) eqn:E0'.
  - apply N.eqb_eq in E0, E0'. left. congruence.
  - right. rewrite <- R0 in E2. apply group_inj in E2; try lia. apply N.eqb_eq in E0. subst. exists g', 1, 0, gs. repeat split; lia.
  - right. rewrite <- R0 in E2. apply group_inj in E2; try lia. apply N.eqb_eq in E0'. subst. exists g', 0, 1, gs. repeat split; lia.
  - left. apply group_inj in E2; auto. now subst.
Qed.
(** ** strip does nothing *)
Lemma lstrip_id c l : c <> sp -> lstrip (c :: l) = c :: l.
Proof. intros H. cbn. destruct (Ascii.eqb c " ") eqn:E; auto. apply Ascii.eqb_eq in E. easy. Qed.
Lemma strip_id w c r c' r' : L w = c :: r -> c <> sp -> rev (L w) = c' :: r' -> c' <> sp -> strip w = w.
Proof.
  intros H Hc H' Hc'. unfold strip. rewrite H, lstrip_id, <- H, H', lstrip_id by auto. rewrite <- H', rev_involutive.
  apply string_of_list_ascii_of_string.
Qed.
Definition starts (l : list ascii) : Prop := exists c r, l = c :: r /\ c <> sp.
Lemma nosp_starts l : l <> [] -> ~ In sp l -> starts l.
Proof. destruct l as [|c l]; [easy|]. intros _ H. exists c, l. split; auto. intros ->. apply H. now left. Qed.
Lemma starts_app a b : starts a -> starts (a ++ b).
Proof. intros (c & r & -> & H). exists c, (r ++ b)%list. auto. Qed.
Lemma at_starts i g : g < 1000 -> g <> 0 -> starts (L (read_at i g)).
Proof.
  intros H Hg. destruct (group_chars g H) as [A B]. specialize (B Hg). destruct i as [|[|i]]; cbn [read_at].
  - destruct (g =? 0) eqn:E; [apply N.eqb_eq in E; easy|]. now apply nosp_starts.
  - rewrite L_app. destruct (g =? 1); [exists "d"%char, (L "uizend "); split; [reflexivity|easy]|]. now apply starts_app, nosp_starts.
  - rewrite L_app. now apply starts_app, nosp_starts.
Qed.
Lemma read_starts gs : forall i, Forall (fun g => g < 1000) gs -> gs <> [] -> last gs 0 <> 0 -> starts (L (read_groups i gs)).
Proof.
  induction gs as [|g [|g' gs] IH]; intros i F NE T; [easy| |].
  - inversion F; subst. cbn [read_groups]. cbn [append]. now apply at_starts.
  - inversion F; subst. change (read_groups i (g :: g' :: gs)) with (read_groups (S i) (g' :: gs) ++ read_at i g). rewrite L_app. apply starts_app, IH; auto. easy.
Qed.
Lemma rev_starts l : l <> [] -> ~ In sp l -> forall a, starts (rev (a ++ l)).
Proof. intros H N a. rewrite rev_app_distr. apply starts_app, nosp_starts; [|now rewrite <- in_rev]. intros E. apply H. rewrite <- (rev_involutive l), E. reflexivity. Qed.
Lemma read_strip gs : Forall (fun g => g < 1000) gs -> gs <> [] -> (gs = [0] \/ last gs 0 <> 0) -> strip (read_groups 0 gs) = read_groups 0 gs.
Proof.
  intros F NE [->|T]; [reflexivity|]. destruct (@read_starts gs 0 F NE T) as (c & r & E & H).
  destruct gs as [|g gs]; [easy|]. inversion F; subst.
  assert (starts (rev (L (read_groups 0 (g :: gs))))) as (c' & r' & E' & H').
  { cbn [read_groups]. rewrite L_app. cbn [read_at]. destruct (g =? 0) eqn:E0.
    - apply rev_starts; [easy|]. cbn. intuition discriminate.
    - apply N.eqb_neq in E0. apply rev_starts; now apply group_chars. }
  eapply strip_id; eauto.
Qed.
(** ** the function *)
Lemma spell_plain n : spell_out_number (Z.of_N n) false = (w <- spell_loop (List.length (str_N n)) (str_N n) 0 "" ;; Ok (strip w)).
Proof.
  unfold spell_out_number. replace (str_Z (Z.of_N n)) with (str_N n) by (destruct n; reflexivity).
  destruct (str_N n) as [|a [|b [|c [|d [|e s]]]]]; try reflexivity. now rewrite Bool.andb_false_r.
Qed.
Lemma spell_false n gs : groups_of n gs -> n < 10 ^ 24 -> spell_out_number (Z.of_N n) false = Ok (read_groups 0 gs).
Proof.
  intros G H. pose proof (proj2 (groups_len n gs G) H) as L8. destruct G as (V & F & NE & T). rewrite spell_plain, <- V, loop_ok; auto; try lia.
  - apply Nat.leb_le in L8. cbn [Nat.add]. rewrite L8. cbn [bind]. rewrite sapp_nil, read_strip; auto.
  - tauto.
  - now rewrite str_len.
Qed.
Lemma spell_big n : 10 ^ 24 <= n -> spell_out_number (Z.of_N n) false = Err IndexError.
Proof.
  intros H. destruct (groups_exist n) as (gs & G). assert (~ (List.length gs <= 8)%nat) as L8.
  { rewrite (groups_len n gs G). lia. }
  destruct G as (V & F & NE & T). rewrite spell_plain, <- V, loop_ok; auto; try lia.
  - cbn [Nat.add]. destruct (List.length gs <=? 8)%nat eqn:E; [apply Nat.leb_le in E; easy|reflexivity].
  - tauto.
  - now rewrite str_len.
Qed.
(** ** the hundreds form *)
Definition hundreds (n : N) : bool := andb (andb (1000 <=? n) (n <? 10000)) (negb ((n / 100) mod 10 =? 0)).
Lemma hund_check n : n < 10000 -> spell_out_number (Z.of_N n) true =
  if hundreds n then Ok ((read_group (n / 100) ++ "honderd") ++ read_group (n mod 100)) else spell_out_number (Z.of_N n) false.
Proof.
  intros H. destruct (N.lt_ge_cases n 1000) as [H1|H1].
  - assert (hundreds n = false) as ->. { unfold hundreds. destruct (1000 <=? n) eqn:E; [apply N.leb_le in E; lia|reflexivity]. }
    unfold spell_out_number. replace (str_Z (Z.of_N n)) with (str_N n) by (destruct n; reflexivity).
    pose proof (str_len n) as SL. pose proof (ds_short n H1) as DL. rewrite <- SL in DL.
    destruct (str_N n) as [|a [|b [|c [|d s]]]]; cbn [List.length] in DL; try reflexivity. lia.
  - assert (n / 1000 < 10) as Q by (apply N.div_lt_upper_bound; lia).
    assert (str_N n = [dchar (n / 1000); dchar ((n / 100) mod 10); dchar ((n / 10) mod 10); dchar (n mod 10)]) as ES.
    { unfold str_N. fold (ds n). rewrite ds_1000, ds_small by auto. unfold tri. cbn [map app rev].
      assert (forall a, a mod 1000 mod 10 = a mod 10) as E1 by (intros; zify; Z.div_mod_to_equations; lia).
      assert (forall a, (a mod 1000 / 10) mod 10 = (a / 10) mod 10) as E2 by (intros; zify; Z.div_mod_to_equations; lia).
      assert (forall a, (a mod 1000 / 100) mod 10 = (a / 100) mod 10) as E3 by (intros; zify; Z.div_mod_to_equations; lia).
      now rewrite E1, E2, E3. }
    unfold hundreds. assert (1000 <=? n = true) as -> by now apply N.leb_le. assert (n <? 10000 = true) as -> by now apply N.ltb_lt.
    unfold spell_out_number. replace (str_Z (Z.of_N n)) with (str_N n) by (destruct n; reflexivity). rewrite ES. cbn [andb].
    rewrite zero_char by (apply N.mod_lt; lia). rewrite Bool.andb_true_r, Bool.andb_false_r. destruct (_ =? 0); [reflexivity|]. cbn [negb].
    assert (tris (n / 100) = ["0"%char; dchar (n / 1000); dchar ((n / 100) mod 10)]) as T1.
    { unfold tris, tri. cbn [map rev app]. rewrite !N.div_div by lia. change (100 * 10) with 1000. change (100 * 100) with 10000.
      rewrite (N.div_small n 10000) by auto. rewrite (N.mod_small (n / 1000)) by auto. reflexivity. }
    assert (tris (n mod 100) = ["0"%char; dchar ((n / 10) mod 10); dchar (n mod 10)]) as T2.
    { unfold tris, tri. cbn [map rev app].
      assert (forall a, a mod 100 mod 10 = a mod 10) as E1 by (intros; zify; Z.div_mod_to_equations; lia).
      assert (forall a, (a mod 100 / 10) mod 10 = (a / 10) mod 10) as E2 by (intros; zify; Z.div_mod_to_equations; lia).
      assert (forall a, (a mod 100 / 100) mod 10 = 0) as E3 by (intros; zify; Z.div_mod_to_equations; lia).
      now rewrite E1, E2, E3. }
    rewrite <- T1, <- T2, !triple_words; [reflexivity| |].
    + pose proof (N.mod_lt n 100). lia.
    + apply N.div_lt_upper_bound; lia.
Qed.
Lemma str_5 n : 10000 <= n -> exists a b c d e s, str_N n = a :: b :: c :: d :: e :: s.
Proof.
  intros H. assert (5 <= List.length (str_N n))%nat as K.
  { rewrite str_len, ds_1000 by lia. rewrite app_length. change (List.length (tri _)) with 3%nat.
    rewrite (ds_big (n / 1000)) by (apply N.div_le_lower_bound; lia). cbn [List.length].
    pose proof (ds_ne (n / 1000 / 10)). destruct (ds (n / 1000 / 10)); [easy|cbn [List.length]; lia]. }
  destruct (str_N n) as [|a [|b [|c [|d [|e s]]]]]; cbn [List.length] in K; try lia. now repeat eexists.
Qed.
Lemma spell_true n : spell_out_number (Z.of_N n) true =
  if hundreds n then Ok ((read_group (n / 100) ++ "honderd") ++ read_group (n mod 100)) else spell_out_number (Z.of_N n) false.
Proof.
  destruct (N.lt_ge_cases n 10000) as [H|H]; [now apply hund_check|].
  assert (hundreds n = false) as ->. { unfold hundreds. destruct (n <? 10000) eqn:E; [apply N.ltb_lt in E; lia|]. now rewrite Bool.andb_false_r. }
  destruct (str_5 n H) as (a & b & c & d & e & s & E). unfold spell_out_number.
  replace (str_Z (Z.of_N n)) with (str_N n) by (destruct n; reflexivity). rewrite E. reflexivity.
Qed.
(** the words below "hundred" have no letter o *)
Notation oo := ("o"%char).
Lemma below_no_o k : k < 100 -> ~ In oo (L (read_group k)).
Proof.
  intros H. assert (forallb (fun k => forallb (fun c => negb (Ascii.eqb c oo)) (L (read_group k))) (upto 100) = true) as K by (vm_compute; reflexivity).
  eapply check in K; [|exact H]. cbv beta in K. intros I. rewrite forallb_forall in K. specialize (K _ I). discriminate.
Qed.
Lemma first_o (x x' w w' : list ascii) : ~ In oo x -> ~ In oo x' -> (x ++ oo :: w = x' ++ oo :: w')%list -> x = x' /\ w = w'.
Proof.
  revert x'. induction x as [|c x IH]; intros [|c' x'] H H' E; cbn in E.
  - now injection E.
  - injection E as E1 E2. exfalso. apply H'. now left.
  - injection E as E1 E2. exfalso. apply H. now left.
  - injection E as -> E. destruct (IH x') as [-> ->]; auto; intros I; [apply H|apply H']; now right.
Qed.
Lemma honderd_inj q q' r r' : q < 100 -> q' < 100 -> (read_group q ++ "honderd") ++ r = (read_group q' ++ "honderd") ++ r' -> q = q' /\ r = r'.
Proof.
  intros H H' E. apply (f_equal L) in E. rewrite !L_app in E.
  assert (forall a b, ((a ++ L "honderd") ++ b = (a ++ ["h"%char]) ++ oo :: (L "nderd" ++ b))%list) as EH.
  { intros a b. rewrite <- !app_assoc. reflexivity. }
  rewrite !EH in E.
  apply first_o in E.
  - destruct E as [E1 E2]. apply app_inv_tail in E1. apply app_inv_head in E2. apply L_inj in E1, E2. split; auto. apply group_inj; auto; lia.
  - rewrite in_app_iff. cbn. intros [I|[I|[]]]; [now apply below_no_o in I|discriminate].
  - rewrite in_app_iff. cbn. intros [I|[I|[]]]; [now apply below_no_o in I|discriminate].
Qed.
Lemma group_split_100 k : k < 1000 -> 100 <= k -> exists q, q < 10 /\ read_group k = (read_group q ++ "honderd") ++ read_group (k mod 100).
Proof.
  intros H H1. unfold read_group at 1. assert (k <? 100 = false) as -> by now apply N.ltb_ge.
  assert (forall j, j < 100 -> read_group j = read_below_100 j) as RB.
  { intros j Hj. unfold read_group. rewrite (N.mod_small j 100) by auto. apply N.ltb_lt in Hj as ->. reflexivity. }
  rewrite (RB (k mod 100)) by (apply N.mod_lt; lia). destruct (k <? 200).
  - exists 0. split; [lia|]. reflexivity.
  - exists (k / 100). assert (k / 100 < 10) as Q by (apply N.div_lt_upper_bound; lia). split; auto. rewrite (RB (k / 100)) by lia. unfold read_below_100 at 2.
    assert (k / 100 <? 20 = true) as -> by (apply N.ltb_lt; lia). reflexivity.
Qed.
Lemma hund_range n : hundreds n = true -> 11 <= n / 100 /\ n / 100 < 100.
Proof.
  unfold hundreds. intros H. apply andb_prop in H as [H1 H2]. apply andb_prop in H1 as [H0 H1]. apply N.leb_le in H0. apply N.ltb_lt in H1.
  apply Bool.negb_true_iff, N.eqb_neq in H2. assert (10 <= n / 100) by (apply N.div_le_lower_bound; lia).
  split; [|apply N.div_lt_upper_bound; lia]. destruct (N.eq_dec (n / 100) 10) as [E|]; [rewrite E in H2; now destruct H2|lia].
Qed.
Lemma hund_inj n m : hundreds n = true -> hundreds m = true ->
  (read_group (n / 100) ++ "honderd") ++ read_group (n mod 100) = (read_group (m / 100) ++ "honderd") ++ read_group (m mod 100) -> n = m.
Proof.
  intros Hn Hm E. apply hund_range in Hn, Hm. apply honderd_inj in E as [E1 E2]; try lia.
  pose proof (N.mod_lt n 100). pose proof (N.mod_lt m 100). apply group_inj in E2; try lia.
Qed.
Lemma hund_not_small n k : hundreds n = true -> k < 1000 -> (read_group (n / 100) ++ "honderd") ++ read_group (n mod 100) <> read_at 0 k.
Proof.
  intros Hn Hk E. apply hund_range in Hn. cbn [read_at] in E. destruct (k =? 0) eqn:E0.
  - apply (f_equal (fun w => In oo (L w))) in E. rewrite !L_app in E. assert (In oo (L "nul")) as C; [|cbn in C; intuition discriminate].
    rewrite <- E, !in_app_iff. left. right. cbn. auto.
  - destruct (N.lt_ge_cases k 100) as [S|S].
    + apply (below_no_o k S). rewrite <- E, !L_app, !in_app_iff. left. right. cbn. auto.
    + destruct (group_split_100 k Hk S) as (q & Hq & Eq). rewrite Eq in E. apply honderd_inj in E as [E1 _]; lia.
Qed.
Lemma plain_inj n m : n < 10 ^ 24 -> m < 10 ^ 24 -> spell_out_number (Z.of_N n) false = spell_out_number (Z.of_N m) false -> n = m \/ thousand_confused n m.
Proof.
  intros Hn Hm E. destruct (groups_exist n) as (gs & G), (groups_exist m) as (gs' & G').
  rewrite (spell_false n gs G Hn), (spell_false m gs' G' Hm) in E. injection E as E.
  pose proof (proj2 (groups_len n gs G) Hn) as L8. pose proof (proj2 (groups_len m gs' G') Hm) as L8'.
  destruct G as (V & F & NE & T), G' as (V' & F' & NE' & T').
  destruct (read_inj gs gs') as [->|(lo & a & b & hi & -> & -> & Ha & Hb)]; auto; [left; congruence|].
  destruct hi as [|h hi].
  - left. destruct T as [T|T]; [discriminate|]. destruct T' as [T'|T']; [discriminate|]. cbn [last] in T, T'.
    assert (a = 1) by lia. assert (b = 1) by lia. congruence.
  - right. destruct T as [T|T]; [discriminate|]. exists (group_value (h :: hi)), a, b, lo.
    change (last (h :: hi) 0 <> 0) in T. pose proof (last_ne_value (h :: hi) ltac:(easy) T) as P. inversion F; subst.
    change (group_value (lo :: a :: h :: hi)) with (lo + 1000 * (a + 1000 * group_value (h :: hi))).
    change (group_value (lo :: b :: h :: hi)) with (lo + 1000 * (b + 1000 * group_value (h :: hi))).
    repeat split; auto; lia.
Qed.
Lemma confused_same n m pref : n < 10 ^ 24 -> m < 10 ^ 24 -> thousand_confused n m ->
  spell_out_number (Z.of_N n) pref = spell_out_number (Z.of_N m) pref.
Proof.
  intros Hn Hm (hi & a & b & lo & Hhi & Ha & Hb & Hlo & En & Em).
  assert (forall k, 10000 <= k -> spell_out_number (Z.of_N k) pref = spell_out_number (Z.of_N k) false) as P.
  { intros k Hk. destruct pref; auto. rewrite spell_true. unfold hundreds. destruct (k <? 10000) eqn:E; [apply N.ltb_lt in E; lia|]. now rewrite Bool.andb_false_r. }
  rewrite !P by lia. destruct (groups_exist hi) as (gh & V & F & NE & T).
  assert (last gh 0 <> 0) as T1. { destruct T as [->|]; auto. cbn in V. lia. }
  assert (forall x, x <= 1 -> groups_of (hi * 1000000 + x * 1000 + lo) (lo :: x :: gh)) as G.
  { intros x Hx. repeat split.
    - cbn [group_value]. rewrite V. lia.
    - constructor; auto. constructor; auto. lia.
    - easy.
    - right. destruct gh; [easy|exact T1]. }
  rewrite (spell_false n (lo :: a :: gh)), (spell_false m (lo :: b :: gh)) by (subst; auto).
  cbn [read_groups]. assert (read_at 1 a = read_at 1 b) as ->; [|reflexivity]. assert (a = 0 \/ a = 1) as [-> | ->] by lia; assert (b = 0 \/ b = 1) as [-> | ->] by lia; reflexivity.
Qed.
Lemma same_words n m pref : n < 10 ^ 24 -> m < 10 ^ 24 ->
  spell_out_number (Z.of_N n) pref = spell_out_number (Z.of_N m) pref <-> n = m \/ thousand_confused n m.
Proof.
  intros Hn Hm. split; [|intros [->|C]; auto; now apply confused_same].
  destruct pref; [|now apply plain_inj]. intros E.
  assert (forall k, hundreds k = true -> k < 10000) as HL.
  { intros k Hk. unfold hundreds in Hk. apply andb_prop in Hk as [Hk _]. apply andb_prop in Hk as [_ Hk]. now apply N.ltb_lt. }
  assert (forall k j, k < 10 ^ 24 -> hundreds k = false -> hundreds j = true -> spell_out_number (Z.of_N k) true = spell_out_number (Z.of_N j) true -> k = j) as X.
  { intros k j Hk Hkf Hj Ek. exfalso. pose proof (HL j Hj) as Lj. rewrite !spell_true, Hkf, Hj in Ek.
    destruct (groups_exist k) as (gs & G). rewrite (spell_false k gs G Hk) in Ek. injection Ek as Ek.
    pose proof (proj2 (groups_len k gs G) Hk) as L8. destruct G as (V & F & NE & T).
    assert (blanks (read_groups 0 gs) = 0%nat) as B0.
    { rewrite Ek, !blanks_app, !blanks_group; [reflexivity| |].
      - pose proof (N.mod_lt j 100). lia.
      - apply N.div_lt_upper_bound; lia. }
    rewrite blanks_all in B0 by auto. destruct gs as [|g [|g' gs]]; [easy| |cbn [List.length] in B0; lia].
    inversion F; subst. symmetry in Ek. apply hund_not_small in Ek; auto. }
  destruct (hundreds n) eqn:A, (hundreds m) eqn:B.
  - left. rewrite !spell_true, A, B in E. injection E as E. now apply hund_inj.
  - left. symmetry. apply X; auto.
  - left. apply X; auto.
  - rewrite !spell_true, A, B in E. now apply plain_inj.
Qed.
(** ** negative numbers *)
Definition bad_triple (t : dstring) : Prop := match digit_triple_to_words t with Ok _ => False | Err _ => True end /\ string_of_list_ascii t <> "000" /\ string_of_list_ascii t <> "001".
Lemma bad3 : bad_triple ["0"; "0"; "-"]%char.
Proof. vm_compute. repeat split; discriminate. Qed.
Lemma digit_dec k : k < 10 -> exists j, In j (upto 10) /\ j = k. Proof. intros; exists k; split; auto. now apply upto_in. Qed.
Lemma bad2 a : a < 10 -> bad_triple ["0"; "-"; dchar a]%char.
Proof. intros H. apply digit_dec in H as (j & H & <-). cbn in H. repeat (destruct H as [<-|H]; [vm_compute; repeat split; discriminate|]). easy. Qed.
Lemma bad1 a b : a < 10 -> b < 10 -> bad_triple ["-"%char; dchar a; dchar b].
Proof.
  intros H H'. apply digit_dec in H as (j & H & <-). apply digit_dec in H' as (j' & H' & <-). cbn in H, H'.
  repeat (destruct H as [<-|H]; [repeat (destruct H' as [<-|H']; [vm_compute; repeat split; discriminate|]); easy|]). easy.
Qed.
Lemma ds_digits n : Forall (fun d => d < 10) (ds n).
Proof.
  induction n as [n IH] using (well_founded_induction N.lt_wf_0). destruct (N.lt_ge_cases n 10) as [H|H].
  - rewrite ds_small by auto. auto.
  - rewrite ds_big by auto. constructor; [apply N.mod_lt; lia|]. apply IH. apply N.div_lt; lia.
Qed.
Lemma neg_loop l : forall fuel i w, Forall (fun d => d < 10) l -> (0 < fuel)%nat -> exists e, spell_loop fuel (rev (map dchar l ++ ["-"%char])) i w = Err e.
Proof.
  induction l as [l IH] using (well_founded_induction (Wf_nat.well_founded_ltof _ (@List.length N))). intros fuel i w F Hf. destruct fuel as [|fuel]; [lia|].
  set (r := (map dchar l ++ ["-"%char])%list). assert (rev r <> []) as NE by (unfold r; rewrite rev_app_distr; discriminate).
  cbn [spell_loop]. destruct (rev r) eqn:ES; [easy|]. rewrite <- ES. clear ES NE. destruct (chunk_rev r) as [-> ->].
  assert (forall t, bad_triple t -> exists e, (if andb (Nat.eqb i 0) (String.eqb (string_of_list_ascii t) "000") then Ok "nul"
   else if andb (Nat.eqb i 1) (String.eqb (string_of_list_ascii t) "001") then m <- get triple_modifiers i ;; Ok (m ++ w)
   else t <- digit_triple_to_words t ;; m <- get triple_modifiers i ;; Ok ((t ++ m) ++ w)) = Err e) as B.
  { intros t (B1 & B2 & B3). apply String.eqb_neq in B2, B3. rewrite B2, B3, !Bool.andb_false_r.
    destruct (digit_triple_to_words t); [easy|]. cbn. eauto. }
  destruct l as [|d0 [|d1 [|d2 l]]].
  - destruct (B _ bad3) as (e & Ee). exists e. unfold r. cbn [map app firstn rev rjust3 repeat List.length Nat.sub]. rewrite Ee. reflexivity.
  - inversion F; subst. destruct (B _ (bad2 d0 ltac:(auto))) as (e & Ee). exists e. unfold r. cbn [map app firstn rev rjust3 repeat List.length Nat.sub].
    unfold rjust3. cbn [List.length Nat.sub repeat app]. rewrite Ee. reflexivity.
  - inversion F as [|? ? ? F1]; subst. inversion F1; subst. destruct (B _ (bad1 d1 d0 ltac:(auto) ltac:(auto))) as (e & Ee). exists e. unfold r.
    unfold rjust3. cbn [map app firstn rev List.length Nat.sub repeat]. rewrite Ee. reflexivity.
  - unfold r. cbn [map app firstn skipn].
    destruct (if andb (Nat.eqb i 0) _ then _ else _) as [w'|e]; [|cbn; eauto]. cbn [bind].
    destruct fuel as [|fuel]. { cbn [spell_loop]. destruct (rev _) eqn:Q; [|eauto]. rewrite rev_app_distr in Q. discriminate. }
    apply IH; [unfold Wf_nat.ltof; cbn; lia| |lia]. now inversion F as [|? ? ? F1]; inversion F1 as [|? ? ? F2]; inversion F2.
Qed.
Lemma spell_neg p pref : exists e, spell_out_number (Zneg p) pref = Err e.
Proof.
  unfold spell_out_number, str_Z. unfold str_N. fold (ds (Npos p)). pose proof (ds_digits (Npos p)) as F. pose proof (ds_ne (Npos p)) as NE.
  assert (forall fuel, (0 < fuel)%nat -> exists e, (w <- spell_loop fuel ("-"%char :: rev (map dchar (ds (Npos p)))) 0 "" ;; Ok (strip w)) = Err e) as K.
  { intros fuel Hf. destruct (neg_loop (ds (Npos p)) fuel 0 "" F Hf) as (e & Ee). rewrite rev_app_distr in Ee. cbn [rev app] in Ee. exists e. now rewrite Ee. }
  destruct (ds (Npos p)) as [|d0 [|d1 [|d2 [|d3 l]]]]; [easy| | | |].
  - apply (K 2%nat). lia.
  - apply (K 3%nat). lia.
  - cbn [map rev app]. destruct (negb _ && pref)%bool.
    + inversion F as [|? ? ? F1]; inversion F1 as [|? ? ? F2]; inversion F2; subst.
      destruct (bad2 d2) as (B & _); auto. destruct (digit_triple_to_words ["0"%char; "-"%char; dchar d2]); [easy|cbn; eauto].
    + apply (K 4%nat). lia.
  - set (s := rev (map dchar (d0 :: d1 :: d2 :: d3 :: l))) in *. assert (4 <= List.length s)%nat as LS by (unfold s; rewrite rev_length, map_length; cbn; lia).
    clearbody s. destruct s as [|a [|b [|c [|d s]]]]; cbn [List.length] in LS; try lia. apply K. cbn. lia.
Qed.
