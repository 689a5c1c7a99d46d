(** A wrap for the examples: as many words on a line as fit, longer words are cut. *)
From Coq Require Import Ascii String Lia.
From Verif Require Import Py Cmdline_spec Usage_spec Help_spec Usage_model Help_model Usage_proof Help_proof.
Open Scope string_scope.
Open Scope nat_scope.
Open Scope list_scope.

Fixpoint cut (fuel w : nat) (s : text) : list text :=
  match fuel, s with S fuel', _ :: _ => firstn w s :: cut fuel' w (skipn w s) | _, _ => [] end.
Fixpoint fill (w : nat) (cur : text) (ps : list text) : list text :=
  match ps with
  | [] => match cur with [] => [] | _ => [cur] end
  | p :: r => match cur with
              | [] => fill w p r
              | _ => if length cur + 1 + length p <=? w then fill w (cur ++ blank :: p) r else cur :: fill w p r
              end
  end.
Definition sample_wrap (s : text) (w : Z) : option (list text) :=
  if (w <=? 0)%Z then None else Some (fill (Z.to_nat w) [] (flat_map (fun x => cut (length x) (Z.to_nat w) x) (words s))).

Definition solid (s : text) : Prop := s <> [] /\ Forall (fun c => white_b c = false) s.
Lemma words_from_ok s : forall cur, Forall (fun c => white_b c = false) cur -> Forall solid (words_from cur s) /\ concat (words_from cur s) = cur ++ visible s.
Proof.
  induction s as [|c s IH]; intros cur F; cbn [words_from].
  - destruct cur; [easy|]. cbn. rewrite !app_nil_r. split; [|easy]. constructor; [now split|constructor].
  - unfold visible. cbn [filter]. destruct (white_b c) eqn:B; cbn [negb].
    + destruct (IH [] (Forall_nil _)) as (A & E). destruct cur as [|x cur]; [easy|]. cbn [app concat]. rewrite E. split; [|easy]. constructor; [now split|easy].
    + destruct (IH (cur ++ [c])) as (A & E). { apply Forall_app. split; [easy|]. constructor; [easy|constructor]. } split; [easy|]. rewrite E. now rewrite <- app_assoc.
Qed.
Lemma cut_ok w n : 0 < w -> forall s, length s <= n -> Forall (fun c => white_b c = false) s -> Forall (fun p => solid p /\ length p <= w) (cut n w s) /\ concat (cut n w s) = s.
Proof.
  intros W. induction n as [|n IH]; intros s L F. { destruct s; [split; [constructor|reflexivity]|cbn in L; lia]. }
  destruct s as [|c s]; [split; [constructor|reflexivity]|]. cbn [cut concat]. rewrite <- (firstn_skipn w (c :: s)) in F. apply Forall_app in F as (F1 & F2).
  destruct (IH (skipn w (c :: s))) as (A & E); [rewrite skipn_length; cbn [length] in *; lia|easy|]. split.
  - constructor; [|easy]. split; [|rewrite firstn_length; lia]. split; [|easy]. now destruct w.
  - rewrite E. apply firstn_skipn.
Qed.
Lemma solid_visible p : Forall (fun c => white_b c = false) p -> visible p = p.
Proof. induction 1 as [|c p H F IH]; [easy|]. unfold visible in *. cbn [filter]. rewrite H. cbn. now rewrite IH. Qed.
Lemma fill_ok w ps : Forall (fun p => solid p /\ length p <= w) ps -> forall cur, (cur = [] \/ visible cur <> [] /\ ~ In newline cur /\ length cur <= w) ->
  Forall (fun l => visible l <> [] /\ ~ In newline l /\ length l <= w) (fill w cur ps) /\ visible (concat (fill w cur ps)) = visible cur ++ concat ps.
Proof.
  assert (forall p, solid p -> visible p <> [] /\ ~ In newline p) as SN. { intros p (A & B). rewrite solid_visible by easy. split; [easy|]. intros I. rewrite Forall_forall in B. specialize (B _ I). discriminate. }
  induction 1 as [|p ps (S & L) F IH]; intros cur C; cbn [fill].
  - destruct cur as [|x cur]; [now cbn|]. destruct C as [|C]; [easy|]. split; [constructor; [easy|constructor]|]. cbn [concat]. now rewrite !app_nil_r.
  - destruct (SN p S) as (S1 & S2). destruct cur as [|x cur].
    + destruct (IH p) as (A & B); [now right|]. split; [easy|]. rewrite B. cbn [concat]. destruct S as (_ & S). now rewrite (solid_visible p S).
    + destruct C as [|(C1 & C2 & C3)]; [easy|]. set (k := x :: cur) in *. destruct (Nat.leb_spec (length k + 1 + length p) w) as [J|J].
      * destruct (IH (k ++ blank :: p)) as (A & B).
        { right. rewrite vis_app. split; [intros Q; now apply app_eq_nil in Q as (Q & _)|]. split; [|rewrite app_length; cbn [length]; lia]. intros I. apply in_app_or in I as [I|[I|I]]; [easy|discriminate|easy]. }
        split; [easy|]. rewrite B, vis_app. cbn [concat]. destruct S as (_ & S). change (visible (blank :: p)) with (visible p). now rewrite (solid_visible p S), <- app_assoc.
      * destruct (IH p) as (A & B); [now right|]. split; [now constructor|]. cbn [concat]. rewrite vis_app, B. destruct S as (_ & S). now rewrite (solid_visible p S).
Qed.
Lemma sample_wraps : wraps sample_wrap.
Proof.
  intros s w. unfold sample_wrap. destruct (Z.leb_spec w 0) as [L|L]; [easy|]. split; [easy|]. destruct (words_from_ok s [] (Forall_nil _)) as (A & B). fold (words s) in A, B. cbn [app] in B.
  set (g := fun x : list ascii => cut (length x) (Z.to_nat w) x). assert (Forall (fun p => solid p /\ length p <= Z.to_nat w) (flat_map g (words s)) /\ concat (flat_map g (words s)) = concat (words s)) as (P & Q).
  { clear B. induction A as [|x l (X1 & X2) F IH]; [split; [constructor|reflexivity]|]. destruct (cut_ok (Z.to_nat w) (length x) ltac:(lia) x (le_n _) X2) as (P & Q). destruct IH as (P2 & Q2). cbn [flat_map concat]. split; [now apply Forall_app|]. rewrite concat_app. unfold g at 1. now rewrite Q, Q2. }
  destruct (fill_ok (Z.to_nat w) _ P [] (or_introl eq_refl)) as (U & V). split; [rewrite V, Q, B; reflexivity|]. eapply Forall_impl; [|exact U]. cbn. intros a (A1 & A2 & A3). repeat split; try easy. lia.
Qed.
