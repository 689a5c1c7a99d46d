(** Property C60: opsys.makedirs. *)
From Verif Require Import Py PyLemmas Mkdirs_spec Mkdirs_model Mkdirs_proof.
Section Props.
Variable Name : Type.
Variable neqb : Name -> Name -> bool.
Hypothesis neq : forall x y, neqb x y = true <-> x = y.
Notation makedirs := (@makedirs Name neqb).

(** C60.  If no one else works on the disk: nothing is raised; the directory and those on the way to it exist afterwards
    exactly if they existed or could be made (what could be made stays if the rest could not); nothing that existed is
    changed, and nothing that is not on the way. *)
Theorem makedirs_alone p n w : p <> [] -> sound w -> exists w' n', makedirs (@nobody Name) p n w = (w', n', None) /\
  (forall q, on_the_way q p -> (tree w' q = Some Directory <-> possible w q)) /\
  (forall q, tree w q <> None -> tree w' q = tree w q) /\
  (forall q, ~ on_the_way q p -> tree w' q = tree w q) /\ sound w'.
Proof.
  intros NE Sw. destruct (alone_makes neqb neq n NE Sw) as (w' & n' & e & E & (E1 & E2 & E3) & S' & X). exists w', n'. split.
  - unfold Mkdirs_model.makedirs. rewrite E. destruct e as [[]|]; reflexivity.
  - split; [intros q Q; apply (E1 q Q)|]. split; [|auto]. intros q H. destruct (way_dec neqb neq q p) as [Q|Q]; [|auto].
    destruct (E1 q Q) as [_ [Y|[Y _]]]; congruence.
Qed.
(** A second call changes nothing. *)
Theorem makedirs_again p n n1 w w1 n2 : p <> [] -> sound w -> makedirs (@nobody Name) p n w = (w1, n2, None) ->
  exists w2 n3, makedirs (@nobody Name) p n1 w1 = (w2, n3, None) /\ forall q, tree w2 q = tree w1 q.
Proof.
  intros NE Sw H. destruct (alone_makes neqb neq n NE Sw) as (w' & n' & e & E & (E1 & E2 & E3) & S' & X).
  assert (w1 = w') as -> by (unfold Mkdirs_model.makedirs in H; rewrite E in H; destruct e as [[]|]; congruence).
  destruct (alone_makes neqb neq n1 NE S') as (w2 & n3 & e2 & F & (F1 & F2 & F3) & S2 & _). exists w2, n3. split.
  - unfold Mkdirs_model.makedirs. rewrite F. destruct e2 as [[]|]; reflexivity.
  - intros q. destruct (way_dec neqb neq q p) as [Q|Q]; [|auto]. destruct (F1 q Q) as [G1 [G2|[G2 G3]]]; auto.
    assert (forall q, possible w' q -> on_the_way q p -> possible w q) as Back.
    { intros x P. induction P as [x P|t h P1 P2 IH P3]; intros Qx; [now apply (E1 x Qx)|]. rewrite E3 in P3.
      destruct (E1 _ Qx) as [B1 [B2|[B2 B3]]]; [|congruence]. apply to_make; [congruence| |auto]. apply IH. destruct Qx as [b ->]. exists (b ++ [t]). rewrite <- app_assoc. reflexivity. }
    destruct (E1 q Q) as [H1 _]. apply G1 in G3. apply Back in G3; auto. apply H1 in G3. congruence.
Qed.
(** While others are at work who do not remove directories and do not get in the way: the directory and those on the
    way to it exist afterwards, whatever directories the others make in between. *)
Theorem makedirs_with_others o p n w : p <> [] -> sound w -> friendly o p ->
  (forall q, on_the_way q p -> tree w q <> Some Other) -> (forall q, on_the_way q p -> allows w q = true) ->
  exists w' n', makedirs o p n w = (w', n', None) /\ forall q, on_the_way q p -> tree w' q = Some Directory.
Proof.
  intros NE Sw F H1 H2. assert (fine w p) as Fw by (destruct Sw; repeat split; auto).
  destruct (friendly_makes neqb neq F n (way_refl p) Fw NE Sw) as (w' & n' & e & E & Oe & M & _). exists w', n'. split; [|exact M].
  unfold Mkdirs_model.makedirs. rewrite E. destruct Oe as [->| ->]; reflexivity.
Qed.
(** Whatever the others do, nothing is raised. *)
Theorem makedirs_never_raises o p n w : snd (makedirs o p n w) = None.
Proof. unfold Mkdirs_model.makedirs. destruct (os_makedirs neqb o p n w) as [[w' n'] [[]|]]; reflexivity. Qed.
End Props.
(** It also returns when the directory could not be made: a file in the way, or a directory that allows no new entries. *)
Definition with_file : world nat := {| tree := fun q => match q with [] => Some Directory | [1] => Some Other | _ => None end; allows := fun _ => true |}.
Definition read_only : world nat := {| tree := fun q => match q with [] => Some Directory | _ => None end; allows := fun _ => false |}.
Theorem makedirs_made_refuted : exists (w1 w2 : world nat), sound w1 /\ sound w2 /\
  (forall w' n', makedirs Nat.eqb (@nobody nat) [2; 1] 0 w1 = (w', n', None) -> tree w' [2; 1] = None) /\
  (forall w' n', makedirs Nat.eqb (@nobody nat) [2; 1] 0 w2 = (w', n', None) -> tree w' [2; 1] = None).
Proof.
  exists with_file, read_only. split; [|split; [|split]].
  - split; auto. intros t [|a [|b h]] H; cbn in *; auto; destruct t as [|[|t]]; try easy; destruct a as [|[|a]]; easy.
  - split; auto. intros t [|a h] H; cbn in *; easy.
  - intros w' n' [= <- _]. reflexivity.
  - intros w' n' [= <- _]. reflexivity.
Qed.
Definition start : world nat := {| tree := fun q => match q with [] => Some Directory | _ => None end; allows := fun _ => true |}.
(** someone makes [1] just before it is made here *)
Definition someone : others nat := fun n w =>
  if n =? 1 then {| tree := fun q => if path_eqb Nat.eqb q [1] then Some Directory else tree w q; allows := allows w |} else w.
Example ex_makedirs : sound start /\ (let '(w, _, _) := makedirs Nat.eqb (@nobody nat) [2; 1] 0 start in tree w [2; 1] = Some Directory /\ tree w [1] = Some Directory /\ tree w [2] = None) /\
  (let '(w, _, e) := os_makedirs Nat.eqb someone [2; 1] 0 start in tree w [2; 1] = Some Directory /\ e = None) /\
  snd (os_makedirs Nat.eqb someone [1] 1 start) = Some EEXIST.
Proof. split; [split; [reflexivity|intros t [|a h] H; easy]|]. repeat split; vm_compute; reflexivity. Qed.
Example ex_friendly : (forall q : list nat, on_the_way q [2; 1] -> tree start q <> Some Other) /\ (forall q : list nat, on_the_way q [2; 1] -> allows start q = true) /\ friendly someone [2; 1].
Proof.
  split; [|split].
  - intros [|a q] _; discriminate.
  - reflexivity.
  - intros n w. unfold someone. destruct (n =? 1); [|auto]. split; [|split; [|split]]; auto.
    + intros [S0 S]. split; cbn [tree]; [exact S0|]. intros t h H. destruct (path_eqb Nat.eqb h [1]) eqn:E; auto.
      destruct (path_eqb Nat.eqb (t :: h) [1]) eqn:Q; [|now apply (S t)]. apply (path_eqb_spec Nat.eqb Nat.eqb_eq) in Q. injection Q as -> ->. exact S0.
    + intros q H. cbn [tree]. destruct (path_eqb Nat.eqb q [1]); auto.
    + intros q _ H. cbn [tree]. destruct (path_eqb Nat.eqb q [1]); [discriminate|auto].
Qed.
Print Assumptions makedirs_alone.
Print Assumptions makedirs_again.
Print Assumptions makedirs_with_others.
Print Assumptions makedirs_never_raises.
Print Assumptions makedirs_made_refuted.
