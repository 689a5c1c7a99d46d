(** C45: a parallel graph corpus from a parallel text corpus (lib/daeso/pgc/creation.py). *)
From Coq Require Import String Ascii.
From Verif Require Import Py Ielem_spec Ielem_model Hdoc_spec Ptceval_spec Create_spec Create_model Create_proof.
Open Scope string_scope.
Open Scope list_scope.
Open Scope nat_scope.

Section Props.
Variable char : Type.
Variable ceqb : char -> char -> bool.
Hypothesis ceq : forall a b, ceqb a b = true <-> a = b.
Variable space : char -> bool.
Variable nl : char.
Variable lower : char -> char.
Variable G : Type.
Variables from_root to_root : elem char.
Hypothesis D1 : distinct from_root.
Hypothesis D2 : distinct to_root.
Variables from_tag to_tag : string.
Variables from_bank to_bank : list (string * G).
Notation from_ptc m M links := (pgc_from_ptc ceqb space nl lower links from_root to_root from_bank to_bank from_tag to_tag m M).
Notation created := (created space nl lower from_root to_root from_tag to_tag (dget String.eqb from_bank) (dget String.eqb to_bank)).
Notation bad := (bad space nl lower from_root to_root from_tag to_tag (dget String.eqb from_bank) (dget String.eqb to_bank)).

(** The corpus has, in the order of the links, one pair of the two graphs with the ids of the link for every
    link with the wanted tags whose elements are short and different enough, and no other pairs. *)
Theorem create_exact : forall min_diff max_len links pairs,
  from_ptc min_diff max_len links = Ok pairs <-> created min_diff max_len links pairs.
Proof. intros m M links ps. apply create_iff; trivial. Qed.
(** It fails exactly if a link with the wanted tags names no element, or passes the limits but names no graph:
    always with a KeyError. *)
Theorem create_fails_iff : forall min_diff max_len links x,
  from_ptc min_diff max_len links = Err x <-> x = KeyError /\ exists l, In l links /\ bad min_diff max_len l.
Proof. intros m M links x. apply create_err; trivial. Qed.
(** Weaker limits only add pairs. *)
Theorem create_monotone : forall m m' M M' links pairs pairs', (0 <= m')%Z -> (m' <= m)%Z -> (M <= M')%Z ->
  from_ptc m M links = Ok pairs -> from_ptc m' M' links = Ok pairs' -> sublist pairs pairs'.
Proof.
  intros m m' M M' links ps qs A B C H K. apply create_exact in H. apply create_exact in K.
  exact (created_mono A B C H K).
Qed.
(** The corpus for two lists of links is that for one followed by that for the other. *)
Theorem create_app : forall min_diff max_len l1 l2 ps1 ps2,
  from_ptc min_diff max_len l1 = Ok ps1 -> from_ptc min_diff max_len l2 = Ok ps2 ->
  from_ptc min_diff max_len (l1 ++ l2) = Ok (ps1 ++ ps2).
Proof.
  intros m M l1 l2 ps1 ps2 H K. apply create_exact in H. apply create_exact in K. apply create_exact.
  induction H; cbn [app]; [exact K|now constructor|now constructor].
Qed.
End Props.
(** The words used above exist and are unique for every text. *)
Theorem words_exist_unique : forall (char : Type) (space : char -> bool) s,
  exists ws, has_words space s ws /\ forall vs, has_words space s vs -> vs = ws.
Proof.
  intros char space s. exists (split space s). split; [apply split_ok|]. intros vs H. symmetry. now apply split_unique.
Qed.

(** Source <t><s id="1">A b</s><s id="2">c</s></t>, target <t><s id="1">a B</s><s id="3">d e</s></t>. *)
Definition is_space (c : ascii) : bool := Ascii.eqb c " "%char.
Definition low (c : ascii) : ascii := if Ascii.eqb c "A"%char then "a"%char else if Ascii.eqb c "B"%char then "b"%char else c.
Definition txt (s : string) := Some (list_ascii_of_string s).
Definition src : elem ascii := Elem 0 "t" None None None [Elem 1 "s" (Some "1") (txt "A b") None []; Elem 2 "s" (Some "2") (txt "c") None []].
Definition tgt : elem ascii := Elem 3 "t" None None None [Elem 4 "s" (Some "1") (txt "a B") None []; Elem 5 "s" (Some "3") (txt "d e") None []].
Definition lk t i j := {| f_from_tag := Some t; f_to_tag := Some t; f_from_id := Some i; f_to_id := Some j |}.
Definition links := [lk "s" "1" "1"; lk "t" "1" "1"; lk "s" "2" "3"; lk "s" "1" "3"].
Definition create := pgc_from_ptc Ascii.eqb is_space "010"%char low links src tgt [("1", 1); ("2", 2)] [("1", 11); ("3", 13)] "s" "s".
Example src_distinct : distinct src /\ distinct tgt.
Proof. split; unfold distinct; repeat constructor; simpl; intuition congruence. Qed.
(** No limits; different enough; short enough; and a source bank without graph "2". *)
Example create_ex :
  create 0 99 = Ok [(1, 11); (2, 13); (1, 13)] /\ create 1 99 = Ok [(2, 13); (1, 13)] /\ create 4 99 = Ok [(1, 13)] /\ create 0 1 = Ok [] /\
  pgc_from_ptc Ascii.eqb is_space "010"%char low links src tgt [("1", 1)] [("1", 11); ("3", 13)] "s" "s" 0 99 = Err KeyError.
Proof. vm_compute. repeat split. Qed.

(** "A link without ids (numbered links) is reported" is false: it may be passed over silently, as the last
    element without an id is looked at. *)
Theorem create_numbered_link_reported_refuted :
  ~ (forall (char : Type) ceqb space nl lower (fr tr : elem char) (fb tb : list (string * nat)) l m M,
       distinct fr -> distinct tr -> f_from_tag l = Some "s" -> f_to_tag l = Some "s" -> f_from_id l = None ->
       exists x, pgc_from_ptc ceqb space nl lower [l] fr tr fb tb "s" "s" m M = Err x).
Proof.
  intros H. specialize (H ascii Ascii.eqb is_space "010"%char low
    (Elem 0 "t" None None None [Elem 1 "s" None (txt "a b") None []]) tgt [] []
    {| f_from_tag := Some "s"; f_to_tag := Some "s"; f_from_id := None; f_to_id := Some "1" |} 0%Z 1%Z).
  destruct H as [x E]; try reflexivity; [unfold distinct; repeat constructor; simpl; intuition congruence|apply src_distinct|].
  vm_compute in E. discriminate.
Qed.

Print Assumptions create_exact.
Print Assumptions create_fails_iff.
Print Assumptions create_monotone.
Print Assumptions create_app.
Print Assumptions words_exist_unique.
Print Assumptions create_numbered_link_reported_refuted.
