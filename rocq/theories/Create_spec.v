(** Which graph pairs a parallel graph corpus made from a parallel text corpus should have
    (lib/daeso/pgc/creation.py). *)
From Coq Require Import String.
From Verif Require Import Py Ielem_spec Hdoc_spec Ptceval_spec.
Set Implicit Arguments.

Section Words.
Variable char : Type.
Variable space : char -> bool.
(** The words of a text: maximal runs of characters that are no white space. *)
Definition blank (s : list char) : Prop := Forall (fun c => space c = true) s.
Definition word (w : list char) : Prop := w <> [] /\ Forall (fun c => space c = false) w.
Inductive has_words : list char -> list (list char) -> Prop :=
| no_words s : blank s -> has_words s []
| last_word a w : blank a -> word w -> has_words (a ++ w) [w]
| more_words a w c s ws : blank a -> word w -> space c = true -> has_words s ws -> has_words (a ++ w ++ c :: s) (w :: ws).
End Words.

(** How many members of l and m (with repetition) do not occur in the other list. *)
Inductive outside {A} (m : list A) : list A -> nat -> Prop :=
| out_nil : outside m [] 0
| out_in a l n : In a m -> outside m l n -> outside m (a :: l) n
| out_not a l n : ~ In a m -> outside m l n -> outside m (a :: l) (S n).

Section Spec.
Variable char : Type.
Variable space : char -> bool.
Variable nl : char.
Variable lower : char -> char.
Variable G : Type.
Notation elem := (elem char).
Definition plain : render := {| ignore := []; newline := []; blankline := [] |}.
(** The words of an element, in lower case. *)
Definition elem_words (e : elem) (ws : list (list char)) : Prop := has_words space (map lower (contents space nl plain e)) ws.

Variables from_root to_root : elem.
Variables from_tag to_tag : string.
Variables from_bank to_bank : string -> option G.
Variables min_diff max_len : Z.
Definition wanted (l : file_link) : Prop := f_from_tag l = Some from_tag /\ f_to_tag l = Some to_tag.
(** Not too long, and (if a minimum is asked for) different enough. *)
Definition admissible (s t : list (list char)) : Prop :=
  (Z.of_nat (length s) <= max_len)%Z /\ (Z.of_nat (length t) <= max_len)%Z /\
  (min_diff = 0%Z \/ exists a b, outside t s a /\ outside s t b /\ (min_diff <= Z.of_nat (a + b))%Z).
(** The elements of a link and their words. *)
Definition link_words (l : file_link) (s t : list (list char)) : Prop :=
  exists e f, pick_id from_root from_tag (f_from_id l) = Ok e /\ pick_id to_root to_tag (f_to_id l) = Ok f /\
              elem_words e s /\ elem_words f t.
Definition graph_of (bank : string -> option G) (i : option string) : option G := match i with Some i => bank i | None => None end.
(** The links that are passed over, the graph pair made for a link, the links that cannot be handled. *)
Definition skipped (l : file_link) : Prop := ~ wanted l \/ exists s t, link_words l s t /\ ~ admissible s t.
Definition made (l : file_link) (p : G * G) : Prop :=
  wanted l /\ (exists s t, link_words l s t /\ admissible s t) /\
  graph_of from_bank (f_from_id l) = Some (fst p) /\ graph_of to_bank (f_to_id l) = Some (snd p).
Definition bad (l : file_link) : Prop :=
  wanted l /\ ((forall s t, ~ link_words l s t) \/
               (exists s t, link_words l s t /\ admissible s t) /\
               (graph_of from_bank (f_from_id l) = None \/ graph_of to_bank (f_to_id l) = None)).
(** The graph pairs made for a list of links, in order. *)
Inductive created : list file_link -> list (G * G) -> Prop :=
| created_nil : created [] []
| created_skip l ls ps : skipped l -> created ls ps -> created (l :: ls) ps
| created_make l p ls ps : made l p -> created ls ps -> created (l :: ls) (p :: ps).
End Spec.
(** l can be had from m by leaving out members. *)
Inductive sublist {A} : list A -> list A -> Prop :=
| sub_nil : sublist [] []
| sub_drop a l m : sublist l m -> sublist l (a :: m)
| sub_keep a l m : sublist l m -> sublist (a :: l) (a :: m).
