(** Conformance: the expected results of /repo/test/string/*.py, which are results of the original program, recomputed with the model.
    These are tests of the model, not theorems about it; each comment names the test. *)
From Coq Require Import String Ascii QArith.
From Verif Require Import Py Lev_model Lcs_model Ngram_model Median_model Rouge_model Sim_model Seqal_model.
Open Scope string_scope.
Open Scope nat_scope.
Open Scope list_scope.
Definition chars := list_ascii_of_string.
Definition alignment_of {X Y} (r : res (X * Y)) : res Y := match r with Ok p => Ok (snd p) | Err e => Err e end.
(** assertAlmostEqual with n places: the difference rounds to zero *)
Definition almost (n : nat) (x y : Q) : bool :=
  (Qle_bool (x - y) (1 # (2 * 10 ^ Pos.of_nat n)) && Qle_bool (y - x) (1 # (2 * 10 ^ Pos.of_nat n)))%Q.
Definition almost_root (n : nat) (x : rootquot) (y : Q) : bool :=
  let e := (1 # (2 * 10 ^ Pos.of_nat n))%Q in let n2 := (qn (rq_num x) * qn (rq_num x))%Q in
  (Qle_bool ((y - e) * (y - e) * qn (rq_rad x)) n2 && Qle_bool n2 ((y + e) * (y + e) * qn (rq_rad x)))%Q.
Definition okQ (r : res Q) (p : Q -> bool) : bool := match r with Ok q => p q | Err _ => false end.
Definition words1 := ["a"; "nice"; "and"; "short"; "sentence"; "to"; "start"; "with"].
Definition words2 := ["let's"; "start"; "with"; "a"; "really"; "nice"; "sentence"].
Definition sim10 {X} (eqb : X -> X -> bool) (a b : X) : Z := if eqb a b then 10%Z else (-9)%Z.
Definition sim5 {X} (eqb : X -> X -> bool) (a b : X) : Z := if eqb a b then 5%Z else 0%Z.
Definition gap20 {X} (_ : X) : Z := (-20)%Z.
Definition gap5 {X} (_ : X) : Z := (-5)%Z.

(** test_smith_waterman.py *)
Example test_smith_waterman_example : alignment_of (smith_waterman (sim10 Ascii.eqb) gap20 (chars "CCAATCTACTACTGCTTGCAGTAC") (chars "AGTCCGAGGGCTACTCTACTGAAC")) =
  Ok [(0, 10); (1, 11); (2, 12); (3, 13); (4,14); (5, 15); (6, 16); (7, 17); (8, 18); (9, 19)].
Proof. vm_compute. reflexivity. Qed.
Example test_smith_waterman_1 : alignment_of (smith_waterman (sim5 Ascii.eqb) gap5 (chars "ABCCBA") (chars "CBAABC")) = Ok [(3, 0); (4, 1); (5, 2)].
Proof. vm_compute. reflexivity. Qed.
Example test_smith_waterman_2 : alignment_of (smith_waterman (sim5 String.eqb) gap5 words1 words2) = Ok [(6, 1); (7, 2)].
Proof. vm_compute. reflexivity. Qed.

(** test_needleman_wunsch.py *)
Definition send_sim (a b : string) : Z :=
  match a, b with
  | "S", "A" => 1 | "S", "N" => 1 | "S", "D" => 0 | "E", "A" => -1 | "E", "N" => 0 | "E", "D" => 2
  | "N", "A" => -2 | "N", "N" => 6 | "N", "D" => 1 | "D", "A" => -2 | "D", "N" => 1 | "D", "D" => 6 | _, _ => 0
  end%Z.
Example test_needleman_wunsch_1 : alignment_of (needleman_wunsch send_sim (fun _ => (-10)%Z) ["S"; "E"; "N"; "D"] ["A"; "N"; "D"]) = Ok [(0, 0); (2, 1); (3, 2)].
Proof. vm_compute. reflexivity. Qed.
Example test_needleman_wunsch_2 : alignment_of (needleman_wunsch send_sim (fun _ => (-10)%Z) ["S"; "E"; "N"; "D"] ["N"]) = Ok [(2, 0)].
Proof. vm_compute. reflexivity. Qed.

(** test_waterman_eggert.py *)
Example test_waterman_eggert_example : alignment_of (waterman_eggert (sim10 Ascii.eqb) gap20 (chars "CCAATCTACTACTGCTTGCAGTAC") (chars "AGTCCGAGGGCTACTCTACTGAAC") 10 3) =
  Ok [[(0, 10); (1, 11); (2, 12); (3, 13); (4, 14); (5, 15); (6, 16); (7, 17); (8, 18); (9, 19)];
      [(5, 10); (6, 11); (7, 12); (8, 13); (9, 14); (11, 15); (12, 16); (13, 17); (14, 18); (15, 19)];
      [(8, 15); (9, 16); (10, 17); (11, 18); (12, 19); (13, 20)]].
Proof. vm_compute. reflexivity. Qed.
Example test_waterman_eggert_1 : alignment_of (waterman_eggert (sim5 Ascii.eqb) gap5 (chars "ABCCBA") (chars "CBAABC") 100 0) =
  Ok [[(0, 3); (1, 4); (2, 5)]; [(3, 0); (4, 1); (5, 2)]; [(0, 2); (1, 3); (2, 4); (3, 5)]; [(0, 3); (1, 4); (2, 5)];
      [(1, 1); (2, 2); (3, 3); (4, 4)]; [(2, 0); (3, 1); (4, 2); (5, 3)]; [(3, 0); (4, 1); (5, 2)]; [(3, 5)]; [(5, 3)]].
Proof. vm_compute. reflexivity. Qed.
Example test_waterman_eggert_2 : alignment_of (waterman_eggert (sim5 String.eqb) gap5 words1 words2 100 0) =
  Ok [[(6, 1); (7, 2)]; [(0, 3)]; [(1, 4)]; [(1, 5)]; [(2, 6)]; [(4, 6)]].
Proof. vm_compute. reflexivity. Qed.

(** test_ngram.py *)
Definition toks := ["a"; "nice"; "sentence"].
Example test_n_gram_slices : n_gram_slices toks 1 0 "_" = [["a"]; ["nice"]; ["sentence"]] /\ n_gram_slices toks 2 0 "_" = [["a"; "nice"]; ["nice"; "sentence"]] /\
  n_gram_slices toks 3 0 "_" = [["a"; "nice"; "sentence"]] /\ n_gram_slices [] 2 0 "_" = [] /\
  n_gram_slices toks 2 1 "_" = [["_"; "a"]; ["a"; "nice"]; ["nice"; "sentence"]; ["sentence"; "_"]] /\ n_gram_slices [] 2 1 "_" = [["_"; "_"]].
Proof. vm_compute. auto 10. Qed.
Example test_n_gram_strings : n_gram_strings (map chars toks) 2 0 (chars "_") (chars " ") = map chars ["a nice"; "nice sentence"] /\
  n_gram_strings (map chars toks) 2 1 (chars "_") (chars " ") = map chars ["_ a"; "a nice"; "nice sentence"; "sentence _"].
Proof. vm_compute. auto. Qed.
Example test_n_gram_slices_range : n_gram_slices_range toks [1; 2; 3] false None "_" =
    Ok [(1, [["a"]; ["nice"]; ["sentence"]]); (2, [["a"; "nice"]; ["nice"; "sentence"]]); (3, [["a"; "nice"; "sentence"]])] /\
  n_gram_slices_range toks [1; 2; 3] true None "_" =
    Ok [(1, [["a"]; ["nice"]; ["sentence"]]); (2, [["_"; "a"]; ["a"; "nice"]; ["nice"; "sentence"]; ["sentence"; "_"]]);
        (3, [["_"; "_"; "a"]; ["_"; "a"; "nice"]; ["a"; "nice"; "sentence"]; ["nice"; "sentence"; "_"]; ["sentence"; "_"; "_"]])].
Proof. vm_compute. auto. Qed.

(** test_sgram.py *)
Example test_s_gram_slices : skip_bigram_slices toks None = [("a", "nice"); ("a", "sentence"); ("nice", "sentence")] /\
  skip_bigram_slices ["a"; "really"; "nice"; "sentence"] (Some 1) = [("a", "really"); ("a", "nice"); ("really", "nice"); ("really", "sentence"); ("nice", "sentence")] /\
  skip_bigram_slices ([] : list string) None = [] /\
  padded_skip_bigram_slices toks None "_" = [("_", "a"); ("_", "nice"); ("_", "sentence"); ("_", "_"); ("a", "nice"); ("a", "sentence"); ("a", "_");
    ("nice", "sentence"); ("nice", "_"); ("sentence", "_")].
Proof. vm_compute. auto. Qed.

(** test_levenshtein.py *)
Definition sent1 := ["i"; "am"; "a"; "nice"; "sentence"].
Definition sent2 := ["am"; "i"; "a"; "new"; "sentence"].
Example test_levenshtein : levenshtein Ascii.eqb (chars "abc") (chars "def") = Ok 3 /\ levenshtein Ascii.eqb (chars "abc") (chars "dcb") = Ok 3 /\
  levenshtein Ascii.eqb (chars "abc") (chars "abc") = Ok 0 /\ levenshtein String.eqb sent1 sent2 = Ok 3.
Proof. vm_compute. auto. Qed.
Example test_normalized_levenshtein : okQ (normalized_levenshtein Ascii.eqb (chars "abc") (chars "def")) (Qeq_bool 1) = true /\
  okQ (normalized_levenshtein Ascii.eqb (chars "abc") (chars "asbs")) (almost 7 (1 # 2)) = true /\
  okQ (normalized_levenshtein Ascii.eqb (chars "abc") (chars "abc")) (Qeq_bool 0) = true /\
  okQ (normalized_levenshtein String.eqb sent1 sent2) (almost 1 (59 # 100)) = true.
Proof. vm_compute. auto. Qed.

(** test_rouge.py *)
Definition r1 := ["police"; "killed"; "the"; "gunman"].
Definition r2 := ["police"; "kill"; "the"; "gunman"].
Definition r3 := ["the"; "gunman"; "kill"; "police"].
Definition r4 := ["the"; "gunman"; "police"; "killed"].
Definition r5 := ["gunman"; "the"; "killed"; "police"].
Example test_rouge_n : forallb (fun n => Qeq_bool (rouge_n String.eqb "" r1 [r1] n) 1) [1; 2; 3; 4] = true /\ Qeq_bool (rouge_n String.eqb "" r1 [r1] 5) 0 = true /\
  almost 2 (rouge_n String.eqb "" r1 [r2] 1) (3 # 4) = true /\ almost 2 (rouge_n String.eqb "" r1 [r2] 2) (33 # 100) = true /\ Qeq_bool (rouge_n String.eqb "" r1 [r2] 3) 0 = true /\
  almost 2 (rouge_n String.eqb "" r1 [r2; r3; r4; r5] 1) (1 # 4) = true /\ almost 2 (rouge_n String.eqb "" r1 [r2; r3; r4; r5] 2) (17 # 100) = true.
Proof. vm_compute. auto 10. Qed.
Example test_rouge_l : okQ (rouge_l String.eqb r1 r2 1) (Qeq_bool (3 # 4)) = true /\ okQ (rouge_l String.eqb r1 r3 1) (Qeq_bool (1 # 2)) = true /\ okQ (rouge_l String.eqb r1 r4 1) (Qeq_bool (1 # 2)) = true.
Proof. vm_compute. auto. Qed.
Example test_rouge_su : okQ (rouge_su String.eqb r1 r2 None 1 "<B>") (almost 3 (5999 # 10000)) = true /\ okQ (rouge_su String.eqb r1 r3 None 1 "<B>") (almost 3 (4 # 10)) = true /\
  okQ (rouge_su String.eqb r1 r4 None 1 "<B>") (almost 3 (5999 # 10000)) = true.
Proof. vm_compute. auto. Qed.

(** test_similar.py *)
Definition lev1 := chars "levenshtein".
Definition lev2 := chars "leuwenhstijn".
Definition lev3 := chars "leuvenstein".
Definition ca := chars "a".
Example test_empty_and_identity : forallb (fun f : list ascii -> list ascii -> Q => Qeq_bool (f [] []) 0 && Qeq_bool (f ca []) 0 && Qeq_bool (f [] ca) 0 && Qeq_bool (f ca ca) 1 &&
    Qeq_bool (f (chars "ab") (chars "bc")) (f (chars "bc") (chars "ab")))
  [dice Ascii.eqb; jaccard Ascii.eqb; overlap_min Ascii.eqb; overlap_max Ascii.eqb] = true /\
  forallb (fun f : list (list ascii) -> Q => Qeq_bool (f [[]; []; []; []]) 0 && Qeq_bool (f [ca; []; []; []]) 0 && Qeq_bool (f [[]; []; []; ca]) 0 && Qeq_bool (f [ca; ca; ca; ca]) 1 &&
    Qeq_bool (f [chars "ab"; chars "bc"; chars "bd"]) (f [chars "bd"; chars "bc"; chars "ab"]))
  [generalized_dice Ascii.eqb; generalized_jaccard Ascii.eqb] = true.
Proof. vm_compute. auto. Qed.
Example test_cosine : rq_num (cosine Ascii.eqb [] []) = 0 /\ rq_num (cosine Ascii.eqb ca []) = 0 /\ rq_num (cosine Ascii.eqb [] ca) = 0 /\ cosine Ascii.eqb ca ca = {| rq_num := 1; rq_rad := 1 |} /\
  cosine Ascii.eqb (chars "ab") (chars "bc") = cosine Ascii.eqb (chars "bc") (chars "ab") /\ almost_root 3 (cosine Ascii.eqb lev1 lev2) (609 # 1000) = true /\
  rq_num (generalized_cosine Ascii.eqb [[]; []; []; []]) = 0 /\ rq_num (generalized_cosine Ascii.eqb [ca; []; []; []]) = 0 /\ generalized_cosine Ascii.eqb [ca; ca; ca; ca] = {| rq_num := 1; rq_rad := 1 |} /\
  almost_root 3 (generalized_cosine Ascii.eqb [lev1; lev2; lev3]) (157 # 1000) = true.
Proof. vm_compute. auto 20. Qed.
Example test_values : almost 3 (dice Ascii.eqb lev1 lev2) (609 # 1000) = true /\ almost 3 (generalized_dice Ascii.eqb [lev1; lev2; lev3]) (529 # 1000) = true /\
  almost 3 (jaccard Ascii.eqb lev1 lev2) (636 # 1000) = true /\ almost 3 (generalized_jaccard Ascii.eqb [lev1; lev2; lev3]) (545 # 1000) = true /\
  almost 3 (overlap_min Ascii.eqb lev1 lev2) (636 # 1000) = true /\ almost 3 (overlap_max Ascii.eqb lev1 lev2) (583 # 1000) = true.
Proof. vm_compute. auto 10. Qed.

(** test_lcs.py *)
Definition l1 := chars "abcdefghi".
Definition l2 := chars "xxaxbcxxdefxgxhix".
Example test_lcs : lcs Ascii.eqb l1 l2 = Ok l1 /\ lcs Ascii.eqb l1 l1 = Ok l1 /\ lcs Ascii.eqb l1 [] = Ok [] /\ lcs Ascii.eqb [] [] = Ok [].
Proof. vm_compute. auto. Qed.
Example test_normalized_lcs : match normalized_lcs Ascii.eqb l1 l2 with Ok q => almost_root 3 q (728 # 1000) | Err _ => false end = true /\
  match normalized_lcs Ascii.eqb l1 l1 with Ok q => almost_root 7 q 1 | Err _ => false end = true /\ option_map rq_num (match normalized_lcs Ascii.eqb l1 [] with Ok q => Some q | Err _ => None end) = Some 0.
Proof. vm_compute. auto. Qed.

(** test_median.py *)
Definition levq {X} (eqb : X -> X -> bool) (a b : list X) : Q := match levenshtein eqb a b with Ok d => qn d | Err _ => 0%Q end.
Example test_set_median_string : set_median_string (levq Ascii.eqb) (map chars ["SpSm"; "mpamm"; "Spam"; "Spa"; "Sua"; "hSam"]) = Ok (chars "Spam") /\
  set_median_string (levq Ascii.eqb) (map chars ["ehee"; "cceaes"; "chees"; "chreesc"; "chees"; "cheesee"; "cseese"; "chetese"]) = Ok (chars "chees") /\
  set_median_string (levq String.eqb) [sent1; sent2; ["a"; "nice"; "sentence"; "i"; "am"; "indeed"]] = Ok sent1.
Proof. vm_compute. auto. Qed.
