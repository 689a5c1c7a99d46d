(** Model of the command lines of the scripts in bin/: the calls of add_argument(). Left out: texts of help messages and names shown in them. *)
From Coq Require Import Ascii String.
From Verif Require Import Py Cmdline_spec.
Open Scope string_scope.
Open Scope nat_scope.
Open Scope list_scope.

Definition t (s : string) : text := list_ascii_of_string s.
(** add_argument("name", nargs=...) *)
Definition operand_arg (n : string) (m : amount) (d : value) : argument := {| spellings := []; name := t n; takes := m; does := Store; type := Any; default := d |}.
(** add_argument("-n", "--name", nargs=..., type=..., default=...) *)
Definition option_arg (ss : list string) (n : string) (m : amount) (k : kind) (d : value) : argument := {| spellings := map t ss; name := t n; takes := m; does := Store; type := k; default := d |}.
(** add_argument(..., action="store_true") *)
Definition flag_arg (ss : list string) (n : string) : argument := {| spellings := map t ss; name := t n; takes := Exactly 0; does := SetTrue; type := Any; default := Truth false |}.
(** argparse.py 1566-1569: added to every parser *)
Definition help_arg : argument := {| spellings := [t "-h"; t "--help"]; name := t "help"; takes := Exactly 0; does := ShowHelp; type := Any; default := Nothing |}.
(** argparse.py 1570-1573 for a parser with a version, lib/daeso/utils/cli.py 34-46 *)
Definition version_arg : argument := {| spellings := [t "-v"; t "--version"]; name := t "version"; takes := Exactly 0; does := ShowVersion; type := Any; default := Nothing |}.
Definition daeso (l : parser) : parser := help_arg :: version_arg :: l.
Definition str (s : string) : value := Text (t s).

(** bin/gb_stats.py 46-95 *)
Definition gb_stats : parser := daeso
  [operand_arg "pattern" One Nothing; option_arg ["-F"; "--format"] "format" One Any (str "alpino"); flag_arg ["-a"; "--with-all"] "with_all"; flag_arg ["-e"; "--with-empty-nodes"] "with_empty_nodes";
   flag_arg ["-f"; "--with-failed-parses"] "with_failed_parses"; flag_arg ["-l"; "--legenda"] "legenda"; flag_arg ["-p"; "--with-punc-nodes"] "with_punc"; option_arg ["-t"; "--token_diff_threshold"] "threshold" One Number (Int 0)].
(** bin/pgc_agreement.py 44-71 *)
Definition pgc_agreement : parser := daeso
  [operand_arg "corpus_fns" Plus Nothing; {| spellings := [t "-a"; t "--annotator"]; name := t "annotators"; takes := One; does := Append; type := Any; default := Nothing |};
   option_arg ["-p"; "--pickle"] "pickle_fn" One Any Nothing; flag_arg ["-w"; "--words-only"] "words_only"].
(** bin/pgc_chdir.py 46-74 *)
Definition pgc_chdir : parser := daeso
  [operand_arg "corpus" Plus Nothing; option_arg ["-p"; "--path-prefix-pair"] "path_prefix_pair" (Exactly 2) Any (Many [str ""; str ""]); flag_arg ["-t"; "--test"] "test"; flag_arg ["-V"; "--verbose"] "verbose"].
(** bin/pgc_cp.py 20-39 *)
Definition pgc_cp : parser := daeso [operand_arg "source" Plus Nothing; operand_arg "target" One Nothing; flag_arg ["-o"; "--overwrite"] "overwrite"].
(** bin/pgc_diff.py 36-79 *)
Definition pgc_diff : parser := daeso
  [operand_arg "corpus1" One Nothing; operand_arg "corpus2" One Nothing; option_arg ["-1"; "--first_annotator"] "first_annotator" One Any (str "First annotator");
   option_arg ["-2"; "--second_annotator"] "second_annotator" One Any (str "Second annotator"); flag_arg ["-c"; "--with_comments"] "with_comments"; flag_arg ["-e"; "--evaluate"] "evaluate";
   flag_arg ["-i"; "--with_ident"] "with_ident"; option_arg ["-r"; "--relations"] "relations" Star Any Nothing].
(** bin/pgc_extract_phrases.py 68-88; the default of -d is a tab *)
Definition pgc_extract_phrases : parser := daeso
  [operand_arg "corpus" Plus Nothing; option_arg ["-d"; "--delimiter"] "delimiter" One Any (Text [ascii_of_nat 9]); flag_arg ["-V"; "--verbose"] "verbose"].
(** bin/pgc_from_ptc.py 75-147 *)
Definition pgc_from_ptc : parser := daeso
  [option_arg ["-p"; "--parallel-text-corpora"] "parallel_text_corpora" Plus Any (Many []); option_arg ["-s"; "--source-graphbanks"] "source_graphbanks" Plus Any (Many []); option_arg ["-t"; "--target-graphbanks"] "target_graphbanks" Plus Any (Many []);
   option_arg ["--source-format"] "source_format" One Any (str "alpino"); option_arg ["--target-format"] "target_format" One Any (str "alpino"); option_arg ["--source-tag"] "source_tag" One Any (str "s"); option_arg ["--target-tag"] "target_tag" One Any (str "s");
   option_arg ["--relations"] "relations" Plus Any (Many (map str ["equals"; "restates"; "specifies"; "generalizes"; "intersects"])); option_arg ["--max-token-len"] "max_token_len" One Number (Int 99999); option_arg ["--min-token-diff"] "min_token_diff" One Number (Int 0)].
(** bin/pgc_join.py 42-63 *)
Definition pgc_join : parser := daeso [operand_arg "file" Plus Nothing; flag_arg ["-f"; "--format"] "format"; flag_arg ["-V"; "--verbose"] "verbose"].
(** bin/pgc_split.py 39-72 *)
Definition pgc_split : parser := daeso
  [operand_arg "filename" One Nothing; flag_arg ["-f"; "--format"] "format"; option_arg ["-p"; "--parts"] "parts" One Number (Int 2); option_arg ["-s"; "--size"] "size" One Number Nothing; flag_arg ["-V"; "--verbose"] "verbose"].
(** bin/pgc_stats.py 45-103; the type of -t is the string "int" *)
Definition pgc_stats : parser := daeso
  [operand_arg "pattern" One Nothing; flag_arg ["-a"; "--with-all"] "with_all"; flag_arg ["-e"; "--with-empty-nodes"] "with_empty_nodes"; flag_arg ["-f"; "--with-failed-parses"] "with_failed_parses"; flag_arg ["-l"; "--legenda"] "legenda";
   flag_arg ["-p"; "--with-punc-nodes"] "with_punc"; flag_arg ["-r"; "--with-unaligned-roots"] "with_unaligned_roots"; option_arg ["-t"; "--token_diff_threshold"] "threshold" One Uncallable (Int 0); flag_arg ["-u"; "--with_unaligned-graphs"] "with_unaligned_graphs"].
(** bin/pgc_zip.py 73-86 *)
Definition pgc_zip : parser := daeso [operand_arg "zip_file" One Nothing; operand_arg "pgc_files" Plus Nothing].
(** bin/ptc_chdir.py 38-65; no version *)
Definition ptc_chdir : parser :=
  [help_arg; operand_arg "corpus" Plus (str "parallel text corpus"); option_arg ["-d"; "--dir"] "dir" One Any (str ""); flag_arg ["-t"; "--test"] "test"; flag_arg ["-V"; "--verbose"] "verbose"].
(** bin/ptc_diff.py 35-55 *)
Definition ptc_diff : parser := daeso
  [operand_arg "true_corpus" One Nothing; operand_arg "pred_corpus" One Nothing; option_arg ["-t"; "--tag"] "tag" One Any (str "s"); option_arg ["-e"; "--encoding"] "encoding" One Any (str "utf-8")].
(** bin/ptc_eval.py 36-52 *)
Definition ptc_eval : parser := daeso
  [option_arg ["-t"; "--true_corpora"] "true_corpora" Plus Any Nothing; option_arg ["-p"; "--pred_corpora"] "pred_corpora" Plus Any Nothing; option_arg ["--tag"] "tag" One Any (str "s")].
(** bin/ptc_n_to_id.py 37-51; no version *)
Definition ptc_n_to_id : parser := [help_arg; operand_arg "corpus" Plus (str "parallel text corpus"); flag_arg ["-V"; "--verbose"] "verbose"].
(** bin/ *)
Definition scripts : list parser :=
  [gb_stats; pgc_agreement; pgc_chdir; pgc_cp; pgc_diff; pgc_extract_phrases; pgc_from_ptc; pgc_join; pgc_split; pgc_stats; pgc_zip; ptc_chdir; ptc_diff; ptc_eval; ptc_n_to_id].
