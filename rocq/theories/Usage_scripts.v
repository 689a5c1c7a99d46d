(** Model of what the scripts in bin/ show as their usage: the names given to add_argument() as metavar, by the name of the
    argument; help=... of the parsers in Cmdline_scripts. *)
From Coq Require Import Ascii String.
From Verif Require Import Py Cmdline_spec Cmdline_scripts Usage_spec.
Open Scope string_scope.
Open Scope nat_scope.
Open Scope list_scope.

(** metavar=... of the arguments in a list, None for the others *)
Definition with_metavars (p : parser) (l : list (string * string)) : list shown :=
  map (fun a => {| arg := a; metavar := option_map (fun x => t (snd x)) (find (fun x => text_eqb (t (fst x)) (name a)) l) |}) p.
(** the scripts of bin/: metavar in gb_stats.py 54, 92; pgc_agreement.py 49, 55, 64; pgc_chdir.py 59; pgc_diff.py 50, 56, 77;
    pgc_extract_phrases.py 73; pgc_from_ptc.py 80-144; pgc_join.py 48; pgc_split.py 43, 57, 64; pgc_stats.py 95; pgc_zip.py 78, 84 *)
Definition script_usages : list (string * list shown) :=
  [("gb_stats.py", with_metavars gb_stats [("format", "STRING"); ("threshold", "THRESHOLD")]);
   ("pgc_agreement.py", with_metavars pgc_agreement [("corpus_fns", "corpus"); ("annotators", "CC"); ("pickle_fn", "FILE")]);
   ("pgc_chdir.py", with_metavars pgc_chdir [("path_prefix_pair", "DIR")]);
   ("pgc_cp.py", with_metavars pgc_cp []);
   ("pgc_diff.py", with_metavars pgc_diff [("first_annotator", "NAME"); ("second_annotator", "NAME"); ("relations", "REL")]);
   ("pgc_extract_phrases.py", with_metavars pgc_extract_phrases [("corpus", "FILE")]);
   ("pgc_from_ptc.py", with_metavars pgc_from_ptc
      [("parallel_text_corpora", "CORPUS"); ("source_graphbanks", "GRAPHBANK"); ("target_graphbanks", "GRAPHBANK"); ("source_format", "alpino|graphml"); ("target_format", "alpino|graphml");
       ("source_tag", "TAG"); ("target_tag", "TAG"); ("relations", "REL"); ("max_token_len", "N"); ("min_token_diff", "N")]);
   ("pgc_join.py", with_metavars pgc_join [("file", "FILE")]);
   ("pgc_split.py", with_metavars pgc_split [("filename", "FILE"); ("parts", "N"); ("size", "N")]);
   ("pgc_stats.py", with_metavars pgc_stats [("threshold", "THRESHOLD")]);
   ("pgc_zip.py", with_metavars pgc_zip [("zip_file", "ZIP_FILE"); ("pgc_files", "CORPUS_FILE")]);
   ("ptc_chdir.py", with_metavars ptc_chdir []);
   ("ptc_diff.py", with_metavars ptc_diff []);
   ("ptc_eval.py", with_metavars ptc_eval []);
   ("ptc_n_to_id.py", with_metavars ptc_n_to_id [])].
