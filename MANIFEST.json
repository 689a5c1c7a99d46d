{
 "claims": [
  {
   "property": "C01",
   "status": "proved",
   "theorems": [
    "levenshtein_is_edit_distance"
   ],
   "note": ""
  },
  {
   "property": "C02",
   "status": "proved",
   "theorems": [
    "levenshtein_identity",
    "levenshtein_symmetric",
    "levenshtein_triangle",
    "levenshtein_bounds"
   ],
   "note": ""
  },
  {
   "property": "C03",
   "status": "proved",
   "theorems": [
    "normalized_levenshtein_range"
   ],
   "note": "float quotient modelled as exact rational"
  },
  {
   "property": "C04",
   "status": "proved",
   "theorems": [
    "lcs_is_longest_common_subsequence"
   ],
   "note": ""
  },
  {
   "property": "C05",
   "status": "proved",
   "theorems": [
    "normalized_lcs_range"
   ],
   "note": "float sqrt quotient kept exact and interpreted in R"
  },
  {
   "property": "C06",
   "status": "proved",
   "theorems": [
    "n_gram_slices_windows",
    "n_gram_slices_count",
    "n_gram_slices_range_default",
    "n_gram_slices_range_explicit",
    "n_gram_strings_join"
   ],
   "note": ""
  },
  {
   "property": "C07",
   "status": "proved",
   "theorems": [
    "skip_bigrams_exact",
    "skip_bigrams_number",
    "padded_skip_bigrams"
   ],
   "note": ""
  },
  {
   "property": "C08",
   "status": "proved",
   "theorems": [
    "set_median_string_minimal",
    "set_median_string_empty"
   ],
   "note": ""
  },
  {
   "property": "C25",
   "status": "proved",
   "theorems": [
    "graphpair_history_refines_realignment",
    "graphpair_always_one_to_one",
    "graphpair_operations_outcome"
   ],
   "note": ""
  },
  {
   "property": "C26",
   "status": "proved",
   "theorems": [
    "graphpair_alignments_listing",
    "graphpair_partner_queries",
    "graphmapping_history_refines_alignment",
    "graphmapping_alignments_listing",
    "alignments_equal_iff_same_alignments",
    "mapping_alignments_equal_iff_same_alignments",
    "roots_aligned_refuted",
    "roots_aligned_actual"
   ],
   "note": "roots_aligned() looks up the source root twice (finding)"
  },
  {
   "property": "C31",
   "status": "proved",
   "theorems": [
    "evaluation_counts_exact",
    "evaluation_common_bounded",
    "evaluation_exchange",
    "evaluation_of_itself_is_perfect",
    "evaluation_any_relation_totals",
    "evaluation_refuses_unequal_lengths",
    "evaluation_refuses_unknown_relations",
    "evaluation_measures_in_range",
    "evaluation_means_in_range",
    "evaluation_measure_values",
    "evaluation_mean_values",
    "evaluation_variance_values",
    "evaluation_micro_counts",
    "eval_reachable"
   ],
   "note": "float quotients modelled as exact rationals"
  },
  {
   "property": "C20",
   "status": "proved",
   "theorems": [
    "munkres_complete_assignment",
    "munkres_empty_matrix"
   ],
   "note": "integer costs"
  },
  {
   "property": "C21",
   "status": "proved",
   "theorems": [
    "munkres_minimum_cost",
    "munkres_maximum_profit"
   ],
   "note": "integer costs of any size and sign"
  },
  {
   "property": "C22",
   "status": "proved",
   "theorems": [
    "munkres_terminates"
   ],
   "note": ""
  },
  {
   "property": "C16",
   "status": "proved",
   "theorems": [
    "ordereddict_history",
    "ordereddict_log_determines_items",
    "ordereddict_copy",
    "ordereddict_new"
   ],
   "note": ""
  },
  {
   "property": "C17",
   "status": "proved",
   "theorems": [
    "counter_lookup",
    "counter_counts_occurrences",
    "counter_update_iterable",
    "counter_update_mapping",
    "counter_delete",
    "counter_elements",
    "counter_most_common",
    "counter_algebra"
   ],
   "note": ""
  },
  {
   "property": "C18",
   "status": "proved",
   "theorems": [
    "cache_never_wrong",
    "cached_function_transparent",
    "cache_generator_ignored_when_default_fail"
   ],
   "note": "string keys; one thread"
  },
  {
   "property": "C19",
   "status": "proved",
   "theorems": [
    "cache_follows_marks",
    "cache_is_lru_without_overwriting",
    "cache_unlimited_exact",
    "cache_overwriting_blocks",
    "cache_insert_returns_refuted",
    "cache_evicts_least_recently_used_refuted"
   ],
   "note": "exact behaviour for every history; the docstring claim (always LRU, always returns) is false of the code: after overwriting a stored key an insert may loop for ever or evict the wrong entry (finding)"
  },
  {
   "property": "C23",
   "status": "proved",
   "theorems": [
    "graph_nodes_in_insertion_order",
    "graph_rows_in_insertion_order",
    "graph_rows_no_duplicates",
    "graph_edge_sides_agree",
    "graph_node_attributes_last_given",
    "graph_node_attributes_shared_dict_refuted"
   ],
   "note": "a caller's attr_dict is kept by reference (finding)"
  },
  {
   "property": "C24",
   "status": "proved",
   "theorems": [
    "terminal_yield_exact",
    "terminal_yield_tree_order",
    "terminal_yield_unknown_node",
    "terminal_yield_default",
    "terminals_exact",
    "non_terminals_always_fails"
   ],
   "note": "a falsy node such as 0 is replaced by the root; non_terminals() always raises (findings)"
  },
  {
   "property": "C27",
   "status": "proved",
   "theorems": [
    "corpus_history_acts_on_lists",
    "corpus_relations_sorted",
    "corpus_relations_as_given",
    "corpus_failure_changes_nothing"
   ],
   "note": "findings: pop() returns nothing and pop() without an index raises TypeError; insert, integer*corpus and != always raise TypeError; comparing a corpus with meta data against one without raises AttributeError; the caller's relation list is sorted in place"
  },
  {
   "property": "C28",
   "status": "proved",
   "theorems": [
    "purge_keeps_first_same",
    "purge_leaves_no_duplicates",
    "purge_raises_iff",
    "purge_keeps_files",
    "purge_local",
    "purge_one_pair",
    "purge_one_pair_refuted"
   ],
   "note": "finding: purge(graph_pair) ignores its argument when the pair has no alignments, because such a pair is falsy"
  },
  {
   "property": "C29",
   "status": "proved",
   "theorems": [
    "pgc_round_trip",
    "pgc_round_trip_sharing",
    "pgc_write_raises_iff",
    "relative_path_leads_back",
    "any_meta_survives_refuted",
    "meta_survives_refuted"
   ],
   "note": "the XML serialisation itself (ElementTree, expat) is trusted; findings: childless meta data is lost, reserved tags inside meta data are acted upon"
  },
  {
   "property": "C30",
   "status": "proved",
   "theorems": [
    "diff_reports_exactly",
    "diff_returns",
    "diff_refuses",
    "verdicts_partition",
    "verdicts_mirror",
    "diff_words_only_fails",
    "words_only_reports_words_refuted",
    "filter_is_symmetric_refuted"
   ],
   "note": "findings: words_only calls a method that does not exist and its second test is inverted; a relation filter misses relabelled alignments when only the second label is in the filter; an empty relation counts as unaligned"
  },
  {
   "property": "C32",
   "status": "proved",
   "theorems": [
    "agreement_table_correct",
    "agreement_number_of_comparisons",
    "agreement_mean_in_range",
    "agreement_precision_recall_duality",
    "agreement_needs_two_annotators",
    "agreement_same_name_refuted",
    "words_only_exact"
   ],
   "note": "Exact rationals instead of floats; of a standard deviation its square. agreement_same_name_refuted records that annotators with equal names are never compared."
  },
  {
   "property": "C10",
   "status": "proved",
   "theorems": [
    "similarity_values",
    "similarity_counts_exist",
    "similarity_symmetric_in_range",
    "cosine_symmetric_in_range",
    "similarity_one_iff",
    "similarity_without_duplicates",
    "token_match_bounds",
    "generalized_values",
    "generalized_in_range",
    "generalized_agree_on_two",
    "generalized_identity",
    "generalized_cosine_not_normalized_refuted"
   ],
   "note": "Floats are exact rationals; cosines are exact root quotients. generalized_cosine is not normalized for one or for more than two sequences (refuted)."
  },
  {
   "property": "C09",
   "status": "proved",
   "theorems": [
    "rouge_ngram_value",
    "rouge_n_value",
    "rouge_n_at_most_one_refuted",
    "rouge_l_value",
    "rouge_l_of_empty_raises",
    "rouge_s_value",
    "rouge_s_of_short_raises",
    "rouge_s_symmetric",
    "rouge_su_value",
    "rouge_su_range"
   ],
   "note": "Floats are exact rationals. ROUGE-N can exceed 1 (refuted)."
  },
  {
   "property": "C14",
   "status": "proved",
   "theorems": [
    "vocabulary",
    "frequencies",
    "idf_value",
    "tf_idf_value",
    "weights_in_range",
    "normalized_fails"
   ],
   "note": "Floats are real numbers (Coq Reals, stdlib axioms)."
  },
  {
   "property": "C15",
   "status": "proved",
   "theorems": [
    "spell_words",
    "groups_always_exist",
    "spell_hundreds",
    "same_words_iff",
    "words_unambiguous_below_million",
    "words_determine_number_refuted",
    "round_thousands_say_nul",
    "spell_out_of_range"
   ],
   "note": "Finding: 1000000 and 1001000 get the same words; round thousands end in nul."
  },
  {
   "property": "C11",
   "status": "proved",
   "theorems": [
    "needleman_wunsch_optimal",
    "needleman_wunsch_ties",
    "needleman_wunsch_element_gaps_refuted"
   ],
   "note": "Scores are integers. Finding: element-dependent gap costs give non-optimal alignments."
  },
  {
   "property": "C12",
   "status": "proved",
   "theorems": [
    "smith_waterman_optimal",
    "smith_waterman_ties",
    "smith_waterman_last_end"
   ],
   "note": "Scores are integers."
  },
  {
   "property": "C13",
   "status": "proved",
   "theorems": [
    "waterman_eggert_limited",
    "waterman_eggert_first_optimal",
    "waterman_eggert_disjoint_refuted",
    "waterman_eggert_terminates_refuted"
   ],
   "note": "Findings: alignments intersect; unlimited search need not terminate."
  },
  {
   "property": "C33",
   "status": "proved",
   "theorems": [
    "index_document_text",
    "index_element_text",
    "index_numbering",
    "index_count_table",
    "index_id_table",
    "index_hidden",
    "index_hidden_text",
    "index_visible_mark",
    "ignored_leaf_not_marked_refuted",
    "ignored_element_text_refuted"
   ],
   "note": "index_elem/update/get_elem_text; two findings (leaf not marked, stale positions)"
  },
  {
   "property": "C34",
   "status": "proved",
   "theorems": [
    "inject_n_links",
    "inject_id_links",
    "inject_extract_n",
    "inject_extract_id",
    "extract_inject_n",
    "extract_inject_id",
    "inject_n_exact",
    "inject_id_exact",
    "inject_n_unknown_tag",
    "inject_n_too_large",
    "inject_extract_order_refuted",
    "inject_zero_rejected_refuted",
    "extract_inject_same_id_refuted"
   ],
   "note": "Both methods (n and id); findings: order, number 0, shared ids"
  },
  {
   "property": "C35",
   "status": "proved",
   "theorems": [
    "no_cross_filter_greedy",
    "threshold_filter_exact",
    "filters_select"
   ],
   "note": "Any score order, any tie-breaking of the sort"
  },
  {
   "property": "C36",
   "status": "proved",
   "theorems": [
    "clear_alignments_exact",
    "create_alignments_once",
    "align_corpus_result",
    "align_corpus_others_unchanged",
    "clear_only_focus_pairs_refuted",
    "align_corpus_keeps_root_links_refuted"
   ],
   "note": "Term, weight and similarity functions are parameters; two findings (one-sided links cleared, root link written)"
  },
  {
   "property": "C37",
   "status": "proved",
   "theorems": [
    "weighted_cosine_range",
    "weighted_cosine_any_range",
    "weighted_cosine_symmetric",
    "weighted_cosine_self",
    "weighted_cosine_no_terms",
    "weighted_cosine_value"
   ],
   "note": "Real numbers instead of floats"
  },
  {
   "property": "C44",
   "status": "proved",
   "theorems": [
    "count_alignment_exact",
    "count_alignment_swap",
    "compute_scores_values",
    "f_score_extremes",
    "eval_alignment_rows",
    "links_by_number_score_one",
    "print_diff_fails",
    "print_diff_exact",
    "print_diff_swap",
    "print_diff_self",
    "print_diff_links",
    "print_diff_tags_refuted"
   ],
   "note": "Floats as exact rationals; printed text of the elements left out."
  },
  {
   "property": "C38",
   "status": "proved",
   "theorems": [
    "equals_decides",
    "equals_true_iff",
    "equals_raises_only",
    "equals_reflexive",
    "equals_symmetric",
    "equals_transitive",
    "indent_layout",
    "indent_idempotent",
    "indent_equals",
    "indent_equality_refuted",
    "equals_missing_text_refuted",
    "indent_nbsp_refuted"
   ],
   "note": "Attribute maps have unique keys (well_formed); file output not modelled."
  },
  {
   "property": "C41",
   "status": "proved",
   "theorems": [
    "split_default_size",
    "split_partitions",
    "split_at_most",
    "split_fails_iff",
    "split_negative_writes_nothing",
    "join_split_restores",
    "join_result",
    "split_exact_number_refuted",
    "join_split_refuted"
   ],
   "note": "Files hold relations and graph pairs; reading, writing and the final purge are C28/C29."
  },
  {
   "property": "C46",
   "status": "proved",
   "theorems": [
    "chdir_exact",
    "chdir_undo",
    "chdir_same",
    "chdir_pgc_files",
    "chdir_pgc_run",
    "chdir_pgc_stops",
    "chdir_directory_refuted",
    "chdir_new_path",
    "chdir_new_path_idempotent",
    "chdir_new_path_idempotent_refuted",
    "chdir_ptc_files",
    "chdir_ptc_run",
    "chdir_ptc_stops"
   ],
   "note": "Exact effect, undo condition, failure points; the prefix is not directory aware and ptc_chdir without directory is not idempotent (refuted theorems)."
  },
  {
   "property": "C45",
   "status": "proved",
   "theorems": [
    "create_exact",
    "create_fails_iff",
    "create_monotone",
    "create_app",
    "words_exist_unique",
    "create_numbered_link_reported_refuted"
   ],
   "note": "starts from parsed links, trees and loaded banks"
  },
  {
   "property": "C42",
   "status": "proved",
   "theorems": [
    "read_pairs_succeeds",
    "stubs_shared",
    "sparse_succeeds",
    "sparse_errors",
    "sparse_binds",
    "sparse_unrequested",
    "sparse_only",
    "full_succeeds",
    "sparse_as_full",
    "self_pair_refuted"
   ],
   "note": "self_pair_refuted: a pair of a graph with itself loads with LOAD_ALL but raises AssertionError with LOAD_SPARSE."
  },
  {
   "property": "C43",
   "status": "proved",
   "theorems": [
    "parse_succeeds",
    "parse_errors",
    "parse_graphs",
    "parse_lookup",
    "sparse_like_full",
    "unwanted_skipped",
    "layout_irrelevant",
    "defaults_ignored",
    "root_never_set",
    "parse_string_sparse",
    "parse_string_full",
    "sparse_model_agrees",
    "root_refuted",
    "late_data_refuted"
   ],
   "note": "Event-level model of the GraphML parser; expat itself is not modelled."
  },
  {
   "property": "C39",
   "status": "proved",
   "theorems": [
    "stats_exact",
    "stats_defined",
    "stats_errors",
    "stats_of_files",
    "relations_add_up",
    "pairs_add_up",
    "default_pairs",
    "banks_add_up",
    "pgc_percents_in_range",
    "gb_percents_in_range",
    "percent_values",
    "overall_adds_up",
    "overall_values",
    "overall_percents",
    "weaker_options",
    "stats_order",
    "bank_only",
    "failed_percent_refuted",
    "single_aligned_refuted",
    "unaligned_root_somewhere"
   ],
   "note": "exact counts of rows and banks, accounting identities, percentages, monotonicity in the options, order independence, error conditions; three findings as theorems"
  },
  {
   "property": "C47",
   "status": "proved",
   "theorems": [
    "segment_stats",
    "names_differ",
    "total_adds_up",
    "count_unique",
    "fresh_run",
    "no_parts_error",
    "part_error",
    "old_table_counted_refuted",
    "short_file_refuted",
    "all_counted_twice_refuted",
    "shared_name_refuted"
   ],
   "note": "segment_stats is the main theorem; what stats() gives for a directory is a parameter"
  },
  {
   "property": "C48",
   "status": "proved",
   "theorems": [
    "graph_pair_equality",
    "pair_equality_transitive",
    "corpus_equality",
    "corpus_equality_transitive",
    "everything_visible",
    "pair_copy",
    "corpus_copy",
    "original_apart",
    "copy_apart",
    "copy_equals_original",
    "annotator_found",
    "annotator_set",
    "annotators_join",
    "copy_equals_refuted",
    "slice_annotator_refuted",
    "annotator_missing_refuted",
    "no_meta_data",
    "comparison_raises_refuted"
   ],
   "note": "Equality, deep copies (separation both ways), annotators, over all histories."
  },
  {
   "property": "C49",
   "status": "proved",
   "theorems": [
    "cp_keeps_existing",
    "cp_changes_only_targets",
    "cp_copies",
    "cp_ends_early",
    "cp_usage",
    "cp_takes_anything",
    "cp_copies_all_refuted",
    "multiglob_correct",
    "glob_correct",
    "zip_contents",
    "zip_succeeds_iff",
    "unpacked_corpus_reads",
    "relaxed_reading_same",
    "archive_directory",
    "every_corpus_arrives_refuted",
    "unpacked_bank_used_refuted",
    "multiglob_no_repeats_refuted"
   ],
   "note": "File system without links; paths absolute. Unpacking is ZipFile.extractall, entry by entry. Serialisation is taken to give back the elements."
  },
  {
   "property": "C50",
   "status": "proved",
   "theorems": [
    "operation_correct",
    "operation_fails_iff",
    "new_document",
    "history_correct",
    "missing_side",
    "filename_is",
    "root_and_tags_are",
    "tags_with_are",
    "pseudo_root_tags_are",
    "elem_is_first",
    "elem_dict_has_last",
    "search_is",
    "search_same_directory_refuted",
    "accepted_iff",
    "element_accepted_iff",
    "refused_how",
    "new_document_reads_refuted",
    "empty_element_refused_refuted",
    "settings_read_back"
   ],
   "note": "All settings of HitaextDoc as a refinement of an abstract record, over all histories; searching, validation, writing and reading back."
  },
  {
   "property": "C51",
   "status": "proved",
   "theorems": [
    "named_similarities",
    "word_terms_are_ngrams",
    "char_terms_are_ngrams",
    "preprocessed_word_terms",
    "punctuation_removed_refuted",
    "preprocessed_char_terms_are_words",
    "preprocessed_char_terms_are_characters_refuted",
    "scores_every_pair",
    "scores_errors",
    "default_selects_every_pair",
    "threshold_selects_exactly",
    "tf_idf_cosine_informative",
    "identical_pair_scores_one_refuted",
    "weighted_cosine_needs_weights"
   ],
   "note": "remove_stopwords (package daeso_nl) is a parameter"
  },
  {
   "property": "C52",
   "status": "proved",
   "theorems": [
    "results_exact",
    "results_in_range",
    "sums_over_relations",
    "division_irrelevant",
    "evaluations_in_between",
    "unequal_refused",
    "add_one_row",
    "names_and_rows",
    "evaluation_fails_iff",
    "report_exact",
    "report_rows_read",
    "report_needs_evaluation",
    "failed_add_harmless_refuted",
    "repeated_relations_refuted"
   ],
   "note": "AlignEval over any history of additions and evaluations; exact rationals; statistics, report line by line"
  },
  {
   "property": "C53",
   "status": "proved",
   "theorems": [
    "cache_linearizable",
    "cache_threads_no_deadlock",
    "cache_threads_finish",
    "cache_unlimited_threads_finish",
    "cached_function_threads_finish",
    "cached_function_threads",
    "cache_hang_blocks_threads",
    "cache_keys_linearizable_refuted"
   ],
   "note": "Atomicity assumed at the level of Python statements (see Threads_model.v); generators return without using the cache."
  },
  {
   "property": "C54",
   "status": "proved",
   "theorems": [
    "printed_root_exact",
    "agreement_report_correct",
    "agreement_report_columns",
    "agreement_report_long_name_refuted",
    "agreement_default_names",
    "agreement_report_symmetry"
   ],
   "note": "The report of AlignEval that is printed first is C52. Dict orders are given. Annotators called mean, SD or overall are not modelled; standard deviations are exact roots."
  },
  {
   "property": "C55",
   "status": "proved",
   "theorems": [
    "conversion_keeps_alignments",
    "conversion_injects_the_same",
    "conversion_idempotent",
    "conversion_exact",
    "conversion_shared_ids_refuted",
    "conversion_loses_corpus_refuted"
   ],
   "note": "bin/ptc_n_to_id.py on top of C34"
  },
  {
   "property": "C56",
   "status": "proved",
   "theorems": [
    "phrases_printed",
    "phrases_by_rows",
    "phrases_readable",
    "phrases_blank_delimiter_refuted",
    "phrases_tab_in_token_refuted"
   ],
   "note": "bin/pgc_extract_phrases.py"
  },
  {
   "property": "C57",
   "status": "proved",
   "theorems": [
    "memo_transparent",
    "plain_evaluation_deterministic",
    "memo_once",
    "memo_default_fail",
    "default_marshaller_distinct",
    "same_name_refuted"
   ],
   "note": "cached() on recursive functions"
  },
  {
   "property": "C58",
   "status": "proved",
   "theorems": [
    "alignment_grid_shown",
    "alignment_grid_recovers",
    "scores_printed",
    "score_grid_shown",
    "score_grid_recovers",
    "aligner_tables_printed",
    "all_alignments_printed",
    "score_fractions_refuted",
    "score_grid_wide_refuted"
   ],
   "note": "exact model of both printers; output before an exception is not modelled"
  },
  {
   "property": "C59",
   "status": "proved",
   "theorems": [
    "ordered_nodes",
    "ordered_edges",
    "ordered_edge_attributes",
    "ordered_node_attributes",
    "ordered_own_attributes",
    "ordered_from_data_refuted",
    "ordered_own_attributes_refuted"
   ],
   "note": "two refuted theorems record the shared attributes of add_nodes_from and that graphs cannot be made from data"
  },
  {
   "property": "C60",
   "status": "proved",
   "theorems": [
    "makedirs_alone",
    "makedirs_again",
    "makedirs_with_others",
    "makedirs_never_raises",
    "makedirs_made_refuted"
   ],
   "note": "one refuted theorem records that makedirs returns without having made the directory"
  },
  {
   "property": "C61",
   "status": "proved",
   "theorems": [
    "batch_counts",
    "batch_touches",
    "batch_output_name",
    "batch_outputs",
    "batch_stops",
    "batch_all",
    "batch_shared_refuted",
    "pgc_stats_options",
    "pgc_stats_threshold_refuted",
    "gb_stats_options"
   ],
   "note": "Batch scripts; the conversion itself is a parameter (C45 models it)."
  },
  {
   "property": "C40",
   "status": "proved",
   "theorems": [
    "summarize_sums",
    "grow_keeps",
    "grow_twice",
    "empty_iff",
    "new_table_columns",
    "write_read",
    "lines_align",
    "read_needs_separators",
    "read_ignores_rest",
    "read_fails",
    "read_exactly",
    "overall_line",
    "legenda",
    "width_of_strings",
    "pgc_table_columns",
    "gb_table_columns",
    "stats_table_readable",
    "blank_in_name_refuted",
    "wide_counts_refuted",
    "dashes_in_name_refuted",
    "no_columns_refuted"
   ],
   "note": "exact round trip for readable tables; floats are rational numbers; the width and prec arguments of Column are ignored by the code (always 8 and 2); four findings as _refuted"
  },
  {
   "property": "C62",
   "status": "proved",
   "theorems": [
    "tokens_last_given",
    "tokens_meaning_unique",
    "tokens_set_fails",
    "token_string_set",
    "token_string_value",
    "token_string_again",
    "node_kinds",
    "token_string_of_empty_refuted",
    "add_nodes_from_refuted",
    "dump_prints"
   ],
   "note": "Tokens of nodes; two refuted theorems record findings."
  },
  {
   "property": "C63",
   "status": "proved",
   "theorems": [
    "any_key_cache_never_wrong",
    "any_key_cache_keys",
    "string_like_key_found",
    "string_like_keys_cache",
    "same_string_same_entry",
    "unhashable_key_not_stored",
    "has_key_after_insert_refuted",
    "overwriting_evicts_nothing_refuted",
    "distinct_keys_distinct_values_refuted"
   ],
   "note": "any history, any keys; three refutations"
  },
  {
   "property": "C64",
   "status": "proved",
   "theorems": [
    "pair_equality",
    "pair_equality_equivalence",
    "pair_equality_returns",
    "self_containing_pair_never_returns",
    "pairs_never_changed_are_finite",
    "new_pair_unpacks",
    "set_replaces_both",
    "assigning_one_item",
    "pair_text",
    "pair_text_finite",
    "pair_in_list",
    "unequal_is_not_equal_refuted",
    "equal_pairs_equal_keys_refuted",
    "set_source_keeps_target_refuted"
   ],
   "note": "all heaps of pairs; three refutations"
  },
  {
   "property": "C65",
   "status": "proved",
   "theorems": [
    "stock_observations",
    "stock_without_adding_twice",
    "item_added_twice_stays",
    "discarding_loop",
    "updating_loop_endless",
    "updating_loop_single",
    "stock_length_refuted",
    "discarded_is_gone_refuted"
   ],
   "note": "all histories and two loops; two refutations"
  },
  {
   "property": "C66",
   "status": "proved",
   "theorems": [
    "cached_values_are_right",
    "finished_thread_has_all_answers",
    "value_is_unique",
    "computed_at_most_once",
    "ordered_caches_do_not_deadlock",
    "one_cache_does_not_deadlock",
    "steps_are_bounded",
    "descending_calls_end",
    "all_threads_can_finish",
    "no_lock_is_left",
    "deadlock_is_forever",
    "crossing_caches_finish_refuted"
   ],
   "note": "Arbitrary call trees, caches, threads, schedules and evictions; progress under an order of the caches, deadlock refutation without. Exceptions in functions are not modelled here."
  },
  {
   "property": "C67",
   "status": "proved",
   "theorems": [
    "print_matrix_fails",
    "print_matrix_only_fails_so",
    "print_matrix_prints",
    "print_matrix_width",
    "matrix_is_straight",
    "matrix_can_be_read_back"
   ],
   "note": "Integers only (floats in a matrix are not modelled)."
  },
  {
   "property": "C68",
   "status": "proved",
   "theorems": [
    "needleman_wunsch_is_levenshtein",
    "needleman_wunsch_is_lcs",
    "needleman_wunsch_is_indel_distance",
    "smith_waterman_is_lcs",
    "levenshtein_lcs_bounds"
   ],
   "note": "all theorems at full generality; no new model code, the models of C01, C04, C11, C12"
  },
  {
   "property": "C69",
   "status": "proved",
   "theorems": [
    "command_line_outcomes",
    "command_line_is_read",
    "values_are_defaults_or_given",
    "options_around_operands",
    "operands_after_two_dashes",
    "best_deal_unique",
    "no_unknown_options",
    "scripts_are_proper",
    "pgc_stats_has_no_threshold"
   ],
   "note": "parse_args of the bundled argparse and the parsers of all fifteen scripts"
  },
  {
   "property": "C70",
   "status": "proved",
   "theorems": [
    "expect_exact_answers",
    "expect_answers",
    "answers_are_unique",
    "wide_window_is_harmless",
    "nothing_is_lost",
    "flag_tells_eof",
    "nothing_is_lost_with_regular_expressions",
    "as_if_all_at_once",
    "pieces_do_not_matter",
    "read_returns_the_next_bytes",
    "read_returns_everything",
    "readline_returns_the_next_line",
    "readlines_returns_the_lines",
    "lines_are_unique",
    "pieces_matter_for_contained_strings",
    "small_window_hides",
    "read_with_a_window_drops_bytes",
    "error_forgets_what_was_read"
   ],
   "note": "relation that searches everything each time; findings as theorems"
  },
  {
   "property": "C71",
   "status": "proved",
   "theorems": [
    "command_line_is_split",
    "every_command_line_can_be_read",
    "escaped_arguments_come_back",
    "quoted_arguments_come_back",
    "which_finds_the_program",
    "every_path_has_directories",
    "child_arguments",
    "run_returns_the_output",
    "run_follows_the_responses",
    "run_ends",
    "run_with_an_eof_event_never_ends",
    "run_with_a_timeout_event_repeats",
    "blank_before_a_command_runs_a_directory",
    "which_searches_for_names_with_a_slash"
   ],
   "note": "state machine against written lines; findings as theorems"
  },
  {
   "property": "C72",
   "status": "proved",
   "theorems": [
    "usage_in_one_line",
    "usage_is_laid_out",
    "layout_is_determined",
    "usage_is_shown",
    "usage_says_the_same",
    "lines_fit",
    "scripts_show_usage",
    "error_shows_usage",
    "empty_line_before_a_long_argument"
   ],
   "note": "usage and error texts; width from COLUMNS; well-formed names"
  },
  {
   "property": "C73",
   "status": "proved",
   "theorems": [
    "only_its_child_is_signalled",
    "attributes_tell_the_end",
    "after_the_end",
    "isalive_is_truthful",
    "isalive_notices_the_end",
    "isalive_after_eof_waits",
    "wait_gives_the_code",
    "wait_too_late",
    "terminate_in_order",
    "terminate_by_force",
    "kill_sends_once",
    "close_ends_the_child",
    "first_close",
    "close_by_force",
    "close_again_is_an_error"
   ],
   "note": "Any use of the child under any schedule; time.sleep does nothing, SIGKILL ends the child at once, what other signals do is part of the schedule. A child that is stopped is alive. Findings: wait_too_late, isalive_after_eof_waits, close_again_is_an_error."
  },
  {
   "property": "C74",
   "status": "proved",
   "theorems": [
    "typed_text_reaches_the_child",
    "child_gets_the_first_part",
    "output_is_shown",
    "terminal_is_restored",
    "escape_is_not_sent",
    "first_of_two_escapes_is_sent",
    "end_of_input_is_not_noticed",
    "send_counts",
    "sendline_ends_the_line",
    "writelines_sends",
    "sendcontrol_sends_the_code"
   ],
   "note": "Reading from the terminal does not fail; the child is alive for a given number of tests (C73). Findings: first_of_two_escapes_is_sent, end_of_input_is_not_noticed, writelines_sends, sendline_ends_the_line."
  },
  {
   "property": "C75",
   "status": "proved",
   "theorems": [
    "nothing_is_lost",
    "flag_tells_eof",
    "logs_get_what_is_read",
    "data_in_time",
    "read_at_once",
    "eof_is_the_end",
    "timeout_is_exact",
    "read_returns",
    "read_after_eof_waits",
    "reading_nothing_is_eof"
   ],
   "note": "Time-outs from 0 on; a signal only interrupts select. Findings: read_after_eof_waits, reading_nothing_is_eof."
  },
  {
   "property": "C76",
   "status": "proved",
   "theorems": [
    "setecho_then_getecho",
    "setecho_changes_nothing_else",
    "setecho_is_idempotent",
    "waitnoecho_in_time",
    "waitnoecho_finds_it",
    "waitnoecho_for_ever",
    "short_silence_is_missed"
   ],
   "note": "Sleeping is exact, looking takes no time. Finding: short_silence_is_missed."
  },
  {
   "property": "C77",
   "status": "proved",
   "theorems": [
    "help_shows_everything",
    "help_is_tidy",
    "help_is_shown_if",
    "narrow_lines_refuse_help",
    "blank_help_is_refused",
    "stray_percent_is_refused"
   ],
   "note": "textwrap.wrap is a parameter with a stated contract, met by a sample; names without line ends"
  }
 ]
}
