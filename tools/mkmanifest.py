#!/usr/bin/env python3
"""Writes MANIFEST.json (documentation of which theorem proves which property)."""
import json, os
M = []
def m(prop, status, theorems, note=""):
    M.append(dict(property=prop, status=status, theorems=theorems, note=note))
m("C01","proved",["levenshtein_is_edit_distance"])
m("C02","proved",["levenshtein_identity","levenshtein_symmetric","levenshtein_triangle","levenshtein_bounds"])
m("C03","proved",["normalized_levenshtein_range"],"float quotient modelled as exact rational")
m("C04","proved",["lcs_is_longest_common_subsequence"])
m("C05","proved",["normalized_lcs_range"],"float sqrt quotient kept exact and interpreted in R")
m("C06","proved",["n_gram_slices_windows","n_gram_slices_count","n_gram_slices_range_default","n_gram_slices_range_explicit","n_gram_strings_join"])
m("C07","proved",["skip_bigrams_exact","skip_bigrams_number","padded_skip_bigrams"])
m("C08","proved",["set_median_string_minimal","set_median_string_empty"])
m("C25","proved",["graphpair_history_refines_realignment","graphpair_always_one_to_one","graphpair_operations_outcome"])
m("C26","proved",["graphpair_alignments_listing","graphpair_partner_queries","graphmapping_history_refines_alignment","graphmapping_alignments_listing","alignments_equal_iff_same_alignments","mapping_alignments_equal_iff_same_alignments","roots_aligned_refuted","roots_aligned_actual"],"roots_aligned() looks up the source root twice (finding)")
m("C31","proved",["evaluation_counts_exact","evaluation_common_bounded","evaluation_exchange","evaluation_of_itself_is_perfect","evaluation_any_relation_totals","evaluation_refuses_unequal_lengths","evaluation_refuses_unknown_relations","evaluation_measures_in_range","evaluation_means_in_range","evaluation_measure_values","evaluation_mean_values","evaluation_variance_values","evaluation_micro_counts","eval_reachable"],"float quotients modelled as exact rationals")
m("C20","proved",["munkres_complete_assignment","munkres_empty_matrix"],"integer costs")
m("C21","proved",["munkres_minimum_cost","munkres_maximum_profit"],"integer costs of any size and sign")
m("C22","proved",["munkres_terminates"])
m("C16","proved",["ordereddict_history","ordereddict_log_determines_items","ordereddict_copy","ordereddict_new"])
m("C17","proved",["counter_lookup","counter_counts_occurrences","counter_update_iterable","counter_update_mapping","counter_delete","counter_elements","counter_most_common","counter_algebra"])
m("C18","proved",["cache_never_wrong","cached_function_transparent","cache_generator_ignored_when_default_fail"],"string keys; one thread")
m("C19","proved",["cache_follows_marks","cache_is_lru_without_overwriting","cache_unlimited_exact","cache_overwriting_blocks","cache_insert_returns_refuted","cache_evicts_least_recently_used_refuted"],"exact behaviour for every history; the docstring claim (always LRU, always returns) is false of the code: after overwriting a stored key an insert may loop for ever or evict the wrong entry (finding)")
m("C23","proved",["graph_nodes_in_insertion_order","graph_rows_in_insertion_order","graph_rows_no_duplicates","graph_edge_sides_agree","graph_node_attributes_last_given","graph_node_attributes_shared_dict_refuted"],"a caller's attr_dict is kept by reference (finding)")
m("C24","proved",["terminal_yield_exact","terminal_yield_tree_order","terminal_yield_unknown_node","terminal_yield_default","terminals_exact","non_terminals_always_fails"],"a falsy node such as 0 is replaced by the root; non_terminals() always raises (findings)")
m("C27","proved",["corpus_history_acts_on_lists","corpus_relations_sorted","corpus_relations_as_given","corpus_failure_changes_nothing"],"findings: pop() returns nothing and pop() without an index raises TypeError; insert, integer*corpus and != always raise TypeError; comparing a corpus with meta data against one without raises AttributeError; the caller's relation list is sorted in place")
m("C28","proved",["purge_keeps_first_same","purge_leaves_no_duplicates","purge_raises_iff","purge_keeps_files","purge_local","purge_one_pair","purge_one_pair_refuted"],"finding: purge(graph_pair) ignores its argument when the pair has no alignments, because such a pair is falsy")
m("C29","proved",["pgc_round_trip","pgc_round_trip_sharing","pgc_write_raises_iff","relative_path_leads_back","any_meta_survives_refuted","meta_survives_refuted"],"the XML serialisation itself (ElementTree, expat) is trusted; findings: childless meta data is lost, reserved tags inside meta data are acted upon")
m("C30","proved",["diff_reports_exactly","diff_returns","diff_refuses","verdicts_partition","verdicts_mirror","diff_words_only_fails","words_only_reports_words_refuted","filter_is_symmetric_refuted"],"findings: words_only calls a method that does not exist and its second test is inverted; a relation filter misses relabelled alignments when only the second label is in the filter; an empty relation counts as unaligned")
m("C32","proved",["agreement_table_correct","agreement_number_of_comparisons","agreement_mean_in_range","agreement_precision_recall_duality","agreement_needs_two_annotators","agreement_same_name_refuted","words_only_exact"],"Exact rationals instead of floats; of a standard deviation its square. agreement_same_name_refuted records that annotators with equal names are never compared.")
m("C10","proved",["similarity_values","similarity_counts_exist","similarity_symmetric_in_range","cosine_symmetric_in_range","similarity_one_iff","similarity_without_duplicates","token_match_bounds","generalized_values","generalized_in_range","generalized_agree_on_two","generalized_identity","generalized_cosine_not_normalized_refuted"],'Floats are exact rationals; cosines are exact root quotients. generalized_cosine is not normalized for one or for more than two sequences (refuted).')
m("C09","proved",["rouge_ngram_value","rouge_n_value","rouge_n_at_most_one_refuted","rouge_l_value","rouge_l_of_empty_raises","rouge_s_value","rouge_s_of_short_raises","rouge_s_symmetric","rouge_su_value","rouge_su_range"],'Floats are exact rationals. ROUGE-N can exceed 1 (refuted).')
m("C14","proved",["vocabulary","frequencies","idf_value","tf_idf_value","weights_in_range","normalized_fails"],'Floats are real numbers (Coq Reals, stdlib axioms).')
m("C15","proved",["spell_words","groups_always_exist","spell_hundreds","same_words_iff","words_unambiguous_below_million","words_determine_number_refuted","round_thousands_say_nul","spell_out_of_range"],'Finding: 1000000 and 1001000 get the same words; round thousands end in nul.')
m("C11","proved",["needleman_wunsch_optimal","needleman_wunsch_ties","needleman_wunsch_element_gaps_refuted"],'Scores are integers. Finding: element-dependent gap costs give non-optimal alignments.')
m("C12","proved",["smith_waterman_optimal","smith_waterman_ties","smith_waterman_last_end"],'Scores are integers.')
m("C13","proved",["waterman_eggert_limited","waterman_eggert_first_optimal","waterman_eggert_disjoint_refuted","waterman_eggert_terminates_refuted"],'Findings: alignments intersect; unlimited search need not terminate.')
m("C33","proved",["index_document_text","index_element_text","index_numbering","index_count_table","index_id_table","index_hidden","index_hidden_text","index_visible_mark","ignored_leaf_not_marked_refuted","ignored_element_text_refuted"],'index_elem/update/get_elem_text; two findings (leaf not marked, stale positions)')
m("C34","proved",["inject_n_links","inject_id_links","inject_extract_n","inject_extract_id","extract_inject_n","extract_inject_id","inject_n_exact","inject_id_exact","inject_n_unknown_tag","inject_n_too_large","inject_extract_order_refuted","inject_zero_rejected_refuted","extract_inject_same_id_refuted"],'Both methods (n and id); findings: order, number 0, shared ids')
m("C35","proved",["no_cross_filter_greedy","threshold_filter_exact","filters_select"],'Any score order, any tie-breaking of the sort')
m("C36","proved",["clear_alignments_exact","create_alignments_once","align_corpus_result","align_corpus_others_unchanged","clear_only_focus_pairs_refuted","align_corpus_keeps_root_links_refuted"],'Term, weight and similarity functions are parameters; two findings (one-sided links cleared, root link written)')
m("C37","proved",["weighted_cosine_range","weighted_cosine_any_range","weighted_cosine_symmetric","weighted_cosine_self","weighted_cosine_no_terms","weighted_cosine_value"],'Real numbers instead of floats')
m("C44","proved",["count_alignment_exact","count_alignment_swap","compute_scores_values","f_score_extremes","eval_alignment_rows","links_by_number_score_one","print_diff_fails","print_diff_exact","print_diff_swap","print_diff_self","print_diff_links","print_diff_tags_refuted"],'Floats as exact rationals; printed text of the elements left out.')
m("C38","proved",["equals_decides","equals_true_iff","equals_raises_only","equals_reflexive","equals_symmetric","equals_transitive","indent_layout","indent_idempotent","indent_equals","indent_equality_refuted","equals_missing_text_refuted","indent_nbsp_refuted"],'Attribute maps have unique keys (well_formed); file output not modelled.')
m("C41","proved",["split_default_size","split_partitions","split_at_most","split_fails_iff","split_negative_writes_nothing","join_split_restores","join_result","split_exact_number_refuted","join_split_refuted"],'Files hold relations and graph pairs; reading, writing and the final purge are C28/C29.')
m("C46","proved",["chdir_exact","chdir_undo","chdir_same","chdir_pgc_files","chdir_pgc_run","chdir_pgc_stops","chdir_directory_refuted","chdir_new_path","chdir_new_path_idempotent","chdir_new_path_idempotent_refuted","chdir_ptc_files","chdir_ptc_run","chdir_ptc_stops"],'Exact effect, undo condition, failure points; the prefix is not directory aware and ptc_chdir without directory is not idempotent (refuted theorems).')
m("C45","proved",["create_exact","create_fails_iff","create_monotone","create_app","words_exist_unique","create_numbered_link_reported_refuted"],'starts from parsed links, trees and loaded banks')
m("C42","proved",["read_pairs_succeeds","stubs_shared","sparse_succeeds","sparse_errors","sparse_binds","sparse_unrequested","sparse_only","full_succeeds","sparse_as_full","self_pair_refuted"],'self_pair_refuted: a pair of a graph with itself loads with LOAD_ALL but raises AssertionError with LOAD_SPARSE.')
m("C43","proved",["parse_succeeds","parse_errors","parse_graphs","parse_lookup","sparse_like_full","unwanted_skipped","layout_irrelevant","defaults_ignored","root_never_set","parse_string_sparse","parse_string_full","sparse_model_agrees","root_refuted","late_data_refuted"],'Event-level model of the GraphML parser; expat itself is not modelled.')
m("C39","proved",["stats_exact","stats_defined","stats_errors","stats_of_files","relations_add_up","pairs_add_up","default_pairs","banks_add_up","pgc_percents_in_range","gb_percents_in_range","percent_values","overall_adds_up","overall_values","overall_percents","weaker_options","stats_order","bank_only","failed_percent_refuted","single_aligned_refuted","unaligned_root_somewhere"],'exact counts of rows and banks, accounting identities, percentages, monotonicity in the options, order independence, error conditions; three findings as theorems')
m("C47","proved",["segment_stats","names_differ","total_adds_up","count_unique","fresh_run","no_parts_error","part_error","old_table_counted_refuted","short_file_refuted","all_counted_twice_refuted","shared_name_refuted"],'segment_stats is the main theorem; what stats() gives for a directory is a parameter')
m("C48","proved",["graph_pair_equality","pair_equality_transitive","corpus_equality","corpus_equality_transitive","everything_visible","pair_copy","corpus_copy","original_apart","copy_apart","copy_equals_original","annotator_found","annotator_set","annotators_join","copy_equals_refuted","slice_annotator_refuted","annotator_missing_refuted","no_meta_data","comparison_raises_refuted"],'Equality, deep copies (separation both ways), annotators, over all histories.')
m("C49","proved",["cp_keeps_existing","cp_changes_only_targets","cp_copies","cp_ends_early","cp_usage","cp_takes_anything","cp_copies_all_refuted","multiglob_correct","glob_correct","zip_contents","zip_succeeds_iff","unpacked_corpus_reads","relaxed_reading_same","archive_directory","every_corpus_arrives_refuted","unpacked_bank_used_refuted","multiglob_no_repeats_refuted"],'File system without links; paths absolute. Unpacking is ZipFile.extractall, entry by entry. Serialisation is taken to give back the elements.')
m("C50","proved",["operation_correct","operation_fails_iff","new_document","history_correct","missing_side","filename_is","root_and_tags_are","tags_with_are","pseudo_root_tags_are","elem_is_first","elem_dict_has_last","search_is","search_same_directory_refuted","accepted_iff","element_accepted_iff","refused_how","new_document_reads_refuted","empty_element_refused_refuted","settings_read_back"],'All settings of HitaextDoc as a refinement of an abstract record, over all histories; searching, validation, writing and reading back.')
m("C51","proved",["named_similarities","word_terms_are_ngrams","char_terms_are_ngrams","preprocessed_word_terms","punctuation_removed_refuted","preprocessed_char_terms_are_words","preprocessed_char_terms_are_characters_refuted","scores_every_pair","scores_errors","default_selects_every_pair","threshold_selects_exactly","tf_idf_cosine_informative","identical_pair_scores_one_refuted","weighted_cosine_needs_weights"],'remove_stopwords (package daeso_nl) is a parameter')
m("C52","proved",["results_exact","results_in_range","sums_over_relations","division_irrelevant","evaluations_in_between","unequal_refused","add_one_row","names_and_rows","evaluation_fails_iff","report_exact","report_rows_read","report_needs_evaluation","failed_add_harmless_refuted","repeated_relations_refuted"],'AlignEval over any history of additions and evaluations; exact rationals; statistics, report line by line')
m("C53","proved",["cache_linearizable","cache_threads_no_deadlock","cache_threads_finish","cache_unlimited_threads_finish","cached_function_threads_finish","cached_function_threads","cache_hang_blocks_threads","cache_keys_linearizable_refuted"],'Atomicity assumed at the level of Python statements (see Threads_model.v); generators return without using the cache.')
m("C54","proved",["printed_root_exact","agreement_report_correct","agreement_report_columns","agreement_report_long_name_refuted","agreement_default_names","agreement_report_symmetry"],'The report of AlignEval that is printed first is C52. Dict orders are given. Annotators called mean, SD or overall are not modelled; standard deviations are exact roots.')
m("C55","proved",["conversion_keeps_alignments","conversion_injects_the_same","conversion_idempotent","conversion_exact","conversion_shared_ids_refuted","conversion_loses_corpus_refuted"],'bin/ptc_n_to_id.py on top of C34')
m("C56","proved",["phrases_printed","phrases_by_rows","phrases_readable","phrases_blank_delimiter_refuted","phrases_tab_in_token_refuted"],'bin/pgc_extract_phrases.py')
m("C57","proved",["memo_transparent","plain_evaluation_deterministic","memo_once","memo_default_fail","default_marshaller_distinct","same_name_refuted"],'cached() on recursive functions')
m("C58","proved",["alignment_grid_shown","alignment_grid_recovers","scores_printed","score_grid_shown","score_grid_recovers","aligner_tables_printed","all_alignments_printed","score_fractions_refuted","score_grid_wide_refuted"],'exact model of both printers; output before an exception is not modelled')
m("C59","proved",["ordered_nodes","ordered_edges","ordered_edge_attributes","ordered_node_attributes","ordered_own_attributes","ordered_from_data_refuted","ordered_own_attributes_refuted"],'two refuted theorems record the shared attributes of add_nodes_from and that graphs cannot be made from data')
m("C60","proved",["makedirs_alone","makedirs_again","makedirs_with_others","makedirs_never_raises","makedirs_made_refuted"],'one refuted theorem records that makedirs returns without having made the directory')
m("C61","proved",["batch_counts","batch_touches","batch_output_name","batch_outputs","batch_stops","batch_all","batch_shared_refuted","pgc_stats_options","pgc_stats_threshold_refuted","gb_stats_options"],'Batch scripts; the conversion itself is a parameter (C45 models it).')
m("C40","proved",["summarize_sums","grow_keeps","grow_twice","empty_iff","new_table_columns","write_read","lines_align","read_needs_separators","read_ignores_rest","read_fails","read_exactly","overall_line","legenda","width_of_strings","pgc_table_columns","gb_table_columns","stats_table_readable","blank_in_name_refuted","wide_counts_refuted","dashes_in_name_refuted","no_columns_refuted"],'exact round trip for readable tables; floats are rational numbers; the width and prec arguments of Column are ignored by the code (always 8 and 2); four findings as _refuted')
m("C62","proved",["tokens_last_given","tokens_meaning_unique","tokens_set_fails","token_string_set","token_string_value","token_string_again","node_kinds","token_string_of_empty_refuted","add_nodes_from_refuted","dump_prints"],'Tokens of nodes; two refuted theorems record findings.')
m("C63","proved",["any_key_cache_never_wrong","any_key_cache_keys","string_like_key_found","string_like_keys_cache","same_string_same_entry","unhashable_key_not_stored","has_key_after_insert_refuted","overwriting_evicts_nothing_refuted","distinct_keys_distinct_values_refuted"],'any history, any keys; three refutations')
m("C64","proved",["pair_equality","pair_equality_equivalence","pair_equality_returns","self_containing_pair_never_returns","pairs_never_changed_are_finite","new_pair_unpacks","set_replaces_both","assigning_one_item","pair_text","pair_text_finite","pair_in_list","unequal_is_not_equal_refuted","equal_pairs_equal_keys_refuted","set_source_keeps_target_refuted"],'all heaps of pairs; three refutations')
m("C65","proved",["stock_observations","stock_without_adding_twice","item_added_twice_stays","discarding_loop","updating_loop_endless","updating_loop_single","stock_length_refuted","discarded_is_gone_refuted"],'all histories and two loops; two refutations')
m("C66","proved",["cached_values_are_right","finished_thread_has_all_answers","value_is_unique","computed_at_most_once","ordered_caches_do_not_deadlock","one_cache_does_not_deadlock","steps_are_bounded","descending_calls_end","all_threads_can_finish","no_lock_is_left","deadlock_is_forever","crossing_caches_finish_refuted"],'Arbitrary call trees, caches, threads, schedules and evictions; progress under an order of the caches, deadlock refutation without. Exceptions in functions are not modelled here.')
m("C67","proved",["print_matrix_fails","print_matrix_only_fails_so","print_matrix_prints","print_matrix_width","matrix_is_straight","matrix_can_be_read_back"],'Integers only (floats in a matrix are not modelled).')
m("C68","proved",["needleman_wunsch_is_levenshtein","needleman_wunsch_is_lcs","needleman_wunsch_is_indel_distance","smith_waterman_is_lcs","levenshtein_lcs_bounds"],'all theorems at full generality; no new model code, the models of C01, C04, C11, C12')
m("C69","proved",["command_line_outcomes","command_line_is_read","values_are_defaults_or_given","options_around_operands","operands_after_two_dashes","best_deal_unique","no_unknown_options","scripts_are_proper","pgc_stats_has_no_threshold"],'parse_args of the bundled argparse and the parsers of all fifteen scripts')
m("C70","proved",["expect_exact_answers","expect_answers","answers_are_unique","wide_window_is_harmless","nothing_is_lost","flag_tells_eof","nothing_is_lost_with_regular_expressions","as_if_all_at_once","pieces_do_not_matter","read_returns_the_next_bytes","read_returns_everything","readline_returns_the_next_line","readlines_returns_the_lines","lines_are_unique","pieces_matter_for_contained_strings","small_window_hides","read_with_a_window_drops_bytes","error_forgets_what_was_read"],'relation that searches everything each time; findings as theorems')
m("C71","proved",["command_line_is_split","every_command_line_can_be_read","escaped_arguments_come_back","quoted_arguments_come_back","which_finds_the_program","every_path_has_directories","child_arguments","run_returns_the_output","run_follows_the_responses","run_ends","run_with_an_eof_event_never_ends","run_with_a_timeout_event_repeats","blank_before_a_command_runs_a_directory","which_searches_for_names_with_a_slash"],'state machine against written lines; findings as theorems')
m("C72","proved",["usage_in_one_line","usage_is_laid_out","layout_is_determined","usage_is_shown","usage_says_the_same","lines_fit","scripts_show_usage","error_shows_usage","empty_line_before_a_long_argument"],'usage and error texts; width from COLUMNS; well-formed names')
m("C73","proved",["only_its_child_is_signalled","attributes_tell_the_end","after_the_end","isalive_is_truthful","isalive_notices_the_end","isalive_after_eof_waits","wait_gives_the_code","wait_too_late","terminate_in_order","terminate_by_force","kill_sends_once","close_ends_the_child","first_close","close_by_force","close_again_is_an_error"],'Any use of the child under any schedule; time.sleep does nothing, SIGKILL ends the child at once, what other signals do is part of the schedule. A child that is stopped is alive. Findings: wait_too_late, isalive_after_eof_waits, close_again_is_an_error.')
m("C74","proved",["typed_text_reaches_the_child","child_gets_the_first_part","output_is_shown","terminal_is_restored","escape_is_not_sent","first_of_two_escapes_is_sent","end_of_input_is_not_noticed","send_counts","sendline_ends_the_line","writelines_sends","sendcontrol_sends_the_code"],'Reading from the terminal does not fail; the child is alive for a given number of tests (C73). Findings: first_of_two_escapes_is_sent, end_of_input_is_not_noticed, writelines_sends, sendline_ends_the_line.')
m("C75","proved",["nothing_is_lost","flag_tells_eof","logs_get_what_is_read","data_in_time","read_at_once","eof_is_the_end","timeout_is_exact","read_returns","read_after_eof_waits","reading_nothing_is_eof"],'Time-outs from 0 on; a signal only interrupts select. Findings: read_after_eof_waits, reading_nothing_is_eof.')
m("C76","proved",["setecho_then_getecho","setecho_changes_nothing_else","setecho_is_idempotent","waitnoecho_in_time","waitnoecho_finds_it","waitnoecho_for_ever","short_silence_is_missed"],'Sleeping is exact, looking takes no time. Finding: short_silence_is_missed.')
m("C77","proved",["help_shows_everything","help_is_tidy","help_is_shown_if","narrow_lines_refuse_help","blank_help_is_refused","stray_percent_is_refused"],'textwrap.wrap is a parameter with a stated contract, met by a sample; names without line ends')
#END
if __name__ == "__main__":
    with open(os.path.join(os.path.dirname(__file__), "..", "MANIFEST.json"), "w") as f:
        json.dump({"claims": M}, f, indent=1)
        f.write("\n")
    import glob, re
    names = set()
    for fn in glob.glob(os.path.join(os.path.dirname(__file__), "..", "rocq", "theories", "*_props.v")):
        names |= set(re.findall(r"^Theorem\s+(\w+)", open(fn).read(), re.M))
    used = set(t for c in M for t in c["theorems"])
    print("claims", len(M), "theorems", len(used), "unknown", used - names, "unlisted", names - used)
