-Q theories Verif
theories/Py.v
theories/PyLemmas.v
theories/Lev_model.v
theories/Lev_spec.v
theories/Lev_proof.v
theories/Lev_props.v
theories/Lcs_model.v
theories/Lcs_spec.v
theories/Lcs_proof.v
theories/Lcs_props.v
theories/Ngram_model.v
theories/Ngram_spec.v
theories/Ngram_proof.v
theories/Ngram_props.v
theories/Median_model.v
theories/Median_spec.v
theories/Median_proof.v
theories/Median_props.v
theories/Align_model.v
theories/Align_spec.v
theories/Align_proof.v
theories/Align_props.v
theories/Eval_model.v
theories/Eval_spec.v
theories/Eval_proof.v
theories/Eval_props.v
theories/Munkres_model.v
theories/Munkres_spec.v
theories/Munkres_proof1.v
theories/Munkres_proof2.v
theories/Munkres_proof3.v
theories/Munkres_proof4.v
theories/Munkres_proof5.v
theories/Munkres_props.v
theories/Odict_spec.v
theories/Odict_model.v
theories/Odict_proof.v
theories/Odict_props.v
theories/Counter_spec.v
theories/Counter_model.v
theories/Counter_proof.v
theories/Counter_props.v
theories/Cache_spec.v
theories/Cache_model.v
theories/Cache_proof1.v
theories/Cache_proof2.v
theories/Cache_proof3.v
theories/Cache_props.v
theories/Graph_spec.v
theories/Graph_model.v
theories/Graph_proof.v
theories/Graph_props.v
theories/Corpus_spec.v
theories/Corpus_model.v
theories/Corpus_proof.v
theories/Corpus_props.v
theories/Purge_spec.v
theories/Purge_model.v
theories/Purge_proof.v
theories/Purge_props.v
theories/PgcXml_spec.v
theories/PgcXml_model.v
theories/PgcXml_proof.v
theories/PgcXml_props.v
theories/Diff_spec.v
theories/Diff_model.v
theories/Diff_proof.v
theories/Diff_props.v
theories/Agree_spec.v
theories/Agree_model.v
theories/Agree_proof.v
theories/Agree_props.v
theories/Sim_spec.v
theories/Sim_model.v
theories/Sim_proof.v
theories/Sim_props.v
theories/Rouge_spec.v
theories/Rouge_model.v
theories/Rouge_proof.v
theories/Rouge_props.v
theories/Tfidf_spec.v
theories/Tfidf_model.v
theories/Tfidf_proof.v
theories/Tfidf_props.v
theories/Number_spec.v
theories/Number_model.v
theories/Number_proof.v
theories/Number_props.v
theories/Seqal_spec.v
theories/Seqal_model.v
theories/Seqal_proof.v
theories/Seqal_proof2.v
theories/Seqal_props.v
theories/Ielem_spec.v
theories/Ielem_model.v
theories/Ielem_proof.v
theories/Ielem_props.v
theories/Hdoc_spec.v
theories/Hdoc_model.v
theories/Hdoc_proof.v
theories/Hdoc_props.v
theories/Textal_spec.v
theories/Textal_model.v
theories/Textal_proof.v
theories/Textal_props.v
theories/Ptceval_spec.v
theories/Ptceval_model.v
theories/Ptceval_proof.v
theories/Ptceval_props.v
theories/Etree_spec.v
theories/Etree_model.v
theories/Etree_proof.v
theories/Etree_props.v
theories/Split_spec.v
theories/Split_model.v
theories/Split_proof.v
theories/Split_props.v
theories/Chdir_spec.v
theories/Chdir_model.v
theories/Chdir_proof.v
theories/Chdir_props.v
theories/Create_spec.v
theories/Create_model.v
theories/Create_proof.v
theories/Create_props.v
theories/Sparse_spec.v
theories/Sparse_model.v
theories/Sparse_proof.v
theories/Sparse_props.v
theories/Graphml_spec.v
theories/Graphml_model.v
theories/Graphml_proof.v
theories/Graphml_props.v
theories/Stats_spec.v
theories/Stats_model.v
theories/Stats_proof.v
theories/Stats_props.v
theories/Table_spec.v
theories/Table_model.v
theories/Table_proof.v
theories/Table_props.v
theories/Segstats_spec.v
theories/Segstats_model.v
theories/Segrows_proof.v
theories/Segstats_proof.v
theories/Segstats_props.v
theories/Equal_spec.v
theories/Equal_model.v
theories/Equal_proof.v
theories/Equal_props.v
theories/Ship_spec.v
theories/Ship_model.v
theories/Ship_proof.v
theories/Ship_props.v
theories/Settings_spec.v
theories/Settings_model.v
theories/Settings_proof.v
theories/Settings_props.v
theories/Terms_spec.v
theories/Terms_model.v
theories/Terms_proof.v
theories/Terms_props.v
theories/Evalrun_spec.v
theories/Evalrun_model.v
theories/Evalrun_proof.v
theories/Evalrun_props.v
theories/Cachem_spec.v
theories/Cachem_proof.v
theories/Cachem_props.v
theories/Threads_spec.v
theories/Threads_model.v
theories/Threads_proof.v
theories/Threads_proof2.v
theories/Threads_proof3.v
theories/Threads_proof4.v
theories/Threads_props.v
theories/Agreerep_spec.v
theories/Agreerep_model.v
theories/Agreerep_proof.v
theories/Agreerep_props.v
theories/Convert_spec.v
theories/Convert_model.v
theories/Convert_proof.v
theories/Convert_props.v
theories/Phrases_spec.v
theories/Phrases_model.v
theories/Phrases_proof.v
theories/Phrases_props.v
theories/Memo_spec.v
theories/Memo_model.v
theories/Memo_proof.v
theories/Memo_props.v
theories/Grid_spec.v
theories/Grid_model.v
theories/Grid_proof.v
theories/Grid_props.v
theories/Ograph_spec.v
theories/Ograph_model.v
theories/Ograph_proof.v
theories/Ograph_props.v
theories/Mkdirs_spec.v
theories/Mkdirs_model.v
theories/Mkdirs_proof.v
theories/Mkdirs_props.v
theories/Batch_spec.v
theories/Batch_model.v
theories/Batch_proof.v
theories/Batch_props.v
theories/Tokens_spec.v
theories/Tokens_model.v
theories/Tokens_proof.v
theories/Tokens_props.v
theories/Rawkeys_spec.v
theories/Rawkeys_model.v
theories/Rawkeys_proof.v
theories/Rawkeys_props.v
theories/Pairs_spec.v
theories/Pairs_model.v
theories/Pairs_proof.v
theories/Pairs_props.v
theories/Stock_spec.v
theories/Stock_model.v
theories/Stock_proof.v
theories/Stock_props.v
theories/Flight_spec.v
theories/Flight_model.v
theories/Flight_proof.v
theories/Flight_props.v
theories/Showmat_spec.v
theories/Showmat_model.v
theories/Showmat_proof.v
theories/Showmat_props.v
theories/Measures_spec.v
theories/Measures_proof.v
theories/Measures_props.v
theories/Replay_string.v
theories/Replay_graph.v
theories/Cmdline_spec.v
theories/Cmdline_model.v
theories/Cmdline_scripts.v
theories/Cmdline_proof1.v
theories/Cmdline_proof2.v
theories/Cmdline_proof3.v
theories/Cmdline_proof4.v
theories/Cmdline_proof5.v
theories/Cmdline_proof6.v
theories/Cmdline_props.v
theories/Expect_spec.v
theories/Expect_model.v
theories/Expect_proof.v
theories/Expect_proof2.v
theories/Expect_proof3.v
theories/Expect_proof4.v
theories/Expect_props.v
theories/Runcmd_spec.v
theories/Runcmd_model.v
theories/Runcmd_proof.v
theories/Runcmd_proof2.v
theories/Runcmd_props.v
theories/Usage_spec.v
theories/Usage_model.v
theories/Usage_scripts.v
theories/Usage_proof.v
theories/Usage_proof2.v
theories/Usage_proof3.v
theories/Usage_props.v
theories/Child_spec.v
theories/Child_model.v
theories/Child_proof.v
theories/Child_proof2.v
theories/Child_proof3.v
theories/Child_proof4.v
theories/Child_props.v
theories/Interact_spec.v
theories/Interact_model.v
theories/Interact_proof.v
theories/Interact_proof2.v
theories/Interact_props.v
theories/Reading_spec.v
theories/Reading_model.v
theories/Reading_proof.v
theories/Reading_proof2.v
theories/Reading_props.v
theories/Echo_spec.v
theories/Echo_model.v
theories/Echo_proof.v
theories/Echo_props.v
theories/Help_spec.v
theories/Help_model.v
theories/Help_proof.v
theories/Help_proof2.v
theories/Help_proof3.v
theories/Help_props.v
