{
 "claims": [
  {
   "property": "C01",
   "status": "proved",
   "theorems": [
    "C01_split_list_partitions"
   ],
   "note": "exact-integer boundaries; C04 transfers it to the binary64 evaluation"
  },
  {
   "property": "C02",
   "status": "proved",
   "theorems": [
    "C02_split_group_by_key_partitions",
    "C02_split_group_empty_raises"
   ],
   "note": "empty list raises ValueError"
  },
  {
   "property": "C03",
   "status": "proved",
   "theorems": [
    "C03_ismember_spec",
    "C03_intersect_spec"
   ],
   "note": ""
  },
  {
   "property": "C04",
   "status": "proved",
   "theorems": [
    "C04_float_boundaries_exact",
    "C04_float_split_list",
    "C04_float_split_list_group_by_key"
   ],
   "note": "Flocq binary64; standard-library real axioms"
  },
  {
   "property": "C05",
   "status": "proved",
   "theorems": [
    "C05_constructor_valid",
    "C05_rows_never_mixed",
    "C05_rows_whole_without_merge",
    "C05_merge_concatenates",
    "C05_merge_total",
    "C05_sort_permutes",
    "C05_sort_total",
    "C05_shuffle_permutes",
    "C05_merge_forgets_offsets_refuted"
   ],
   "note": "rows may lose offset/range only in merge, decided by the first list (refuted part of the English claim)"
  },
  {
   "property": "C06",
   "status": "proved",
   "theorems": [
    "C06_lookup_never_stale"
   ],
   "note": "all histories of calls on one object"
  },
  {
   "property": "C07",
   "status": "proved",
   "theorems": [
    "C07_save_load_roundtrip",
    "C07_all_zero_ranges_refuted",
    "C07_empty_list_refuted",
    "C07_path_with_separator_refuted"
   ],
   "note": "single-character separators"
  },
  {
   "property": "C08",
   "status": "proved",
   "theorems": [
    "C08_filter_exact",
    "C08_filter_paths_exact",
    "C08_filter_keep_and_drop_partition",
    "C08_filter_index_exact"
   ],
   "note": ""
  },
  {
   "property": "C09",
   "status": "proved",
   "theorems": [
    "C09_split_merge_identity",
    "C09_split_merge_grouped",
    "C09_too_many_parts_refuted"
   ],
   "note": "needs at most as many parts as rows (groups) when there are ranges; refuted beyond"
  },
  {
   "property": "C10",
   "status": "proved",
   "theorems": [
    "C10_wspecifier_parse",
    "C10_output_order",
    "C10_writer_dispatch",
    "C10_scp_only_writer_is_none",
    "C10_extra_paths_refuted",
    "C10_empty_path_refuted",
    "C10_scp_permissive_refuted"
   ],
   "note": "complete characterisation of accepted strings; 'any other string is rejected' is refuted for superfluous paths"
  },
  {
   "property": "C100",
   "status": "proved",
   "theorems": [
    "C100_new_epoch",
    "C100_whole",
    "C100_whole_refuted",
    "C100_one_piece",
    "C100_pieces",
    "C100_cover",
    "C100_negative_refuted",
    "C100_epoch",
    "C100_uniform",
    "C100_unequal_refuted",
    "C100_classes",
    "C100_classes_refuted"
   ],
   "note": "SeqReader.v. C100_whole_refuted: num_batches counts sequences of exactly min_seq_length frames which read_full_seqs skips; C100_unequal_refuted: with sequences of unequal length a read can fail before the epoch ends; C100_negative_refuted: sequences shorter than the overlap reduce the number of batches; C100_classes_refuted: a repeated class name makes the label read fail."
  },
  {
   "property": "C101",
   "status": "proved",
   "theorems": [
    "C101_csv",
    "C101_log",
    "C101_missing",
    "C101_append_refuted",
    "C101_restart_refuted",
    "C101_no_dir_refuted",
    "C101_time",
    "C101_time_refuted",
    "C101_progress",
    "C101_batches_refuted",
    "C101_fanout",
    "C101_messages"
   ],
   "note": "TrainLog.v. C101_append_refuted, C101_restart_refuted: a log cannot be continued (append=True always raises, append=False empties it); C101_no_dir_refuted: a path without directory raises; C101_time_refuted: elapsed times of 31 days and more lose the month; C101_batches_refuted: giving the number of batches makes the first batch raise."
  },
  {
   "property": "C102",
   "status": "proved",
   "theorems": [
    "C102_reaches",
    "C102_plain",
    "C102_accept",
    "C102_together",
    "C102_lost_refuted",
    "C102_prefix_refuted",
    "C102_name_refuted",
    "C102_bool_refuted",
    "C102_values",
    "C102_refused"
   ],
   "note": "Options.v, OptTables.v (33 tables of options). C102_lost_refuted: six options are accepted and never reach the constructor; C102_prefix_refuted: --compress is lost when the writer has a prefix; C102_name_refuted: two transforms cannot share a parser; C102_bool_refuted: --update-mu False gives True."
  },
  {
   "property": "C103",
   "status": "proved",
   "theorems": [
    "C103_copy",
    "C103_negative_chunk_refuted",
    "C103_merge_split",
    "C103_ark_source",
    "C103_h5_source",
    "C103_ark_script_source",
    "C103_h5_script_source",
    "C103_script_parts",
    "C103_open_h5",
    "C103_open_h5_script",
    "C103_open_ark_script",
    "C103_open_ark",
    "C103_output",
    "C103_convert",
    "C103_duplicate",
    "C103_script_only",
    "C103_ark_no_parts"
   ],
   "note": "CopyFeats.v composes the real readers and writers (C19, C21, C23, C09). C103_negative_chunk_refuted: a negative chunk size copies nothing and reports no error."
  },
  {
   "property": "C104",
   "status": "proved",
   "theorems": [
    "C104_best",
    "C104_all",
    "C104_mode_refuted",
    "C104_restart_refuted",
    "C104_steps",
    "C104_line_steps_refuted",
    "C104_resume_refuted",
    "C104_callbacks",
    "C104_inc_refuted",
    "C104_line"
   ],
   "note": "Refuted: the mode argument is ignored (C104_mode_refuted), a restarted process forgets the best value (C104_restart_refuted), --lr-steps has no effect (C104_line_steps_refuted), steps before the resumed epoch are lost (C104_resume_refuted), --lr-inc-factor always fails (C104_inc_refuted)."
  },
  {
   "property": "C105",
   "status": "proved",
   "theorems": [
    "C105_unique",
    "C105_std_prior",
    "C105_std_prior2",
    "C105_common_cov",
    "C105_common_cov_refuted",
    "C105_const_cov2",
    "C105_const_cov3",
    "C105_const_cov4",
    "C105_std_prior3_refuted",
    "C105_frames",
    "C105_shapes",
    "C105_weights_refuted"
   ],
   "note": "Refuted: variances above one make CommonCov/ConstCov not a number (C105_common_cov_refuted), StdPrior3 is not the posterior (C105_std_prior3_refuted), two-dimensional weights only work for StdPrior (C105_weights_refuted)."
  },
  {
   "property": "C106",
   "status": "proved",
   "theorems": [
    "C106_normal",
    "C106_diag_normal",
    "C106_sampler",
    "C106_var_chol_refuted",
    "C106_triu",
    "C106_pool",
    "C106_mult_const_cov_refuted",
    "C106_mult_const_cov",
    "C106_kl_diag",
    "C106_kl_std",
    "C106_kl_nonneg"
   ],
   "note": "Refuted: the sampler formats var+chol and std+chol (C106_var_chol_refuted) and the mean of MultConstCovStdPrior (C106_mult_const_cov_refuted)."
  },
  {
   "property": "C107",
   "status": "proved",
   "theorems": [
    "C107_new",
    "C107_log_prob",
    "C107_responsibilities",
    "C107_estep",
    "C107_mstep",
    "C107_mstep_optimal",
    "C107_em_increases",
    "C107_elbo",
    "C107_sigma",
    "C107_split",
    "C107_round_trip",
    "C107_untied_eta_refuted",
    "C107_small_count_refuted",
    "C107_empty_component_refuted",
    "C107_init_one_refuted",
    "C107_init_std",
    "C107_init_clusters"
   ],
   "note": "Refuted: untied natural parameters are accepted (C107_untied_eta_refuted), a count below min_N (C107_small_count_refuted), an empty component (C107_empty_component_refuted), and initialize with one component and data (C107_init_one_refuted)."
  },
  {
   "property": "C108",
   "status": "proved",
   "theorems": [
    "C108_disk",
    "C108_prefix",
    "C108_read_back",
    "C108_pcm16_exact",
    "C108_scale_refuted",
    "C108_unit_scale_silent",
    "C108_collision_refuted",
    "C108_subtypes_refuted",
    "C108_w64_refuted",
    "C108_dots_refuted",
    "C108_extra_data_refuted",
    "C108_separator_refuted"
   ],
   "note": "Refuted: names that differ in / and - collide, PCM_32/FLOAT/DOUBLE come back scaled, 8-bit and 24-bit subtypes and w64 fail, keys of dots only cannot be read, surplus waveforms are dropped, other separators do not load."
  },
  {
   "property": "C109",
   "status": "proved",
   "theorems": [
    "C109_batches",
    "C109_loop",
    "C109_loop_empty",
    "C109_array_refuted",
    "C109_weights_refuted",
    "C109_no_weights_refuted",
    "C109_time_weights",
    "C109_total",
    "C109_rejected",
    "C109_divergence",
    "C109_elbo",
    "C109_batch_size",
    "C109_floor",
    "C109_elbo_bernoulli",
    "C109_bernoulli_refuted",
    "C109_errors",
    "C109_decode_refuted",
    "C109_decode",
    "C109_load_refuted"
   ],
   "note": "Refuted: one weight per sample has no effect (C109_weights_refuted), absent weights fail (C109_no_weights_refuted), an evaluation function that gives an array fails (C109_array_refuted), Bernoulli targets and predictions are exchanged (C109_bernoulli_refuted), decode_z(sample_x=False) of a Gaussian decoder and VAE.load always fail (C109_decode_refuted, C109_load_refuted), priors other than std_normal fail (C109_errors)."
  },
  {
   "property": "C11",
   "status": "proved",
   "theorems": [
    "C11_rspecifier_parse",
    "C11_option_order_immaterial",
    "C11_rejects",
    "C11_two_colons",
    "C11_documented_modifiers_refuted"
   ],
   "note": "complete characterisation; documented modifiers b,t,n* are rejected (refuted part)"
  },
  {
   "property": "C110",
   "status": "proved",
   "theorems": [
    "C110_predict",
    "C110_moments",
    "C110_shapes",
    "C110_one_column_refuted",
    "C110_in_place_refuted",
    "C110_fit_transform",
    "C110_fit_variances",
    "C110_lnorm",
    "C110_lnorm_scale_refuted",
    "C110_gbe_refuted",
    "C110_half"
   ],
   "note": "Refuted: predict overwrites the variances of its argument, so a second call propagates them twice (C110_in_place_refuted); a T with one column is accepted (C110_one_column_refuted); LNormUP and LNorm give different lengths (C110_lnorm_scale_refuted); every evaluation and fit of LinearGBEUP fails (C110_gbe_refuted)."
  },
  {
   "property": "C111",
   "status": "proved",
   "theorems": [
    "C111_binary",
    "C111_offset",
    "C111_text",
    "C111_closing_line_refuted",
    "C111_open",
    "C111_archive_refuted",
    "C111_chunks",
    "C111_all",
    "C111_rest_refuted",
    "C111_by_name",
    "C111_missing",
    "C111_ark2hyp",
    "C111_chunk0_refuted",
    "C111_output_dir_refuted"
   ],
   "note": "Refuted: the offsets of a script are dropped, so no key of an archive can be read (C111_archive_refuted with C111_open); a closing bracket on its own line is refused (C111_closing_line_refuted); reading the rest of a list leaves the cursor at a wrong position (C111_rest_refuted); ark2hyp does not end with chunks of 0 and fails without an output directory (C111_chunk0_refuted, C111_output_dir_refuted)."
  },
  {
   "property": "C112",
   "status": "proved",
   "theorems": [
    "C112_sparse",
    "C112_mass",
    "C112_dense",
    "C112_all",
    "C112_num_refuted",
    "C112_zeros_refuted",
    "C112_matrix",
    "C112_order"
   ],
   "note": "Refuted: a number of components above the model's, or 0, raises ValueError (C112_num_refuted); a row of zeros has no sparse form (C112_zeros_refuted)."
  },
  {
   "property": "C113",
   "status": "proved",
   "theorems": [
    "C113_idct_dct",
    "C113_dct_idct",
    "C113_energy",
    "C113_layer",
    "C113_round_trip",
    "C113_units_refuted",
    "C113_liftering",
    "C113_liftering_refuted",
    "C113_logs",
    "C113_neg_softplus",
    "C113_swish",
    "C113_broken_refuted",
    "C113_taylor",
    "C113_taylor_1",
    "C113_taylor_refuted",
    "C113_mask",
    "C113_mask_refuted",
    "C113_bias",
    "C113_bias_refuted",
    "C113_expand",
    "C113_expand_refuted"
   ],
   "note": "Refuted: more units than inputs cannot be built (C113_units_refuted); filters longer than the lifter can be zero and have no inverse (C113_liftering_refuted); ExpTaylor of order 2 or more is not the Taylor polynomial (C113_taylor_refuted); a real frame equal to the mask value is masked (C113_mask_refuted); the declared sizes of Bias with one unit and of ExpandAndTile with a negative axis are wrong (C113_bias_refuted, C113_expand_refuted); SwishBeta, ExpandAndTile, ExpandDim and MelFB cannot be used (C113_broken_refuted)."
  },
  {
   "property": "C114",
   "status": "proved",
   "theorems": [
    "C114_decision",
    "C114_scaling",
    "C114_scaling_refuted",
    "C114_reloads",
    "C114_reload",
    "C114_reload_refuted",
    "C114_bin_post",
    "C114_bin_logpost_refuted",
    "C114_cat_post",
    "C114_two_classes_refuted",
    "C114_untrained"
   ],
   "note": "Refuted: with a bias scaling other than one the bias is multiplied twice (C114_scaling_refuted) and again by every save and load (C114_reload_refuted); 'bin-logpost' is minus the log posterior (C114_bin_logpost_refuted); with two classes cat-post is always 1 (C114_two_classes_refuted)."
  },
  {
   "property": "C115",
   "status": "proved",
   "theorems": [
    "C115_chain",
    "C115_chain_runs",
    "C115_same_name",
    "C115_no_append",
    "C115_no_tlist",
    "C115_lda_refuted",
    "C115_no_append_refuted"
   ],
   "note": "Refuted: train-lda.py never runs (C115_lda_refuted); with --no-append-tlist the file forgets the preprocessing its transform was fitted to (C115_no_append_refuted). --input-path is not modelled."
  },
  {
   "property": "C116",
   "status": "proved",
   "theorems": [
    "C116_qscr",
    "C116_qscr_symmetric",
    "C116_qscr_prior",
    "C116_cand",
    "C116_cand_is_qscr",
    "C116_elbo_refuted",
    "C116_cand_two_outputs_refuted",
    "C116_cand_one_frame_refuted",
    "C116_average",
    "C116_vavg",
    "C116_one_each",
    "C116_lnorm",
    "C116_savg_refuted",
    "C116_book_refuted"
   ],
   "note": "Diagonal posterior only. Refuted: eval_method='elbo' always raises NameError (C116_elbo_refuted); 'cand' needs an encoder with three outputs, which TiedVAE_qY's does not have (C116_cand_two_outputs_refuted), and sequences of two frames (C116_cand_one_frame_refuted); pool_method='savg' raises AttributeError and 'book' returns None (C116_savg_refuted, C116_book_refuted)."
  },
  {
   "property": "C117",
   "status": "proved",
   "theorems": [
    "C117_Estep",
    "C117_MstepML",
    "C117_epoch",
    "C117_flags_refuted",
    "C117_Cz_error",
    "C117_Cz_refuted",
    "C117_MstepMD"
   ],
   "note": "From a mean of zero; whether the log evidence of the data does not decrease is not proved; the MD step is proved with all its updates on. Refuted: with a mean other than zero plda.py:214 subtracts the number F . mu from every entry of S instead of F^T mu, so Cz is not the expectation (C117_Cz_error, C117_Cz_refuted); update_V alone and update_mu with update_U alone never succeed, and update_mu with update_V and not update_U changes no mean (C117_flags_refuted)."
  },
  {
   "property": "C12",
   "status": "proved",
   "theorems": [
    "C12_token_roundtrip",
    "C12_token_domain",
    "C12_int32_roundtrip",
    "C12_int32_domain"
   ],
   "note": "binary branches; exact domain of accepted tokens and integers"
  },
  {
   "property": "C13",
   "status": "partial",
   "theorems": [
    "C13_peek_partial",
    "C13_peek_refuted",
    "C13_marker"
   ],
   "note": "holds for n <= 2 (all uses in the library) for every buffering; false for n >= 3 (refuted theorem); marker detection proved"
  },
  {
   "property": "C14",
   "status": "proved",
   "theorems": [
    "C14_raw_roundtrip",
    "C14_compressed_roundtrip"
   ],
   "note": "bit patterns, every size, every continuation, every buffering"
  },
  {
   "property": "C15",
   "status": "proved",
   "theorems": [
    "C15_rows_raw",
    "C15_rows_compressed",
    "C15_bad_range_raw",
    "C15_vector_offset_refuted"
   ],
   "note": "matrices, raw and three compressed formats; finding: vectors with row_offset > 0 read past the record"
  },
  {
   "property": "C16",
   "status": "proved",
   "theorems": [
    "C16_shape_raw",
    "C16_shape_compressed"
   ],
   "note": ""
  },
  {
   "property": "C17",
   "status": "proved",
   "theorems": [
    "C17_auto",
    "C17_uint",
    "C17_speech_feat",
    "C17_speech_feat_codes"
   ],
   "note": "exact rational arithmetic; float rounding not modelled"
  },
  {
   "property": "C18",
   "status": "proved",
   "theorems": [
    "C18_column_header",
    "C18_expand_monotone"
   ],
   "note": "exact rational arithmetic"
  },
  {
   "property": "C19",
   "status": "proved",
   "theorems": [
    "C19_sequential",
    "C19_row_range",
    "C19_crash"
   ],
   "note": "any grouping of writes, any sequence of reads; eof flag; reset; crash of the writer after any byte of a later record"
  },
  {
   "property": "C20",
   "status": "proved",
   "theorems": [
    "C20_random_access",
    "last_written_distinct"
   ],
   "note": "whole chain: writer's script text, scp_load, any history of requests with row ranges, permissive or not"
  },
  {
   "property": "C21",
   "status": "partial",
   "theorems": [
    "C21_sequential_script_partial",
    "C21_written_script",
    "C21_offset0_refuted",
    "C21_no_offset_refuted"
   ],
   "note": "false in general (offset 0 revisited in the open file is read from the wrong place; no offset is a TypeError); proved for every other script, and for all scripts made by the writer"
  },
  {
   "property": "C22",
   "status": "partial",
   "theorems": [
    "C22_compose_partial",
    "C22_reader_partial",
    "C22_escape_refuted",
    "C22_shapes"
   ],
   "note": "false in general: r > 0 with n = 0 or r + n > b reads outside the restriction; proved for all the other requests"
  },
  {
   "property": "C23",
   "status": "proved",
   "theorems": [
    "C23_random_file",
    "C23_sequential_file",
    "C23_whole_file",
    "C23_parts",
    "C23_sequential_script",
    "C23_random_script",
    "C23_written_script"
   ],
   "note": "h5py trusted as a sorted finite map; names with '/' (groups) not modelled"
  },
  {
   "property": "C24",
   "status": "proved",
   "theorems": [
    "C24_ndx_merge",
    "C24_ndx_merge_single",
    "C24_ndx_merge_order",
    "C24_key_merge",
    "C24_key_to_ndx",
    "C24_key_trial_cond_merge_refuted",
    "C24_key_seg_cond_refuted"
   ],
   "note": "trial lists, keys and model conditions; segment / trial conditions of keys are mishandled by the code: refuted theorems"
  },
  {
   "property": "C25",
   "status": "proved",
   "theorems": [
    "C25_ndx_filter",
    "C25_ndx_remove",
    "C25_ndx_split",
    "C25_ndx_split_merge",
    "C25_key_filter",
    "C25_key_remove",
    "C25_key_split",
    "C25_key_trial_cond_refuted",
    "C25_scores_filter",
    "C25_scores_remove_refuted",
    "C25_scores_split"
   ],
   "note": "keys with trial conditions cannot be filtered or split: refuted theorem Scores: keep=True proved; keep=False refuted (segments complemented against model names)."
  },
  {
   "property": "C26",
   "status": "partial",
   "theorems": [
    "C26_ndx_sort",
    "C26_scores_sort",
    "C26_key_sort_partial",
    "C26_key_conditions_refuted"
   ],
   "note": "sort of keys with conditions does not keep them: refuted; everything else proved"
  },
  {
   "property": "C27",
   "status": "proved",
   "theorems": [
    "C27_ndx_txt",
    "C27_key_txt",
    "C27_scores_txt"
   ],
   "note": "Scores come back rounded by '%f' (rnd = parse after fmt)."
  },
  {
   "property": "C28",
   "status": "proved",
   "theorems": [
    "C28_key_h5",
    "C28_overlap",
    "C28_overlap_refuted"
   ],
   "note": "Round trip iff no pair is both target and non-target; an overlapping pair loses both labels (refuted for all masks)."
  },
  {
   "property": "C29",
   "status": "proved",
   "theorems": [
    "C29_merge",
    "C29_merge_overlap",
    "C29_merge_unclean_refuted",
    "C29_align",
    "C29_align_raise",
    "C29_set_missing"
   ],
   "note": "Merge keeps scores when cells outside the mask are 0; align_with_ndx leaves stale scores that a later merge adds (refuted)."
  },
  {
   "property": "C30",
   "status": "proved",
   "theorems": [
    "C30_target_pairs",
    "C30_get_tar_non"
   ],
   "note": ""
  },
  {
   "property": "C31",
   "status": "proved",
   "theorems": [
    "C31_assign",
    "C31_create",
    "C31_create_iff",
    "C31_bound_nearest",
    "C31_bound64_nearest",
    "C31_get_fold",
    "C31_no_leak",
    "C31_align",
    "C31_group_across_classes_refuted",
    "C31_few_groups_refuted",
    "C31_masked_class_refuted",
    "C31_save_refuted"
   ],
   "note": "Groups stay together only inside a balance class (refutation shows the split otherwise); creation with few groups can fail its own assertion; save always fails."
  },
  {
   "property": "C32",
   "status": "proved",
   "theorems": [
    "C32_assign",
    "C32_part_masks",
    "C32_get_part_refuted",
    "C32_part_names"
   ],
   "note": "Boundaries on exact rational proportions; get_part itself always fails (except on two segments)."
  },
  {
   "property": "C33",
   "status": "proved",
   "theorems": [
    "C33_frame_nearest",
    "C33_to_bin_vad",
    "C33_default_length_refuted",
    "C33_default_by_segment_refuted"
   ],
   "note": "Times are exact rationals. The two _refuted theorems show the default number of frames is wrong or fails."
  },
  {
   "property": "C34",
   "status": "proved",
   "theorems": [
    "C34_rttm_merge",
    "C34_rttm_merge_keeps_time",
    "C34_rttm_merge_adds_nothing",
    "C34_nested_refuted",
    "C34_ext_merge",
    "C34_ext_merge_keeps_names",
    "C34_ext_id_collision_refuted"
   ],
   "note": "Times are exact rationals; nesting loses labelled time (refuted without the hypothesis)."
  },
  {
   "property": "C35",
   "status": "partial",
   "theorems": [
    "C35_elim_no_overlap_partial",
    "C35_elim_pair_partial",
    "C35_chain_refuted",
    "C35_nested_refuted"
   ],
   "note": "Proved when no segment overlaps both neighbours; without that the property is false of the code (C35_chain_refuted), and a nested segment gets a negative duration (C35_nested_refuted). Only the file-indexed table is modelled."
  },
  {
   "property": "C36",
   "status": "proved",
   "theorems": [
    "C36_pav_blocks",
    "C36_pav_optimal",
    "C36_empty",
    "C36_integer_refuted"
   ],
   "note": "Exact rational arithmetic. C36_integer_refuted: an integer input array is truncated."
  },
  {
   "property": "C37",
   "status": "proved",
   "theorems": [
    "C37_roc",
    "C37_roc_ties_refuted",
    "C37_min_dcf",
    "C37_act_dcf",
    "C37_act_dcf_bayes",
    "C37_act_dcf_repeated_refuted",
    "C37_fast_eval",
    "C37_effective_prior"
   ],
   "note": "Scores in any total order (instantiated with R for the Bayes thresholds), rates and costs exact rationals; priors 0 and 1 excluded."
  },
  {
   "property": "C38",
   "status": "proved",
   "theorems": [
    "C38_rocch",
    "C38_eer",
    "C38_prbep",
    "C38_empty",
    "C38_filter_roc_refuted",
    "C38_area_refuted"
   ],
   "note": "Two functions of roc.py never return: filter_roc (undefined name) and compute_area_under_rocch (index past the end)."
  },
  {
   "property": "C39",
   "status": "proved",
   "theorems": [
    "C39_average",
    "C39_errors"
   ],
   "note": "Averages over Q; a first update with 0 samples raises ZeroDivisionError, metrics before any update TypeError."
  },
  {
   "property": "C40",
   "status": "proved",
   "theorems": [
    "C40_when",
    "C40_rates",
    "C40_monotone",
    "C40_factor",
    "C40_no_warmup_refuted"
   ],
   "note": "Exact rationals for rates and metrics."
  },
  {
   "property": "C41",
   "status": "proved",
   "theorems": [
    "C41_range",
    "C41_no_error",
    "C41_warmup",
    "C41_no_warmup_refuted",
    "C41_exp",
    "C41_cos_restarts",
    "C41_cos_no_restarts",
    "C41_cos_first_epoch_refuted",
    "C41_cos_below_min_refuted",
    "C41_cos_whole_epochs_refuted",
    "C41_factory"
   ],
   "note": "Over the reals; the refuted theorems show where the schedules do not do what their comments say."
  },
  {
   "property": "C42",
   "status": "proved",
   "theorems": [
    "C42_resume",
    "C42_restore",
    "C42_progress",
    "C42_crash_in_save_refuted",
    "C42_crash_in_save_reachable",
    "C42_stale_refuted"
   ],
   "note": "The epoch is an arbitrary deterministic function of epoch number and saved state."
  },
  {
   "property": "C43",
   "status": "proved",
   "theorems": [
    "C43_cut",
    "C43_too_many",
    "C43_too_few",
    "C43_nested",
    "C43_threshold",
    "C43_threshold_refuted",
    "C43_fit_llr",
    "C43_single_refuted"
   ],
   "note": "scipy linkage is a parameter; its table is any merge table"
  },
  {
   "property": "C44",
   "status": "proved",
   "theorems": [
    "C44_random",
    "C44_epoch",
    "C44_init_epoch",
    "C44_sequential",
    "C44_sequential_init",
    "C44_sequential_complete",
    "C44_walk_prefix",
    "C44_walk_cover",
    "C44_sequential_cover_refuted",
    "C44_sequential_short_refuted",
    "C44_sequential_hang_refuted",
    "C44_prune_stale_refuted",
    "C44_balance_stale_refuted",
    "C44_num_parts_refuted",
    "C44_epochs_repeat_refuted"
   ],
   "note": "SequenceBatchGeneratorV1 as a state machine over requests, with an arbitrary valid random generator. The _refuted theorems show the settings outside which the claim is false of the code: varying lengths do not cover the recording, recordings shorter than the minimum, more than one iteration without balanced sequences, pruning with shuffling or balancing, num_parts > 1, and that the first two epochs are identical."
  },
  {
   "property": "C45",
   "status": "proved",
   "theorems": [
    "C45_prune",
    "C45_sequential",
    "C45_sequential_limits",
    "C45_random",
    "C45_random_one_class",
    "C45_random_overflow_refuted",
    "C45_random_lost_class_refuted",
    "C45_random_1subclass_refuted",
    "C45_min_none_refuted",
    "C45_float_overlap_refuted",
    "C45_class_ids",
    "C45_class2int_split_refuted"
   ],
   "note": "random mode: full description whenever the allocated buffer is large enough (always for one class); the _refuted theorems show the defects: buffer overflow, silently lost class, random_1subclass dropping large classes, None minimum, float overlap, class2int after splitting"
  },
  {
   "property": "C46",
   "status": "proved",
   "theorems": [
    "C46_norm",
    "C46_global",
    "C46_invariance"
   ],
   "note": "over exact reals, one column; hypotheses: non-empty signal, and non-zero standard deviation when the variance is normalised (otherwise the code returns nan)"
  },
  {
   "property": "C47",
   "status": "proved",
   "theorems": [
    "C47_symmetric",
    "C47_diag_factor",
    "C47_triangular",
    "C47_vector",
    "C47_bad_length"
   ],
   "note": ""
  },
  {
   "property": "C48",
   "status": "proved",
   "theorems": [
    "C48_by_seq",
    "C48_by_seq_too_long",
    "C48_by_class",
    "C48_negative_class_refuted"
   ],
   "note": ""
  },
  {
   "property": "C49",
   "status": "proved",
   "theorems": [
    "C49_each_once",
    "C49_all",
    "C49_no_deadlock",
    "C49_without_lock_refuted"
   ],
   "note": ""
  },
  {
   "property": "C50",
   "status": "proved",
   "theorems": [
    "C50_znorm",
    "C50_tnorm",
    "C50_snorm",
    "C50_bounded",
    "C50_affine",
    "C50_shift",
    "C50_cohort_order",
    "C50_monotone",
    "C50_standardises",
    "C50_symmetric",
    "C50_tz_zt_refuted",
    "C50_adapt",
    "C50_adapt_whole_cohort",
    "C50_adapt_constant_refuted",
    "C50_adapt_mask_refuted"
   ],
   "note": "exact reals; refuted: TZ/ZT-norm cannot be constructed, adaptive S-norm has no floor and ranks masked entries as 0"
  },
  {
   "property": "C51",
   "status": "proved",
   "theorems": [
    "C51_attrs_roundtrip",
    "C51_rows"
   ],
   "note": ""
  },
  {
   "property": "C52",
   "status": "proved",
   "theorems": [
    "C52_transform",
    "C52_transform_elementwise"
   ],
   "note": ""
  },
  {
   "property": "C53",
   "status": "proved",
   "theorems": [
    "C53_filter",
    "C53_split_by_file",
    "C53_merge",
    "C53_get_file",
    "C53_get_single_refuted",
    "C53_get_number_refuted"
   ],
   "note": "Indexing a file with one segment fails, and access by number ignores the number (refuted theorems)."
  },
  {
   "property": "C54",
   "status": "proved",
   "theorems": [
    "C54_fast_is_slow",
    "C54_empty_file_refuted",
    "C54_names_meaning",
    "C54_inner_speaker_refuted",
    "C54_to_segment_list",
    "C54_segment_ids_refuted"
   ],
   "note": "Speakers strictly inside a segment are not listed; ids made by to_segment_list can coincide."
  },
  {
   "property": "C55",
   "status": "proved",
   "theorems": [
    "C55_opt_loglr",
    "C55_opt_loglr_raw"
   ],
   "note": "Real logarithms; Reals axioms."
  },
  {
   "property": "C56",
   "status": "proved",
   "theorems": [
    "C56_cllr",
    "C56_cllr_refuted"
   ],
   "note": "The code has the sign of the non-target scores wrong; the theorems state what it computes. Scores at or above -100 (below, the code uses an approximation)."
  },
  {
   "property": "C57",
   "status": "proved",
   "theorems": [
    "C57_log",
    "C57_log_uninterrupted",
    "C57_append_refuted"
   ],
   "note": ""
  },
  {
   "property": "C58",
   "status": "proved",
   "theorems": [
    "C58_onehot",
    "C58_onehot_default",
    "C58_onehot_errors"
   ],
   "note": ""
  },
  {
   "property": "C59",
   "status": "proved",
   "theorems": [
    "C59_nothing_lost",
    "C59_bound",
    "C59_bound_reached",
    "C59_one_worker_in_order",
    "C59_end_refuted"
   ],
   "note": "thread mode only; multiprocessing mode not modelled"
  },
  {
   "property": "C60",
   "status": "proved",
   "theorems": [
    "C60_get_index",
    "C60_getitem",
    "C60_getitem_missing",
    "C60_getitem_duplicate_refuted",
    "C60_filter",
    "C60_filter_missing",
    "C60_filter_remove",
    "C60_filter_info",
    "C60_filter_index_remove",
    "C60_split",
    "C60_split_group",
    "C60_lookup_after"
   ],
   "note": "one info field; csv save/load not modelled"
  },
  {
   "property": "C61",
   "status": "proved",
   "theorems": [
    "C61_balance",
    "C61_ratio"
   ],
   "note": "max_class_imbalance is an integer in the model (the code accepts a float)."
  },
  {
   "property": "C62",
   "status": "proved",
   "theorems": [
    "C62_predict_closest",
    "C62_fit",
    "C62_centroids",
    "C62_clusters_nonempty_refuted",
    "C62_zero_loss_runs_on"
   ],
   "note": "Exact rational arithmetic; float rounding is not modelled. The naive expectation that no cluster is left empty is refuted."
  },
  {
   "property": "C63",
   "status": "proved",
   "theorems": [
    "C63_softmax",
    "C63_softmax_shift",
    "C63_softmax_order",
    "C63_logsumexp",
    "C63_logsumexp_shift",
    "C63_empty",
    "C63_logsigmoid",
    "C63_sigmoid",
    "C63_sigmoid_monotone"
   ],
   "note": "Real arithmetic."
  },
  {
   "property": "C64",
   "status": "proved",
   "theorems": [
    "C64_counts",
    "C64_all_labels",
    "C64_normalized",
    "C64_xlabel",
    "C64_xlabel_any_labels_refuted",
    "C64_xlabel_repeatable_refuted",
    "C64_xlabel_strings_refuted"
   ],
   "note": "sklearn.confusion_matrix modelled from its documentation; the cross-label variant is wrong for labels not below their number (refuted with a counterexample), mutates its arguments, and raises for strings."
  },
  {
   "property": "C65",
   "status": "proved",
   "theorems": [
    "C65_whiten",
    "C65_fit_transform",
    "C65_fit_not_positive_definite",
    "C65_few_samples",
    "C65_vector_T_refuted",
    "C65_top_directions",
    "C65_pca",
    "C65_pca_too_many"
   ],
   "note": "Exact arithmetic in a real closed field (mathcomp); la.eigh and la.cholesky enter through their specification. Negative pca_dim not modelled."
  },
  {
   "property": "C66",
   "status": "proved",
   "theorems": [
    "C66_sbsw",
    "C66_lda",
    "C66_nda",
    "C66_too_many",
    "C66_total",
    "C66_accum_stats_refuted",
    "C66_sbsw_load_refuted"
   ],
   "note": "NSbSw (nearest neighbour scatter) is not modelled."
  },
  {
   "property": "C67",
   "status": "proved",
   "theorems": [
    "C67_nap",
    "C67_nap_fit_refuted",
    "C67_lnorm",
    "C67_mvn"
   ],
   "note": ""
  },
  {
   "property": "C68",
   "status": "proved",
   "theorems": [
    "C68_save",
    "C68_save_bare_file_refuted",
    "C68_round_trip",
    "C68_unset_parameter_refuted",
    "C68_predict",
    "C68_predict_after_load",
    "C68_constructor",
    "C68_names_kept_refuted",
    "C68_same_name_refuted"
   ],
   "note": "Arrays abstract, float32 cast a parameter; findings: update flags are lost, names of members of a named list grow with every save/load, a file name without directory cannot be saved, unset parameters cannot be loaded"
  },
  {
   "property": "C69",
   "status": "proved",
   "theorems": [
    "C69_fit_default_refuted",
    "C69_fit",
    "C69_predict",
    "C69_prob_range",
    "C69_monotone",
    "C69_separates"
   ],
   "note": "Ordered values abstract, Normal quantile a parameter, np.linspace exact; finding: max_vectors=None (the default) makes fit raise TypeError"
  },
  {
   "property": "C70",
   "status": "proved",
   "theorems": [
    "C70_parameters",
    "C70_log_prob",
    "C70_statistics",
    "C70_elbo",
    "C70_fit",
    "C70_fit_mean",
    "C70_fit_fixed_mean_refuted",
    "C70_norm_stats",
    "C70_statistics_in_place_refuted",
    "C70_empty_refuted",
    "C70_add_suff_stats_refuted",
    "C70_load_refuted"
   ],
   "note": "Exact reals, shapes assumed to match; findings: with a fixed mean the variance update is not the ML one, weights scale a caller-supplied statistics array in place, add_suff_stats and load_params always raise, empty data with a batch size raises UnboundLocalError"
  },
  {
   "property": "C71",
   "status": "proved",
   "theorems": [
    "C71_log_prob",
    "C71_new_weights",
    "C71_responsibilities",
    "C71_estep",
    "C71_mstep",
    "C71_em_increases",
    "C71_elbo",
    "C71_update_pi_ignored_refuted",
    "C71_stale_weights_refuted",
    "C71_small_count_refuted",
    "C71_fixed_mean_refuted",
    "C71_norm_stats_refuted",
    "C71_split",
    "C71_split_config_refuted",
    "C71_fit"
   ],
   "note": "Exact reals; k-means initialisation and file formats not included; findings: cached log weights never refreshed so update_pi has no effect on training or scoring, reported elbo lacks the entropy term, fixed means can give negative precisions, counts below min_N raise NameError, norm_suff_stats always raises, split_comp drops min_N and update_Lambda"
  },
  {
   "property": "C72",
   "status": "proved",
   "theorems": [
    "C72_segments",
    "C72_windows",
    "C72_one_window_refuted",
    "C72_no_window",
    "C72_windows_batched",
    "C72_windows_batched_refuted",
    "C72_prob",
    "C72_prob_segment"
   ],
   "note": "Exact reals, positive integer frame length and shift; findings: one window raises TypeError (NameError with a batch size), with a batch size most inputs raise although the same call without one works"
  },
  {
   "property": "C73",
   "status": "proved",
   "theorems": [
    "C73_cholesky",
    "C73_cholesky_unique",
    "C73_logdet",
    "C73_invert_pdmat",
    "C73_invert_trimat",
    "C73_varfloor",
    "C73_varfloor_chol"
   ],
   "note": "LinAlg.v models cholesky as the textbook recursion over a real closed field (exact arithmetic), solve_triangular/cho_solve as inverses of the triangle/product read, svd as any function returning a singular value decomposition, the logarithm as any function turning products into sums."
  },
  {
   "property": "C74",
   "status": "proved",
   "theorems": [
    "C74_stats_soft",
    "C74_stats_hard",
    "C74_center",
    "C74_1vs1",
    "C74_symmetric",
    "C74_book",
    "C74_vavg",
    "C74_savg",
    "C74_book_1vs1"
   ],
   "note": "Frplda.v models frplda.py and plda_base.py on mathcomp matrices over a real closed field (exact arithmetic; ln and log 2 pi are parameters). Evidence and posterior are specified by completing the joint density into constant times Gaussian density, for every value of the class variable (the integral itself is not formalised)."
  },
  {
   "property": "C75",
   "status": "proved",
   "theorems": [
    "C75_posterior",
    "C75_elbo",
    "C75_em",
    "C75_fit",
    "C75_em_W_refuted",
    "C75_em_fixed_mu_refuted"
   ],
   "note": "Frplda.v models frplda.py and plda_base.py on mathcomp matrices over a real closed field (exact arithmetic; ln and log 2 pi are parameters). Evidence and posterior are specified by completing the joint density into constant times Gaussian density, for every value of the class variable (the integral itself is not formalised). The EM increase is proved for the configurations where it holds; the two _refuted theorems give data for which the default configuration (W updated: the E step leaves the posterior covariance out of Ry) and the configuration with a fixed mean (outer product not symmetrised) decrease the ELBO."
  },
  {
   "property": "C76",
   "status": "proved",
   "theorems": [
    "C76_1vs1",
    "C76_posterior",
    "C76_elbo",
    "C76_em",
    "C76_fit",
    "C76_fit_total",
    "C76_sample",
    "C76_posterior_refuted"
   ],
   "note": "Splda.v models splda.py and plda.py on mathcomp matrices over a real closed field (exact arithmetic; ln and log 2 pi are parameters). llr_NvsM_book of both classes (returns None), initialize and the M steps of plda.py are not modelled. Posterior, ELBO and EM hold when the mean is zero or every class has weight one; C76_posterior_refuted shows that otherwise the code (which subtracts the mean once instead of N times) returns a wrong posterior."
  },
  {
   "property": "C77",
   "status": "proved",
   "theorems": [
    "C77_1vs1",
    "C77_posterior",
    "C77_elbo",
    "C77_log_prob",
    "C77_sample_refuted"
   ],
   "note": "Splda.v models splda.py and plda.py on mathcomp matrices over a real closed field (exact arithmetic; ln and log 2 pi are parameters). llr_NvsM_book of both classes (returns None), initialize and the M steps of plda.py are not modelled. C77_sample_refuted: sample divides the noise by D instead of its square root."
  },
  {
   "property": "C78",
   "status": "proved",
   "theorems": [
    "C78_initialize",
    "C78_weighted_avg",
    "C78_sample"
   ],
   "note": "Frplda.v models initialize, sample and weighted_avg_model on mathcomp matrices over a real closed field (exact arithmetic). The random numbers are arguments of sample."
  },
  {
   "property": "C79",
   "status": "proved",
   "theorems": [
    "C79_num_frames",
    "C79_stft",
    "C79_log_energy",
    "C79_inverse",
    "C79_inverse_rectangular",
    "C79_first_sample_refuted"
   ],
   "note": "Feats.v models st.py/stft.py in exact real arithmetic; the transform and its inverse are abstract functions with the inverse property as hypothesis."
  },
  {
   "property": "C80",
   "status": "proved",
   "theorems": [
    "C80_filter_stream",
    "C80_filters",
    "C80_offset",
    "C80_edges",
    "C80_decisions",
    "C80_some_speech",
    "C80_context_refuted",
    "C80_history_refuted",
    "C80_select",
    "C80_integer_selector_refuted",
    "C80_filter_args_refuted"
   ],
   "note": "Feats.v models the waveform preparation, the two first-order filters with state, EnergyVAD and FrameSelector in exact real arithmetic; the dither noise is an argument."
  },
  {
   "property": "C81",
   "status": "proved",
   "theorems": [
    "C81_mel_inverse",
    "C81_mel_kaldi",
    "C81_first_bin",
    "C81_negative_high_refuted",
    "C81_bin_frequency_refuted",
    "C81_bins",
    "C81_odd_refuted",
    "C81_norm",
    "C81_norm_nan_refuted"
   ],
   "note": "FilterBank.v models filter_banks.py in exact real arithmetic (Flocq ZnearestE for np.round); negative bins are outside of the model."
  },
  {
   "property": "C82",
   "status": "proved",
   "theorems": [
    "C82_via_logfb",
    "C82_logfb_refuted",
    "C82_via_fft_mag",
    "C82_via_fft",
    "C82_fft_stage_refuted",
    "C82_steps",
    "C82_rows",
    "C82_caller",
    "C82_caller_refuted",
    "C82_history_refuted",
    "C82_flags",
    "C82_via_log_spec",
    "C82_windows"
   ],
   "note": "Mfcc.v models MFCC.compute (all input/output steps, unbound locals, aliasing of the arrays, filter states) and the windows in exact real arithmetic; the FFT of a frame and the DCT of a row are arguments; the log of a non-positive number is outside of the model."
  },
  {
   "property": "C83",
   "status": "proved",
   "theorems": [
    "C83_llk",
    "C83_linear",
    "C83_posterior",
    "C83_predictive_gap",
    "C83_predictive_partial",
    "C83_predictive_refuted",
    "C83_fit",
    "C83_estimates",
    "C83_fit_succeeds",
    "C83_prior_strength",
    "C83_class_ids"
   ],
   "note": "Gbe.v models LinearGBE (linear, llk and predictive scores, normalisation, ML and MAP training, class balancing, labels, sample weights) over a real closed field with abstract log/exp/gammaln. The predictive scores are not the Student-t densities the code means: C83_predictive_gap gives the error, _partial the case where it cancels, _refuted shows wrong odds whenever the class weights differ. LinearGBEUP is not modelled: every method slices with a float and raises TypeError."
  },
  {
   "property": "C84",
   "status": "proved",
   "theorems": [
    "C84_score",
    "C84_posterior",
    "C84_fit",
    "C84_shared",
    "C84_defined",
    "C84_prior_N_refuted",
    "C84_shared_refuted",
    "C84_counts",
    "C84_post_N",
    "C84_prior_N"
   ],
   "note": "QScoring.v models QScoringHomoGBE (predict, fit, prior, post_N). C84_prior_N_refuted and C84_shared_refuted state two defects."
  },
  {
   "property": "C85",
   "status": "proved",
   "theorems": [
    "C85_llr",
    "C85_posterior",
    "C85_fit_values",
    "C85_fit",
    "C85_other_label_refuted",
    "C85_load_refuted",
    "C85_untrained"
   ],
   "note": "Calib.v models GaussCalibration. C85_other_label_refuted and C85_load_refuted state two defects. unsup_gauss_calibration.py imports a module that does not exist and cannot be imported."
  },
  {
   "property": "C86",
   "status": "proved",
   "theorems": [
    "C86_weights",
    "C86_call",
    "C86_caller_refuted",
    "C86_binary",
    "C86_bias_scaling_refuted",
    "C86_lambda_refuted",
    "C86_default_scaling",
    "C86_multinomial",
    "C86_no_priors_refuted",
    "C86_two_multinomial_refuted",
    "C86_ovr_priors_refuted",
    "C86_ovr_two_refuted",
    "C86_ovr_two_post_refuted",
    "C86_binary_reload",
    "C86_reload"
   ],
   "note": "Logit.v models LogisticRegression and BinaryLogisticRegression around an arbitrary scikit-learn optimiser. The _refuted theorems state defects: bias_scaling applied twice, lambda_reg ignored, caller weights overwritten, documented prior types that raise, two-class posteriors that ignore the data."
  },
  {
   "property": "C87",
   "status": "proved",
   "theorems": [
    "C87_mean",
    "C87_mean_std",
    "C87_padding",
    "C87_order",
    "C87_no_weight",
    "C87_max_theano",
    "C87_max_tf",
    "C87_max_refuted",
    "C87_prec_range",
    "C87_formats",
    "C87_logit_formats",
    "C87_post_formats",
    "C87_post_bayes",
    "C87_post_padding",
    "C87_post_order",
    "C87_post_prior",
    "C87_lde_resp",
    "C87_lde_assign",
    "C87_lde",
    "C87_lde_shape",
    "C87_lde_padding",
    "C87_lde_order"
   ],
   "note": "Pool.v models the pooling layers of keras/layers/pooling.py. C87_max_refuted states a defect of the TensorFlow max_with_mask: a masked frame makes the result at least 0. GlobalMaskedAveragePooling1D calls mask.nonzeros, which no tensor has, and is not modelled."
  },
  {
   "property": "C88",
   "status": "proved",
   "theorems": [
    "C88_elog",
    "C88_kl_std",
    "C88_kl_diag",
    "C88_kl_zero",
    "C88_kl_formats",
    "C88_kl_diag_layer_refuted",
    "C88_kl_seq",
    "C88_nllk_normal",
    "C88_categorical",
    "C88_mbr",
    "C88_bernoulli_linear",
    "C88_bernoulli_refuted",
    "C88_draw",
    "C88_sampler",
    "C88_tied_shape_refuted",
    "C88_tied",
    "C88_convert",
    "C88_q_score"
   ],
   "note": "KLoss.v models the probabilistic Keras layers and losses. The _refuted theorems state defects: the two-distribution KL layer rejects every input, the Bernoulli loss swaps prediction and target, the tied sampler announces a shape without the number of samples."
  },
  {
   "property": "C89",
   "status": "proved",
   "theorems": [
    "C89_frames",
    "C89_whole",
    "C89_embed",
    "C89_left_shift",
    "C89_left_refuted",
    "C89_short_refuted",
    "C89_q_short_refuted"
   ],
   "note": "Embed.v models predict_embed of SeqEmbed, SeqEmbedLDE and SeqQEmbed with an arbitrary encoder and pooling network. The _refuted theorems state defects: with a left context the chunks are written at the wrong place, sequences shorter than the end context keep frames that should be masked, and SeqQEmbed evaluates nothing on sequences not longer than both contexts."
  },
  {
   "property": "C90",
   "status": "proved",
   "theorems": [
    "C90_alignment",
    "C90_evaluates",
    "C90_two_enrolments_refuted",
    "C90_not_enrolled",
    "C90_parts_refuted",
    "C90_cohort_refuted",
    "C90_several_enrolments_refuted",
    "C90_cohort_test",
    "C90_squeeze",
    "C90_squeeze_refuted",
    "C90_segmentation",
    "C90_segmentation_fails",
    "C90_tracking",
    "C90_tracking_one_file_refuted",
    "C90_cosine"
   ],
   "note": "TrialEval.v models the selection of enrolments and trials, the reading of vectors, one-against-one scoring with an arbitrary scorer, cosine scoring and the segmentation of the test side. The _refuted theorems state defects: models with two enrolments, evaluation in parts, cohorts on the test side, N enrolments (undefined name), a first empty vector and tracking one file never work."
  },
  {
   "property": "C91",
   "status": "proved",
   "theorems": [
    "C91_lre_table",
    "C91_lre_fails",
    "C91_score_norm_refuted"
   ],
   "note": "to_lre models scores2lre_format.py with arbitrary number formatting and splitext. C91_score_norm_refuted: eval-score-norm.py calls an undefined function."
  },
  {
   "property": "C92",
   "status": "proved",
   "theorems": [
    "C92_segment",
    "C92_open_end_refuted",
    "C92_w64_refuted",
    "C92_sequential",
    "C92_iterator",
    "C92_read_all",
    "C92_read_all_segments_refuted",
    "C92_random",
    "C92_random_agrees",
    "C92_parts_files",
    "C92_parts_segments",
    "C92_parts_duplicate_ids_refuted",
    "C92_segment_object_refuted"
   ],
   "note": "Audio.v models the sequential and random audio readers over arbitrary sf.read and shell commands, with exact rational times. The _refuted theorems state defects: open-ended segments, the extension .w64, SegmentList objects, read(0) with segments and repeated segment names in parts."
  },
  {
   "property": "C93",
   "status": "proved",
   "theorems": [
    "C93_copy",
    "C93_merge_and_split",
    "C93_copy_ark",
    "C93_copy_h5",
    "C93_merge",
    "C93_merge_collision",
    "C93_merge_empty_refuted"
   ],
   "note": "copy_feats over an arbitrary writer that satisfies the two laws of the modelled ark and HDF5 writers (proved for both); h5_merge over the HDF5 files of H5.v. C93_merge_empty_refuted: an empty file stops the merge without chunk size."
  },
  {
   "property": "C94",
   "status": "proved",
   "theorems": [
    "C94_density",
    "C94_parameters",
    "C94_stats",
    "C94_elbo",
    "C94_ml",
    "C94_fixed_mean_refuted",
    "C94_norm_refuted"
   ],
   "note": "NormalFull.v models Normal over an arbitrary real closed field with an abstract logarithm. C94_fixed_mean_refuted: with update_mu=False the covariance estimate is wrong; C94_norm_refuted: norm_suff_stats does not whiten, its second-order statistics and load_params raise NameError."
  },
  {
   "property": "C95",
   "status": "proved",
   "theorems": [
    "C95_density",
    "C95_batches",
    "C95_mstep",
    "C95_em",
    "C95_em_means",
    "C95_weights_refuted"
   ],
   "note": "NormalFull.v models GMM over an arbitrary real closed field with abstract logarithm, exponential and svd. EM monotonicity holds for components whose covariance is above the floor before or after. C95_weights_refuted: the mixture weights are never re-estimated and get_config raises NameError."
  },
  {
   "property": "C96",
   "status": "proved",
   "theorems": [
    "C96_intervals",
    "C96_boundary_refuted",
    "C96_segments",
    "C96_rttm",
    "C96_no_frames_refuted"
   ],
   "note": "VadTools.v models the conversion tools by the records they write. C96_boundary_refuted: h5vad2nist/arkvad2nist put every boundary one frame early, so the last frame before each change gets the wrong state; C96_no_frames_refuted: the optional num-frames table is in fact required."
  },
  {
   "property": "C97",
   "status": "proved",
   "theorems": [
    "C97_batches",
    "C97_epoch_size",
    "C97_counters",
    "C97_second_epoch_refuted",
    "C97_utt1hot_refuted"
   ],
   "note": "SeqGen2.v models SequenceBatchGeneratorV2 over an arbitrary random generator. C97_second_epoch_refuted: the generator is reseeded before the epoch advances, so the second epoch repeats the batches of the first; C97_utt1hot_refuted: return_utt1hot always raises."
  },
  {
   "property": "C98",
   "status": "proved",
   "theorems": [
    "C98_categorical",
    "C98_accuracy_range",
    "C98_weight_scale",
    "C98_binary",
    "C98_binary_mean_refuted",
    "C98_logits_refuted",
    "C98_fcnet",
    "C98_ffnet",
    "C98_output_refuted",
    "C98_config_refuted",
    "C98_tdnn_refuted",
    "C98_activation"
   ],
   "note": "TorchNets.v. C98_binary_mean_refuted: binary accuracy with the default reduction raises unless there is one decision; C98_logits_refuted: the logits metric decides at 0.5; C98_output_refuted: output batch normalisation or dropout of FCNetV1 always raises; C98_config_refuted: get_config always raises; C98_tdnn_refuted: the TDNN encoders cannot be constructed."
  },
  {
   "property": "C99",
   "status": "proved",
   "theorems": [
    "C99_sizes",
    "C99_eval",
    "C99_eval_errors",
    "C99_parts_refuted",
    "C99_convert",
    "C99_train_eval",
    "C99_order_refuted",
    "C99_vlist_sep_refuted",
    "C99_two_class"
   ],
   "note": "ClassEval.v. C99_parts_refuted: evaluation in several parts always raises; C99_order_refuted: with class numbers that are not the line positions, which training accepts, the outputs go to the wrong classes; C99_vlist_sep_refuted: the separator option of VectorReader is always dropped."
  }
 ]
}