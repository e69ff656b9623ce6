{
 "claims": [
  {
   "property": "C01",
   "status": "proved",
   "theorems": [
    "C01_returned_means_saved",
    "C01_terminates",
    "C01_no_deadlock",
    "C01_always_completes",
    "C01_newest_always_complete",
    "C01_published_is_whole",
    "C01_other_steps_untouched",
    "C01_no_stray_directories",
    "C01_finished_save_refines",
    "C01_every_listed_complete_refuted",
    "C01_gcs_publication_refuted"
   ],
   "note": "Interleaved multi-host crash model. Exact form: the newest listed step is always complete; any other step is intact unless pruning of that unpinned step has begun while a newer complete step is listed. A save neither deadlocks nor runs forever, and once any host has returned the whole save is done. C01_every_listed_complete_refuted and C01_gcs_publication_refuted are the exact exceptions."
  },
  {
   "property": "C02",
   "status": "proved",
   "theorems": [
    "C02_existing_step_untouched",
    "C02_hosts_return_early",
    "C02_resave_noop"
   ],
   "note": ""
  },
  {
   "property": "C03",
   "status": "proved",
   "theorems": [
    "C03_retention_exact",
    "C03_no_limit_keeps_all",
    "C03_at_most_keep_unpinned",
    "C03_newest_survives",
    "C03_negative_keep_refuted",
    "C03_increasing_saves"
   ],
   "note": "Directory model of the legacy Checkpointer. C03_negative_keep_refuted: a negative keep empties the directory, so the newest-survives claim needs keep >= 0."
  },
  {
   "property": "C04",
   "status": "proved",
   "theorems": [
    "C04_pinned_survives",
    "C04_pin"
   ],
   "note": "Any history of saves, pins and unpins, every pruning policy."
  },
  {
   "property": "C05",
   "status": "proved",
   "theorems": [
    "C05_best_exact",
    "C05_kept_dominate_removed",
    "C05_kept_count",
    "C05_newest_kept",
    "C05_period_kept"
   ],
   "note": "SaveBestCheckpointer pruning; metric values as comparable numbers or missing."
  },
  {
   "property": "C06",
   "status": "proved",
   "theorems": [
    "C06_round_trip",
    "C06_round_trip_trailing_slash",
    "C06_names_injective",
    "C06_listed_exact",
    "C06_saved_step_listed",
    "C06_tmp_never_listed",
    "C06_listed_dir_exists_refuted",
    "C06_custom_prefix_listed_refuted",
    "C06_empty_dir_lists_nothing"
   ],
   "note": "String-level model of names. C06_listed_dir_exists_refuted (zero-padded or newline names are listed as a step whose canonical directory does not exist) and C06_custom_prefix_listed_refuted (all_steps ignores a configured prefix) are findings."
  },
  {
   "property": "C07",
   "status": "proved",
   "theorems": [
    "C07_default_restore_newest",
    "C07_default_restore_error",
    "C07_explicit_target",
    "C07_step_zero_refuted",
    "C07_restore_after_save"
   ],
   "note": "C07_step_zero_refuted: a directory whose newest step is 0 is reported as having no checkpoint by the default restore; an explicit step 0 works."
  },
  {
   "property": "C08",
   "status": "proved",
   "theorems": [
    "C08_tiles_and_fits",
    "C08_greedy",
    "C08_whole_when_fits",
    "C08_last_reduction_needed",
    "C08_one_dimension_optimal",
    "C08_errors_exact",
    "C08_as_large_as_possible_refuted"
   ],
   "note": "C08_as_large_as_possible_refuted: the documented maximality fails, e.g. shape [5,4] with target 10."
  },
  {
   "property": "C09",
   "status": "proved",
   "theorems": [
    "C09_never_over_commits",
    "C09_terminates",
    "C09_final_state_exact",
    "C09_small_request_admissible",
    "C09_save_hangs_exactly",
    "C09_total_limit_refuted"
   ],
   "note": "Full asyncio wake-up semantics; termination and exact final state. C09_save_hangs_exactly: an array of at least concurrent_gb is never written. C09_total_limit_refuted: every array has its own limiter, so the bytes in flight of a whole save are not bounded by the limit."
  },
  {
   "property": "C10",
   "status": "proved",
   "theorems": [
    "C10_relocatable",
    "C10_written_in_place",
    "C10_gfile_specs_readable",
    "C10_recorded_spec_is_relative",
    "C10_dotless_names_distinct",
    "C10_distinct_names_distinct_files_refuted",
    "C10_old_format_local_refuted"
   ],
   "note": "C10_distinct_names_distinct_files_refuted: names a/b and a.b share a file. C10_old_format_local_refuted: a bucket spec of the older TensorStore format cannot be read locally."
  },
  {
   "property": "C11",
   "status": "proved",
   "theorems": [
    "C11_dataset_retention_exact",
    "C11_dataset_pruning_keeps_steps"
   ],
   "note": ""
  },
  {
   "property": "C12",
   "status": "proved",
   "theorems": [
    "C12_choice_exact",
    "C12_latest_is_newest",
    "C12_all_in_order",
    "C12_resume_beats_pretrained",
    "C12_fresh_run",
    "C12_training_single_path",
    "C12_restores_all_paths",
    "C12_restores_all_paths_tf_refuted",
    "C12_restore_exact",
    "C12_training_refusals"
   ],
   "note": "Includes the caller in train.py. C12_restores_all_paths_tf_refuted: a TensorFlow checkpoint among several paths makes utils.restore return only that one."
  },
  {
   "property": "C13",
   "status": "proved",
   "theorems": [
    "C13_round_trip",
    "C13_round_trip_pruned",
    "C13_flat_keys_exact",
    "C13_separator_in_key_refuted",
    "C13_name_tree_exact"
   ],
   "note": "Round trip, flat key set and name tree exact for all nested states; findings: a key containing the separator breaks the round trip. flax flatten/unflatten modelled from their documented behaviour."
  },
  {
   "property": "C14",
   "status": "proved",
   "theorems": [
    "C14_intersect_exact",
    "C14_merge_exact",
    "C14_merge_keeps_arrays_refuted",
    "C14_merge_total_refuted"
   ],
   "note": "Intersect and merge characterised leaf by leaf; findings: merge loses arrays / fails when one side has an array where the other has a dictionary."
  },
  {
   "property": "C15",
   "status": "proved",
   "theorems": [
    "C15_result_exact",
    "C15_errors_exact",
    "C15_rule_decides",
    "C15_unmapped_copied_dropped_absent",
    "C15_rule_always_decides_refuted",
    "C15_unused_error_duplicate_pattern_refuted",
    "C15_resuming_identity",
    "C15_nested_exact"
   ],
   "note": "Lookup table of the result and both errors characterised exactly for an arbitrary regex matcher; findings: rule ignored when the checkpoint has the mapped key itself, spurious unused-rule error for duplicate patterns."
  },
  {
   "property": "C16",
   "status": "proved",
   "theorems": [
    "C16_largest_false",
    "C16_probes",
    "C16_rows_independent",
    "C16_any_predicate"
   ],
   "note": "Largest false int32 for every monotone predicate, 32 probes, rows independent; also the change point for arbitrary predicates. JAX promotion int32|uint32 -> int32 (x64 disabled) assumed."
  },
  {
   "property": "C17",
   "status": "proved",
   "theorems": [
    "C17_involution",
    "C17_order_isomorphism",
    "C17_unique",
    "C17_float_bsearch",
    "C17_decode_is_ieee"
   ],
   "note": "Involution, order isomorphism with IEEE totalOrder, uniqueness, agreement of the bit layout with Flocq, and float32_bsearch."
  },
  {
   "property": "C18",
   "status": "proved",
   "theorems": [
    "C18_kept_exact",
    "C18_kept_above_dropped",
    "C18_at_least_k",
    "C18_at_least_k_refuted",
    "C18_zero_k_refuted"
   ],
   "note": "Exact kept set per entry for all float32 rows; findings: fewer than k kept when fewer than k entries exceed -inf, +inf kept for k=0."
  },
  {
   "property": "C19",
   "status": "proved",
   "theorems": [
    "C19_kept_exact",
    "C19_threshold",
    "C19_exact_sum_monotone",
    "C19_float_sum_monotone",
    "C19_smallest_set_refuted",
    "C19_zero_p_refuted"
   ],
   "note": "Kept iff the mass of strictly more probable entries is below p, for any monotone mass; exact and rounded float sums in any order are monotone; softmax itself not modelled. Findings: ties make the set non-minimal, p<=0 drops everything."
  },
  {
   "property": "C20",
   "status": "proved",
   "theorems": [
    "C20_prompt_preserved",
    "C20_every_decode",
    "C20_hole_refuted"
   ],
   "note": "Contiguous non-zero prompt (positions 1..n), any sampler, any batch; C20_every_decode covers the whole of temperature_sample with num_decodes. A zero inside the prompt breaks it (C20_hole_refuted)."
  },
  {
   "property": "C21",
   "status": "proved",
   "theorems": [
    "C21_padding_after_end",
    "C21_one_end"
   ],
   "note": "Any sampler; padding after the first end token past the prompt; at most one generated end token."
  },
  {
   "property": "C22",
   "status": "proved",
   "theorems": [
    "C22_terminates",
    "C22_within_length",
    "C22_one_call_per_step",
    "C22_step_limit",
    "C22_zero_steps_refuted",
    "C22_hard_limit"
   ],
   "note": "Iteration bound, one model call per iteration, step limit. The limit is exceeded by one when a row starts at its limit (C22_zero_steps_refuted)."
  },
  {
   "property": "C23",
   "status": "proved",
   "theorems": [
    "C23_rows_independent",
    "C23_any_two_batches",
    "C23_hole_refuted",
    "C23_start_at_limit_refuted",
    "C23_decodes_sorted",
    "C23_log_prob_terms"
   ],
   "note": "Row-local sampler with private state per row; output and log probabilities equal between any two batches. Needs a contiguous prompt and a start below the row limit (C23_hole_refuted, C23_start_at_limit_refuted)."
  },
  {
   "property": "C24",
   "status": "proved",
   "theorems": [
    "C24_two_stage_equals_top_k",
    "C24_top"
   ],
   "note": "Equality with lax.top_k (values and positions) for every total order with least element; lax.top_k itself is modelled from its documentation (ties to the lower position)."
  },
  {
   "property": "C25",
   "status": "proved",
   "theorems": [
    "C25_one_hot_gather",
    "C25_direct_gather",
    "C25_layers",
    "C25_non_finite_refuted",
    "C25_cache_map",
    "C25_cache_map_keys",
    "C25_flatten_unflatten",
    "C25_unflatten_flatten",
    "C25_add_beam_dim",
    "C25_expand"
   ],
   "note": "One-hot gather equals selection whenever 0*a=0; with non-finite values it yields NaN (C25_non_finite_refuted)."
  },
  {
   "property": "C26",
   "status": "proved",
   "theorems": [
    "C26_right_align",
    "C26_left_align",
    "C26_all_padding",
    "C26_rotation",
    "C26_round_trip",
    "C26_last_prompt_token"
   ],
   "note": "Exact result on every row; ceil(log2) is taken exactly."
  },
  {
   "property": "C27",
   "status": "proved",
   "theorems": [
    "C27_sorted",
    "C27_flagged_has_end",
    "C27_prompt_preserved",
    "C27_no_finished_live",
    "C27_selection_is_gather",
    "C27_terminates",
    "C27_result",
    "C27_best_is_finished",
    "C27_prefilled_prompt",
    "C27_initial_refuted",
    "C27_small_vocab_refuted",
    "C27_end_in_prompt_refuted",
    "C27_full_prompt_refuted",
    "C27_filler_returned_refuted",
    "C27_placeholder_finished_refuted"
   ],
   "note": "Order, no finished live beam (needs more tokens than beams and values clear of NEG_INF), end token in every entry marked finished, prompt kept (contiguous prompt without end token and with at least one padding position), best entry finished when vocab >= 2k. Findings: initial live beams unsorted; finished sequence live when vocab <= k; end token in the prompt gives a score-0 hypothesis; a full row repeats its last prompt token; filler entries returned; placeholder beams finish when vocab < 2k. Values are any type with the stated order laws."
  },
  {
   "property": "C28",
   "status": "proved",
   "theorems": [
    "C28_stop_sound",
    "C28_more_steps_useless",
    "C28_result_final",
    "C28_why_stopped",
    "C28_brevity",
    "C28_real",
    "C28_min_log_prob",
    "C28_given_up",
    "C28_negative_alpha_refuted"
   ],
   "note": "Soundness of the stop test for all non-positive continuations of total length <= max_decode_len, and invariance of the finished set under any further iterations. In the first theorems the penalty is abstracted to its laws; C28_brevity shows that the penalty of the source, over the reals, has them iff alpha >= 0, C28_real instantiates the result, and C28_negative_alpha_refuted is a witness for negative alpha. C28_min_log_prob and C28_given_up say what stopping on min_log_prob and with NEG_INF scores means. Stopping at max_decode_step is regardless of scores. Float rounding is not modelled."
  },
  {
   "property": "C29",
   "status": "proved",
   "theorems": [
    "C29_covered",
    "C29_covers_divisible",
    "C29_within_bounds",
    "C29_equal_or_disjoint",
    "C29_same_iff_shard",
    "C29_tuple_refused",
    "C29_remainder_refuted"
   ],
   "note": "Full statement over every mesh, host layout, shape and spec; elements past the divisible part are lost (C29_remainder_refuted); a repeated axis yields only diagonal chunks (example); tuple specs are refused."
  },
  {
   "property": "C30",
   "status": "proved",
   "theorems": [
    "C30_one_writer",
    "C30_replica_ids"
   ],
   "note": "Exactly one replica-0 host per held element; replica ids are exactly 0..R-1."
  },
  {
   "property": "C31",
   "status": "proved",
   "theorems": [
    "C31_layout",
    "C31_one_first",
    "C31_moe",
    "C31_negative_batch_refuted"
   ],
   "note": "Ordinary and mixture-of-experts layouts; the second divisibility check never fires; negative batch sizes are accepted (finding)."
  },
  {
   "property": "C32",
   "status": "proved",
   "theorems": [
    "C32_every_device_once",
    "C32_shared_coordinates_refuted",
    "C32_bounds",
    "C32_shape",
    "C32_no_hole",
    "C32_groups_are_tiles",
    "C32_order",
    "C32_host_blocks",
    "C32_even_layout",
    "C32_built_iff",
    "C32_zmajor_host_blocks",
    "C32_zmajor_tall_host_refuted",
    "C32_wrong_length_refuted",
    "C32_default_submesh",
    "C32_default_submesh_refuted",
    "C32_gpu_shapes",
    "C32_gpu_shapes_refuted"
   ],
   "note": "get_mesh on TPU and other platforms, default_mesh's submesh table, get_gpu_mesh's shapes; findings: tall hosts in Z-major order, too long submesh off TPU, automatic submesh that does not divide the slice, unchecked process divisibility on GPU. Not modelled: create_device_mesh (jax), get_cpu_mesh."
  },
  {
   "property": "C33",
   "status": "proved",
   "theorems": [
    "C33_largest_divisor",
    "C33_mesh",
    "C33_not_positive"
   ],
   "note": "Expert axis search and reshape, on any base mesh of shape (data, model)."
  },
  {
   "property": "C34",
   "status": "proved",
   "theorems": [
    "C34_direct",
    "C34_calls",
    "C34_partition",
    "C34_same_sums",
    "C34_fails",
    "C34_too_short",
    "C34_same_key_refuted",
    "C34_mean_refuted",
    "C34_ragged_refuted"
   ],
   "note": "Exact result of accumulation (C34_calls), partition of the batch, equality with the unbatched sums for additive functions, failure conditions. Refutations: all microbatches share one dropout key; batch-normalised losses come out n times larger; ragged features are silently cut or repeated."
  },
  {
   "property": "C35",
   "status": "proved",
   "theorems": [
    "C35_exact",
    "C35_needs_patience",
    "C35_last_window",
    "C35_small_patience_refuted",
    "C35_sticky_refuted",
    "C35_nan_refuted",
    "C35_meaning",
    "C35_init",
    "C35_best_refuted"
   ],
   "note": "C35_exact is an iff for every sequence of reports, with arbitrary arithmetic (no law assumed). Refutations record patience <= 1, stickiness, NaN and the missing comparison with the best value."
  },
  {
   "property": "C36",
   "status": "proved",
   "theorems": [
    "C36_exact",
    "C36_local",
    "C36_python_float_refuted"
   ],
   "note": "iff, for every metrics dictionary."
  },
  {
   "property": "C37",
   "status": "proved",
   "theorems": [
    "C37_exact",
    "C37_short",
    "C37_split",
    "C37_no_steps",
    "C37_metrics",
    "C37_steps",
    "C37_resume",
    "C37_keys"
   ],
   "note": "Call semantics, splitting, resuming, keys, metrics, data exhaustion, zero steps."
  },
  {
   "property": "C38",
   "status": "proved",
   "theorems": [
    "C38_complete",
    "C38_last_step",
    "C38_no_extra",
    "C38_refused",
    "C38_nothing_to_do",
    "C38_absolute_period_refuted"
   ],
   "note": "LoopModel.v: train loop as an event trace with fuel; fuel above the number of steps always suffices. Logging, summaries, compilation not modelled."
  },
  {
   "property": "C39",
   "status": "proved",
   "theorems": [
    "C39_stall",
    "C39_endless_refuted",
    "C39_remedy",
    "C39_no_period",
    "C39_due_step_refuted"
   ],
   "note": "C39_stall: never passes the last extra step, never returns; C39_endless_refuted: an endless run; C39_no_period; C39_remedy. Finding."
  },
  {
   "property": "C40",
   "status": "proved",
   "theorems": [
    "C40_no_training_after_stop",
    "C40_early_return",
    "C40_always_saved_refuted",
    "C40_request_lost_refuted",
    "C40_lost_only_by_evaluation",
    "C40_mid_epoch_kept"
   ],
   "note": "C40_always_saved_refuted and C40_request_lost_refuted are findings: stop at an epoch end is not saved, or is overwritten by the evaluation."
  },
  {
   "property": "C41",
   "status": "proved",
   "theorems": [
    "C41_exact",
    "C41_fails"
   ],
   "note": "Every configured action is called once, in order, on process 0 only; the disjunction reaches all processes; failure iff process 0 has no metrics."
  },
  {
   "property": "C42",
   "status": "proved",
   "theorems": [
    "C42_complete",
    "C42_tokens_in_order",
    "C42_aux_in_order",
    "C42_empty_refused"
   ],
   "note": "C42_complete, C42_tokens_in_order, C42_aux_in_order, C42_empty_refused. Assumes host_local_array_to_global_array lays the shards out in order and that np.argsort does what its documentation says."
  },
  {
   "property": "C43",
   "status": "proved",
   "theorems": [
    "C43_order",
    "C43_in_dataset_order_iff",
    "C43_dataset_order_refuted",
    "C43_single_shard"
   ],
   "note": "Exact order for whole batches; dataset order iff H=1, b=1 or b=H; refuted in general."
  },
  {
   "property": "C44",
   "status": "proved",
   "theorems": [
    "C44_complete",
    "C44_recovers",
    "C44_torn_checkpoint",
    "C44_every_crash_recoverable_refuted",
    "C44_prefix",
    "C44_interrupted_deletion_refuted",
    "C44_orphan_marker",
    "C44_rerun",
    "C44_no_examples",
    "C44_too_many_chunks"
   ],
   "note": "Invariant over all crash/restart histories, inevitability of completion, and refutations for torn checkpoint, interrupted deletion, and more chunks than names."
  },
  {
   "property": "C45",
   "status": "proved",
   "theorems": [
    "C45_merge_iff",
    "C45_missing_noticed_refuted",
    "C45_name_order"
   ],
   "note": "Exact characterisation of the merge; a missing last chunk is not noticed (refuted)."
  },
  {
   "property": "C46",
   "status": "proved",
   "theorems": [
    "C46_accounting",
    "C46_at_most_once_more_per_crash",
    "C46_run",
    "C46_all_directories_refuted",
    "C46_broken_record",
    "C46_white_space"
   ],
   "note": "C46_accounting, C46_at_most_once_more_per_crash, C46_run; findings C46_all_directories_refuted, C46_broken_record, C46_white_space."
  },
  {
   "property": "C47",
   "status": "proved",
   "theorems": [
    "C47_rows",
    "C47_same_global_batch",
    "C47_first_pass",
    "C47_epochs_suffice",
    "C47_passes_in_order",
    "C47_endless_or_empty",
    "C47_indivisible",
    "C47_airio_shards_refuted"
   ],
   "note": "C47_rows, C47_same_global_batch, C47_first_pass, C47_epochs_suffice, C47_endless_or_empty, C47_indivisible; finding C47_airio_shards_refuted."
  },
  {
   "property": "C48",
   "status": "proved",
   "theorems": [
    "C48_accepts_iff",
    "C48_asserts_iff",
    "C48_placement",
    "C48_reassembles",
    "C48_replicas_agree_refuted",
    "C48_no_row_lost_refuted"
   ],
   "note": "C48_accepts_iff, C48_asserts_iff, C48_placement, C48_reassembles; findings C48_replicas_agree_refuted, C48_no_row_lost_refuted. Indices are identified with their hashes."
  },
  {
   "property": "C49",
   "status": "proved",
   "theorems": [
    "C49_least_multiple",
    "C49_zero_refused"
   ],
   "note": "C49_least_multiple, C49_zero_refused."
  },
  {
   "property": "C50",
   "status": "proved",
   "theorems": [
    "C50_value",
    "C50_unknown_iff",
    "C50_floor_or_nan",
    "C50_zero_warmup",
    "C50_zero_cycle",
    "C50_order",
    "C50_offset",
    "C50_warmup_rises",
    "C50_decays",
    "C50_peak",
    "C50_linear_decay",
    "C50_decay_every",
    "C50_cosine"
   ],
   "note": "Over the reals with the special values of IEEE arithmetic; rounding and overflow are not modelled. Findings: C50_zero_warmup, C50_zero_cycle (NaN passes the floor)."
  },
  {
   "property": "C51",
   "status": "proved",
   "theorems": [
    "C51_prefix_dropped",
    "C51_long_prefix",
    "C51_negative_prefix"
   ],
   "note": "The vmapped function, per row; int32 overflow not modelled."
  },
  {
   "property": "C52",
   "status": "proved",
   "theorems": [
    "C52_exact",
    "C52_covers",
    "C52_well_formed",
    "C52_unique_ids_refuted"
   ],
   "note": "C52_covers: every batch is covered by C52_exact. Finding: C52_unique_ids_refuted (over-counting outside well-formed rows)."
  },
  {
   "property": "C53",
   "status": "proved",
   "theorems": [
    "C53_exact",
    "C53_no_leak_through_layers",
    "C53_autoregressive",
    "C53_scattered_prefix_leaks"
   ],
   "note": "Dimensions of size 1 are left out. Layers are abstract functions that respect the mask. Finding: C53_scattered_prefix_leaks."
  },
  {
   "property": "C54",
   "status": "proved",
   "theorems": [
    "C54_range",
    "C54_small",
    "C54_small_injective",
    "C54_monotone",
    "C54_saturates",
    "C54_mirror",
    "C54_no_future",
    "C54_raises_iff",
    "C54_real_computation_sound",
    "C54_log_spaced",
    "C54_short_max_distance_refuted",
    "C54_odd_last_bucket_unused",
    "C54_bias",
    "C54_bias_usual"
   ],
   "note": "C54_real_computation_sound: the computation over the reals meets the hypothesis on the floats. Findings: C54_short_max_distance_refuted, C54_odd_last_bucket_unused."
  },
  {
   "property": "C55",
   "status": "proved",
   "theorems": [
    "C55_packed_row",
    "C55_each_example_weighs_one",
    "C55_packed_average",
    "C55_plain_average",
    "C55_packing_does_not_matter",
    "C55_token_mean",
    "C55_plain_factor",
    "C55_default_weights",
    "C55_names",
    "C55_no_weight_no_loss",
    "C55_unusual_weights_refuted",
    "C55_other_factors"
   ],
   "note": "Exact arithmetic over the rationals. Findings: C55_no_weight_no_loss (NaN), C55_unusual_weights_refuted."
  },
  {
   "property": "C56",
   "status": "proved",
   "theorems": [
    "C56_merge_associative",
    "C56_eval",
    "C56_train",
    "C56_split",
    "C56_order",
    "C56_batch_size",
    "C56_per_step_refuted",
    "C56_zero",
    "C56_durations_refuted",
    "C56_empty",
    "C56_same_names",
    "C56_base",
    "C56_z_loss",
    "C56_features",
    "C56_loss_fn",
    "C56_loss_fn_ids",
    "C56_raises",
    "C56_without_entries",
    "C56_per_token_refuted",
    "C56_non_padding"
   ],
   "note": "Rational arithmetic. clu's Average and LastValue are modelled from their documentation. Findings: C56_per_step_refuted, C56_durations_refuted, C56_per_token_refuted, C56_empty."
  },
  {
   "property": "C57",
   "status": "proved",
   "theorems": [
    "C57_state_dict",
    "C57_round_trip",
    "C57_exact",
    "C57_structure",
    "C57_missing",
    "C57_kept",
    "C57_dropped_refuted",
    "C57_optimizer",
    "C57_target_refuted"
   ],
   "note": "restore_state of OptaxWrapper is characterised exactly against a recursive specification (restored) that does not flatten. Findings: state of a stateful transformation is dropped silently where the present optimizer has EmptyState (C57_dropped_refuted); extra parameters are ignored and a dict is accepted in place of a parameter (C57_target_refuted). flax to_state_dict/from_state_dict/flatten_dict are modelled from their documentation."
  },
  {
   "property": "C58",
   "status": "proved",
   "theorems": [
    "C58_derive",
    "C58_set_param_axes",
    "C58_subtree",
    "C58_update_subtree",
    "C58_apply",
    "C58_apply_raises",
    "C58_init_raises",
    "C58_init",
    "C58_hyper_params",
    "C58_overrides",
    "C58_overlap_refuted",
    "C58_value_filter_refuted",
    "C58_structure_refuted"
   ],
   "note": "Sub-optimizers are arbitrary functions that return trees with the leaves they were given. Findings: overlaps are refused when the state is created but not by a step (C58_overlap_refuted); a filter that looks at the values drops or mixes up parameters (C58_value_filter_refuted); empty dicts vanish and names with slashes are split (C58_structure_refuted); a short hyper_params list erases states (C58_hyper_params)."
  },
  {
   "property": "C59",
   "status": "proved",
   "theorems": [
    "C59_rule",
    "C59_heuristic",
    "C59_init",
    "C59_update",
    "C59_update_raises",
    "C59_batch",
    "C59_skip_nan",
    "C59_axes",
    "C59_init_state",
    "C59_apply",
    "C59_train",
    "C59_logical",
    "C59_global_norm",
    "C59_override_refuted",
    "C59_first_rule",
    "C59_stack_refuted",
    "C59_axes_refuted"
   ],
   "note": "The arithmetic is abstract, means and sums being functions of the row-major list; numpy broadcasting from its documentation. Findings: overriding beta1 in a step changes the shape of the state (C59_override_refuted); a rule for a matrix is ignored in favour of the sizes, so a stack is factored where its matrices are not (C59_stack_refuted); beta1=0.0 and parameters of one element get no axes (C59_axes_refuted)."
  },
  {
   "property": "C60",
   "status": "proved",
   "theorems": [
    "C60_first_match",
    "C60_apply_raises",
    "C60_apply",
    "C60_grammar",
    "C60_unambiguous",
    "C60_names",
    "C60_order",
    "C60_collisions",
    "C60_t5_names",
    "C60_lm_names",
    "C60_missing_states",
    "C60_relpos",
    "C60_update",
    "C60_import",
    "C60_lossless_refuted",
    "C60_states_kept_refuted",
    "C60_relpos_towers_refuted",
    "C60_relpos_one_layer_refuted",
    "C60_missing_variable_refuted"
   ],
   "note": "Python regular expressions are modelled from their documentation, with ASCII classes. Findings: two legacy names can silently overwrite one another (C60_lossless_refuted, exact in C60_collisions); factored slots are replaced by zeros when a full slot is also present (C60_states_kept_refuted); sharing of relative position biases is decided jointly for encoder and decoder (C60_relpos_towers_refuted); a one-layer model with unshared biases cannot be imported (C60_relpos_one_layer_refuted); a missing variable does not fail the update (C60_missing_variable_refuted)."
  },
  {
   "property": "C61",
   "status": "proved",
   "theorems": [
    "C61_astype",
    "C61_reported",
    "C61_eager",
    "C61_eager_chain",
    "C61_from_spec",
    "C61_restore",
    "C61_restore_lazily",
    "C61_load",
    "C61_load_lazily",
    "C61_load_empty",
    "C61_eager_refuted",
    "C61_load_targets_only_refuted",
    "C61_uint16_refuted"
   ],
   "note": "Arrays are abstract; TensorStore is assumed to give arrays of the dtype and shape of the spec. Findings: a chain of conversions on a LazyArray is not what the same chain on the array gives (C61_eager_refuted); load_t5x_checkpoint converts the step and the optimizer state as well, although restore_dtype is documented for targets (C61_load_targets_only_refuted); it fails on states with empty dictionaries (C61_load_empty); restoring as uint16 differs lazily and at once (C61_uint16_refuted)."
  },
  {
   "property": "C62",
   "status": "proved",
   "theorems": [
    "C62_no_silent_mismatch",
    "C62_completes",
    "C62_only_others_raise_refuted",
    "C62_metrics"
   ],
   "note": "Assumes jax's assert_equal compares with process 0's broadcast value and raises where it differs."
  },
  {
   "property": "C63",
   "status": "proved",
   "theorems": [
    "C63_preempted",
    "C63_fresh_refuted"
   ],
   "note": "The state saved is the one before the interrupted call."
  },
  {
   "property": "C64",
   "status": "proved",
   "theorems": [
    "C64_synchronous",
    "C64_fail_fast",
    "C64_asynchronous_refuted",
    "C64_shutdown_does_not_wait"
   ],
   "note": "Exact timing of submit; asynchrony refuted."
  },
  {
   "property": "C65",
   "status": "proved",
   "theorems": [
    "C65_true_derivative",
    "C65_forward",
    "C65_gradient_error",
    "C65_gradient_iff",
    "C65_targets_gradient",
    "C65_z_loss_only_logged",
    "C65_soft_targets_sum",
    "C65_training_gradient",
    "C65_outside_vocabulary_refuted",
    "C65_loss_not_negative",
    "C65_one_token_refuted"
   ],
   "note": "Over the reals. Findings: C65_outside_vocabulary_refuted, C65_one_token_refuted, C65_z_loss_only_logged."
  },
  {
   "property": "C66",
   "status": "proved",
   "theorems": [
    "C66_mask",
    "C66_decode",
    "C66_causal",
    "C66_sampled",
    "C66_past_the_end",
    "C66_longer_refuted",
    "C66_padding_refuted"
   ],
   "note": "One row of a batch, without segments and dropout. What acts on single positions is abstract, and so is the arithmetic, up to the laws of CacheSpec.lawful: no infinities or NaNs, adding zero and multiplying by zero or one exact, masked logits underflow. Findings: decoding goes on past the end of the cache with wrong outputs (C66_longer_refuted); a padding target before the end is masked by teacher forcing and not by decoding (C66_padding_refuted)."
  },
  {
   "property": "C67",
   "status": "proved",
   "theorems": [
    "C67_length",
    "C67_decode",
    "C67_token_by_token",
    "C67_both_ways_refuted",
    "C67_zero_in_prompt_refuted"
   ],
   "note": "As C66. Finding: a token 0 in the prompt makes its length wrong (C67_zero_in_prompt_refuted); with attention in both directions filling in is not the same as feeding token by token (C67_both_ways_refuted)."
  },
  {
   "property": "C68",
   "status": "proved",
   "theorems": [
    "C68_raises",
    "C68_priority",
    "C68_once",
    "C68_additional",
    "C68_additional_result",
    "C68_supported",
    "C68_additional_last",
    "C68_standard",
    "C68_data_axis",
    "C68_slices",
    "C68_one_slice",
    "C68_tree"
   ],
   "note": "flax logical_to_mesh_axes is modelled from its documentation (it is not in the repository). Exact characterisation by the unique priority assignment; tables proved for all annotations by a finite check over the sets of sharded names."
  },
  {
   "property": "C69",
   "status": "proved",
   "theorems": [
    "C69_two_dims_raise",
    "C69_batch",
    "C69_table",
    "C69_expert_mlp_refuted",
    "C69_override",
    "C69_nested_refuted"
   ],
   "note": "C69_two_dims_raise, C69_expert_mlp_refuted and C69_nested_refuted are findings. Axis resources of other types than PartitionSpec and sequences are left alone; strings as axis resources are not modelled."
  },
  {
   "property": "C70",
   "status": "proved",
   "theorems": [
    "C70_round_trip",
    "C70_replace_step",
    "C70_mutables",
    "C70_mutables_lost_refuted",
    "C70_inference",
    "C70_inference_to_train",
    "C70_inference_exact",
    "C70_inference_round_trip",
    "C70_apply",
    "C70_replace"
   ],
   "note": "Frozen and ordinary dictionaries are not distinguished; optimizer states are dataclasses with step and param_states. Finding C70_mutables_lost_refuted: restoring a checkpoint without mutable collections empties those of the state."
  },
  {
   "property": "C71",
   "status": "proved",
   "theorems": [
    "C71_split",
    "C71_collections",
    "C71_create",
    "C71_inference"
   ],
   "note": "flax get_axis_names is taken from its documentation: the suffix _axes of a joined leaf name is dropped."
  },
  {
   "property": "C72",
   "status": "proved",
   "theorems": [
    "C72_exit",
    "C72_batch",
    "C72_cache",
    "C72_oracle_cache",
    "C72_oracle_cache_full",
    "C72_full",
    "C72_oracle",
    "C72_hangs",
    "C72_raises",
    "C72_position",
    "C72_propagated_refuted",
    "C72_oracle_cache_refuted",
    "C72_oracle_refuted"
   ],
   "note": "The network's decode applies the layers [start,end) in order; lax.switch clamps its index; rational confidences."
  },
  {
   "property": "C73",
   "status": "proved",
   "theorems": [
    "C73_steps",
    "C73_trial",
    "C73_reported",
    "C73_same_start",
    "C73_decodes",
    "C73_reports",
    "C73_predict",
    "C73_start_refuted"
   ],
   "note": "Array assignment a.at[:, i].set(v) broadcasts over all indices and drops out-of-range ones (JAX documentation); confidences are an array [batch, 1]; a vector as a dimension of a shape raises."
  },
  {
   "property": "C74",
   "status": "proved",
   "theorems": [
    "C74_override",
    "C74_accepted",
    "C74_error",
    "C74_missing",
    "C74_covers",
    "C74_idempotent",
    "C74_priority"
   ],
   "note": "fullmatch is an arbitrary predicate; the collections are given flattened."
  },
  {
   "property": "C75",
   "status": "proved",
   "theorems": [
    "C75_names",
    "C75_dense",
    "C75_expert",
    "C75_exact",
    "C75_no_slice",
    "C75_moment",
    "C75_stored",
    "C75_lazy_shape",
    "C75_hosts",
    "C75_split_refuted",
    "C75_count_refuted",
    "C75_lazy_shape_refuted"
   ],
   "note": "pjit is taken to apply its function to the global array; whether a PartitionSpec fits a shape is not modelled. C75_split_refuted, C75_count_refuted and C75_lazy_shape_refuted are findings."
  },
  {
   "property": "C76",
   "status": "proved",
   "theorems": [
    "C76_extract",
    "C76_missing",
    "C76_loss",
    "C76_raises",
    "C76_metrics",
    "C76_train",
    "C76_microbatches",
    "C76_fraction_refuted"
   ],
   "note": "Rational arithmetic; sown values are tuples of scalars. C76_fraction_refuted is a finding."
  },
  {
   "property": "C77",
   "status": "proved",
   "theorems": [
    "C77_names",
    "C77_map",
    "C77_scale",
    "C77_default",
    "C77_no_prefix"
   ],
   "note": "Order of traversal of jax (sorted keys, declared fields) and np.argsort from documentation."
  },
  {
   "property": "C78",
   "status": "proved",
   "theorems": [
    "C78_rules",
    "C78_unknown",
    "C78_optimizer",
    "C78_sm3_refuted",
    "C78_masked_steps_refuted",
    "C78_subtree_mask_refuted"
   ],
   "note": "What the fields of optax states hold is from the documentation of optax; the rule for amos is in another library. Dictionaries with sorted keys. C78_*_refuted are findings."
  },
  {
   "property": "C79",
   "status": "proved",
   "theorems": [
    "C79_filter",
    "C79_names",
    "C79_states",
    "C79_given",
    "C79_fits",
    "C79_unfactored_refuted",
    "C79_stacked_refuted"
   ],
   "note": "Subclasses of the optimizer classes are numbered; restore_state is taken to give back the leaves of the state dictionary. C79_*_refuted are findings."
  },
  {
   "property": "C80",
   "status": "proved",
   "theorems": [
    "C80_save_dtype",
    "C80_save_dtype_refuted",
    "C80_saved",
    "C80_restores",
    "C80_restored",
    "C80_round_trip",
    "C80_tf",
    "C80_only_parameters_refuted"
   ],
   "note": "Orbax itself from its documentation; flattened states; transformations rename or drop leaves. C80_*_refuted are findings."
  },
  {
   "property": "C81",
   "status": "proved",
   "theorems": [
    "C81_t5x_checkpointer",
    "C81_path",
    "C81_step",
    "C81_t5x_step",
    "C81_default",
    "C81_tf_refused",
    "C81_t5x_step_refuted"
   ],
   "note": "C81_t5x_step states the exact behaviour; C81_t5x_step_refuted is the finding with a concrete directory."
  },
  {
   "property": "C82",
   "status": "proved",
   "theorems": [
    "C82_t5x_resumes",
    "C82_orbax_resumes",
    "C82_orbax_other_processes",
    "C82_no_dataset",
    "C82_flags",
    "C82_flags_refuted",
    "C82_orbax_lockstep_refuted"
   ],
   "note": "File names identified with their numbers; reading a missing iterator file is an error. C82_*_refuted are findings."
  },
  {
   "property": "C83",
   "status": "proved",
   "theorems": [
    "C83_pick",
    "C83_fallback",
    "C83_from_checkpoints",
    "C83_checkpoint_or_scratch",
    "C83_manager",
    "C83_managers_agree",
    "C83_all_paths",
    "C83_mode_all",
    "C83_resume",
    "C83_first_run",
    "C83_options",
    "C83_best_options",
    "C83_best_class_refuted",
    "C83_resume_options",
    "C83_resume_refuted",
    "C83_tf_fallback_refuted",
    "C83_no_path_refuted"
   ],
   "note": "Exact characterisations of from_checkpoints, from_checkpoint_or_scratch, create_checkpoint_manager_and_restore and of the start of a training job. Findings: resuming with Orbax and a non-default checkpoint_manager_cls always raises (C83_resume_refuted); metric options of a SaveBestCheckpointer class are dropped (C83_best_class_refuted); a fallback without transformations is refused for TensorFlow checkpoints only through managers (C83_tf_fallback_refuted); a configuration without a path is an error through managers (C83_no_path_refuted). Reading the checkpoints themselves is the subject of C01, C05 and C80."
  },
  {
   "property": "C84",
   "status": "proved",
   "theorems": [
    "C84_batches",
    "C84_all_steps",
    "C84_task_batches",
    "C84_output_dir",
    "C84_train_step",
    "C84_train_step_fails",
    "C84_infer",
    "C84_aux",
    "C84_evaluate",
    "C84_scores_only_refuted",
    "C84_bytes_refuted",
    "C84_train_loop",
    "C84_train_only",
    "C84_num_steps_refuted",
    "C84_final_step_refuted",
    "C84_single_batch_refuted",
    "C84_string_batch_refuted"
   ],
   "note": "Findings: fewer steps than asked for when the number of batches does not divide num_steps (C84_num_steps_refuted); metric functions of scores alone always fail, aux_values is unbound (C84_scores_only_refuted); the results returned need not be of the final state (C84_final_step_refuted); a single batch to predict, score or evaluate on is taken apart into its examples and those into their keys (C84_single_batch_refuted); a batch of strings to train on into characters (C84_string_batch_refuted); targets are bytes and predictions text (C84_bytes_refuted). The order of outputs inside a chunk is C42 and C43; tf.data and seqio from their documentation."
  },
  {
   "property": "C85",
   "status": "proved",
   "theorems": [
    "C85_features",
    "C85_reads_unique",
    "C85_buckets",
    "C85_loss",
    "C85_dual",
    "C85_tokenized",
    "C85_decoder_inputs",
    "C85_decoder_targets",
    "C85_decoder_square",
    "C85_bucket_inputs_refuted",
    "C85_tokenized_refuted",
    "C85_decoder_padding_refuted",
    "C85_decoder_targets_refuted"
   ],
   "note": "Findings: token ids filled with zeros get the end of sequence behind the zeros, and their targets are zeros up to it (C85_tokenized, C85_tokenized_refuted); with allowed lengths decoder inputs of shorter rows lose a token where it does not count (C85_bucket_inputs_refuted, C85_loss); in the decoder-only preprocessor zeros between tokens and the end of sequence count for the loss (C85_decoder_padding_refuted), and targets of two or more rows are refused (C85_decoder_targets_refuted). TensorFlow and seqio functions from their documentation; empty batches and the empty separator left out."
  },
  {
   "property": "C86",
   "status": "proved",
   "theorems": [
    "C86_predict",
    "C86_outputs",
    "C86_predict_scores",
    "C86_order",
    "C86_score",
    "C86_custom",
    "C86_custom_predict",
    "C86_modes",
    "C86_decoder_params",
    "C86_no_params",
    "C86_names",
    "C86_before_eos",
    "C86_postprocess",
    "C86_postprocess_fails",
    "C86_postprocess_other",
    "C86_export",
    "C86_const_kwargs_refuted",
    "C86_no_params_refuted",
    "C86_lengths_refuted"
   ],
   "note": "Findings: a custom function that is predict_batch_with_aux always fails with constant arguments (C86_custom_predict, C86_const_kwargs_refuted); an empty list of decoding parameters gives the preprocessor no inputs at all (C86_no_params, C86_no_params_refuted); token lengths are not returned without decoding, so four names fail (C86_lengths_refuted), and an end of sequence of 0 counts as none; score mode ignores callback and extra arguments and keeps decoder_params in the batch (C86_score). jax2tf and partitioning are taken not to change functions."
  },
  {
   "property": "C87",
   "status": "proved",
   "theorems": [
    "C87_dirs",
    "C87_dirs_fail",
    "C87_cpu_dir",
    "C87_distinct",
    "C87_injective",
    "C87_features",
    "C87_fake",
    "C87_static",
    "C87_poly",
    "C87_signature",
    "C87_dict_refuted",
    "C87_batching",
    "C87_shapes",
    "C87_params",
    "C87_params_file",
    "C87_dtype_refuted"
   ],
   "note": "Findings: the docstring of create_fake_input and the type of signatures allow dictionaries, but then the preprocessor is called with names instead of tensors (C87_dict_refuted); without a partitioner a restore dtype of None, documented as the dtype of the checkpoint, becomes float64 (C87_dtype_refuted, assuming jnp.dtype(None) is float64); a directory ending with a slash is refused (C87_dirs_fail_ex). isdigit for ASCII; restored values are the subject of other properties."
  },
  {
   "property": "C88",
   "status": "proved",
   "theorems": [
    "C88_rows",
    "C88_request",
    "C88_records",
    "C88_save",
    "C88_save_polymorphic",
    "C88_save_texts",
    "C88_save_ids",
    "C88_save_allowed",
    "C88_count_refuted",
    "C88_function_refuted",
    "C88_repeat_refuted",
    "C88_search",
    "C88_exact_refuted",
    "C88_lengths",
    "C88_single",
    "C88_refused",
    "C88_task",
    "C88_one_to_one",
    "C88_alignment_refuted",
    "C88_describe"
   ],
   "note": "Findings: the docstring says that there are as many records as batch sizes, which fails with generate_examples_fn (C88_count_refuted); save never asks that function unless other warmup examples are given (C88_function_refuted); with a fixed batch size save fills with blank examples although examples are said to be repeated (C88_repeat_refuted); the search for a synthetic example leaves out the last position, so a random text of exactly the wanted number of tokens is refused (C88_exact_refuted); with room for the end of sequence a length of 0 fails with a vocabulary but not without (C88_refused, C88_single_ex); preprocessors that drop and repeat examples can give rows of other requests (C88_alignment_refuted). Random choices are abstract; make_tensor_proto and tf.data from documentation; serialization left out."
  },
  {
   "property": "C89",
   "status": "proved",
   "theorems": [
    "C89_same",
    "C89_packed",
    "C89_row",
    "C89_padding",
    "C89_causal",
    "C89_raises",
    "C89_decoder_only",
    "C89_empty_inputs_refuted",
    "C89_padding_positions_refuted"
   ],
   "note": "Arithmetic abstract: masked keys can be left out of the softmax and zeros out of sums (droppable in PackSpec.v, met by an instance); over floats sums may be rounded differently for other lengths. Findings: an example whose inputs are all padding attends to the inputs of all examples of its row (C89_empty_inputs_refuted); the logits at padding positions depend on the rest of the row (C89_padding_positions_refuted), they carry no loss weight. Dropout off; seqio's packing as specification."
  },
  {
   "property": "C90",
   "status": "proved",
   "theorems": [
    "C90_fields",
    "C90_lines",
    "C90_exists",
    "C90_record",
    "C90_aux",
    "C90_surplus",
    "C90_mode_refuted",
    "C90_decodes_refuted",
    "C90_integers",
    "C90_integers_refuted",
    "C90_task",
    "C90_task_twice",
    "C90_task_name_refuted"
   ],
   "note": "Findings: predictions beyond the examples are left out without a word (C90_surplus); an invalid mode is not noticed for an empty dataset (C90_mode_refuted); with several decodes per example the padding stays in prediction_tokens (C90_decodes_refuted); numpy integers become floats and those of more than 53 bits may change (C90_integers_refuted); ad-hoc task names are made from joined parts, so other paths and keys can have the same name, and None and an empty targets key do (C90_task_name_refuted). UTF-8, vocabulary, JSON encoder and hash abstract."
  },
  {
   "property": "C91",
   "status": "proved",
   "theorems": [
    "C91_keys",
    "C91_bytes_keys_refuted",
    "C91_spec",
    "C91_type",
    "C91_top"
   ],
   "note": "Findings: the branch for keys that are bytes takes the value for the key; with such a key every file of one object fails to be read, for every decoding (C91_bytes_keys_refuted). The keys never change the answer, only the warning; but a file whose keys cannot be read raises. msgpack as a stream of headers and scalars from its documentation; read_map_header on something else leaves the stream as it is."
  },
  {
   "property": "C92",
   "status": "proved",
   "theorems": [
    "C92_split",
    "C92_rewrite",
    "C92_idempotent",
    "C92_launch",
    "C92_mixed_refuted",
    "C92_two_arguments_refuted",
    "C92_main",
    "C92_export_refuted",
    "C92_modes",
    "C92_help_refuted",
    "C92_before"
   ],
   "note": "Findings: the launcher groups arguments by flag, so that with --gin_bindings and --gin.NAME mixed another binding can be the last (C92_mixed_refuted); a flag and its value as two arguments raise (C92_two_arguments_refuted); the test for quotes in xm_launch.py 215 is always true; the mode export always fails, as t5x/export.py has no save (C92_export_refuted); --fdl_help without a configuration fails (C92_help_refuted). Assumed: flags are given as --name=value; parsing by gin and Fiddle is abstract."
  },
  {
   "property": "C93",
   "status": "proved",
   "theorems": [
    "C93_vocabulary",
    "C93_order",
    "C93_train",
    "C93_always",
    "C93_evaluate",
    "C93_axes_refuted",
    "C93_half_built",
    "C93_logs",
    "C93_zeros",
    "C93_airio_batch_refuted"
   ],
   "note": "Findings: the axes of later calls of evaluate are ignored (C93_axes_refuted); if the first function can be made and a later one cannot, every later evaluation raises (C93_half_built); the batch size is ignored for iterators of AirIO (C93_airio_batch_refuted). Equality of vocabularies is taken to decide equality. Importing cfg.module left out."
  },
  {
   "property": "C94",
   "status": "proved",
   "theorems": [
    "C94_log",
    "C94_exact",
    "C94_flush",
    "C94_progress",
    "C94_failures",
    "C94_failure_refuted",
    "C94_none_refuted"
   ],
   "note": "Findings: one array that cannot be waited for makes up to five later calls raise and loses the summary of later periods in which nothing went wrong (C94_failure_refuted); metrics that are None (no batches) make flush raise, not the call (C94_none_refuted). clu.asynclib.Pool from its documentation: one worker, in order, exceptions kept and raised one per later call, join leaves the pool usable."
  },
  {
   "property": "C95",
   "status": "proved",
   "theorems": [
    "C95_same_state",
    "C95_final",
    "C95_resumes",
    "C95_replays",
    "C95_replay_refuted",
    "C95_preempted_refuted",
    "C95_relative_refuted",
    "C95_cast_refuted"
   ],
   "note": "Built on the models of the loop (C38), a train call (C37), retention, and restore. Findings: without save_dataset batches are used again (C95_replay_refuted, warned about in the code); a call preempted in its middle leaves an emergency checkpoint whose iterator is ahead of its state, so that batches are never trained on (C95_preempted_refuted); with relative_steps every restart moves the last step (C95_relative_refuted); a save dtype that loses precision makes the result depend on restarts (C95_cast_refuted). One process (several: C82), endless dataset, no state transformations."
  },
  {
   "property": "C96",
   "status": "proved",
   "theorems": [
    "C96_timeline",
    "C96_when",
    "C96_once",
    "C96_compiled",
    "C96_collector",
    "C96_collector_refuted",
    "C96_collector_enables"
   ],
   "note": "On the loop of C38, whose findings (lists of extra steps) are the conditions here. Findings: a run that has nothing left to do, and one that raises, leaves the garbage collector disabled (C96_collector_refuted); a run that returns enables it even if the caller had disabled it (C96_collector_enables)."
  },
  {
   "property": "C97",
   "status": "proved",
   "theorems": [
    "C97_restored",
    "C97_hosts",
    "C97_lazily",
    "C97_identity",
    "C97_shape_refuted",
    "C97_uint16_refuted",
    "C97_none_refuted",
    "C97_collision_refuted"
   ],
   "note": "Assumes that the names of arrays with files of their own stay distinct with dots for slashes, and a restore dtype other than uint16. Findings: arrays in the msgpack file are restored with whatever shape they have (C97_shape_refuted); a uint16 array can be saved and not restored (C97_uint16_refuted); with save dtype None the arrays of the target without mesh axes are converted to float64 (C97_none_refuted); names differing in dots and slashes share a file (C97_collision_refuted)."
  },
  {
   "property": "C98",
   "status": "proved",
   "theorems": [
    "C98_train",
    "C98_state",
    "C98_eval",
    "C98_transparent",
    "C98_compiled",
    "C98_one_copy",
    "C98_preempted_refuted",
    "C98_recompiled_refuted",
    "C98_stale_refuted"
   ],
   "note": "One process; a train step keeps shapes and dtypes of the state. Findings: after an exception in the middle of train the buffers of trainer.train_state are deleted, so the emergency checkpoint of train.py 748-757 fails if PreemptionError comes from the iterator after a step (C98_preempted_refuted); compile_train recompiles though documented not to (C98_recompiled_refuted); the cache of compile_eval ignores the state's dtypes (C98_stale_refuted)."
  },
  {
   "property": "C99",
   "status": "proved",
   "theorems": [
    "C99_decay",
    "C99_step",
    "C99_bounded",
    "C99_reset",
    "C99_marginals",
    "C99_travel",
    "C99_symmetric",
    "C99_product",
    "C99_scale_free"
   ],
   "note": "Real numbers stand for floats: rounding, overflow and NaN are not covered here (C59 covers the same step over an abstract arithmetic). Steps before step_offset are excluded: there the decay rate is not a number."
  },
  {
   "property": "C100",
   "status": "proved",
   "theorems": [
    "C100_attention",
    "C100_convex",
    "C100_shift",
    "C100_masked",
    "C100_all_hidden",
    "C100_dropout",
    "C100_dense",
    "C100_dense_raises",
    "C100_mlp",
    "C100_mlp_raises",
    "C100_mlp_names",
    "C100_norm",
    "C100_norm_scale",
    "C100_embed",
    "C100_embed_outside",
    "C100_logits",
    "C100_mlp_dropout",
    "C100_embed_refuted"
   ],
   "note": "Real numbers stand for floats: rounding and the conversions between dtypes are not covered; in float32 a query without visible keys averages all values about equally, since -1e10 swallows the logits (C66 and C89 are over an abstract arithmetic in which it does). C100_embed_refuted: a token outside the vocabulary gives zeros with the one-hot product and some row of the vocabulary with indexing."
  },
  {
   "property": "C101",
   "status": "proved",
   "theorems": [
    "C101_direct",
    "C101_converts",
    "C101_converted",
    "C101_same",
    "C101_strict_refuted",
    "C101_dtype_refuted"
   ],
   "note": "Reading a tensor succeeds; states with None leaves (MultiOptimizer) and the placement on devices are not modelled. Findings C101_strict_refuted and C101_dtype_refuted. Names of the variables and reshaping of the importer are the model of C60, writing and reading of states that of C97."
  },
  {
   "property": "C102",
   "status": "proved",
   "theorems": [
    "C102_scores",
    "C102_result",
    "C102_cache",
    "C102_sample"
   ],
   "note": "C102_scores: the invariant at every iteration; C102_result: what beam_search returns; C102_sample: temperature sampling. Assumptions: a total order, 2 * num_decodes <= vocabulary, log probabilities whose partial sums stay clear of NEG_INF (C28_real gives the bound over the reals), and a cache that does its duty: the record caching (scoring for sampling) says that the values read are the model's after the tokens so far and that this is kept when the cache is rearranged by the beams the sequences came from. C102_cache shows the record is met by a cache that stores the tokens; C25 and C66 show the corresponding facts for the networks and the cache layout. Addition is abstract, so no rounding is modelled."
  },
  {
   "property": "C103",
   "status": "proved",
   "theorems": [
    "C103_rules",
    "C103_plan",
    "C103_agree",
    "C103_networks",
    "C103_factor_names",
    "C103_roles",
    "C103_factor_words",
    "C103_lower",
    "C103_step",
    "C103_train"
   ],
   "note": "C103_step and C103_train are for abstract arithmetic, means being functions of the row-major list of elements (the list is the same for the stack and the slice). C103_plan and C103_agree say when the dimensions agree; where they do not (small matrices) is the finding C59_stack_refuted. C103_networks checks the axis names of the networks, transcribed from the source, against the rules. flax's scan, which puts the axis in, is not modelled. Clipping by the global norm acts on the gradients before and is not part of it. Over the reals C99_symmetric shows that calling rows columns makes no difference."
  },
  {
   "property": "C104",
   "status": "proved",
   "theorems": [
    "C104_beam",
    "C104_sample",
    "C104_prefilled",
    "C104_padding_refuted"
   ],
   "note": "Composes C66/C67 (cached decoding equals one pass), C102 (the scores are those of the tokens of the sequence) and the beam and sampling loops: C104_beam and C104_sample for the T5 decoder with empty caches, C104_prefilled for the decoder-only model. The network is that of CacheModel (self-attention with caches, position-wise parts abstract), and the reported value of a drawn token is an arbitrary function of the outputs and the token, which covers rescale_log_probs both ways. Beam search with prefilled caches is not included. C104_padding_refuted: with a padding token drawn inside the sequence the scores differ."
  },
  {
   "property": "C105",
   "status": "proved",
   "theorems": [
    "C105_forced",
    "C105_beam",
    "C105_sample",
    "C105_prefilled",
    "C105_token",
    "C105_sequence",
    "C105_distribution",
    "C105_loss",
    "C105_shift",
    "C105_outside_refuted",
    "C105_batch",
    "C105_intermediates"
   ],
   "note": "Real arithmetic, rounding is not modelled. Log probabilities of tokens are assumed to be at least -b with b (max_decode_len + 1) below 1e7 (5/6)^alpha, as in C28. Finding: C105_outside_refuted."
  },
  {
   "property": "C106",
   "status": "proved",
   "theorems": [
    "C106_token",
    "C106_zero",
    "C106_topk",
    "C106_topp",
    "C106_unscaled",
    "C106_rescaled",
    "C106_top1",
    "C106_own_temperature",
    "C106_own_noise",
    "C106_decodes_refuted",
    "C106_result_refuted",
    "C106_masked_refuted",
    "C106_tie_refuted",
    "C106_topp_zero_refuted"
   ],
   "note": "Over the reals; random.categorical is argmax of logits plus noise, and the noise is arbitrary. The masks are those proved for floats in C18 and C19. Findings: C106_decodes_refuted, C106_result_refuted, C106_masked_refuted, C106_topp_zero_refuted, C106_tie_refuted."
  },
  {
   "property": "C107",
   "status": "proved",
   "theorems": [
    "C107_network",
    "C107_result",
    "C107_shortest",
    "C107_cut_refuted"
   ],
   "note": "The cache is any that satisfies the record caching of C102 with the prompt in front; C107_network takes the one of the decoder-only network of C67 and C104. initial_index is the number of prompt tokens, as models.py computes it. Finding: C107_cut_refuted."
  },
  {
   "property": "C108",
   "status": "proved",
   "theorems": [
    "C108_train",
    "C108_infer",
    "C108_dtype",
    "C108_steps",
    "C108_periods",
    "C108_evaluation",
    "C108_task",
    "C108_train_steps_refuted",
    "C108_evaluation_refuted",
    "C108_split_refuted",
    "C108_none_refuted",
    "C108_unregistered_refuted"
   ],
   "note": "Gin is modelled by its statements (scoped key, value) with last binding winning and macros resolved in the final configuration; parsing, quoting of strings that contain quotes, imports, learning rate and partitioner are not modelled. Of train.py only periods, the evaluation before training and the steps are modelled. Findings: C108_train_steps_refuted, C108_evaluation_refuted, C108_split_refuted, C108_none_refuted, C108_unregistered_refuted."
  }
 ]
}