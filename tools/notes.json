{
 "C03": {
  "status": "proved",
  "note": "Directory model of the legacy Checkpointer. C03_negative_keep_refuted: a negative keep empties the directory, so the newest-survives claim needs keep >= 0."
 },
 "C04": {
  "status": "proved",
  "note": "Any history of saves, pins and unpins, every pruning policy."
 },
 "C05": {
  "status": "proved",
  "note": "SaveBestCheckpointer pruning; metric values as comparable numbers or missing."
 },
 "C07": {
  "status": "proved",
  "note": "C07_step_zero_refuted: a directory whose newest step is 0 is reported as having no checkpoint by the default restore; an explicit step 0 works."
 },
 "C11": {
  "status": "proved",
  "note": ""
 },
 "C01": {
  "status": "proved",
  "note": "Interleaved multi-host crash model. Exact form: the newest listed step is always complete; any other step is intact unless pruning of that unpinned step has begun while a newer complete step is listed. A save neither deadlocks nor runs forever, and once any host has returned the whole save is done. C01_every_listed_complete_refuted and C01_gcs_publication_refuted are the exact exceptions."
 },
 "C02": {
  "status": "proved",
  "note": ""
 },
 "C06": {
  "status": "proved",
  "note": "String-level model of names. C06_listed_dir_exists_refuted (zero-padded or newline names are listed as a step whose canonical directory does not exist) and C06_custom_prefix_listed_refuted (all_steps ignores a configured prefix) are findings."
 },
 "C08": {
  "status": "proved",
  "note": "C08_as_large_as_possible_refuted: the documented maximality fails, e.g. shape [5,4] with target 10."
 },
 "C09": {
  "status": "proved",
  "note": "Full asyncio wake-up semantics; termination and exact final state. C09_save_hangs_exactly: an array of at least concurrent_gb is never written. C09_total_limit_refuted: every array has its own limiter, so the bytes in flight of a whole save are not bounded by the limit."
 },
 "C10": {
  "status": "proved",
  "note": "C10_distinct_names_distinct_files_refuted: names a/b and a.b share a file. C10_old_format_local_refuted: a bucket spec of the older TensorStore format cannot be read locally."
 },
 "C12": {
  "status": "proved",
  "note": "Includes the caller in train.py. C12_restores_all_paths_tf_refuted: a TensorFlow checkpoint among several paths makes utils.restore return only that one."
 },
 "C13": {
  "status": "proved",
  "note": "Round trip, flat key set and name tree exact for all nested states; findings: a key containing the separator breaks the round trip. flax flatten/unflatten modelled from their documented behaviour."
 },
 "C14": {
  "status": "proved",
  "note": "Intersect and merge characterised leaf by leaf; findings: merge loses arrays / fails when one side has an array where the other has a dictionary."
 },
 "C15": {
  "status": "proved",
  "note": "Lookup table of the result and both errors characterised exactly for an arbitrary regex matcher; findings: rule ignored when the checkpoint has the mapped key itself, spurious unused-rule error for duplicate patterns."
 },
 "C16": {
  "status": "proved",
  "note": "Largest false int32 for every monotone predicate, 32 probes, rows independent; also the change point for arbitrary predicates. JAX promotion int32|uint32 -> int32 (x64 disabled) assumed."
 },
 "C17": {
  "status": "proved",
  "note": "Involution, order isomorphism with IEEE totalOrder, uniqueness, agreement of the bit layout with Flocq, and float32_bsearch."
 },
 "C18": {
  "status": "proved",
  "note": "Exact kept set per entry for all float32 rows; findings: fewer than k kept when fewer than k entries exceed -inf, +inf kept for k=0."
 },
 "C19": {
  "status": "proved",
  "note": "Kept iff the mass of strictly more probable entries is below p, for any monotone mass; exact and rounded float sums in any order are monotone; softmax itself not modelled. Findings: ties make the set non-minimal, p<=0 drops everything."
 },
 "C20": {
  "status": "proved",
  "note": "Contiguous non-zero prompt (positions 1..n), any sampler, any batch; C20_every_decode covers the whole of temperature_sample with num_decodes. A zero inside the prompt breaks it (C20_hole_refuted)."
 },
 "C21": {
  "status": "proved",
  "note": "Any sampler; padding after the first end token past the prompt; at most one generated end token."
 },
 "C22": {
  "status": "proved",
  "note": "Iteration bound, one model call per iteration, step limit. The limit is exceeded by one when a row starts at its limit (C22_zero_steps_refuted)."
 },
 "C23": {
  "status": "proved",
  "note": "Row-local sampler with private state per row; output and log probabilities equal between any two batches. Needs a contiguous prompt and a start below the row limit (C23_hole_refuted, C23_start_at_limit_refuted)."
 },
 "C24": {
  "status": "proved",
  "note": "Equality with lax.top_k (values and positions) for every total order with least element; lax.top_k itself is modelled from its documentation (ties to the lower position)."
 },
 "C25": {
  "status": "proved",
  "note": "One-hot gather equals selection whenever 0*a=0; with non-finite values it yields NaN (C25_non_finite_refuted)."
 },
 "C26": {
  "status": "proved",
  "note": "Exact result on every row; ceil(log2) is taken exactly."
 },
 "C27": {
  "status": "proved",
  "note": "Order, no finished live beam (needs more tokens than beams and values clear of NEG_INF), end token in every entry marked finished, prompt kept (contiguous prompt without end token and with at least one padding position), best entry finished when vocab >= 2k. Findings: initial live beams unsorted; finished sequence live when vocab <= k; end token in the prompt gives a score-0 hypothesis; a full row repeats its last prompt token; filler entries returned; placeholder beams finish when vocab < 2k. Values are any type with the stated order laws."
 },
 "C28": {
  "status": "proved",
  "note": "Soundness of the stop test for all non-positive continuations of total length <= max_decode_len, and invariance of the finished set under any further iterations. In the first theorems the penalty is abstracted to its laws; C28_brevity shows that the penalty of the source, over the reals, has them iff alpha >= 0, C28_real instantiates the result, and C28_negative_alpha_refuted is a witness for negative alpha. C28_min_log_prob and C28_given_up say what stopping on min_log_prob and with NEG_INF scores means. Stopping at max_decode_step is regardless of scores. Float rounding is not modelled."
 },
 "C29": {
  "status": "proved",
  "note": "Full statement over every mesh, host layout, shape and spec; elements past the divisible part are lost (C29_remainder_refuted); a repeated axis yields only diagonal chunks (example); tuple specs are refused."
 },
 "C30": {
  "status": "proved",
  "note": "Exactly one replica-0 host per held element; replica ids are exactly 0..R-1."
 },
 "C31": {
  "status": "proved",
  "note": "Ordinary and mixture-of-experts layouts; the second divisibility check never fires; negative batch sizes are accepted (finding)."
 },
 "C32": {
  "status": "proved",
  "note": "get_mesh on TPU and other platforms, default_mesh's submesh table, get_gpu_mesh's shapes; findings: tall hosts in Z-major order, too long submesh off TPU, automatic submesh that does not divide the slice, unchecked process divisibility on GPU. Not modelled: create_device_mesh (jax), get_cpu_mesh."
 },
 "C33": {
  "status": "proved",
  "note": "Expert axis search and reshape, on any base mesh of shape (data, model)."
 },
 "C34": {
  "status": "proved",
  "note": "Exact result of accumulation (C34_calls), partition of the batch, equality with the unbatched sums for additive functions, failure conditions. Refutations: all microbatches share one dropout key; batch-normalised losses come out n times larger; ragged features are silently cut or repeated."
 },
 "C35": {
  "status": "proved",
  "note": "C35_exact is an iff for every sequence of reports, with arbitrary arithmetic (no law assumed). Refutations record patience <= 1, stickiness, NaN and the missing comparison with the best value."
 },
 "C36": {
  "status": "proved",
  "note": "iff, for every metrics dictionary."
 },
 "C37": {
  "status": "proved",
  "note": "Call semantics, splitting, resuming, keys, metrics, data exhaustion, zero steps."
 },
 "C41": {
  "status": "proved",
  "note": "Every configured action is called once, in order, on process 0 only; the disjunction reaches all processes; failure iff process 0 has no metrics."
 },
 "C62": {
  "status": "proved",
  "note": "Assumes jax's assert_equal compares with process 0's broadcast value and raises where it differs."
 },
 "C38": {
  "status": "proved",
  "note": "LoopModel.v: train loop as an event trace with fuel; fuel above the number of steps always suffices. Logging, summaries, compilation not modelled."
 },
 "C39": {
  "status": "proved",
  "note": "C39_stall: never passes the last extra step, never returns; C39_endless_refuted: an endless run; C39_no_period; C39_remedy. Finding."
 },
 "C40": {
  "status": "proved",
  "note": "C40_always_saved_refuted and C40_request_lost_refuted are findings: stop at an epoch end is not saved, or is overwritten by the evaluation."
 },
 "C63": {
  "status": "proved",
  "note": "The state saved is the one before the interrupted call."
 },
 "C42": {
  "status": "proved",
  "note": "C42_complete, C42_tokens_in_order, C42_aux_in_order, C42_empty_refused. Assumes host_local_array_to_global_array lays the shards out in order and that np.argsort does what its documentation says."
 },
 "C43": {
  "status": "proved",
  "note": "Exact order for whole batches; dataset order iff H=1, b=1 or b=H; refuted in general."
 },
 "C44": {
  "status": "proved",
  "note": "Invariant over all crash/restart histories, inevitability of completion, and refutations for torn checkpoint, interrupted deletion, and more chunks than names."
 },
 "C45": {
  "status": "proved",
  "note": "Exact characterisation of the merge; a missing last chunk is not noticed (refuted)."
 },
 "C64": {
  "status": "proved",
  "note": "Exact timing of submit; asynchrony refuted."
 },
 "C46": {
  "status": "proved",
  "note": "C46_accounting, C46_at_most_once_more_per_crash, C46_run; findings C46_all_directories_refuted, C46_broken_record, C46_white_space."
 },
 "C47": {
  "status": "proved",
  "note": "C47_rows, C47_same_global_batch, C47_first_pass, C47_epochs_suffice, C47_endless_or_empty, C47_indivisible; finding C47_airio_shards_refuted."
 },
 "C48": {
  "status": "proved",
  "note": "C48_accepts_iff, C48_asserts_iff, C48_placement, C48_reassembles; findings C48_replicas_agree_refuted, C48_no_row_lost_refuted. Indices are identified with their hashes."
 },
 "C49": {
  "status": "proved",
  "note": "C49_least_multiple, C49_zero_refused."
 },
 "C50": {
  "status": "proved",
  "note": "Over the reals with the special values of IEEE arithmetic; rounding and overflow are not modelled. Findings: C50_zero_warmup, C50_zero_cycle (NaN passes the floor)."
 },
 "C51": {
  "status": "proved",
  "note": "The vmapped function, per row; int32 overflow not modelled."
 },
 "C52": {
  "status": "proved",
  "note": "C52_covers: every batch is covered by C52_exact. Finding: C52_unique_ids_refuted (over-counting outside well-formed rows)."
 },
 "C53": {
  "status": "proved",
  "note": "Dimensions of size 1 are left out. Layers are abstract functions that respect the mask. Finding: C53_scattered_prefix_leaks."
 },
 "C54": {
  "status": "proved",
  "note": "C54_real_computation_sound: the computation over the reals meets the hypothesis on the floats. Findings: C54_short_max_distance_refuted, C54_odd_last_bucket_unused."
 },
 "C55": {
  "status": "proved",
  "note": "Exact arithmetic over the rationals. Findings: C55_no_weight_no_loss (NaN), C55_unusual_weights_refuted."
 },
 "C65": {
  "status": "proved",
  "note": "Over the reals. Findings: C65_outside_vocabulary_refuted, C65_one_token_refuted, C65_z_loss_only_logged."
 },
 "C56": {
  "status": "proved",
  "note": "Rational arithmetic. clu's Average and LastValue are modelled from their documentation. Findings: C56_per_step_refuted, C56_durations_refuted, C56_per_token_refuted, C56_empty."
 },
 "C57": {
  "status": "proved",
  "note": "restore_state of OptaxWrapper is characterised exactly against a recursive specification (restored) that does not flatten. Findings: state of a stateful transformation is dropped silently where the present optimizer has EmptyState (C57_dropped_refuted); extra parameters are ignored and a dict is accepted in place of a parameter (C57_target_refuted). flax to_state_dict/from_state_dict/flatten_dict are modelled from their documentation."
 },
 "C58": {
  "status": "proved",
  "note": "Sub-optimizers are arbitrary functions that return trees with the leaves they were given. Findings: overlaps are refused when the state is created but not by a step (C58_overlap_refuted); a filter that looks at the values drops or mixes up parameters (C58_value_filter_refuted); empty dicts vanish and names with slashes are split (C58_structure_refuted); a short hyper_params list erases states (C58_hyper_params)."
 },
 "C59": {
  "status": "proved",
  "note": "The arithmetic is abstract, means and sums being functions of the row-major list; numpy broadcasting from its documentation. Findings: overriding beta1 in a step changes the shape of the state (C59_override_refuted); a rule for a matrix is ignored in favour of the sizes, so a stack is factored where its matrices are not (C59_stack_refuted); beta1=0.0 and parameters of one element get no axes (C59_axes_refuted)."
 },
 "C60": {
  "status": "proved",
  "note": "Python regular expressions are modelled from their documentation, with ASCII classes. Findings: two legacy names can silently overwrite one another (C60_lossless_refuted, exact in C60_collisions); factored slots are replaced by zeros when a full slot is also present (C60_states_kept_refuted); sharing of relative position biases is decided jointly for encoder and decoder (C60_relpos_towers_refuted); a one-layer model with unshared biases cannot be imported (C60_relpos_one_layer_refuted); a missing variable does not fail the update (C60_missing_variable_refuted)."
 },
 "C61": {
  "status": "proved",
  "note": "Arrays are abstract; TensorStore is assumed to give arrays of the dtype and shape of the spec. Findings: a chain of conversions on a LazyArray is not what the same chain on the array gives (C61_eager_refuted); load_t5x_checkpoint converts the step and the optimizer state as well, although restore_dtype is documented for targets (C61_load_targets_only_refuted); it fails on states with empty dictionaries (C61_load_empty); restoring as uint16 differs lazily and at once (C61_uint16_refuted)."
 },
 "C66": {
  "status": "proved",
  "note": "One row of a batch, without segments and dropout. What acts on single positions is abstract, and so is the arithmetic, up to the laws of CacheSpec.lawful: no infinities or NaNs, adding zero and multiplying by zero or one exact, masked logits underflow. Findings: decoding goes on past the end of the cache with wrong outputs (C66_longer_refuted); a padding target before the end is masked by teacher forcing and not by decoding (C66_padding_refuted)."
 },
 "C67": {
  "status": "proved",
  "note": "As C66. Finding: a token 0 in the prompt makes its length wrong (C67_zero_in_prompt_refuted); with attention in both directions filling in is not the same as feeding token by token (C67_both_ways_refuted)."
 },
 "C68": {
  "status": "proved",
  "note": "flax logical_to_mesh_axes is modelled from its documentation (it is not in the repository). Exact characterisation by the unique priority assignment; tables proved for all annotations by a finite check over the sets of sharded names."
 },
 "C69": {
  "status": "proved",
  "note": "C69_two_dims_raise, C69_expert_mlp_refuted and C69_nested_refuted are findings. Axis resources of other types than PartitionSpec and sequences are left alone; strings as axis resources are not modelled."
 },
 "C70": {
  "status": "proved",
  "note": "Frozen and ordinary dictionaries are not distinguished; optimizer states are dataclasses with step and param_states. Finding C70_mutables_lost_refuted: restoring a checkpoint without mutable collections empties those of the state."
 },
 "C71": {
  "status": "proved",
  "note": "flax get_axis_names is taken from its documentation: the suffix _axes of a joined leaf name is dropped."
 },
 "C72": {
  "status": "proved",
  "note": "The network's decode applies the layers [start,end) in order; lax.switch clamps its index; rational confidences."
 },
 "C73": {
  "status": "proved",
  "note": "Array assignment a.at[:, i].set(v) broadcasts over all indices and drops out-of-range ones (JAX documentation); confidences are an array [batch, 1]; a vector as a dimension of a shape raises."
 },
 "C74": {
  "status": "proved",
  "note": "fullmatch is an arbitrary predicate; the collections are given flattened."
 },
 "C75": {
  "status": "proved",
  "note": "pjit is taken to apply its function to the global array; whether a PartitionSpec fits a shape is not modelled. C75_split_refuted, C75_count_refuted and C75_lazy_shape_refuted are findings."
 },
 "C76": {
  "status": "proved",
  "note": "Rational arithmetic; sown values are tuples of scalars. C76_fraction_refuted is a finding."
 },
 "C77": {
  "status": "proved",
  "note": "Order of traversal of jax (sorted keys, declared fields) and np.argsort from documentation."
 },
 "C78": {
  "status": "proved",
  "note": "What the fields of optax states hold is from the documentation of optax; the rule for amos is in another library. Dictionaries with sorted keys. C78_*_refuted are findings."
 },
 "C79": {
  "status": "proved",
  "note": "Subclasses of the optimizer classes are numbered; restore_state is taken to give back the leaves of the state dictionary. C79_*_refuted are findings."
 },
 "C80": {
  "status": "proved",
  "note": "Orbax itself from its documentation; flattened states; transformations rename or drop leaves. C80_*_refuted are findings."
 },
 "C81": {
  "status": "proved",
  "note": "C81_t5x_step states the exact behaviour; C81_t5x_step_refuted is the finding with a concrete directory."
 },
 "C82": {
  "status": "proved",
  "note": "File names identified with their numbers; reading a missing iterator file is an error. C82_*_refuted are findings."
 },
 "C83": {
  "status": "proved",
  "note": "Exact characterisations of from_checkpoints, from_checkpoint_or_scratch, create_checkpoint_manager_and_restore and of the start of a training job. Findings: resuming with Orbax and a non-default checkpoint_manager_cls always raises (C83_resume_refuted); metric options of a SaveBestCheckpointer class are dropped (C83_best_class_refuted); a fallback without transformations is refused for TensorFlow checkpoints only through managers (C83_tf_fallback_refuted); a configuration without a path is an error through managers (C83_no_path_refuted). Reading the checkpoints themselves is the subject of C01, C05 and C80."
 },
 "C84": {
  "status": "proved",
  "note": "Findings: fewer steps than asked for when the number of batches does not divide num_steps (C84_num_steps_refuted); metric functions of scores alone always fail, aux_values is unbound (C84_scores_only_refuted); the results returned need not be of the final state (C84_final_step_refuted); a single batch to predict, score or evaluate on is taken apart into its examples and those into their keys (C84_single_batch_refuted); a batch of strings to train on into characters (C84_string_batch_refuted); targets are bytes and predictions text (C84_bytes_refuted). The order of outputs inside a chunk is C42 and C43; tf.data and seqio from their documentation."
 },
 "C85": {
  "status": "proved",
  "note": "Findings: token ids filled with zeros get the end of sequence behind the zeros, and their targets are zeros up to it (C85_tokenized, C85_tokenized_refuted); with allowed lengths decoder inputs of shorter rows lose a token where it does not count (C85_bucket_inputs_refuted, C85_loss); in the decoder-only preprocessor zeros between tokens and the end of sequence count for the loss (C85_decoder_padding_refuted), and targets of two or more rows are refused (C85_decoder_targets_refuted). TensorFlow and seqio functions from their documentation; empty batches and the empty separator left out."
 },
 "C86": {
  "status": "proved",
  "note": "Findings: a custom function that is predict_batch_with_aux always fails with constant arguments (C86_custom_predict, C86_const_kwargs_refuted); an empty list of decoding parameters gives the preprocessor no inputs at all (C86_no_params, C86_no_params_refuted); token lengths are not returned without decoding, so four names fail (C86_lengths_refuted), and an end of sequence of 0 counts as none; score mode ignores callback and extra arguments and keeps decoder_params in the batch (C86_score). jax2tf and partitioning are taken not to change functions."
 },
 "C87": {
  "status": "proved",
  "note": "Findings: the docstring of create_fake_input and the type of signatures allow dictionaries, but then the preprocessor is called with names instead of tensors (C87_dict_refuted); without a partitioner a restore dtype of None, documented as the dtype of the checkpoint, becomes float64 (C87_dtype_refuted, assuming jnp.dtype(None) is float64); a directory ending with a slash is refused (C87_dirs_fail_ex). isdigit for ASCII; restored values are the subject of other properties."
 },
 "C88": {
  "status": "proved",
  "note": "Findings: the docstring says that there are as many records as batch sizes, which fails with generate_examples_fn (C88_count_refuted); save never asks that function unless other warmup examples are given (C88_function_refuted); with a fixed batch size save fills with blank examples although examples are said to be repeated (C88_repeat_refuted); the search for a synthetic example leaves out the last position, so a random text of exactly the wanted number of tokens is refused (C88_exact_refuted); with room for the end of sequence a length of 0 fails with a vocabulary but not without (C88_refused, C88_single_ex); preprocessors that drop and repeat examples can give rows of other requests (C88_alignment_refuted). Random choices are abstract; make_tensor_proto and tf.data from documentation; serialization left out."
 },
 "C89": {
  "status": "proved",
  "note": "Arithmetic abstract: masked keys can be left out of the softmax and zeros out of sums (droppable in PackSpec.v, met by an instance); over floats sums may be rounded differently for other lengths. Findings: an example whose inputs are all padding attends to the inputs of all examples of its row (C89_empty_inputs_refuted); the logits at padding positions depend on the rest of the row (C89_padding_positions_refuted), they carry no loss weight. Dropout off; seqio's packing as specification."
 },
 "C90": {
  "status": "proved",
  "note": "Findings: predictions beyond the examples are left out without a word (C90_surplus); an invalid mode is not noticed for an empty dataset (C90_mode_refuted); with several decodes per example the padding stays in prediction_tokens (C90_decodes_refuted); numpy integers become floats and those of more than 53 bits may change (C90_integers_refuted); ad-hoc task names are made from joined parts, so other paths and keys can have the same name, and None and an empty targets key do (C90_task_name_refuted). UTF-8, vocabulary, JSON encoder and hash abstract."
 },
 "C91": {
  "status": "proved",
  "note": "Findings: the branch for keys that are bytes takes the value for the key; with such a key every file of one object fails to be read, for every decoding (C91_bytes_keys_refuted). The keys never change the answer, only the warning; but a file whose keys cannot be read raises. msgpack as a stream of headers and scalars from its documentation; read_map_header on something else leaves the stream as it is."
 },
 "C92": {
  "status": "proved",
  "note": "Findings: the launcher groups arguments by flag, so that with --gin_bindings and --gin.NAME mixed another binding can be the last (C92_mixed_refuted); a flag and its value as two arguments raise (C92_two_arguments_refuted); the test for quotes in xm_launch.py 215 is always true; the mode export always fails, as t5x/export.py has no save (C92_export_refuted); --fdl_help without a configuration fails (C92_help_refuted). Assumed: flags are given as --name=value; parsing by gin and Fiddle is abstract."
 },
 "C93": {
  "status": "proved",
  "note": "Findings: the axes of later calls of evaluate are ignored (C93_axes_refuted); if the first function can be made and a later one cannot, every later evaluation raises (C93_half_built); the batch size is ignored for iterators of AirIO (C93_airio_batch_refuted). Equality of vocabularies is taken to decide equality. Importing cfg.module left out."
 },
 "C94": {
  "status": "proved",
  "note": "Findings: one array that cannot be waited for makes up to five later calls raise and loses the summary of later periods in which nothing went wrong (C94_failure_refuted); metrics that are None (no batches) make flush raise, not the call (C94_none_refuted). clu.asynclib.Pool from its documentation: one worker, in order, exceptions kept and raised one per later call, join leaves the pool usable."
 },
 "C95": {
  "status": "proved",
  "note": "Built on the models of the loop (C38), a train call (C37), retention, and restore. Findings: without save_dataset batches are used again (C95_replay_refuted, warned about in the code); a call preempted in its middle leaves an emergency checkpoint whose iterator is ahead of its state, so that batches are never trained on (C95_preempted_refuted); with relative_steps every restart moves the last step (C95_relative_refuted); a save dtype that loses precision makes the result depend on restarts (C95_cast_refuted). One process (several: C82), endless dataset, no state transformations."
 },
 "C96": {
  "status": "proved",
  "note": "On the loop of C38, whose findings (lists of extra steps) are the conditions here. Findings: a run that has nothing left to do, and one that raises, leaves the garbage collector disabled (C96_collector_refuted); a run that returns enables it even if the caller had disabled it (C96_collector_enables)."
 },
 "C97": {
  "status": "proved",
  "note": "Assumes that the names of arrays with files of their own stay distinct with dots for slashes, and a restore dtype other than uint16. Findings: arrays in the msgpack file are restored with whatever shape they have (C97_shape_refuted); a uint16 array can be saved and not restored (C97_uint16_refuted); with save dtype None the arrays of the target without mesh axes are converted to float64 (C97_none_refuted); names differing in dots and slashes share a file (C97_collision_refuted)."
 },
 "C98": {
  "status": "proved",
  "note": "One process; a train step keeps shapes and dtypes of the state. Findings: after an exception in the middle of train the buffers of trainer.train_state are deleted, so the emergency checkpoint of train.py 748-757 fails if PreemptionError comes from the iterator after a step (C98_preempted_refuted); compile_train recompiles though documented not to (C98_recompiled_refuted); the cache of compile_eval ignores the state's dtypes (C98_stale_refuted)."
 },
 "C99": {
  "status": "proved",
  "note": "Real numbers stand for floats: rounding, overflow and NaN are not covered here (C59 covers the same step over an abstract arithmetic). Steps before step_offset are excluded: there the decay rate is not a number."
 },
 "C100": {
  "status": "proved",
  "note": "Real numbers stand for floats: rounding and the conversions between dtypes are not covered; in float32 a query without visible keys averages all values about equally, since -1e10 swallows the logits (C66 and C89 are over an abstract arithmetic in which it does). C100_embed_refuted: a token outside the vocabulary gives zeros with the one-hot product and some row of the vocabulary with indexing."
 },
 "C101": {
  "status": "proved",
  "note": "Reading a tensor succeeds; states with None leaves (MultiOptimizer) and the placement on devices are not modelled. Findings C101_strict_refuted and C101_dtype_refuted. Names of the variables and reshaping of the importer are the model of C60, writing and reading of states that of C97."
 },
 "C102": {
  "status": "proved",
  "note": "C102_scores: the invariant at every iteration; C102_result: what beam_search returns; C102_sample: temperature sampling. Assumptions: a total order, 2 * num_decodes <= vocabulary, log probabilities whose partial sums stay clear of NEG_INF (C28_real gives the bound over the reals), and a cache that does its duty: the record caching (scoring for sampling) says that the values read are the model's after the tokens so far and that this is kept when the cache is rearranged by the beams the sequences came from. C102_cache shows the record is met by a cache that stores the tokens; C25 and C66 show the corresponding facts for the networks and the cache layout. Addition is abstract, so no rounding is modelled."
 },
 "C103": {
  "status": "proved",
  "note": "C103_step and C103_train are for abstract arithmetic, means being functions of the row-major list of elements (the list is the same for the stack and the slice). C103_plan and C103_agree say when the dimensions agree; where they do not (small matrices) is the finding C59_stack_refuted. C103_networks checks the axis names of the networks, transcribed from the source, against the rules. flax's scan, which puts the axis in, is not modelled. Clipping by the global norm acts on the gradients before and is not part of it. Over the reals C99_symmetric shows that calling rows columns makes no difference."
 },
 "C104": {
  "status": "proved",
  "note": "Composes C66/C67 (cached decoding equals one pass), C102 (the scores are those of the tokens of the sequence) and the beam and sampling loops: C104_beam and C104_sample for the T5 decoder with empty caches, C104_prefilled for the decoder-only model. The network is that of CacheModel (self-attention with caches, position-wise parts abstract), and the reported value of a drawn token is an arbitrary function of the outputs and the token, which covers rescale_log_probs both ways. Beam search with prefilled caches is not included. C104_padding_refuted: with a padding token drawn inside the sequence the scores differ."
 },
 "C105": {
  "status": "proved",
  "note": "Real arithmetic, rounding is not modelled. Log probabilities of tokens are assumed to be at least -b with b (max_decode_len + 1) below 1e7 (5/6)^alpha, as in C28. Finding: C105_outside_refuted."
 },
 "C106": {
  "status": "proved",
  "note": "Over the reals; random.categorical is argmax of logits plus noise, and the noise is arbitrary. The masks are those proved for floats in C18 and C19. Findings: C106_decodes_refuted, C106_result_refuted, C106_masked_refuted, C106_topp_zero_refuted, C106_tie_refuted."
 },
 "C107": {
  "status": "proved",
  "note": "The cache is any that satisfies the record caching of C102 with the prompt in front; C107_network takes the one of the decoder-only network of C67 and C104. initial_index is the number of prompt tokens, as models.py computes it. Finding: C107_cut_refuted."
 },
 "C108": {
  "status": "proved",
  "note": "Gin is modelled by its statements (scoped key, value) with last binding winning and macros resolved in the final configuration; parsing, quoting of strings that contain quotes, imports, learning rate and partitioner are not modelled. Of train.py only periods, the evaluation before training and the steps are modelled. Findings: C108_train_steps_refuted, C108_evaluation_refuted, C108_split_refuted, C108_none_refuted, C108_unregistered_refuted."
 }
}